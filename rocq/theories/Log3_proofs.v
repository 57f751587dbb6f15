(** Log3_proofs.v - log for arguments above one: the steps around the series. *)
From Verif Require Export Log2_proofs.
From Verif Require Import Frexp_proofs Floor_proofs Mul_proofs Value_proofs Cmp_proofs Func_proofs Conv3_proofs Misc_proofs Conv2_proofs Const2_proofs Refute_arith.
From Coq Require Import Lqa.
Local Open Scope Z_scope.
Notation near := Exp_proofs.near.

Section CORE.
Variable c : cfg.
Variable F : ftype.
Notation W := 100.
Notation L := (c_limb c).
Notation n := (nel c).
Notation M := (max_exp10_of (c_expo c)).
Notation E := (ebits (c_expo c)).
Notation D := (c_digits10 c).
Notation eps := (p10 (- (c_digits10 c + 2 * edc c))).
Notation dl := (p10 (- c_digits10 c)).
Hypothesis Hc : cfg_ok c.
Hypothesis Hk : newton_ok c.
Hypothesis HF : float_fits c F.
Hypothesis HJ : (digit_loops c F <= n)%nat.
Hypothesis HD : 16 <= D <= 51.
Hypothesis HM : 900 <= M.

(** The difference of two positive numbers, when it is not zero, is not smaller than the last digit of the larger one. *)
Lemma sub_low x v : normal c x -> normal c v -> iszero x = false -> iszero v = false -> dneg x = false -> dneg v = false ->
  exp_safe c (Z.max (dexp x) (dexp v)) -> iszero (sub c x v) = false -> (p10 (low c (Z.max (dexp x) (dexp v))) <= Qabs (value c (sub c x v)))%Q.
Proof.
  intros Nx Nv Zx Zv Sx Sv Sf K.
  unfold sub. pose proof (negate_normal c x Nx) as Nn'. rewrite (value_negate c Hc _ (add_normal c Hc _ _ Nn' Nv)), Qabs_opp.
  assert (Sng : dneg (negate x) = true) by (unfold negate; rewrite Zx; cbn; rewrite Sx; reflexivity).
  pose proof (add_diff_value c Hc (negate x) v) as AV. rewrite negate_exp, iszero_negate in AV.
  specialize (AV Nn' Nv Zx Zv ltac:(rewrite Sng, Sv; reflexivity) Sf). cbv zeta in AV.
  match type of AV with (_ == inject_Z (?DD * _) * _)%Q => set (DI := DD) in * end.
  set (mi := Z.min (dexp x) (dexp v)) in *. set (ma := Z.max (dexp x) (dexp v)) in *.
  assert (HH : (value c (add c (negate x) v) == inject_Z DI * p10 (low c ma))%Q).
  { rewrite AV, inject_Z_mult. rewrite <- p10_Z by lia. rewrite <- Qmult_assoc, <- p10_add. replace (ma - mi + low c mi) with (low c ma) by (unfold low; ring). reflexivity. }
  unfold sub in K. rewrite iszero_negate in K. pose proof (value_nonzero c Hc _ (add_normal c Hc _ _ Nn' Nv) K) as NZ.
  rewrite HH in NZ |- *. rewrite Qabs_Qmult, (Qabs_pos (p10 _)) by (apply Qlt_le_weak, p10_pos).
  assert (DI0 : DI <> 0). { intros Z0. apply NZ. rewrite Z0. change (inject_Z 0) with 0%Q. ring. }
  assert (A1 : (1 <= Qabs (inject_Z DI))%Q).
  { change (Qabs (inject_Z DI)) with (inject_Z (Z.abs DI)). change 1%Q with (inject_Z 1). rewrite <- Zle_Qle. lia. }
  apply Qle_trans with (1 * p10 (low c ma))%Q; [|apply Qmult_le_compat_r; [exact A1|apply Qlt_le_weak, p10_pos]].
  rewrite Qmult_1_l. apply Qle_refl.
Qed.

(** The loop on zeros. *)
Lemma log_loop_zero mems : (forall j, memory_ok (mems j)) -> forall k i t s b, 2 <= i -> normal c t -> iszero t = true -> dexp t = 0 ->
  normal c s -> (value c s == 0)%Q -> exists s', log_loop c F k mems i (D + 5) (zero c) t s b = Some s' /\ normal c s' /\ (value c s' == 0)%Q.
Proof.
  intros Hmem. pose proof (zero_normal c) as Nz. pose proof (zero_iszero c Hc) as Zz. pose proof (max_exp10_bounds c) as (M64 & M2 & _).
  pose proof (E_ge8 c) as HE.
  induction k; intros i t s b Hi Nt Zt Et Ns Vs; [exists s; auto|]. cbn [log_loop].
  assert (Y : exists t1, mulm c (mems (2 * i)) 0 t (zero c) = Some t1 /\ normal c t1 /\ iszero t1 = true /\ dexp t1 = 0).
  { unfold mulm. rewrite Zt. cbn [orb]. assert (P0 : dprec (zero c) = n) by apply Nz. rewrite P0, Nat.min_id.
    destruct (mul_zero_full c (fst (mems (2 * i) 0%nat n)) (snd (mems (2 * i) 0%nat n)) t (zero c) Hc (newton_mul_ok c Hc Hk)) as (z & Z1 & Z2 & Z3 & Z4); auto.
    - apply (memory_pool c Hc). apply Hmem.
    - cbn [dexp zero]. lia.
    - exists z. split; [exact Z1|]. split; [exact Z2|]. split; [exact Z3|]. cbn [dexp zero] in Z4. lia. }
  destruct Y as (t1 & Y1 & N1 & Z1 & E1). rewrite Y1. unfold div_unsigned, div_ull. replace (i =? 0) with false by lia.
  change (iszero (set_neg t1 false)) with (iszero t1). rewrite Z1. cbn [orb].
  set (t2 := set_neg t1 false). assert (N2 : normal c t2) by (apply set_neg_normal; auto). assert (Z2 : iszero t2 = true) by exact Z1.
  assert (V2 : (value c t2 == 0)%Q) by (apply (value_zero c Hc); auto).
  assert (X : 128 <= 2 ^ (E - 1)) by (change 128 with (2 ^ 7); apply Z.pow_le_mono_r; lia).
  assert (IL : ilogb c t1 = 0).
  { unfold ilogb. rewrite E1. unfold iszero in Z1. apply Z.eqb_eq in Z1. rewrite Z1. change (order_of_builtin_integer 0) with 1.
    rewrite (scast_id E 1) by lia. rewrite (scast_id E (1 - 1)) by lia. apply scast_id; lia. }
  assert (NE : neg_exp c (ilogb c t1) = Some 0).
  { rewrite IL. unfold neg_exp. replace (0 =? - 2 ^ (E - 1)) with false by lia. cbn [andb]. rewrite scast_id by lia. reflexivity. }
  assert (S2 : normal c (if b then sub c s t2 else add c s t2) /\ (value c (if b then sub c s t2 else add c s t2) == 0)%Q).
  { assert (AB : iszero s = false -> iszero t2 = false -> exp_safe c (Z.max (dexp s) (dexp t2))) by (intros _ K; congruence).
    destruct b.
    - split; [apply (sub_normal c Hc); auto|]. pose proof (sub_abs c Hc s t2 Ns N2 AB) as A. rewrite Vs, V2 in A. change (Qabs 0) with 0%Q in A.
      apply Qabs_Qle_condition in A. lra.
    - split; [apply (add_normal c Hc); auto|]. pose proof (add_abs c Hc s t2 Ns N2 AB) as A. rewrite Vs, V2 in A. change (Qabs 0) with 0%Q in A.
      apply Qabs_Qle_condition in A. lra. }
  destruct S2 as [S2 S3]. rewrite NE. destruct (i >? 4); [exists s; auto|]. apply IHk; auto. lia.
Qed.

Lemma pow10_rt r : 0 <= r < edc c -> ucast (lbits L) (pow10_runtime (Z.to_nat (ucast 32 r))) = 10 ^ r /\ 1 <= 10 ^ r < 10 ^ edc c.
Proof.
  clear. intros H. assert (R : r = 0 \/ r = 1 \/ r = 2 \/ r = 3 \/ r = 4 \/ r = 5 \/ r = 6 \/ r = 7) by (pose proof (edc_pos c); lia).
  unfold edc in *. destruct (c_limb c); cbn [ed] in H; destruct R as [->|[->|[->|[->|[->|[->|[->| ->]]]]]]]; try lia; (split; [vm_compute; reflexivity|cbn; lia]).
Qed.

(** The scale factor is the power of ten below the argument. *)
Lemma scale_spec k : 0 <= k < M - 40 -> let sc := from_lst c [ucast (lbits L) (pow10_runtime (Z.to_nat (ucast 32 (Z.rem k (ed L)))))] (scast E (Z.quot k (ed L) * ed L)) in
  normal c sc /\ iszero sc = false /\ (value c sc == p10 k)%Q /\ dexp sc <= k < dexp sc + edc c.
Proof.
  intros Hk0. cbv zeta. change (ed L) with (edc c). pose proof (edc_pos c) as He. rewrite Z.rem_mod_nonneg, Z.quot_div_nonneg by lia.
  pose proof (Z.div_mod k (edc c) ltac:(lia)) as DM. pose proof (Z.mod_pos_bound k (edc c) ltac:(lia)) as MB.
  destruct (pow10_rt (k mod edc c) MB) as [-> P]. pose proof (M_E c) as (M1 & M2). pose proof (E_ge8 c) as HE8.
  set (r := k mod edc c) in *. set (qe := k / edc c * edc c) in *.
  assert (Q : qe = k - r) by (unfold qe; lia). assert (Q0 : 0 <= qe) by (unfold qe; apply Z.mul_nonneg_nonneg; [apply Z.div_pos; lia|lia]).
  rewrite (scast_id E) by lia.
  assert (FL : from_lst c [10 ^ r] qe = from_lst c (10 ^ r :: repeat 0 (n - 1)) qe).
  { pose proof (nel_ge4 c Hc) as N4. unfold from_lst. cbn [length]. rewrite repeat_length.
    replace (1 <? n)%nat with true by (symmetry; apply Nat.ltb_lt; lia). replace (S (n - 1) <? n)%nat with false by (symmetry; apply Nat.ltb_ge; lia).
    rewrite firstn_all2 by (cbn [length]; rewrite repeat_length; lia). reflexivity. }
  destruct (from_lst_normal c Hc (10 ^ r :: repeat 0 (n - 1)) qe) as [N Z0].
  { pose proof (nel_ge4 c Hc). cbn [length]. rewrite repeat_length. lia. }
  { constructor; [lia|]. apply Forall_forall. intros z Hz. apply repeat_spec in Hz. subst z. split; [lia|]. apply Z.pow_pos_nonneg; lia. }
  { cbn [nth]. lia. } { exists (k / edc c). reflexivity. } { lia. }
  rewrite FL. split; [exact N|]. split; [exact Z0|]. split.
  - rewrite <- FL. rewrite (single_value c Hc). rewrite <- p10_Z by lia. rewrite <- p10_add. replace (r + qe) with k by lia. reflexivity.
  - cbn [dexp from_lst]. lia.
Qed.

Lemma limit_spec mem : memory_ok mem -> exists z, from_float c f_float F mem false (fl 24 (18 # 10)) = Some z /\ normal c z /\ (1799 # 1000 <= value c z <= 1801 # 1000)%Q.
Proof.
  intros Hm. pose proof (edc_pos c) as He. destruct (dl_tiny c Hc (HD2 c HD)) as (D0 & D1 & E0 & E1). destruct (big_enough c Hc ltac:(lia)) as [BE _].
  change (10 ^ 20) with 100000000000000000000 in BE.
  assert (FV : (fl 24 (18 # 10) == 15099494 # 8388608)%Q) by (vm_compute; reflexivity).
  destruct (from_float_accurate c Hc Hk f_float F mem false (fl 24 (18 # 10)) 15099494 (-23)) as (z & Z1 & Nz & Zz & Sz & Az).
  - left. reflexivity.
  - unfold binary_normal. split; [vm_compute; split; [discriminate|reflexivity]|]. split; [vm_compute; reflexivity|]. apply Qle_bool_imp_le. vm_compute. reflexivity.
  - exact Hm.
  - change (2 ^ f_bits f_float) with 16777216. clear - BE. lia.
  - rewrite FV. apply Qle_trans with (p10 0); [apply p10_le; clear - He HM; lia|]. change (p10 0) with 1%Q. lra.
  - rewrite FV. apply Qle_trans with (p10 1); [change (p10 1) with 10%Q; lra|apply p10_le; clear - HM; lia].
  - change (inject_Z (4 * Z.abs (-23))) with 92%Q. lra.
  - change (2 ^ 63) with 9223372036854775808. lia.
  - exists z. split; [exact Z1|]. split; [exact Nz|]. change (inject_Z (2 * Z.abs (-23) + 1)) with 47%Q in Az.
    rewrite FV in Az. apply Qabs_Qle_condition in Az. lra.
Qed.

(** The argument reduced to the interval from 0.18 to 1.8. *)
Lemma scaled_spec mems x : (forall j, memory_ok (mems j)) -> normal c x -> (1 < value c x)%Q -> (value c x <= p10 (M - 50))%Q ->
  let k := ilogb c x in
  let sc := from_lst c [ucast (lbits L) (pow10_runtime (Z.to_nat (ucast 32 (Z.rem k (ed L)))))] (scast E (Z.quot k (ed L) * ed L)) in
  exists xs limit p, divide c F (mems (-1)) x sc = Some xs /\ from_float c f_float F (mems (-2)) false (fl 24 (18 # 10)) = Some limit /\
    (if op_gt xs limit then do d <- div_unsigned c F (mems (-3)) xs 10; Some (d, scast E (k + 1)) else Some (xs, k)) = Some p /\
    normal c (fst p) /\ 0 <= snd p <= M - 40 /\ (1793 # 10000 <= value c x / p10 (snd p) <= 1802 # 1000)%Q /\
    near ((201 # 100) * dl) (value c (fst p)) (value c x / p10 (snd p)) /\ dneg (fst p) = false.
Proof.
  intros Hmem Nx X1 X2. cbv zeta. destruct (pos_facts c Hc x Nx ltac:(lra)) as [Zx Sx].
  assert (Ax : (Qabs (value c x) == value c x)%Q) by (apply Qabs_pos; lra). pose proof (edc_pos c) as He. pose proof (M_E c) as (M1 & M2).
  destruct (dl_tiny c Hc (HD2 c HD)) as (D0 & D1 & E0 & E1).
  assert (Ux : dexp x <= M - 50) by (apply (exp_le_of_value c Hc x _ Nx Zx); lra).
  destruct (ilogb_spec c Hc x Nx Zx ltac:(clear - Ux He M1 HM; lia)) as [I1 I2]. rewrite Ax in I1, I2. set (k := ilogb c x) in *.
  assert (K0 : 0 <= k). { assert (p10 0 < p10 (k + 1))%Q by (change (p10 0) with 1%Q; lra). apply (proj1 (p10_lt _ _)) in H. clear - H. lia. }
  assert (K1 : k <= M - 50). { apply (proj1 (p10_le _ _)). lra. }
  destruct (value_bracket c Hc x Nx Zx) as [VB1 VB2]. rewrite Ax in VB1, VB2.
  assert (K2 : dexp x <= k). { assert (p10 (dexp x) < p10 (k + 1))%Q by lra. apply (proj1 (p10_lt _ _)) in H. clear - H. lia. }
  assert (K3 : k < dexp x + edc c). { apply (proj1 (p10_lt _ _)). lra. }
  destruct (scale_spec k ltac:(clear - K0 K1; lia)) as (Nsc & Zsc & Vsc & Esc). cbv zeta in Nsc, Zsc, Vsc, Esc.
  match goal with |- context [divide c F _ x ?s] => set (sc := s) in * end. clearbody sc.
  destruct (div_accurate c F (mems (-1)) x sc Hc Hk HF HJ (Hmem _) Nx Nsc Zx Zsc) as (xs & Q1 & Q2 & Q3 & Q4).
  { clear - Esc He K0 K1 HM. lia. } { clear - Esc He K0 K1 K2 K3 HM. lia. }
  assert (Nxs : normal c xs).
  { apply Q4. left. split; unfold is_one, is_nines; rewrite Ax; [lra|]. pose proof (p10_pos (- (edc c * elem_number c))). lra. }
  assert (PV : (value c x / value c sc == value c x / p10 k)%Q) by (rewrite Vsc; reflexivity). rewrite PV in Q3.
  pose proof (p10_pos k) as Pk. set (w := (value c x / p10 k)%Q) in *.
  assert (W1 : (1 <= w)%Q) by (unfold w; apply Qle_shift_div_l; lra).
  assert (W2 : (w < 10)%Q). { unfold w. apply Qlt_shift_div_r; [exact Pk|]. rewrite p10_add in I2. change (p10 1) with 10%Q in I2. lra. }
  assert (Aw : (Qabs w == w)%Q) by (apply Qabs_pos; lra). rewrite Aw in Q3.
  assert (EW : (eps * w <= eps * 10)%Q) by (rewrite !(Qmult_comm eps); apply Qmult_le_compat_r; lra).
  pose proof Q3 as Q3'. apply Qabs_Qle_condition in Q3'.
  destruct (limit_spec (mems (-2)) (Hmem _)) as (lim & L1 & Nlim & L2).
  destruct (ops_spec c Hc xs lim Nxs Nlim) as (_ & _ & _ & _ & _ & OG).
  exists xs, lim. destruct (op_gt xs lim) eqn:OC.
  - destruct OG as [OG _]. specialize (OG eq_refl). assert (Zxs : iszero xs = false) by (apply (pos_facts c Hc xs Nxs); lra).
    assert (Axs : (Qabs (value c xs) == value c xs)%Q) by (apply Qabs_pos; lra).
    assert (U1 : dexp xs <= 2). { apply (exp_le_of_value c Hc xs _ Nxs Zxs). change (p10 2) with 100%Q. lra. }
    assert (U2 : 0 - edc c < dexp xs). { apply (exp_gt_of_value c Hc xs 0 Nxs Zxs). change (p10 0) with 1%Q. lra. }
    destruct (div_step c F Hc Hk HF HJ (mems (-3)) xs 10 (Hmem _) Nxs Zxs) as (d & Y1 & Nd & Ad).
    { change (10 ^ 6) with 1000000. clear. lia. } { left. apply Z.lt_le_trans with (10 ^ 2); [reflexivity|apply Z.pow_le_mono_r; clear - He; lia]. } { clear - U1 U2 He HM. lia. }
    exists (d, scast E (k + 1)). rewrite Y1. split; [exact Q1|]. split; [exact L1|]. split; [reflexivity|]. cbn [fst snd].
    assert (SK : scast E (k + 1) = k + 1) by (apply scast_id; pose proof (E_ge8 c) as HE8; clear - K0 K1 M1 HM HE8; lia). rewrite SK. split; [exact Nd|]. split; [clear - K0 K1; lia|].
    assert (WV : (value c x / p10 (k + 1) == (1 # 10) * w)%Q). { unfold w. rewrite p10_add. change (p10 1) with 10%Q. field. lra. }
    assert (T : near (9 * eps) (value c xs) w) by (unfold Exp_proofs.near; rewrite Aw; exact Q3).
    pose proof (Exp_proofs.near_div _ _ _ (inject_Z 10) T) as T2. assert (T0 : (0 <= 2 * dl)%Q) by lra.
    pose proof (Exp_proofs.near_trans _ _ _ _ _ T0 Ad T2) as T3.
    assert (T4 : near ((201 # 100) * dl) (value c d) (value c x / p10 (k + 1))).
    { eapply near_compat; [reflexivity| |eapply Exp_proofs.near_le; [|exact T3]].
      - rewrite WV. change (inject_Z 10) with 10%Q. field.
      - assert (2 * dl * (9 * eps) <= 2 * dl * (1 # 1000))%Q by (rewrite !(Qmult_comm (2 * dl)); apply Qmult_le_compat_r; lra). lra. }
    set (w1 := (value c x / p10 (k + 1))%Q) in *. split; [lra|]. split; [exact T4|].
    destruct (dneg d) eqn:K; [|reflexivity]. exfalso. unfold Exp_proofs.near in T4. rewrite WV in T4. rewrite (Qabs_pos ((1 # 10) * w)) in T4 by lra.
    apply Qabs_Qle_condition in T4. assert (DW : (dl * w <= (1 # 100) * w)%Q) by (apply Qmult_le_compat_r; lra).
    assert (P : (0 < value c d)%Q) by lra. destruct (pos_facts c Hc d Nd P). congruence.
  - exists (xs, k). split; [exact Q1|]. split; [exact L1|]. split; [reflexivity|]. cbn [fst snd]. split; [exact Nxs|]. split; [clear - K0 K1; lia|]. fold w.
    assert (OG' : (value c xs <= value c lim)%Q). { apply Qnot_lt_le. intros H. apply OG in H. discriminate. }
    split; [lra|]. split.
    + unfold Exp_proofs.near. rewrite Aw. eapply Qle_trans; [exact Q3|]. apply Qmult_le_compat_r; lra.
    + rewrite Q2. rewrite Sx. assert (dneg sc = false). { destruct (pos_facts c Hc sc Nsc) as [_ Q]; [rewrite Vsc; exact Pk|exact Q]. } rewrite H. reflexivity.
Qed.

Hypothesis Hl : normal c (ln10_small c).
Hypothesis Hl2 : (23 # 10 <= value c (ln10_small c) <= 231 # 100)%Q.
Notation l10 := (value c (ln10_small c)).

Lemma log_core_spec mems x : (forall j, memory_ok (mems j)) -> normal c x -> (1 < value c x)%Q -> (value c x <= p10 (M - 50))%Q ->
  exists res n1 Y m, log_core c F mems x = Some res /\ normal c res /\ 0 <= n1 <= M - 40 /\ (Qabs Y <= aa)%Q /\
    near ((203 # 100) * dl) (1 + Y) (value c x / p10 n1) /\
    (Qabs (qpw Y (S m)) <= (101 # 100) * p10 (- (D + 5)))%Q /\
    (Qabs (value c res - (l10 * inject_Z n1 + lsum Y m)) <= (51 # 10) * dl + 3 * eps * (l10 * inject_Z n1))%Q.
Proof.
  intros Hmem Nx X1 X2. pose proof (edc_pos c) as He. pose proof (M_E c) as (M1 & M2). destruct (dl_tiny c Hc (HD2 c HD)) as (D0 & D1 & E0 & E1).
  assert (W4 : edc c * elem_number c + 200 <= M). { pose proof (HW' c Hc HD) as HW0. clear - HW0 HM. lia. }
  destruct (scaled_spec mems x Hmem Nx X1 X2) as (xs & lim & p & Q1 & Q2 & Q3 & Np & B1 & B2 & A1 & Sp). destruct p as [xd n1]. cbn [fst snd] in *.
  unfold log_core. cbv zeta. rewrite Q1, Q2, Q3.
  set (w := (value c x / p10 n1)%Q) in *. assert (Aw : (Qabs w == w)%Q) by (apply Qabs_pos; lra).
  pose proof (E_ge8 c) as HE8. assert (GE0 : scast E D = D) by (apply scast_id; clear - HD M1 HM HE8; lia). assert (GE : scast E (scast E D + 5) = D + 5) by (rewrite GE0; apply scast_id; clear - HD M1 HM HE8; lia).
  rewrite GE.
  pose proof (one_normal c Hc) as No. pose proof (one_value c Hc) as Vo. assert (Zo : iszero (one c) = false /\ dneg (one c) = false) by (apply (pos_facts c Hc _ No); rewrite Vo; lra).
  destruct Zo as [Zo So]. assert (Eo : dexp (one c) = 0) by reflexivity.
  unfold Exp_proofs.near in A1. rewrite Aw in A1. pose proof A1 as A1'. apply Qabs_Qle_condition in A1'.
  assert (DW : (dl * w <= dl * 2)%Q) by (rewrite !(Qmult_comm dl); apply Qmult_le_compat_r; lra).
  assert (XD : (179 # 1000 <= value c xd)%Q /\ (value c xd <= 1803 # 1000)%Q) by lra.
  destruct (pos_facts c Hc xd Np ltac:(lra)) as [Zxd _]. assert (Axd : (Qabs (value c xd) == value c xd)%Q) by (apply Qabs_pos; lra).
  assert (U1 : dexp xd <= 1). { apply (exp_le_of_value c Hc xd _ Np Zxd). change (p10 1) with 10%Q. lra. }
  assert (U2 : -1 - edc c < dexp xd). { apply (exp_gt_of_value c Hc xd (-1) Np Zxd). change (p10 (-1)) with (1 # 10)%Q. lra. }
  assert (Sf : exp_safe c (Z.max (dexp xd) (dexp (one c)))). { rewrite Eo. apply (safe_of c W4); clear - U1 HM; lia. }
  pose proof (sub_abs c Hc xd (one c) Np No (fun _ _ => Sf)) as SA. rewrite Axd, Vo in SA. change (Qabs 1) with 1%Q in SA.
  pose proof (sub_normal c Hc xd (one c) Np No) as Ny. set (y := sub c xd (one c)) in *.
  pose proof (sub_low xd (one c) Np No Zxd Zo Sp So Sf) as SL. pose proof (sub_zero c Hc xd (one c) Np No Zxd Zo Sf) as SZ. fold y in SL, SZ.
  assert (EX : (eps * (value c xd + 1) <= eps * 3)%Q) by (rewrite !(Qmult_comm eps); apply Qmult_le_compat_r; lra).
  assert (SA' : (Qabs (value c y - (value c xd - 1)) <= eps * 3)%Q) by lra. pose proof SA' as SA2. apply Qabs_Qle_condition in SA2.
  assert (YA : (Qabs (value c y) <= aa)%Q) by (apply Qabs_Qle_condition; lra).
  assert (YN : near ((203 # 100) * dl) (1 + value c y) w).
  { unfold Exp_proofs.near. rewrite Aw. setoid_replace (1 + value c y - w)%Q with ((value c xd - w) + (value c y - (value c xd - 1)))%Q by ring.
    eapply Qle_trans; [apply Qabs_triangle|]. assert (DW2 : (dl * (1793 # 10000) <= dl * w)%Q) by (rewrite !(Qmult_comm dl); apply Qmult_le_compat_r; lra). lra. }
  (* the series *)
  assert (SER : exists s m, log_loop c F (Z.to_nat 9998) mems 2 (D + 5) y y y true = Some s /\ normal c s /\ (Qabs (value c s - lsum (value c y) m) <= 5 * dl)%Q /\
    (Qabs (qpw (value c y) (S m)) <= (101 # 100) * p10 (- (D + 5)))%Q /\ (Qabs (value c s) <= 5)%Q /\ (iszero s = false -> dexp s <= 1)).
  { destruct (iszero y) eqn:Zy.
    - destruct (SZ eq_refl) as [Sy _]. rewrite Sy. pose proof (zero_normal c) as Nz. pose proof (value_zero c Hc _ Nz (zero_iszero c Hc)) as Vz.
      destruct (log_loop_zero mems Hmem (Z.to_nat 9998) 2 (zero c) (zero c) true ltac:(lia) Nz (zero_iszero c Hc) eq_refl Nz Vz) as (s & S1 & S2 & S3).
      exists s, O. split; [exact S1|]. split; [exact S2|]. cbn [lsum qpw]. rewrite S3. split; [setoid_replace (0 - 0)%Q with 0%Q by ring; change (Qabs 0) with 0%Q; lra|].
      rewrite Vz. setoid_replace (1 * 0)%Q with 0%Q by ring. change (Qabs 0) with 0%Q. pose proof (p10_pos (- (D + 5))). split; [lra|]. split; [lra|].
      intros K. exfalso. apply (value_nonzero c Hc s S2 K S3).
    - specialize (SL eq_refl).
      assert (Y2 : (p10 (- (100 + 4)) <= Qabs (value c y))%Q).
      { eapply Qle_trans; [|exact SL]. apply p10_le. unfold low. rewrite (nel_Z c Hc). rewrite Eo. pose proof (HW' c Hc HD) as HW0. clear - HW0 He. lia. }
      destruct (log_loop_spec c F Hc Hk HF HJ HD HM y Ny YA Y2 mems Hmem (Z.to_nat 9998) 1 y y) as (s & m & S1 & S2 & S3 & S4 & S5).
      { lia. } { change (800 - 1)%nat with (Z.to_nat 799). lia. } { exact Ny. }
      { change (2 * (Z.of_nat 1 - 1)) with 0. cbn [qpw]. eapply near_compat; [reflexivity| |apply Exp_proofs.near_refl]. { ring. } change (inject_Z 0) with 0%Q. lra. }
      { intros _. cbn [qpw]. setoid_replace (1 * value c y)%Q with (value c y) by ring. exact Y2. } { intros K. clear - K. lia. } { exact Ny. }
      { cbn [lsum Nat.even qpw]. change (inject_Z (Z.of_nat 1)) with 1%Q. setoid_replace (value c y - (0 + 1 * value c y / 1))%Q with 0%Q by field. change (Qabs 0) with 0%Q.
        unfold lerr. cbn [qpw]. change (inject_Z (Z.of_nat 1)) with 1%Q. lra. }
      exists s, m. split; [exact S1|]. split; [exact S2|]. pose proof (lerr_bound c Hc HD m ltac:(clear - S3; lia)) as LB.
      destruct (sum_size c Hc HD y YA m s ltac:(clear - S3; lia) S2 S4) as [SS1 SS2]. split; [lra|]. split; [exact S5|]. split; [exact SS1|exact SS2]. }
  destruct SER as (s & m & S1 & Ns & S3 & S4 & S5 & S6). rewrite S1.
  (* the multiple of ln 10 *)
  assert (Dl : dprec (ln10_small c) = n) by apply Hl. rewrite Dl.
  assert (MUL : exists l, mul_sll c (fst (mems (-4) 0%nat n)) (snd (mems (-4) 0%nat n)) (ln10_small c) n1 = Some l /\ normal c l /\ near eps (value c l) (l10 * inject_Z n1) /\ (iszero l = false -> - M <= dexp l <= M)).
  { unfold mul_sll. replace (n1 <? 0) with false by (clear - B1; lia). cbn [negb].
    assert (UC : ucast 64 n1 = n1). { unfold ucast. apply Z.mod_small. change (2 ^ 64) with 18446744073709551616. change (2 ^ 63) with 9223372036854775808 in M2. clear - B1 M1 M2. lia. }
    rewrite UC. destruct (Z.eq_dec n1 0) as [Z0|Z0].
    - subst n1. exists (zero c). unfold mul_ull. rewrite Bool.orb_true_r. split; [reflexivity|]. pose proof (zero_normal c) as Nz. split; [exact Nz|]. split.
      + unfold Exp_proofs.near. rewrite (value_zero c Hc _ Nz (zero_iszero c Hc)). change (inject_Z 0) with 0%Q. setoid_replace (0 - l10 * 0)%Q with 0%Q by ring. setoid_replace (l10 * 0)%Q with 0%Q by ring.
        change (Qabs 0) with 0%Q. lra.
      + rewrite (zero_iszero c Hc). discriminate.
    - destruct (pos_facts c Hc _ Hl ltac:(lra)) as [Zl Sl]. assert (Al : (Qabs l10 == l10)%Q) by (apply Qabs_pos; lra).
      assert (V1 : dexp (ln10_small c) <= 1). { apply (exp_le_of_value c Hc _ _ Hl Zl). change (p10 1) with 10%Q. lra. }
      assert (V2 : 0 - edc c < dexp (ln10_small c)). { apply (exp_gt_of_value c Hc _ 0 Hl Zl). change (p10 0) with 1%Q. lra. }
      change (2 ^ 63) with 9223372036854775808 in M2.
      assert (Ou : order_of_builtin_integer n1 <= 20) by (pose proof (order_spec n1 ltac:(change (2 ^ 64) with 18446744073709551616; clear - B1 Z0 M1 M2; lia)) as [O1 _]; clear - O1; lia).
      destruct (big_enough c Hc ltac:(clear - HD; lia)) as [BE _]. change (10 ^ 20) with 100000000000000000000 in BE.
      destruct (mul_ull_rel c Hc Hk (fst (mems (-4) 0%nat n)) (snd (mems (-4) 0%nat n)) (ln10_small c) n1) as (l & N1 & Nn & An); auto.
      { apply (memory_pool c Hc). apply Hmem. } { change (2 ^ 64) with 18446744073709551616. clear - B1 Z0 M1 M2. lia. } { clear - B1 BE M1 M2. lia. } { clear - V2 He HM. lia. } { clear - V1 Ou HM. lia. }
      exists l. rewrite N1. split; [reflexivity|]. split; [exact Nn|]. split; [exact An|]. intros Zn.
      assert (P1 : (1 <= inject_Z n1)%Q) by (change 1%Q with (inject_Z 1); rewrite <- Zle_Qle; clear - B1 Z0; lia).
      assert (P2 : (inject_Z n1 <= p10 20)%Q). { change (p10 20) with (inject_Z 100000000000000000000). rewrite <- Zle_Qle. clear - B1 M1 M2. lia. }
      assert (Pl : (1 <= l10 * inject_Z n1)%Q). { apply Qle_trans with (l10 * 1)%Q; [lra|]. rewrite !(Qmult_comm l10). apply Qmult_le_compat_r; lra. }
      assert (Pu : (l10 * inject_Z n1 <= 3 * p10 20)%Q). { apply Qmult_le_compat_nonneg; split; lra. }
      destruct (near_abs _ _ _ An) as [G1 G2]. rewrite (Qabs_pos (l10 * inject_Z n1)) in G1, G2 by lra.
      assert (G3 : ((1 - eps) * (l10 * inject_Z n1) >= (9 # 10) * (l10 * inject_Z n1))%Q) by (apply Qmult_le_compat_r; lra).
      assert (G4 : ((1 + eps) * (l10 * inject_Z n1) <= 2 * (l10 * inject_Z n1))%Q) by (apply Qmult_le_compat_r; lra).
      assert (H1 : -1 - edc c < dexp l). { apply (exp_gt_of_value c Hc l (-1) Nn Zn). change (p10 (-1)) with (1 # 10)%Q. lra. }
      assert (P21 : (p10 21 == 10 * p10 20)%Q) by reflexivity.
      assert (H2 : dexp l <= 21). { apply (exp_le_of_value c Hc l 21 Nn Zn). lra. }
      clear - H1 H2 He HM. lia. }
  destruct MUL as (l & L1 & Nl & Al & El). rewrite L1.
  assert (P0 : (0 <= inject_Z n1)%Q) by (apply Zq; clear - B1; lia).
  assert (PL : (0 <= l10 * inject_Z n1)%Q) by (apply Qmult_le_0_compat; lra).
  destruct (near_abs _ _ _ Al) as [G1 G2]. unfold Exp_proofs.near in Al. rewrite (Qabs_pos (l10 * inject_Z n1)) in Al, G1, G2 by lra. set (z := (l10 * inject_Z n1)%Q) in *.
  assert (Sf2 : iszero l = false -> iszero s = false -> exp_safe c (Z.max (dexp l) (dexp s))).
  { intros K1 K2. specialize (El K1). specialize (S6 K2). apply (safe_of c W4); clear - El S6 HM; lia. }
  pose proof (add_abs c Hc l s Nl Ns Sf2) as AA.
  exists (add c l s), n1, (value c y), m. split; [reflexivity|]. split; [apply (add_normal c Hc); auto|]. split; [exact B1|]. split; [exact YA|]. split; [exact YN|]. split; [exact S4|].
  fold z. setoid_replace (value c (add c l s) - (z + lsum (value c y) m))%Q with ((value c (add c l s) - (value c l + value c s)) + ((value c l - z) + (value c s - lsum (value c y) m)))%Q by ring.
  eapply Qle_trans; [apply Qabs_triangle|]. pose proof (Qabs_triangle (value c l - z) (value c s - lsum (value c y) m)) as T2.
  assert (EZ : (0 <= eps * z)%Q) by (apply Qmult_le_0_compat; lra).
  assert (EL : (eps * (Qabs (value c l) + Qabs (value c s)) <= eps * (2 * z + 5))%Q).
  { rewrite !(Qmult_comm eps). apply Qmult_le_compat_r; [|lra]. assert (eps * z <= 1 * z)%Q by (apply Qmult_le_compat_r; lra). lra. }
  lra.
Qed.
End CORE.
