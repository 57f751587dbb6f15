(** Exp3_proofs.v - argument reduction of exp. *)
From Verif Require Export Exp2_proofs.
From Verif Require Import Frexp_proofs ToInt_proofs Floor_proofs Mul_proofs Value_proofs.
From Coq Require Import Lqa.
Local Open Scope Z_scope.

Notation near := Exp_proofs.near.
Section RED.
Variable c : cfg.
Variable F : ftype.
Variable W : Z.
Notation L := (c_limb c).
Notation n := (nel c).
Notation M := (max_exp10_of (c_expo c)).
Notation E := (ebits (c_expo c)).
Notation D := (c_digits10 c).
Notation eps := (p10 (- (c_digits10 c + 2 * edc c))).
Notation dl := (p10 (- c_digits10 c)).
Hypothesis Hc : cfg_ok c.
Hypothesis Hk : newton_ok c.
Hypothesis HF : float_fits c F.
Hypothesis HJ : (digit_loops c F <= n)%nat.
Hypothesis HD : 16 <= D <= 2000.
Hypothesis HW : edc c * elem_number c <= W.
Hypothesis HM : 6 * W + 300 <= M.

Lemma precision_id x y : normal c x -> normal c y -> precision c x (get_precision c y) = x.
Proof.
  intros Nx Ny. unfold precision, get_precision. assert (Px : dprec x = n) by apply Nx. assert (Py : dprec y = n) by apply Ny.
  rewrite Py. pose proof (edc_pos c) as He. change (ed L) with (edc c). pose proof (nel_ge4 c Hc) as N4.
  rewrite Z.quot_mul by lia. rewrite Z.rem_mul by lia. cbn [Z.eqb]. rewrite <- (nel_Z c Hc).
  replace (Z.to_nat (Z.min (Z.of_nat n) (Z.max (Z.of_nat n + 0) 2))) with n by lia. rewrite <- Px. destruct x; reflexivity.
Qed.

(** The loop on zeros: nothing is added. *)
Lemma exp_loop_zero mems : (forall j, memory_ok (mems j)) -> forall k i t h, 2 <= i -> normal c t -> iszero t = true -> dexp t = 0 ->
  normal c h -> iszero h = false -> exp_loop c F k mems i (D - 1) (zero c) t h = Some h.
Proof.
  intros Hmem. pose proof (zero_normal c) as Nz. pose proof (zero_iszero c Hc) as Zz. pose proof (max_exp10_bounds c) as (M64 & M2 & _).
  pose proof (E_ge8 c) as HE.
  induction k; intros i t h Hi Nt Zt Et Nh Zh; [reflexivity|]. cbn [exp_loop].
  assert (Y : exists t1, mulm c (mems (2 * i)) 0 t (zero c) = Some t1 /\ normal c t1 /\ iszero t1 = true /\ dexp t1 = 0).
  { unfold mulm. rewrite Zt. cbn [orb]. assert (P0 : dprec (zero c) = n) by apply Nz. rewrite P0, Nat.min_id.
    destruct (mul_zero_full c (fst (mems (2 * i) 0%nat n)) (snd (mems (2 * i) 0%nat n)) t (zero c) Hc (newton_mul_ok c Hc Hk)) as (z & Z1 & Z2 & Z3 & Z4); auto.
    - apply (memory_pool c Hc). apply Hmem.
    - cbn [dexp zero]. lia.
    - exists z. split; [exact Z1|]. split; [exact Z2|]. split; [exact Z3|]. cbn [dexp zero] in Z4. lia. }
  destruct Y as (t1 & Y1 & N1 & Z1 & E1). rewrite Y1. unfold div_unsigned, div_ull. replace (i =? 0) with false by lia.
  change (iszero (set_neg t1 false)) with (iszero t1). rewrite Z1.
  set (t2 := set_neg t1 false). assert (N2 : normal c t2) by (apply set_neg_normal; auto). assert (Z2 : iszero t2 = true) by exact Z1. assert (E2 : dexp t2 = 0) by exact E1.
  assert (IL : ilogb c t2 = 0).
  { unfold ilogb. rewrite E2. unfold iszero in Z2. apply Z.eqb_eq in Z2. rewrite Z2. change (order_of_builtin_integer 0) with 1.
    assert (X : 128 <= 2 ^ (E - 1)) by (change 128 with (2 ^ 7); apply Z.pow_le_mono_r; lia).
    rewrite (scast_id E 1) by lia. rewrite (scast_id E (1 - 1)) by lia. apply scast_id; lia. }
  assert (ST : (if i >? 4 then match neg_exp c (ilogb c t2) with Some d => Some (Z.max 0 d >? D - 1) | None => None end else Some false) = Some false).
  { destruct (i >? 4); [|reflexivity]. rewrite IL. unfold neg_exp.
    assert (X : 128 <= 2 ^ (E - 1)) by (change 128 with (2 ^ 7); apply Z.pow_le_mono_r; lia).
    replace (0 =? - 2 ^ (E - 1)) with false by lia. cbn [andb]. rewrite scast_id by lia. f_equal. lia. }
  rewrite ST. rewrite (add_zero_r c h t2 Nh N2 Z2 Zh). apply IHk; auto. lia.
Qed.

Lemma trunc_near (r y : Q) : (0 <= y)%Q -> (Qabs (r - y) <= 1 # 1000000000)%Q ->
  0 <= truncZ r /\ (inject_Z (truncZ r) <= y + (1 # 1000000000))%Q /\ (y <= inject_Z (truncZ r) + 1 + (1 # 1000000000))%Q.
Proof.
  intros Y0 H. apply Qabs_Qle_condition in H. unfold truncZ. destruct (Qle_bool 0 r) eqn:C.
  - apply Qle_bool_iff in C. pose proof (Qfloor_le r) as F1. pose proof (Qlt_floor r) as F2. rewrite inject_Z_plus in F2. change (inject_Z 1) with 1%Q in F2.
    split; [|split; lra]. change 0 with (Qfloor 0). apply Qfloor_resp_le. exact C.
  - assert (R0 : (r < 0)%Q). { destruct (Qlt_le_dec r 0); auto. apply Qle_bool_iff in q. congruence. }
    assert (Z0 : Qceiling r = 0).
    { pose proof (Qle_ceiling r) as C1. pose proof (Qceiling_lt r) as C2.
      assert (A : (inject_Z (Qceiling r - 1) < inject_Z 0)%Q) by (change (inject_Z 0) with 0%Q; lra). rewrite <- Zlt_Qlt in A.
      assert (A2 : (inject_Z (-1) < inject_Z (Qceiling r))%Q) by (change (inject_Z (-1)) with (-1)%Q; lra). rewrite <- Zlt_Qlt in A2. lia. }
    rewrite Z0. change (inject_Z 0) with 0%Q. split; [lia|]. split; lra.
Qed.

Variable ln2 : dec.
Hypothesis Nl : normal c ln2.
Notation l2 := (value c ln2).
Hypothesis L2 : (69 # 100 <= l2 /\ l2 <= 7 # 10)%Q.

Lemma ln2_facts : iszero ln2 = false /\ dneg ln2 = false /\ - edc c <= dexp ln2 <= 0 /\ ~ (Qabs l2 == p10 (dexp ln2))%Q.
Proof.
  pose proof (edc_pos c) as He. destruct (pos_facts c Hc ln2 Nl ltac:(lra)) as [Z0 S0]. split; [exact Z0|]. split; [exact S0|].
  assert (A : (Qabs l2 == l2)%Q) by (apply Qabs_pos; lra).
  assert (U : dexp ln2 <= 0). { apply (exp_le_of_value c Hc ln2 0 Nl Z0). change (p10 0) with 1%Q. lra. }
  assert (Lw : -1 - edc c < dexp ln2). { apply (exp_gt_of_value c Hc ln2 (-1) Nl Z0). change (p10 (-1)) with (1 # 10)%Q. lra. }
  split; [lia|]. rewrite A. intros K. destruct (Z.eq_dec (dexp ln2) 0) as [E0|E0].
  - rewrite E0 in K. change (p10 0) with 1%Q in K. lra.
  - assert (X : (p10 (dexp ln2) <= p10 (-1))%Q) by (apply p10_le; lia). change (p10 (-1)) with (1 # 10)%Q in X. lra.
Qed.

Lemma nf_spec mem xx : memory_ok mem -> normal c xx -> (0 < value c xx)%Q -> (value c xx <= 1000000000)%Q -> (p10 (- W) <= value c xx)%Q ->
  exists q u, divide c F mem xx ln2 = Some q /\ to_ull c q = Some u /\ 0 <= u <= 1460000000 /\
    (inject_Z u * l2 <= value c xx + (1 # 10000000))%Q /\ (value c xx <= inject_Z u * l2 + (71 # 100))%Q.
Proof.
  intros Hmem Nx X0 X1 X2. destruct (pos_facts c Hc xx Nx X0) as [Zx Sx]. destruct ln2_facts as (Zl & Sl & El & Pl).
  destruct (W_big c W Hc HD HW HM) as (W1 & W2 & W3 & W4). pose proof (edc_pos c) as He. pose proof (M_E c) as (M1 & M2).
  assert (Ax : (Qabs (value c xx) == value c xx)%Q) by (apply Qabs_pos; lra). assert (Al : (Qabs l2 == l2)%Q) by (apply Qabs_pos; lra).
  assert (Ux : dexp xx <= 9). { apply (exp_le_of_value c Hc xx 9 Nx Zx). change (p10 9) with 1000000000%Q. lra. }
  assert (Lx : - W - edc c < dexp xx). { apply (exp_gt_of_value c Hc xx (- W) Nx Zx). lra. }
  destruct (div_accurate c F mem xx ln2 Hc Hk HF HJ Hmem Nx Nl Zx Zl) as (q & Q1 & Q2 & Q3 & Q4); [lia|lia|].
  specialize (Q4 (or_intror Pl)). rewrite Sx, Sl in Q2. cbn [xorb] in Q2.
  set (y := (value c xx / l2)%Q) in *.
  assert (YL : (y * l2 == value c xx)%Q) by (unfold y; field; lra).
  assert (Y0 : (0 < y)%Q) by (unfold y; apply Qlt_shift_div_l; lra).
  assert (YU : (y <= 1450000000)%Q) by (unfold y; apply Qle_shift_div_r; lra).
  assert (Ay : (Qabs y == y)%Q) by (apply Qabs_pos; lra). rewrite Ay in Q3.
  destruct (dl_tiny c Hc HD) as (D0 & D1 & E0 & E1).
  assert (EY : (9 * eps * y <= 9 * (1 # 100000000000000000000) * 1450000000)%Q) by (apply Qmult_le_compat_nonneg; split; lra).
  assert (EY2 : (9 * eps * y <= (1 # 2) * y)%Q) by (apply Qmult_le_compat_r; lra).
  pose proof (proj1 (Qabs_Qle_condition _ _) Q3) as Q3'.
  assert (Pq : (0 < value c q)%Q) by lra. destruct (pos_facts c Hc q Q4 Pq) as [Zq Sq].
  assert (Aq : (Qabs (value c q) == value c q)%Q) by (apply Qabs_pos; lra).
  assert (Uq : dexp q <= 10). { apply (exp_le_of_value c Hc q 10 Q4 Zq). change (p10 10) with 10000000000%Q. lra. }
  assert (Rq : dexp q + edc c < 2 ^ (E - 1)) by (clear - Uq He M1 HM W3; lia).
  destruct (to_ull_spec c Hc ltac:(lia) q Q4 Zq Sq Rq) as (r & (k & (K1 & K2) & R1 & _) & U1).
  assert (Kk : k < 10). { assert (T : (p10 k < p10 10)%Q) by (change (p10 10) with 10000000000%Q; lra). apply (proj1 (p10_lt _ _)) in T. exact T. }
  assert (R3 : (p10 (k - (D + 3)) <= 1 # 10000000000)%Q) by (change (1 # 10000000000)%Q with (p10 (-10)); apply p10_le; lia).
  assert (R4 : (Qabs (r - y) <= 1 # 1000000000)%Q).
  { setoid_replace (r - y)%Q with ((r - value c q) + (value c q - y))%Q by ring. eapply Qle_trans; [apply Qabs_triangle|]. lra. }
  destruct (trunc_near r y ltac:(lra) R4) as (T0 & T1 & T2). set (u := truncZ r) in *.
  assert (Uu : u <= 1460000000).
  { rewrite Zle_Qle. change (inject_Z 1460000000) with 1460000000%Q. lra. }
  exists q, u. split; [exact Q1|]. split.
  { rewrite U1. unfold clamp. f_equal. change (2 ^ 64 - 1) with 18446744073709551615. lia. }
  split; [lia|].
  assert (UL : (inject_Z u * l2 <= (y + (1 # 1000000000)) * l2)%Q) by (apply Qmult_le_compat_r; lra).
  assert (YU2 : (y * l2 <= (inject_Z u + 1 + (1 # 1000000000)) * l2)%Q) by (apply Qmult_le_compat_r; lra).
  split; lra.
Qed.

(** The reduced argument. *)
Lemma reduce_spec mem mem2 mem3 xx : memory_ok mem -> memory_ok mem2 -> memory_ok mem3 ->
  normal c xx -> (0 < value c xx)%Q -> (value c xx <= 1000000000)%Q -> (p10 (- W) <= value c xx)%Q ->
  exists q u nl d, divide c F mem xx ln2 = Some q /\ to_ull c q = Some u /\ 0 <= u <= 1460000000 /\
    mul_ull c (fst (mem2 0%nat (dprec ln2))) (snd (mem2 0%nat (dprec ln2))) ln2 u = Some nl /\
    div_unsigned c F mem3 (sub c xx nl) 2048 = Some d /\ normal c d /\
    (inject_Z u * l2 <= value c xx + (1 # 10000000))%Q /\
    (Qabs (2048 * value c d - (value c xx - inject_Z u * l2)) <= ((15 # 10) + (1 # 1000) * value c xx) * dl)%Q /\
    (d = zero c \/ (p10 (- (W + 4)) <= Qabs (value c d) /\ Qabs (value c d) <= 1 # 2800)%Q).
Proof.
  intros Hmem Hmem2 Hmem3 Nx X0 X1 X2. destruct (nf_spec mem xx Hmem Nx X0 X1 X2) as (q & u & Q1 & Q2 & U1 & U2 & U3).
  destruct (pos_facts c Hc xx Nx X0) as [Zx Sx]. destruct ln2_facts as (Zl & Sl & El & Pl).
  destruct (W_big c W Hc HD HW HM) as (W1 & W2 & W3 & W4). pose proof (edc_pos c) as He. pose proof (M_E c) as (M1 & M2).
  destruct (dl_tiny c Hc HD) as (D0 & D1 & E0 & E1). pose proof (max_exp10_bounds c) as (M64 & _).
  assert (Ax : (Qabs (value c xx) == value c xx)%Q) by (apply Qabs_pos; lra).
  assert (Ux : dexp xx <= 9). { apply (exp_le_of_value c Hc xx 9 Nx Zx). change (p10 9) with 1000000000%Q. lra. }
  assert (Lx : - W - edc c < dexp xx). { apply (exp_gt_of_value c Hc xx (- W) Nx Zx). lra. }
  exists q, u.
  (* nl and the difference *)
  assert (Y : exists nl, mul_ull c (fst (mem2 0%nat (dprec ln2))) (snd (mem2 0%nat (dprec ln2))) ln2 u = Some nl /\ normal c nl /\
    near eps (value c nl) (l2 * inject_Z u) /\ (iszero nl = false -> dexp nl <= 10) /\
    (iszero (sub c xx nl) = true -> sub c xx nl = zero c) /\ (iszero (sub c xx nl) = false -> p10 (- W) <= Qabs (value c (sub c xx nl)))%Q).
  { destruct (Z.eq_dec u 0) as [Eu|Eu].
    - subst u. exists (zero c). unfold mul_ull. rewrite Bool.orb_true_r. split; [reflexivity|].
      pose proof (zero_normal c) as Nz. pose proof (zero_iszero c Hc) as Zz. split; [exact Nz|].
      split. { unfold near. rewrite (value_zero c Hc _ Nz Zz). change (inject_Z 0) with 0%Q.
        setoid_replace (0 - l2 * 0)%Q with 0%Q by ring. setoid_replace (l2 * 0)%Q with 0%Q by ring. change (Qabs 0) with 0%Q. lra. }
      split; [intros K; rewrite Zz in K; discriminate|].
      assert (SX : sub c xx (zero c) = xx).
      { unfold sub. rewrite (add_zero_r c) by (auto; try (apply negate_normal; auto); rewrite iszero_negate; auto).
        unfold negate at 1. rewrite iszero_negate, Zx. unfold negate. rewrite Zx. destruct xx. cbn. rewrite negb_involutive. reflexivity. }
      rewrite SX. split; [congruence|]. intros _. lra.
    - assert (Pm : (0 < inject_Z u)%Q) by (change 0%Q with (inject_Z 0); rewrite <- Zlt_Qlt; lia).
      assert (P1 : (1 <= inject_Z u)%Q) by (change 1%Q with (inject_Z 1); rewrite <- Zle_Qle; lia).
      assert (Dl : dprec ln2 = n) by apply Nl. rewrite Dl.
      assert (Ou : order_of_builtin_integer u <= 20) by (pose proof (order_spec u ltac:(change (2 ^ 64) with 18446744073709551616; lia)); lia).
      destruct (big_enough c Hc ltac:(lia)) as [BE _]. change (10 ^ 20) with 100000000000000000000 in BE.
      destruct (mul_ull_rel c Hc Hk (fst (mem2 0%nat n)) (snd (mem2 0%nat n)) ln2 u) as (nl & N1 & Nn & An); auto.
      { apply (memory_pool c Hc). exact Hmem2. } { change (2 ^ 64) with 18446744073709551616. lia. } { lia. } { lia. } { lia. }
      exists nl. split; [exact N1|]. split; [exact Nn|]. split; [exact An|].
      destruct (near_abs _ _ _ An) as [B1 B2].
      assert (Am : (Qabs (l2 * inject_Z u) == l2 * inject_Z u)%Q) by (apply Qabs_pos; apply Qmult_le_0_compat; lra). rewrite Am in B1, B2.
      assert (Lm : (69 # 100 <= l2 * inject_Z u)%Q).
      { apply Qle_trans with (l2 * 1)%Q; [lra|]. rewrite !(Qmult_comm l2). apply Qmult_le_compat_r; lra. }
      assert (B3 : ((1 - eps) * (l2 * inject_Z u) >= (9 # 10) * (l2 * inject_Z u))%Q) by (apply Qmult_le_compat_r; lra).
      assert (B4 : ((1 + eps) * (l2 * inject_Z u) <= (11 # 10) * (l2 * inject_Z u))%Q) by (apply Qmult_le_compat_r; lra).
      rewrite Qmult_comm in U2.
      assert (Zn : iszero nl = false). { destruct (iszero nl) eqn:K; [|reflexivity]. rewrite (value_zero c Hc nl Nn K) in B1. change (Qabs 0) with 0%Q in B1. lra. }
      assert (Un : dexp nl <= 10). { apply (exp_le_of_value c Hc nl 10 Nn Zn). change (p10 10) with 10000000000%Q. lra. }
      assert (Ln : -1 - edc c < dexp nl). { apply (exp_gt_of_value c Hc nl (-1) Nn Zn). change (p10 (-1)) with (1 # 10)%Q. lra. }
      assert (Sn : dneg nl = false).
      { destruct (dneg nl) eqn:K; [|reflexivity]. pose proof (value_sign c Hc nl Nn Zn) as VS. rewrite K in VS. unfold near in An.
        apply Qabs_Qle_condition in An. rewrite Am in An. lra. }
      split; [auto|]. assert (Sf : exp_safe c (Z.max (dexp xx) (dexp nl))) by (apply (safe_of c W4); lia).
      split; [intros K; apply (sub_zero c Hc xx nl Nx Nn Zx Zn Sf K)|].
      intros K. unfold sub. pose proof (negate_normal c xx Nx) as Nn'. rewrite (value_negate c Hc _ (add_normal c Hc _ _ Nn' Nn)), Qabs_opp.
      assert (Sng : dneg (negate xx) = true) by (unfold negate; rewrite Zx; cbn; rewrite Sx; reflexivity).
      pose proof (add_diff_value c Hc (negate xx) nl) as AV. rewrite negate_exp, iszero_negate in AV.
      specialize (AV Nn' Nn Zx Zn ltac:(rewrite Sng, Sn; reflexivity) Sf). cbv zeta in AV.
      match type of AV with (_ == inject_Z (?DD * _) * _)%Q => set (DI := DD) in * end.
      set (mi := Z.min (dexp xx) (dexp nl)) in *. set (ma := Z.max (dexp xx) (dexp nl)) in *.
      assert (HH : (value c (add c (negate xx) nl) == inject_Z DI * p10 (low c ma))%Q).
      { rewrite AV, inject_Z_mult. rewrite <- p10_Z by lia. rewrite <- Qmult_assoc, <- p10_add. replace (ma - mi + low c mi) with (low c ma) by (unfold low; ring). reflexivity. }
      unfold sub in K. rewrite iszero_negate in K. pose proof (value_nonzero c Hc _ (add_normal c Hc _ _ Nn' Nn) K) as NZ.
      rewrite HH in NZ |- *. rewrite Qabs_Qmult, (Qabs_pos (p10 _)) by (apply Qlt_le_weak, p10_pos).
      assert (DI0 : DI <> 0). { intros Z0. apply NZ. rewrite Z0. change (inject_Z 0) with 0%Q. ring. }
      assert (A1 : (1 <= Qabs (inject_Z DI))%Q).
      { change (Qabs (inject_Z DI)) with (inject_Z (Z.abs DI)). change 1%Q with (inject_Z 1). rewrite <- Zle_Qle. lia. }
      apply Qle_trans with (1 * p10 (low c ma))%Q; [|apply Qmult_le_compat_r; [exact A1|apply Qlt_le_weak, p10_pos]].
      rewrite Qmult_1_l. apply p10_le. unfold low. rewrite (nel_Z c Hc).
      assert (ma >= - edc c) by lia. lia. }
  destruct Y as (nl & N1 & Nn & An & Un & Z1 & Z2). exists nl.
  pose proof (sub_normal c Hc xx nl Nx Nn) as Ns. set (z := sub c xx nl) in *.
  assert (SA : (Qabs (value c z - (value c xx - value c nl)) <= eps * (Qabs (value c xx) + Qabs (value c nl)))%Q).
  { apply (sub_abs c Hc xx nl Nx Nn). intros _ K. specialize (Un K). apply (safe_of c W4); lia. }
  (* error of the difference *)
  pose proof (Zq u ltac:(lia)) as Pu. rewrite Qmult_comm in U2, U3. set (w := (l2 * inject_Z u)%Q) in *.
  assert (W0 : (0 <= w)%Q) by (unfold w; apply Qmult_le_0_compat; lra). assert (Aw : (Qabs w == w)%Q) by (apply Qabs_pos; auto).
  unfold near in An. rewrite Aw in An. pose proof (near_abs eps _ w ltac:(unfold near; rewrite Aw; exact An)) as [_ An2]. rewrite Aw in An2.
  assert (EW : (eps * w <= eps * (value c xx + 1))%Q) by (rewrite !(Qmult_comm eps); apply Qmult_le_compat_r; lra).
  assert (EX : (eps * (value c xx + 1) <= (1 # 10000) * dl * (value c xx + 1))%Q) by (apply Qmult_le_compat_r; lra).
  assert (E2 : (eps * Qabs (value c nl) <= eps * (2 * (value c xx + 1)))%Q).
  { rewrite !(Qmult_comm eps). apply Qmult_le_compat_r; [|lra]. assert (eps * w <= 1 * w)%Q by (apply Qmult_le_compat_r; lra). lra. }
  assert (E3 : (0 <= eps * value c xx)%Q) by (apply Qmult_le_0_compat; lra).
  rewrite Ax in SA.
  assert (SE : (Qabs (value c z - (value c xx - w)) <= (1 # 10000) * dl * (value c xx + 1) * 4)%Q).
  { setoid_replace (value c z - (value c xx - w))%Q with ((value c z - (value c xx - value c nl)) + (w - value c nl))%Q by ring.
    eapply Qle_trans; [apply Qabs_triangle|]. rewrite (Qabs_Qminus w). lra. }
  set (xv := value c xx) in *. set (t := (dl * xv)%Q) in *. assert (T0 : (0 <= t)%Q) by (unfold t; apply Qmult_le_0_compat; lra).
  assert (TT : (t <= dl * 1000000000)%Q) by (unfold t; rewrite !(Qmult_comm dl); apply Qmult_le_compat_r; lra).
  assert (SE' : (Qabs (value c z - (xv - w)) <= (4 # 10000) * t + (4 # 10000) * dl)%Q) by (unfold t; lra).
  assert (AZ : (Qabs (value c z) <= 72 # 100)%Q).
  { pose proof (Qabs_triangle (value c z - (xv - w)) (xv - w)) as Tr. setoid_replace (value c z - (xv - w) + (xv - w))%Q with (value c z) in Tr by ring.
    assert (Qabs (xv - w) <= 71 # 100)%Q by (apply Qabs_Qle_condition; lra). lra. }
  destruct (iszero z) eqn:Zz.
  - rewrite (Z1 eq_refl) in *. exists (zero c).
    pose proof (value_zero c Hc _ (zero_normal c) (zero_iszero c Hc)) as VZ. rewrite VZ in *.
    split; [exact Q1|]. split; [exact Q2|]. split; [exact U1|]. split; [exact N1|]. split.
    { unfold div_unsigned, div_ull. cbn [Z.eqb]. change (iszero (set_neg (zero c) false)) with (iszero (zero c)). rewrite (zero_iszero c Hc). reflexivity. }
    split; [apply zero_normal|]. assert (WC : (inject_Z u * l2 == w)%Q) by (unfold w; ring). rewrite WC. split; [lra|]. split.
    + setoid_replace (2048 * 0 - (xv - w))%Q with (0 - (xv - w))%Q by ring. unfold t in SE'. lra.
    + left. reflexivity.
  - specialize (Z2 eq_refl).
    assert (Lz : - W - edc c < dexp z) by (apply (exp_gt_of_value c Hc z (- W) Ns Zz); exact Z2).
    assert (Uz : dexp z <= 0). { apply (exp_le_of_value c Hc z 0 Ns Zz). change (p10 0) with 1%Q. lra. }
    destruct (div_step c F Hc Hk HF HJ mem3 z 2048 Hmem3 Ns Zz) as (d & Y1 & Nd & Ad).
    { change (10 ^ 6) with 1000000. lia. } { right. lra. } { lia. }
    exists d. split; [exact Q1|]. split; [exact Q2|]. split; [exact U1|]. split; [exact N1|]. split; [exact Y1|]. split; [exact Nd|].
    assert (WC : (inject_Z u * l2 == w)%Q) by (unfold w; ring). rewrite WC. split; [lra|].
    destruct (near_abs _ _ _ Ad) as [G1 G2]. rewrite Qabs_div_Z in G1, G2 by lia. unfold near in Ad. rewrite Qabs_div_Z in Ad by lia.
    change (inject_Z 2048) with 2048%Q in *.
    assert (DV : (value c z / 2048 == (1 # 2048) * value c z)%Q) by field. assert (DV2 : (Qabs (value c z) / 2048 == (1 # 2048) * Qabs (value c z))%Q) by field.
    rewrite DV2 in *. rewrite DV in Ad. pose proof (Qabs_nonneg (value c z)) as Z0.
    assert (DZ : (dl * Qabs (value c z) <= dl * (72 # 100))%Q) by (rewrite !(Qmult_comm dl); apply Qmult_le_compat_r; lra).
    assert (DZ2 : (dl * Qabs (value c z) <= (1 # 10) * Qabs (value c z))%Q) by (apply Qmult_le_compat_r; lra).
    split.
    + setoid_replace (2048 * value c d - (xv - w))%Q with (2048 * (value c d - (1 # 2048) * value c z) + (value c z - (xv - w)))%Q by ring.
      eapply Qle_trans; [apply Qabs_triangle|]. rewrite Qabs_Qmult. change (Qabs 2048) with 2048%Q. unfold t in SE'. lra.
    + right. split; [|lra]. replace (- (W + 4)) with (-4 + - W) by ring. rewrite p10_add. change (p10 (-4)) with (1 # 10000)%Q.
      pose proof (p10_pos (- W)). lra.
Qed.
End RED.
