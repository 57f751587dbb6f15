(** Hyp_proofs.v - the errors of sinh, cosh and tanh against the real functions. *)
From Verif Require Export Log4_proofs.
From Verif Require Import Model_Exp Real_proofs Const_proofs Const2_proofs Func_proofs Cmp_proofs Conv6_proofs Conv2_proofs Misc_proofs Div2_proofs.
From Coq Require Import Reals Qreals Lra Lia.
Local Open Scope R_scope.

(** The real facts. *)
Lemma cosh_ge1 x : 1 <= cosh x.
Proof.
  unfold cosh. pose proof (exp_pos x) as A. assert (P : exp x * exp (- x) = 1) by (rewrite <- exp_plus; replace (x + - x) with 0 by ring; apply exp_0).
  pose proof (exp_pos (- x)) as B. set (a := exp x) in *. set (b := exp (- x)) in *.
  assert (0 <= (a - b) * (a - b)) by apply Rle_0_sqr. assert (4 <= (a + b) * (a + b)) by lra.
  destruct (Rle_or_lt 2 (a + b)); [lra|]. assert ((a + b) * (a + b) < 2 * 2) by (apply Rmult_gt_0_lt_compat; lra). lra.
Qed.
Lemma sinh_le x : Rabs (sinh x) <= cosh x.
Proof. unfold sinh, cosh. pose proof (exp_pos x). pose proof (exp_pos (- x)). unfold Rabs. destruct (Rcase_abs _); lra. Qed.

Lemma sum_err e f x p m : rn e p (exp x) -> rn f m (exp (- x)) -> 0 <= e -> e <= f ->
  Rabs (p - m - 2 * sinh x) <= 2 * f * cosh x /\ Rabs (p + m - 2 * cosh x) <= 2 * f * cosh x.
Proof.
  unfold rn, sinh, cosh. pose proof (exp_pos x) as A. pose proof (exp_pos (- x)) as B. set (a := exp x) in *. set (b := exp (- x)) in *.
  rewrite !(Rabs_right a), !(Rabs_right b) by lra. intros H1 H2 He Hf.
  assert (Ha : e * a <= f * a) by (apply Rmult_le_compat_r; lra). split.
  - replace (p - m - 2 * ((a - b) / 2)) with ((p - a) - (m - b)) by field. eapply Rle_trans; [apply Rabs_triang|]. rewrite Rabs_Ropp. lra.
  - replace (p + m - 2 * ((a + b) / 2)) with ((p - a) + (m - b)) by field. eapply Rle_trans; [apply Rabs_triang|]. lra.
Qed.

(** A quotient of two approximations. *)
Lemma quot_err s t S T f : 0 <= f <= / 100 -> 0 < T -> Rabs S <= T -> Rabs (s - S) <= f * T -> Rabs (t - T) <= f * T ->
  0 < t /\ Rabs (s / t - S / T) <= 205 / 100 * f /\ Rabs (s / t) <= 103 / 100.
Proof.
  intros Hf HT HS H1 H2.
  assert (fT : 0 <= f * T <= / 100 * T) by (split; [apply Rmult_le_pos; lra|apply Rmult_le_compat_r; lra]).
  assert (t0 : 99 / 100 * T <= t) by (unfold Rabs in H2; destruct (Rcase_abs _); lra). assert (tp : 0 < t) by lra. split; [exact tp|].
  assert (A : Rabs (s / t - S / T) <= 205 / 100 * f).
  { replace (s / t - S / T) with (((s - S) - S / T * (t - T)) / t) by (field; lra). unfold Rdiv. rewrite Rabs_mult, Rabs_inv, (Rabs_right t) by lra.
    apply Rmult_le_reg_r with t; [exact tp|]. rewrite Rmult_assoc, Rinv_l, Rmult_1_r by lra.
    assert (R1 : Rabs (S * / T) <= 1). { rewrite Rabs_mult, Rabs_inv, (Rabs_right T) by lra. apply Rmult_le_reg_r with T; [lra|]. rewrite Rmult_assoc, Rinv_l by lra. lra. }
    eapply Rle_trans; [apply Rabs_triang|]. rewrite Rabs_Ropp, Rabs_mult.
    assert (Rabs (S * / T) * Rabs (t - T) <= 1 * (f * T)) by (apply Rmult_le_compat; auto using Rabs_pos).
    assert (f * (99 / 100 * T) <= f * t) by (apply Rmult_le_compat_l; lra). lra. }
  split; [exact A|].
  replace (s / t) with ((s / t - S / T) + S / T) by ring. eapply Rle_trans; [apply Rabs_triang|].
  assert (R1 : Rabs (S / T) <= 1). { unfold Rdiv. rewrite Rabs_mult, Rabs_inv, (Rabs_right T) by lra. apply Rmult_le_reg_r with T; [lra|]. rewrite Rmult_assoc, Rinv_l by lra. lra. }
  lra.
Qed.

Lemma exp_p10 k x : (0 <= k)%Z -> x <= IZR (2 * k) -> exp x <= r10 k.
Proof.
  intros Hk Hx. assert (P : 0 < r10 k) by (unfold r10; replace 0 with (Q2R 0) by (unfold Q2R; simpl; field); apply Qlt_Rlt; apply p10_pos).
  rewrite <- (exp_ln (r10 k) P). unfold r10. rewrite (ln_p10 k Hk). pose proof ln10_bounds as B.
  assert (0 <= IZR k) by (apply IZR_le; lia). rewrite mult_IZR in Hx. assert (IZR k * 2 <= IZR k * ln 10) by (apply Rmult_le_compat_l; lra).
  destruct (Rle_lt_or_eq_dec x (IZR k * ln 10) ltac:(lra)) as [G|G]; [left; apply exp_increasing; exact G|rewrite G; lra].
Qed.

Section HYP.
Variable c : cfg.
Variable F : ftype.
Variable W : Z.
Notation L := (c_limb c).
Notation n := (nel c).
Notation M := (max_exp10_of (c_expo c)).
Notation D := (c_digits10 c).
Notation eps := (p10 (- (c_digits10 c + 2 * edc c))).
Notation dl := (p10 (- c_digits10 c)).
Hypothesis Hc : cfg_ok c.
Hypothesis Hk : newton_ok c.
Hypothesis HF : float_fits c F.
Hypothesis HJ : (digit_loops c F <= n)%nat.
Hypothesis HD : (16 <= D <= 2000)%Z.
Hypothesis HW : (edc c * elem_number c <= W)%Z.
Hypothesis HM : (6 * W + 300 <= M)%Z.

(** The two exponentials, their difference and their sum. *)
Lemma hyp_parts mem ep a e : memory_ok mem -> normal c ep -> rn e (rvalue c ep) (exp a) -> 0 <= e <= / 1000000 ->
  Rabs a <= IZR (2 * (M - 100)) -> ~ (value c ep == p10 (dexp ep))%Q ->
  exists em, calculate_inv c F mem ep = Some em /\ normal c em /\
    iszero ep = false /\ iszero em = false /\ dneg ep = false /\ dneg em = false /\
    (0 < value c ep /\ 0 < value c em)%Q /\
    (- (M - 80) < dexp ep <= M - 80)%Z /\ (- (M - 80) < dexp em <= M - 80)%Z /\ (- (2 + edc c) <= Z.max (dexp ep) (dexp em))%Z /\
    rn (102 / 100 * e + 8 * Q2R eps) (rvalue c em) (exp (- a)).
Proof using Hc Hk HF HJ HD HW HM.
  intros Hm Ne Re He Ha Np. destruct (de_facts c Hc HD) as (D0 & D1 & E1 & E0 & _). destruct (W_big c W Hc HD HW HM) as (_ & _ & W3 & W4). pose proof (edc_pos c) as Hed.
  assert (Z0 : Q2R 0 = 0) by (unfold Q2R; simpl; field). assert (Q1 : Q2R 1 = 1) by (unfold Q2R; simpl; field).
  assert (KM : (0 <= M - 100)%Z) by (clear - HM W3; lia).
  assert (U1 : exp a <= r10 (M - 100)) by (apply exp_p10; [exact KM|eapply Rle_trans; [apply Rle_abs|exact Ha]]).
  assert (U2 : exp (- a) <= r10 (M - 100)) by (apply exp_p10; [exact KM|eapply Rle_trans; [apply Rle_abs|rewrite Rabs_Ropp; exact Ha]]).
  pose proof (exp_pos a) as P1. pose proof (exp_pos (- a)) as P2. assert (P : exp a * exp (- a) = 1) by (rewrite <- exp_plus; replace (a + - a) with 0 by ring; apply exp_0).
  set (K := r10 (M - 100)) in *. assert (K0 : 0 < K) by lra.
  assert (KI : r10 (- (M - 100)) = / K).
  { apply Rmult_eq_reg_r with K; [|lra]. rewrite Rinv_l by lra. unfold K, r10. rewrite <- Q2R_mult, <- Q1. apply Qeq_eqR. rewrite <- p10_add. replace (- (M - 100) + (M - 100))%Z with 0%Z by ring. reflexivity. }
  assert (T10 : forall k, r10 (k + 1) = 10 * r10 k). { intros k. unfold r10. rewrite (Qeq_eqR _ _ (p10_add k 1)), Q2R_mult. change (p10 1) with 10%Q. replace (Q2R 10) with 10 by (unfold Q2R; simpl; field). ring. }
  assert (KU : r10 (M - 99) = 10 * K) by (replace (M - 99)%Z with (M - 100 + 1)%Z by ring; apply T10).
  assert (KL : r10 (- (M - 99)) = / K / 10). { rewrite <- KI. replace (- (M - 100))%Z with (- (M - 99) + 1)%Z by ring. rewrite T10. field. }
  assert (L1 : / K <= exp a). { apply Rmult_le_reg_r with K; [lra|]. rewrite Rinv_l by lra. rewrite <- P. apply Rmult_le_compat_l; lra. }
  assert (L2 : / K <= exp (- a)). { apply Rmult_le_reg_r with K; [lra|]. rewrite Rinv_l by lra. rewrite <- P, Rmult_comm. apply Rmult_le_compat_l; lra. }
  assert (IK : 0 < / K) by (apply Rinv_0_lt_compat; lra).
  (* a number near a positive real, as a rational *)
  assert (G : forall v g r, normal c v -> rn g (rvalue c v) r -> 0 <= g <= / 100 -> / K <= r <= K ->
     (0 < value c v)%Q /\ (p10 (- (M - 99)) <= Qabs (value c v))%Q /\ (Qabs (value c v) <= p10 (M - 99))%Q /\ (1 <= r -> (p10 (-1) <= Qabs (value c v))%Q)).
  { intros v g r Nv Rv Hg Hr. unfold rn in Rv. rewrite (Rabs_right r) in Rv by lra. assert (g * r <= / 100 * r) by (apply Rmult_le_compat_r; lra).
    assert (B : 99 / 100 * r <= rvalue c v <= 101 / 100 * r) by (unfold Rabs in Rv; destruct (Rcase_abs _); lra). unfold rvalue in B.
    assert (Vp : (0 < value c v)%Q) by (apply Rlt_Qlt; rewrite Z0; lra). assert (AV : (Qabs (value c v) == value c v)%Q) by (apply Qabs_pos; qlra).
    split; [exact Vp|]. rewrite AV. unfold r10 in KL, KU. split; [apply Rle_Qle; rewrite KL; lra|]. split; [apply Rle_Qle; rewrite KU; lra|].
    intros R1. change (p10 (-1)) with (1 # 10)%Q. apply Rle_Qle. rewrite Q2R_frac. lra. }
  destruct (G ep e (exp a) Ne Re ltac:(lra) ltac:(lra)) as (V1 & V2 & V3 & V4). destruct (pos_facts c Hc ep Ne V1) as [Ze Se].
  assert (X1 : (dexp ep <= M - 99)%Z) by (apply (exp_le_of_value c Hc ep _ Ne Ze V3)).
  assert (X2 : (- (M - 99) - edc c < dexp ep)%Z) by (apply (exp_gt_of_value c Hc ep _ Ne Ze V2)).
  assert (E9 : (edc c <= 9)%Z) by (clear; unfold edc; destruct (c_limb c); cbn; lia).
  destruct (inv_accurate c F mem ep Hc Hk HF HJ Hm Ne Ze ltac:(clear - X1 X2 E9 Hed; lia)) as (em & I1 & I2 & I3 & I4).
  assert (Nm : normal c em). { apply I4. intros KK. apply Np. rewrite <- KK. symmetry. apply Qabs_pos. qlra. }
  exists em. split; [exact I1|]. split; [exact Nm|].
  assert (RM : rn (102 / 100 * e + 8 * Q2R eps) (rvalue c em) (exp (- a))).
  { pose proof (rn_inv e (rvalue c ep) (exp a) ltac:(lra) ltac:(lra) Re) as IV. rewrite <- exp_Ropp in IV.
    assert (I5 : rn (7 * Q2R eps) (rvalue c em) (/ rvalue c ep)).
    { unfold rn, rvalue. apply Qle_Rle in I3. rewrite Q2R_abs, Q2R_minus, Q2R_mult, Q2R_mult, Q2R_abs in I3. unfold Qdiv in I3. rewrite Q2R_mult, Q2R_inv in I3 by (intros KK; rewrite KK in V1; exact (Qlt_irrefl 0 V1)).
      rewrite Q1 in I3. replace (Q2R 7) with 7 in I3 by (unfold Q2R; simpl; field). rewrite !Rmult_1_l in I3. exact I3. }
    eapply rn_le; [|eapply rn_trans; [|exact I5|exact IV]; lra].
    assert (IE : 0 <= e / (1 - e) <= 1001 / 1000 * e).
    { unfold Rdiv at 1 2. split; [apply Rmult_le_pos; [lra|]; left; apply Rinv_0_lt_compat; lra|]. apply Rmult_le_reg_r with (1 - e); [lra|]. rewrite Rmult_assoc, Rinv_l, Rmult_1_r by lra.
      assert (e * e <= / 1000000 * e) by (apply Rmult_le_compat_r; lra). lra. }
    set (e2 := e / (1 - e)) in *. assert (7 * Q2R eps * e2 <= 7 * Q2R eps * / 1000) by (apply Rmult_le_compat_l; lra). lra. }
  destruct (G em _ (exp (- a)) Nm RM ltac:(lra) ltac:(lra)) as (M1 & M2 & M3 & M4). destruct (pos_facts c Hc em Nm M1) as [Zm Sm].
  assert (Y1 : (dexp em <= M - 99)%Z) by (apply (exp_le_of_value c Hc em _ Nm Zm M3)).
  assert (Y2 : (- (M - 99) - edc c < dexp em)%Z) by (apply (exp_gt_of_value c Hc em _ Nm Zm M2)).
  do 4 (split; [assumption|]). split; [split; assumption|]. split; [clear - X1 X2 E9; lia|]. split; [clear - Y1 Y2 E9; lia|]. split; [|exact RM].
  destruct (Rle_or_lt 1 (exp a)) as [Ga|Ga].
  - assert (X3 : (-1 - edc c < dexp ep)%Z) by (apply (exp_gt_of_value c Hc ep _ Ne Ze); apply V4; exact Ga). clear - X3 Hed. lia.
  - assert (1 <= exp (- a)). { apply Rmult_le_reg_l with (exp a); [lra|]. rewrite P. lra. }
    assert (X3 : (-1 - edc c < dexp em)%Z) by (apply (exp_gt_of_value c Hc em _ Nm Zm); apply M4; lra). clear - X3 Hed. lia.
Qed.

(** Their difference and their sum. *)
Lemma hyp_sums ep em a f : normal c ep -> normal c em -> iszero ep = false -> iszero em = false -> dneg ep = false -> dneg em = false ->
  (0 < value c ep)%Q -> (0 < value c em)%Q -> (- (M - 80) < dexp ep <= M - 80)%Z -> (- (M - 80) < dexp em <= M - 80)%Z -> (- (2 + edc c) <= Z.max (dexp ep) (dexp em))%Z ->
  rn f (rvalue c ep) (exp a) -> rn f (rvalue c em) (exp (- a)) -> 0 <= f <= / 1000 ->
  let s := sub c ep em in let t := add c ep em in let m := Z.max (dexp ep) (dexp em) in
  normal c s /\ normal c t /\
  Rabs (rvalue c s - 2 * sinh a) <= 2 * (f + 11 / 10 * Q2R eps) * cosh a /\ Rabs (rvalue c t - 2 * cosh a) <= 2 * (f + 11 / 10 * Q2R eps) * cosh a /\
  iszero t = false /\ (m - 1 - edc c < dexp t <= m + edc c + 1)%Z /\ (iszero s = true -> s = zero c) /\
  (iszero s = false -> (m - W - edc c < dexp s <= m + edc c + 1)%Z).
Proof using Hc HJ HD HW HM.
  intros Ne Nm Ze Zm Se Sm V1 V2 B1 B2 B3 R1 R2 Hf s t m.
  destruct (de_facts c Hc HD) as (D0 & D1 & E1 & E0 & _). destruct (W_big c W Hc HD HW HM) as (_ & _ & W3 & W4). pose proof (edc_pos c) as Hed.
  assert (SF : exp_safe c m) by (apply (safe_of c W4); clear - B1 B2; lia).
  pose proof (add_normal c Hc ep em Ne Nm) as Nt. pose proof (sub_normal c Hc ep em Ne Nm) as Ns. fold t in Nt. fold s in Ns.
  split; [exact Ns|]. split; [exact Nt|].
  pose proof (add_abs c Hc ep em Ne Nm (fun _ _ => SF)) as AA. pose proof (sub_abs c Hc ep em Ne Nm (fun _ _ => SF)) as SA. fold t in AA. fold s in SA.
  assert (AE : (Qabs (value c ep) == value c ep)%Q) by (apply Qabs_pos; qlra). assert (AM : (Qabs (value c em) == value c em)%Q) by (apply Qabs_pos; qlra).
  rewrite AE, AM in AA, SA.
  destruct (sum_err f f a _ _ R1 R2 ltac:(lra) ltac:(lra)) as [SE TE]. pose proof (cosh_ge1 a) as C1.
  assert (TQ : rvalue c ep + rvalue c em <= 21 / 10 * cosh a).
  { assert (2 * f * cosh a <= 2 * / 1000 * cosh a) by (apply Rmult_le_compat_r; lra). unfold Rabs in TE. destruct (Rcase_abs _) in TE; lra. }
  assert (EQ : Q2R eps * (rvalue c ep + rvalue c em) <= Q2R eps * (21 / 10 * cosh a)) by (apply Rmult_le_compat_l; lra).
  split; [|split].
  - apply Qle_Rle in SA. rewrite Q2R_abs, !Q2R_minus, Q2R_mult, Q2R_plus in SA. unfold rvalue in *.
    replace (Q2R (value c s) - 2 * sinh a) with ((Q2R (value c s) - (Q2R (value c ep) - Q2R (value c em))) + (Q2R (value c ep) - Q2R (value c em) - 2 * sinh a)) by ring.
    eapply Rle_trans; [apply Rabs_triang|]. assert (0 <= Q2R eps * cosh a) by (apply Rmult_le_pos; lra). lra.
  - apply Qle_Rle in AA. rewrite Q2R_abs, !Q2R_minus, Q2R_mult, Q2R_plus in AA. unfold rvalue in *.
    replace (Q2R (value c t) - 2 * cosh a) with ((Q2R (value c t) - (Q2R (value c ep) + Q2R (value c em))) + (Q2R (value c ep) + Q2R (value c em) - 2 * cosh a)) by ring.
    eapply Rle_trans; [apply Rabs_triang|]. assert (0 <= Q2R eps * cosh a) by (apply Rmult_le_pos; lra). lra.
  - destruct (dl_tiny c Hc HD) as (d0 & d1 & e0 & e1).
    assert (EE : (eps * (value c ep + value c em) <= (1 # 100) * (value c ep + value c em))%Q) by (apply Qmult_le_compat_r; qlra).
    apply Qabs_Qle_condition in AA. apply Qabs_Qle_condition in SA.
    destruct (value_bracket c Hc ep Ne Ze) as [Be1 Be2]. destruct (value_bracket c Hc em Nm Zm) as [Bm1 Bm2]. rewrite AE in Be1, Be2. rewrite AM in Bm1, Bm2.
    assert (PM : (p10 m <= value c ep + value c em)%Q).
    { assert (Hm2 : m = dexp ep \/ m = dexp em) by (unfold m; clear; lia). destruct Hm2 as [K|K]; rewrite K; qlra. }
    assert (PU : (value c ep + value c em <= 2 * p10 (m + edc c))%Q).
    { assert ((p10 (dexp ep + edc c) <= p10 (m + edc c))%Q) by (apply p10_le; unfold m; clear; lia). assert ((p10 (dexp em + edc c) <= p10 (m + edc c))%Q) by (apply p10_le; unfold m; clear; lia). qlra. }
    assert (T1 : (p10 (m + edc c + 1) == 10 * p10 (m + edc c))%Q) by (rewrite p10_add; change (p10 1) with 10%Q; ring).
    assert (T2 : (p10 m == 10 * p10 (m - 1))%Q) by (replace m with (m - 1 + 1)%Z at 1 by ring; rewrite p10_add; change (p10 1) with 10%Q; ring).
    pose proof (p10_pos m) as PP. pose proof (p10_pos (m - 1)) as PP1. pose proof (p10_pos (m + edc c)) as PP2. pose proof (p10_pos (m + edc c + 1)) as PP3.
    assert (Tp : (0 < value c t)%Q) by qlra. destruct (pos_facts c Hc t Nt Tp) as [Zt St]. split; [exact Zt|].
    assert (AT : (Qabs (value c t) == value c t)%Q) by (apply Qabs_pos; qlra).
    split; [split; [apply (exp_gt_of_value c Hc t _ Nt Zt)|apply (exp_le_of_value c Hc t _ Nt Zt)]; rewrite AT; qlra|].
    split; [intros Zs; exact (proj1 (sub_zero c Hc ep em Ne Nm Ze Zm SF Zs))|]. intros Zs.
    pose proof (sub_low c F Hc HJ ep em Ne Nm Ze Zm Se Sm SF Zs) as SL. fold s m in SL. split.
    + pose proof (exp_gt_of_value c Hc s _ Ns Zs SL) as X. unfold low in X. rewrite (nel_Z c Hc) in X. clear - X HW Hed.
      replace (edc c * (elem_number c - 1))%Z with (edc c * elem_number c - edc c)%Z in X by ring. lia.
    + apply (exp_le_of_value c Hc s _ Ns Zs). apply Qabs_Qle_condition. split; qlra.
Qed.

Lemma half_step mem s : memory_ok mem -> normal c s -> (iszero s = true -> s = zero c) -> (iszero s = false -> (- M + 36 <= dexp s < M - 40)%Z) ->
  exists z, div_unsigned c F mem s 2 = Some z /\ normal c z /\ rn (2 * r10 (- D)) (rvalue c z) (rvalue c s / 2).
Proof using Hc Hk HF HJ.
  intros Hm Ns Hz Hx. destruct (iszero s) eqn:Zs.
  - exists (zero c). rewrite (Hz eq_refl). split.
    { unfold div_unsigned, div_ull. rewrite (Hz eq_refl) in Zs. change (2 =? 0)%Z with false. cbv zeta.
      assert (K : set_neg (zero c) false = zero c) by reflexivity. rewrite K, Zs. reflexivity. }
    split; [apply zero_normal|]. unfold rn, rvalue. rewrite (Qeq_eqR _ _ (value_zero c Hc _ (zero_normal c) (zero_iszero c Hc))).
    replace (Q2R 0) with 0 by (unfold Q2R; simpl; field). replace (0 - 0 / 2) with 0 by field. replace (0 / 2) with 0 by field. rewrite Rabs_R0. lra.
  - destruct (div_step c F Hc Hk HF HJ mem s 2 Hm Ns Zs ltac:(change (10 ^ 6)%Z with 1000000%Z; lia)
      ltac:(left; pose proof (edc_pos c) as He; apply Z.lt_le_trans with (10 ^ 1)%Z; [reflexivity|apply Z.pow_le_mono_r; lia]) (Hx eq_refl)) as (z & Z1 & Nz & Az).
    exists z. split; [exact Z1|]. split; [exact Nz|]. apply near_R in Az. rewrite Q2R_mult in Az. unfold Qdiv in Az. rewrite Q2R_mult in Az.
    replace (Q2R (/ inject_Z 2)) with (/ 2) in Az by (unfold Q2R; simpl; field). replace (Q2R 2) with 2 in Az by (unfold Q2R; simpl; field). exact Az.
Qed.

Variable ln2 : dec.
Hypothesis Nl : normal c ln2.
Hypothesis L2 : Rabs (rvalue c ln2 - ln 2) <= r10 (- (D + 2)).

(** All that the three functions share. *)
Lemma hyp_core mems x : (forall j, memory_ok (mems j)) -> normal c x ->
  (Qabs (value c x) <= 1000000000)%Q -> (Qabs (value c x) <= inject_Z (2 * (M - 100)))%Q -> (p10 (- W) <= Qabs (value c x))%Q ->
  (forall ep, wexp c F ln2 mems x = Some ep -> normal c ep /\ ~ (value c ep == p10 (dexp ep))%Q) ->
  exists ep em g, wexp c F ln2 mems x = Some ep /\ calculate_inv c F (mems (-7)%Z) ep = Some em /\
    let s := sub c ep em in let t := add c ep em in let m := Z.max (dexp ep) (dexp em) in let a := rvalue c x in
    normal c s /\ normal c t /\ 0 <= g <= (22500 + 11 / 10 * Rabs a) * r10 (- D) /\ g <= / 100000 /\
    Rabs (rvalue c s - 2 * sinh a) <= g * (2 * cosh a) /\ Rabs (rvalue c t - 2 * cosh a) <= g * (2 * cosh a) /\
    iszero t = false /\ (m - 1 - edc c < dexp t <= m + edc c + 1)%Z /\ (iszero s = true -> s = zero c) /\
    (iszero s = false -> (m - W - edc c < dexp s <= m + edc c + 1)%Z) /\ (- (2 + edc c) <= m <= M - 80)%Z.
Proof using Hc Hk HF HJ HD HW HM Nl L2.
  intros Hm Nx X1 XM X2 Hr. destruct (de_facts c Hc HD) as (D0 & D1 & E1 & E0 & _).
  destruct (wexp_accurate c F W Hc Hk HF HJ HD HW HM ln2 Nl L2 mems x Hm Nx X1 XM (or_intror X2)) as (ep & W1 & RC). destruct (Hr ep W1) as [Ne Np].
  set (a := rvalue c x) in *.
  assert (Rg : Rabs a <= 1000000000). { apply Qle_Rle in X1. rewrite Q2R_abs in X1. replace (Q2R 1000000000) with 1000000000 in X1 by (unfold Q2R; simpl; field). exact X1. }
  assert (RM : Rabs a <= IZR (2 * (M - 100))). { apply Qle_Rle in XM. rewrite Q2R_abs, <- IZR_Q2R in XM. exact XM. }
  pose proof (Rabs_pos a) as A0.
  assert (AD : 0 <= Rabs a * r10 (- D) <= / 10000000).
  { split; [apply Rmult_le_pos; lra|]. replace (/ 10000000) with (1000000000 * / 10000000000000000) by field. apply Rmult_le_compat; lra. }
  set (e := (22000 + Rabs a) * r10 (- D)) in *. assert (He : 0 <= e <= / 1000000) by (unfold e; lra).
  destruct (hyp_parts (mems (-7)%Z) ep a e (Hm _) Ne RC He RM Np) as (em & I1 & Nm & Ze & Zm & Se & Sm & (V1 & V2) & B1 & B2 & B3 & R2).
  set (f := 102 / 100 * e + 8 * Q2R eps) in *.
  assert (R1 : rn f (rvalue c ep) (exp a)) by (eapply rn_le; [|exact RC]; unfold f; lra).
  pose proof (hyp_sums ep em a f Ne Nm Ze Zm Se Sm V1 V2 B1 B2 B3 R1 R2 ltac:(unfold f; lra)) as H. cbv zeta in H.
  destruct H as (Ns & Nt & S1 & T1 & Zt & Xt & Hs0 & Xs). exists ep, em, (f + 11 / 10 * Q2R eps). split; [exact W1|]. split; [exact I1|]. cbv zeta. fold a.
  split; [exact Ns|]. split; [exact Nt|]. split; [unfold f, e; lra|]. split; [unfold f; lra|].
  split; [eapply Rle_trans; [exact S1|apply Req_le; ring]|]. split; [eapply Rle_trans; [exact T1|apply Req_le; ring]|]. split; [exact Zt|]. split; [exact Xt|]. split; [exact Hs0|]. split; [exact Xs|].
  clear - B1 B2 B3. lia.
Qed.

Lemma hyp_accurate mems x : (forall j, memory_ok (mems j)) -> normal c x ->
  (Qabs (value c x) <= 1000000000)%Q -> (Qabs (value c x) <= inject_Z (2 * (M - 100)))%Q -> (p10 (- W) <= Qabs (value c x))%Q ->
  (forall ep, wexp c F ln2 mems x = Some ep -> normal c ep /\ ~ (value c ep == p10 (dexp ep))%Q) ->
  exists s h t, wsinh c F ln2 mems x = Some s /\ wcosh c F ln2 mems x = Some h /\ wtanh c F ln2 mems x = Some t /\
    Rabs (rvalue c s - sinh (rvalue c x)) <= (23000 + 2 * Rabs (rvalue c x)) * r10 (- D) * cosh (rvalue c x) /\
    Rabs (rvalue c h - cosh (rvalue c x)) <= (23000 + 2 * Rabs (rvalue c x)) * r10 (- D) * cosh (rvalue c x) /\
    Rabs (rvalue c t - tanh (rvalue c x)) <= (47000 + 3 * Rabs (rvalue c x)) * r10 (- D).
Proof using Hc Hk HF HJ HD HW HM Nl L2.
  intros Hm Nx X1 XM X2 Hr. destruct (de_facts c Hc HD) as (D0 & D1 & E1 & E0 & _). destruct (W_big c W Hc HD HW HM) as (_ & _ & W3 & W4). pose proof (edc_pos c) as Hed.
  assert (E9 : (edc c <= 9)%Z) by (clear; unfold edc; destruct (c_limb c); cbn; lia).
  destruct (hyp_core mems x Hm Nx X1 XM X2 Hr) as (ep & em & g & W1 & I1 & H). cbv zeta in H.
  set (a := rvalue c x) in *. set (s := sub c ep em) in *. set (t := add c ep em) in *. set (m := Z.max (dexp ep) (dexp em)) in *. clearbody m.
  destruct H as (Ns & Nt & Hg & Hg6 & S1 & T1 & Zt & Xt & Hs0 & Xs & Bm).
  pose proof (cosh_ge1 a) as C1. pose proof (sinh_le a) as SC. pose proof (Rabs_pos a) as A0. assert (AD : 0 <= Rabs a * r10 (- D)) by (apply Rmult_le_pos; lra).
  assert (GC : g * (2 * cosh a) <= / 100000 * (2 * cosh a)) by (apply Rmult_le_compat_r; lra).
  destruct (half_step (mems (-8)%Z) s (Hm _) Ns Hs0) as (zs & ZS & NS & RS).
  { intros Zs. specialize (Xs Zs). clear - Xs Bm Hed E9 HM W3. lia. }
  destruct (half_step (mems (-8)%Z) t (Hm _) Nt ltac:(intros K; rewrite K in Zt; discriminate Zt)) as (zt & ZT & NT & RT).
  { intros _. clear - Xt Bm Hed E9 HM W3. lia. }
  assert (FIN : forall v w r, rn (2 * r10 (- D)) (rvalue c v) (rvalue c w / 2) -> Rabs r <= cosh a -> Rabs (rvalue c w - 2 * r) <= g * (2 * cosh a) ->
    Rabs (rvalue c v - r) <= (23000 + 2 * Rabs a) * r10 (- D) * cosh a).
  { intros v w r RN Hrr Hw. unfold rn in RN. replace (rvalue c v - r) with ((rvalue c v - rvalue c w / 2) + / 2 * (rvalue c w - 2 * r)) by field.
    eapply Rle_trans; [apply Rabs_triang|]. rewrite Rabs_mult, (Rabs_right (/ 2)) by lra.
    assert (WB : Rabs (rvalue c w / 2) <= 101 / 100 * cosh a).
    { replace (rvalue c w / 2) with (r + / 2 * (rvalue c w - 2 * r)) by field. eapply Rle_trans; [apply Rabs_triang|]. rewrite Rabs_mult, (Rabs_right (/ 2)) by lra. lra. }
    assert (2 * r10 (- D) * Rabs (rvalue c w / 2) <= 2 * r10 (- D) * (101 / 100 * cosh a)) by (apply Rmult_le_compat_l; lra).
    assert (GC2 : g * cosh a <= (22500 + 11 / 10 * Rabs a) * r10 (- D) * cosh a) by (apply Rmult_le_compat_r; lra).
    assert (0 <= Rabs a * r10 (- D) * cosh a) by (apply Rmult_le_pos; lra). assert (0 <= r10 (- D) * cosh a) by (apply Rmult_le_pos; lra). lra. }
  assert (TH : exists z, wtanh c F ln2 mems x = Some z /\ Rabs (rvalue c z - tanh a) <= (47000 + 3 * Rabs a) * r10 (- D)).
  { unfold wtanh. rewrite W1, I1. fold s t.
    assert (C2 : 0 < 2 * cosh a) by lra.
    assert (S2 : Rabs (2 * sinh a) <= 2 * cosh a) by (rewrite Rabs_mult, (Rabs_right 2) by lra; lra). assert (g1 : 0 <= g <= / 100) by lra.
    destruct (quot_err _ _ _ _ g g1 C2 S2 S1 T1) as (Tp & Q1 & Q2).
    assert (TE : 2 * sinh a / (2 * cosh a) = tanh a) by (unfold tanh; field; lra). rewrite TE in Q1.
    destruct (iszero s) eqn:Zs.
    - destruct (div_zero_num c F Hc Hk HF HJ (mems (-8)%Z) s t (Hm _) Ns Nt Zs Zt ltac:(clear - Xt Bm Hed E9 HM W3; lia)) as (z & DZ & VZ).
      exists z. split; [exact DZ|]. assert (RZ : rvalue c z = rvalue c s / rvalue c t).
      { unfold rvalue. rewrite (Qeq_eqR _ _ VZ), (Qeq_eqR _ _ (value_zero c Hc s Ns Zs)). replace (Q2R 0) with 0 by (unfold Q2R; simpl; field). unfold Rdiv. ring. }
      rewrite RZ. lra.
    - specialize (Xs eq_refl).
      destruct (div_accurate c F (mems (-8)%Z) s t Hc Hk HF HJ (Hm _) Ns Nt Zs Zt ltac:(clear - Xt Bm Hed E9 HM W3; lia) ltac:(clear - Xt Xs Bm Hed E9 HM W3; lia)) as (z & DZ & _ & AZ & _).
      exists z. split; [exact DZ|]. apply Qle_Rle in AZ. rewrite Q2R_abs, Q2R_minus, !Q2R_mult, Q2R_abs in AZ. unfold Qdiv in AZ.
      assert (TN : ~ (value c t == 0)%Q). { intros K. unfold rvalue in Tp. rewrite (Qeq_eqR _ _ K) in Tp. replace (Q2R 0) with 0 in Tp by (unfold Q2R; simpl; field). lra. }
      rewrite Q2R_mult, Q2R_inv in AZ by exact TN. replace (Q2R 9) with 9 in AZ by (unfold Q2R; simpl; field).
      fold (rvalue c z) (rvalue c s) (rvalue c t) in AZ. fold (rvalue c s / rvalue c t) in AZ.
      replace (rvalue c z - tanh a) with ((rvalue c z - rvalue c s / rvalue c t) + (rvalue c s / rvalue c t - tanh a)) by ring.
      eapply Rle_trans; [apply Rabs_triang|].
      assert (9 * Q2R eps * Rabs (rvalue c s / rvalue c t) <= 9 * Q2R eps * (103 / 100)) by (apply Rmult_le_compat_l; lra). lra. }
  destruct TH as (z & TZ & TA). exists zs, zt, z.
  split; [unfold wsinh; rewrite W1, I1; exact ZS|]. split; [unfold wcosh; rewrite W1, I1; exact ZT|]. split; [exact TZ|].
  split; [apply (FIN zs s _ RS SC S1)|]. split; [apply (FIN zt t _ RT); [rewrite Rabs_right by lra; lra|exact T1]|exact TA].
Qed.
End HYP.
