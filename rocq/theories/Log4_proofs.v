(** Log4_proofs.v - the error of log against the real logarithm. *)
From Verif Require Export Log3_proofs Exp5_proofs Spec_Real.
From Verif Require Import Model_Exp Model_Log Real_proofs Const_proofs Const2_proofs Func_proofs Cmp_proofs Conv6_proofs Conv2_proofs Misc_proofs.
From Coq Require Import Reals Qreals Lra Lia.
Local Open Scope R_scope.

Lemma qpw_R y m : Q2R (qpw y m) = Q2R y ^ m.
Proof. induction m as [|m IH]; cbn [qpw]; [unfold Q2R; simpl; field|]. rewrite Q2R_mult, IH. simpl. ring. Qed.

Lemma pow_m1 k : (-1) ^ k = if Nat.even k then 1 else -1.
Proof.
  induction k as [|k IH]; [reflexivity|]. rewrite Nat.even_succ. unfold Nat.odd. simpl pow. rewrite IH. destruct (Nat.even k); simpl; ring.
Qed.

Lemma lsum_R y m : Q2R (lsum y m) = ln_sum (Q2R y) m.
Proof.
  induction m as [|m IH]; [cbn [lsum ln_sum]; unfold Q2R; simpl; field|]. cbn [lsum ln_sum]. rewrite pow_m1.
  assert (T : Q2R (qpw y (S m) / inject_Z (Z.of_nat (S m))) = Q2R y ^ S m / INR (S m)).
  { unfold Qdiv, Rdiv. rewrite Q2R_mult, qpw_R, Q2R_inv, <- IZR_Q2R, <- INR_IZR_INZ; [reflexivity|].
    intros K. assert (0 < inject_Z (Z.of_nat (S m)))%Q by (change 0%Q with (inject_Z 0); rewrite <- Zlt_Qlt; lia). rewrite K in H. exact (Qlt_irrefl 0 H). }
  destruct (Nat.even m); [rewrite Q2R_plus|rewrite Q2R_minus]; rewrite IH, T; unfold Rdiv; ring.
Qed.

Lemma ln_p10 k : (0 <= k)%Z -> ln (Q2R (p10 k)) = IZR k * ln 10.
Proof.
  intros Hk. assert (K : Q2R (p10 k) = IZR (10 ^ k)). { rewrite IZR_Q2R. apply Qeq_eqR. rewrite p10_Z by exact Hk. reflexivity. }
  rewrite K. rewrite <- (Z2Nat.id k) by exact Hk. rewrite <- pow_IZR. rewrite ln_pow by lra. rewrite INR_IZR_INZ. reflexivity.
Qed.

Lemma ln10_bounds : 2302 / 1000 <= ln 10 <= 2303 / 1000.
Proof.
  destruct ln10_digits_ok as [A B]. let v := eval vm_compute in e96 in change e96 with v in *. let v := eval vm_compute in ln10_digits in change ln10_digits with v in *. rewrite plus_IZR in B.
  split; [eapply Rle_trans; [|exact A]|eapply Rle_trans; [apply Rlt_le; exact B|]]; lra.
Qed.

Lemma ln_near t : Rabs t <= / 2 -> Rabs (ln (1 + t)) <= 2 * Rabs t.
Proof.
  intros H. pose proof (ln_tail t 0 ltac:(lra)) as T. simpl in T. rewrite Rminus_0_r, Rmult_1_r in T. eapply Rle_trans; [exact T|].
  pose proof (Rabs_pos t). apply Rmult_le_reg_r with (1 - Rabs t); [lra|]. unfold Rdiv. rewrite Rmult_assoc, Rinv_l, Rmult_1_r by lra.
  assert (Rabs t * Rabs t <= / 2 * Rabs t) by (apply Rmult_le_compat_r; lra). lra.
Qed.

(** A sharper form for tiny arguments. *)
Lemma ln_near1 t : Rabs t <= / 100 -> Rabs (ln (1 + t)) <= 102 / 100 * Rabs t.
Proof.
  intros H. pose proof (ln_tail t 0 ltac:(lra)) as T. simpl in T. rewrite Rminus_0_r, Rmult_1_r in T. eapply Rle_trans; [exact T|].
  pose proof (Rabs_pos t). apply Rmult_le_reg_r with (1 - Rabs t); [lra|]. unfold Rdiv. rewrite Rmult_assoc, Rinv_l, Rmult_1_r by lra.
  assert (Rabs t * Rabs t <= / 100 * Rabs t) by (apply Rmult_le_compat_r; lra). lra.
Qed.

Lemma ln_rn e a b : 0 <= e <= / 100 -> 0 < b -> rn e a b -> 0 < a /\ Rabs (ln a - ln b) <= 102 / 100 * e.
Proof.
  intros He Hb H. unfold rn in H. rewrite (Rabs_pos_eq b) in H by lra. set (t := (a - b) / b).
  assert (T : Rabs t <= e). { unfold t, Rdiv. rewrite Rabs_mult, Rabs_inv, (Rabs_pos_eq b) by lra. apply Rmult_le_reg_r with b; [lra|]. rewrite Rmult_assoc, Rinv_l, Rmult_1_r by lra. exact H. }
  assert (A : a = b * (1 + t)) by (unfold t; field; lra).
  assert (T1 : 0 < 1 + t). { unfold Rabs in T. destruct (Rcase_abs t); lra. }
  split; [rewrite A; apply Rmult_lt_0_compat; lra|]. rewrite A, ln_mult by lra. replace (ln b + ln (1 + t) - ln b) with (ln (1 + t)) by ring.
  eapply Rle_trans; [apply ln_near1; lra|]. lra.
Qed.

Section TOP.
Variable c : cfg.
Variable F : ftype.
Notation n := (nel c).
Notation M := (max_exp10_of (c_expo c)).
Notation D := (c_digits10 c).
Notation eps := (p10 (- (c_digits10 c + 2 * edc c))).
Notation dl := (p10 (- c_digits10 c)).
Hypothesis Hc : cfg_ok c.
Hypothesis Hk : newton_ok c.
Hypothesis HF : float_fits c F.
Hypothesis HJ : (digit_loops c F <= n)%nat.
Hypothesis HD : (16 <= D <= 51)%Z.
Hypothesis HM : (900 <= M)%Z.

Lemma ln10_stored : normal c (ln10_small c) /\ 0 <= ln 10 - rvalue c (ln10_small c) <= 3 * Q2R eps /\ (23 # 10 <= value c (ln10_small c) <= 231 # 100)%Q.
Proof.
  destruct (ln10_cut c Hc ltac:(lia)) as (N & Z & [C1 C2]). split; [exact N|]. pose proof ln10_bounds as LB. destruct (de_facts c Hc ltac:(lia)) as (D0 & D1 & E1 & E0 & D2).
  destruct (normal_facts c Hc _ N) as (Ln & Dn & _). assert (Nz : nth 0 (data (ln10_small c)) 0%Z <> 0%Z) by (intros K; unfold iszero in Z; rewrite K in Z; discriminate Z).
  assert (V1 : (value c (ln10_small c) <= 231 # 100)%Q).
  { apply Rle_Qle. unfold rvalue in C1. rewrite Q2R_frac. lra. }
  assert (V0 : (0 <= value c (ln10_small c))%Q).
  { pose proof (value_sign c Hc _ N Z) as Sg. replace (dneg (ln10_small c)) with false in Sg by reflexivity. qlra. }
  assert (U : Q2R (ulp c (ln10_small c)) <= 3 * Q2R eps).
  { replace 3 with (Q2R 3) by (unfold Q2R; simpl; field). rewrite <- Q2R_mult. apply Qle_Rle. 
    pose proof (Addlaws_proofs.ulp_rel c Hc _ Ln Dn Nz) as UR. eapply Qle_trans; [exact UR|]. rewrite (Qabs_pos _ V0).
    apply Qmult_le_compat_r; [qlra|]. pose proof (p10_pos (- (c_digits10 c + 2 * edc c))). qlra. }
  split; [lra|]. split; [|exact V1]. apply Rle_Qle. rewrite Q2R_frac. unfold rvalue in *. lra.
Qed.

(** Arguments above one. *)
Lemma log_above mems x : (forall j, memory_ok (mems j)) -> normal c x -> (1 < value c x)%Q -> (value c x <= p10 (M - 50))%Q ->
  exists z, log_core c F mems x = Some z /\ normal c z /\ Rabs (rvalue c z - ln (rvalue c x)) <= (8 + Rabs (ln (rvalue c x))) * r10 (- D).
Proof.
  intros Hm Nx X1 X2. destruct ln10_stored as (Nl & La & Lb). destruct (de_facts c Hc ltac:(lia)) as (D0 & D1 & E1 & E0 & D2).
  destruct (log_core_spec c F Hc Hk HF HJ HD HM Nl Lb mems x Hm Nx X1 X2) as (z & n1 & Y & m & R1 & Nz & Hn & Y1 & Y2 & T1 & T2).
  exists z. split; [exact R1|]. split; [exact Nz|].
  (* into the reals *)
  pose proof (p10_pos n1) as P0. assert (Pr : 0 < Q2R (p10 n1)) by (replace 0 with (Q2R 0) by (unfold Q2R; simpl; field); apply Qlt_Rlt; exact P0).
  assert (X1' : 1 < rvalue c x) by (unfold rvalue; replace 1 with (Q2R 1) by (unfold Q2R; simpl; field); apply Qlt_Rlt; exact X1).
  apply near_R in Y2. rewrite Q2R_plus, Q2R_mult in Y2. replace (Q2R 1) with 1 in Y2 by (unfold Q2R; simpl; field). rewrite Q2R_frac in Y2.
  unfold Qdiv in Y2. rewrite Q2R_mult, Q2R_inv in Y2 by (intros K; rewrite K in P0; exact (Qlt_irrefl 0 P0)).
  change (Q2R dl) with (r10 (- D)) in *. set (d := r10 (- D)) in *. set (e := Q2R eps) in *. fold (rvalue c x) in Y2.
  set (w := rvalue c x * / Q2R (p10 n1)) in *. assert (W0 : 0 < w) by (unfold w; apply Rmult_lt_0_compat; [lra|apply Rinv_0_lt_compat; lra]).
  assert (LX : ln (rvalue c x) = IZR n1 * ln 10 + ln w).
  { rewrite <- ln_p10 by lia. rewrite <- ln_mult by lra. f_equal. unfold w. field. lra. }
  assert (EB : 0 <= 203 / 100 * d <= / 100) by lra. destruct (ln_rn _ _ _ EB W0 Y2) as [Y3 Y4].
  apply Qle_Rle in Y1. rewrite Q2R_abs, Q2R_frac in Y1. set (y := Q2R Y) in *.
  apply Qle_Rle in T1. rewrite Q2R_abs, qpw_R in T1. fold y in T1. replace (- (D + 5))%Z with (- D + -5)%Z in T1 by ring.
  rewrite Q2R_mult, (Qeq_eqR _ _ (p10_add (- D) (-5))), Q2R_mult in T1. change (p10 (-5)) with (1 # 100000)%Q in T1. rewrite !Q2R_frac in T1. change (Q2R dl) with d in T1.
  apply Qle_Rle in T2. rewrite Q2R_abs, Q2R_minus, !Q2R_plus, !Q2R_mult, lsum_R, <- IZR_Q2R in T2. rewrite Q2R_frac in T2. replace (Q2R 3) with 3 in T2 by (unfold Q2R; simpl; field).
  change (Q2R dl) with d in T2. fold e in T2. fold y in T2. fold (rvalue c z) in T2. fold (rvalue c (ln10_small c)) in T2. set (l := rvalue c (ln10_small c)) in *.
  pose proof (ln_tail y m ltac:(lra)) as T3. rewrite <- RPow_abs in T1.
  assert (T4 : Rabs y ^ S m / (1 - Rabs y) <= / 1000 * d).
  { apply Rmult_le_reg_r with (1 - Rabs y); [lra|]. unfold Rdiv. rewrite Rmult_assoc, Rinv_l, Rmult_1_r by lra.
    assert (/ 1000 * d * (1 - Rabs y) >= / 1000 * d * (179 / 1000)) by (apply Rle_ge; apply Rmult_le_compat_l; lra). lra. }
  assert (N0 : 0 <= IZR n1) by (apply IZR_le; lia). pose proof ln10_bounds as LB.
  (* size of n1 *)
  assert (WL : 178 / 1000 <= w).
  { unfold rn in Y2. rewrite (Rabs_pos_eq w) in Y2 by lra. assert (Ya : - (821 / 1000) <= y) by (pose proof (Rle_abs (- y)) as Ha; rewrite Rabs_Ropp in Ha; lra).
    pose proof (Rle_abs (1 + y - w)). assert (d * w <= / 1000 * w) by (apply Rmult_le_compat_r; lra). lra. }
  assert (LW : - ln w <= 5).
  { pose proof (exp_ge (- ln w)) as Ge. rewrite exp_Ropp, exp_ln in Ge by lra. assert (/ w <= / (178 / 1000)) by (apply Rinv_le_contravar; lra). lra. }
  set (v := ln (rvalue c x)) in *. assert (V0 : 0 < v) by (unfold v; rewrite <- ln_1; apply ln_increasing; lra).
  rewrite (Rabs_pos_eq v) by lra.
  assert (NB : IZR n1 <= v + 5). { assert (IZR n1 * 1 <= IZR n1 * ln 10) by (apply Rmult_le_compat_l; lra). lra. }
  assert (NL : 0 <= l * IZR n1 <= 3 * (v + 5)).
  { split; [apply Rmult_le_pos; lra|]. apply Rmult_le_compat; lra. }
  assert (K1 : 3 * e * (l * IZR n1) <= 3 * (d / 10000) * (3 * (v + 5))) by (apply Rmult_le_compat; lra).
  assert (K2 : 0 <= (ln 10 - l) * IZR n1 <= 3 * (d / 10000) * (v + 5)). { split; [apply Rmult_le_pos; lra|]. apply Rmult_le_compat; lra. }
  assert (DV : 0 <= d * v) by (apply Rmult_le_pos; lra).
  replace (rvalue c z - v) with ((rvalue c z - (l * IZR n1 + ln_sum y m)) + ((- ((ln 10 - l) * IZR n1)) + (- (ln (1 + y) - ln_sum y m) + (ln (1 + y) - ln w)))) by (rewrite LX; ring).
  eapply Rle_trans; [apply Rabs_triang|]. eapply Rle_trans; [apply Rplus_le_compat_l; apply Rabs_triang|]. eapply Rle_trans; [apply Rplus_le_compat_l; apply Rplus_le_compat_l; apply Rabs_triang|].
  rewrite !Rabs_Ropp. rewrite (Rabs_pos_eq ((ln 10 - l) * IZR n1)) by lra. lra.
Qed.

Lemma log_accurate memc memi fuel x : (forall j, memory_ok (memc j)) -> (forall j, memory_ok (memi j)) -> (2 <= fuel)%nat -> normal c x ->
  (p10 (- (M - 60)) <= value c x)%Q -> (value c x <= p10 (M - 50))%Q ->
  (1 <= value c x)%Q \/ ((value c x <= 1 - 8 * eps)%Q /\ ~ (value c x == p10 (dexp x))%Q) ->
  exists z, log c F (log_core c F memc) fuel memi x = Ret z /\ normal c z /\ Rabs (rvalue c z - ln (rvalue c x)) <= (9 + Rabs (ln (rvalue c x))) * r10 (- D).
Proof.
  intros Hm Hi Hf Nx X0 X2 Hx. destruct (de_facts c Hc ltac:(lia)) as (D0 & D1 & E1 & E0 & D2). destruct (dl_tiny c Hc (HD2 c HD)) as (Q0 & Q1 & Q2 & Q3).
  pose proof (one_normal c Hc) as No. pose proof (Floor_proofs.one_value c Hc) as Vo. pose proof (p10_pos (- (M - 60))) as P0.
  assert (ABOVE : forall f mi y, normal c y -> (1 < value c y)%Q -> (value c y <= p10 (M - 50))%Q ->
    exists z, log c F (log_core c F memc) (S f) mi y = Ret z /\ normal c z /\ Rabs (rvalue c z - ln (rvalue c y)) <= (8 + Rabs (ln (rvalue c y))) * r10 (- D)).
  { intros f mi y Ny Y1 Y2. destruct (log_above memc y Hm Ny Y1 Y2) as (z & Z1 & Z2 & Z3). exists z. cbn [log].
    destruct (ops_spec c Hc y (one c) Ny No) as (OL & _ & _ & _ & _ & OG).
    replace (op_lt y (one c)) with false. 2:{ symmetry. apply Bool.not_true_is_false. intros K. apply OL in K. rewrite Vo in K. qlra. }
    replace (op_gt y (one c)) with true by (symmetry; apply OG; rewrite Vo; exact Y1). rewrite Z1. split; [reflexivity|]. split; [exact Z2|exact Z3]. }
  destruct fuel as [|[|f]]; [lia|lia|].
  destruct Hx as [X1|[X1 XB]].
  - apply Qle_lteq in X1. destruct X1 as [X1|X1].
    + destruct (ABOVE (S f) memi x Nx X1 X2) as (z & Z1 & Z2 & Z3). exists z. split; [exact Z1|]. split; [exact Z2|]. eapply Rle_trans; [exact Z3|]. apply Rmult_le_compat_r; lra.
    + exists (zero c). pose proof (zero_normal c) as Nz. destruct (ops_spec c Hc x (one c) Nx No) as (OL & _ & _ & _ & _ & OG). cbn [log].
      replace (op_lt x (one c)) with false. 2:{ symmetry. apply Bool.not_true_is_false. intros K. apply OL in K. rewrite Vo in K. qlra. }
      replace (op_gt x (one c)) with false. 2:{ symmetry. apply Bool.not_true_is_false. intros K. apply OG in K. rewrite Vo in K. qlra. }
      split; [reflexivity|]. split; [exact Nz|].
      assert (RX : rvalue c x = 1). { unfold rvalue. rewrite <- (Qeq_eqR _ _ X1). unfold Q2R; simpl; field. }
      assert (RZ : rvalue c (zero c) = 0). { unfold rvalue. rewrite (Qeq_eqR _ _ (value_zero c Hc _ Nz (zero_iszero c Hc))). unfold Q2R; simpl; field. }
      rewrite RX, RZ, ln_1. replace (0 - 0) with 0 by ring. rewrite Rabs_R0. unfold r10 in *. lra.
  - destruct (pos_facts c Hc x Nx ltac:(qlra)) as [Zx Sx]. assert (Ax : (Qabs (value c x) == value c x)%Q) by (apply Qabs_pos; qlra). pose proof (edc_pos c) as He.
    assert (U1 : (dexp x <= 0)%Z). { apply (exp_le_of_value c Hc x 0 Nx Zx). change (p10 0) with 1%Q. qlra. }
    assert (U2 : (- (M - 60) - edc c < dexp x)%Z). { apply (exp_gt_of_value c Hc x _ Nx Zx). qlra. }
    destruct (inv_accurate c F (memi 0%nat) x Hc Hk HF HJ (Hi _) Nx Zx) as (r & I1 & I2 & I3 & I4).
    { clear - U1 U2 He HM. lia. }
    assert (Nr : normal c r) by (apply I4; rewrite Ax; exact XB).
    set (X := value c x) in *. assert (VX : (0 < X)%Q) by qlra. assert (IX : (1 / X == / X)%Q) by (field; qlra). rewrite IX in I3.
    assert (PI : (0 < / X)%Q) by (apply Qinv_lt_0_compat; exact VX). rewrite (Qabs_pos (/ X)) in I3 by qlra.
    assert (R1 : (1 < value c r)%Q).
    { apply Qabs_Qle_condition in I3. destruct I3 as [I3 _].
      assert (K : ((1 - 7 * eps) * / X > 1)%Q).
      { apply Qlt_shift_div_l; [exact VX|]. qlra. }
      qlra. }
    assert (R2 : (value c r <= p10 (M - 50))%Q).
    { apply Qabs_Qle_condition in I3. destruct I3 as [_ I3].
      assert (K : (/ X <= p10 (M - 60))%Q).
      { setoid_replace (/ X)%Q with (1 / X)%Q by (field; qlra). apply Qle_shift_div_r; [exact VX|].
        assert (KK : (p10 (M - 60) * p10 (- (M - 60)) == 1)%Q) by (rewrite <- p10_add; replace (M - 60 + - (M - 60))%Z with 0%Z by ring; reflexivity).
        rewrite <- KK. rewrite !(Qmult_comm (p10 (M - 60))). apply Qmult_le_compat_r; [exact X0|]. pose proof (p10_pos (M - 60)). qlra. }
      replace (M - 50)%Z with (1 + (M - 51))%Z by ring. pose proof (p10_pos (M - 60)) as PP.
      assert (K2 : (p10 (1 + (M - 51)) == 10000000000 * p10 (M - 60))%Q) by (replace (1 + (M - 51))%Z with (10 + (M - 60))%Z by ring; rewrite p10_add; reflexivity).
      assert (7 * eps * / X <= 1 * / X)%Q by (apply Qmult_le_compat_r; qlra). qlra. }
    destruct (ABOVE f (fun k => memi (S k)) r Nr R1 R2) as (z & Z1 & Z2 & Z3).
    exists (negate z). split.
    + cbn [log] in Z1 |- *. destruct (ops_spec c Hc x (one c) Nx No) as (OL & _). replace (op_lt x (one c)) with true by (symmetry; apply OL; rewrite Vo; fold X; qlra).
      rewrite I1. cbn [lift obind]. rewrite Z1. reflexivity.
    + split; [apply negate_normal; exact Z2|].
      assert (RN : rvalue c (negate z) = - rvalue c z) by (unfold rvalue; rewrite <- Q2R_opp; apply Qeq_eqR; apply (value_negate c Hc z Z2)). rewrite RN.
      assert (XR : 0 < rvalue c x) by (unfold rvalue; replace 0 with (Q2R 0) by (unfold Q2R; simpl; field); apply Qlt_Rlt; exact VX).
      assert (RR : rn (7 * Q2R eps) (rvalue c r) (/ rvalue c x)).
      { unfold rn, rvalue. apply Qle_Rle in I3. rewrite Q2R_abs, Q2R_minus, Q2R_mult, Q2R_mult, Q2R_inv in I3 by (intros K; rewrite K in VX; exact (Qlt_irrefl 0 VX)).
        replace (Q2R 7) with 7 in I3 by (unfold Q2R; simpl; field). fold X. rewrite (Rabs_pos_eq (/ Q2R X)); [exact I3|]. left. apply Rinv_0_lt_compat. exact XR. }
      assert (EB : 0 <= 7 * Q2R eps <= / 100) by lra. assert (XI : 0 < / rvalue c x) by (apply Rinv_0_lt_compat; exact XR). destruct (ln_rn _ _ _ EB XI RR) as [_ LR]. rewrite ln_Rinv in LR by exact XR.
      set (lx := ln (rvalue c x)) in *. set (lr := ln (rvalue c r)) in *. set (d := r10 (- D)) in *.
      assert (AL : Rabs lr <= Rabs lx + / 100).
      { replace lr with ((lr - - lx) + - lx) by ring. eapply Rle_trans; [apply Rabs_triang|]. rewrite Rabs_Ropp. lra. }
      replace (- rvalue c z - lx) with (- (rvalue c z - lr) + - (lr - - lx)) by ring. eapply Rle_trans; [apply Rabs_triang|]. rewrite !Rabs_Ropp.
      assert ((8 + Rabs lr) * d <= (8 + (Rabs lx + / 100)) * d) by (apply Rmult_le_compat_r; lra). lra.
Qed.
End TOP.
