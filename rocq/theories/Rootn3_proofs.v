(** Rootn3_proofs.v - the root theorems in the vocabulary of Spec_Root. *)
From Verif Require Export Rootn2_proofs Spec_Root.
From Verif Require Import Refute_exp Refute_log.
From Coq Require Import Lqa.
Local Open Scope Z_scope.

Lemma builtin_root_ok P fpow p : 24 <= P -> 3 <= p -> builtin_root P fpow p <-> fpow_ok P fpow (Z.to_nat p).
Proof.
  intros HP Hp. destruct (uu_small P HP) as [u0 u1]. unfold uu in u0, u1.
  assert (A1 : ~ (1 - 5 * p2 (- P) == 0)%Q) by lra. assert (A2 : ~ (1 + 5 * p2 (- P) == 0)%Q) by lra.
  unfold builtin_root, fpow_ok. rewrite Z2Nat.id by lia.
  split; intros H q R Q1 Q2; destruct (H q R Q1 Q2) as (y & Y1 & Y2 & Y3 & Y4 & Y5); exists y; (split; [auto|]); (split; [auto|]); (split; [auto|]);
    pose proof (qp_power _ (Z.to_nat p) A1) as E1; pose proof (qp_power _ (Z.to_nat p) A2) as E2; pose proof (qp_power y (Z.to_nat p) ltac:(lra)) as E3;
    rewrite !Z2Nat.id in E1, E2, E3 by lia.
  - rewrite E1, E2, E3. auto.
  - rewrite E1, E3 in Y4. rewrite E2, E3 in Y5. auto.
Qed.

Section R3.
Variable c : cfg.
Variable F : ftype.
Variable fsqrt : Q -> Q.
Variable fpow : Q -> Z -> xfloat.
Notation M := (max_exp10_of (c_expo c)).
Notation eps := (p10 (- (c_digits10 c + 2 * edc c))).
Hypothesis Hc : cfg_ok c.
Hypothesis Hk : newton_ok c.
Hypothesis HF : float_fits c F.
Hypothesis HJ : (digit_loops c F <= nel c)%nat.
Variable p : Z.
Hypothesis Hp : 3 <= p <= 37.
Hypothesis Hfp : builtin_root (f_bits F) fpow p.
Hypothesis Hen : enough_doublings c F p.

Lemma kept_eq : kept0 F (Z.to_nat p) = start_kept F p.
Proof using Hp.
  clear - Hp. unfold kept0, start_kept. destruct (Z.eqb_spec p 3) as [->|N]; [reflexivity|].
  destruct (Nat.eqb_spec (Z.to_nat p) 3); [lia|reflexivity].
Qed.
Lemma en_eq : root_enough c F (Z.to_nat p).
Proof using Hc Hen Hp.
  clear - Hc Hen Hp. destruct Hen as [->|H]; [left; reflexivity|right]. intros k. rewrite (nel_Z c Hc). apply H. lia.
Qed.
Lemma clear_eq tau X : not_near_power c p tau X -> root_clear c (Z.to_nat p) tau X.
Proof using Hp.
  clear - Hp. intros H k Hk. rewrite Z2Nat.id by lia. specialize (H (- k) (proj2 (Z.divide_opp_r _ _) Hk)).
  replace (p * - k) with (- (p * k)) in H by ring. pose proof (p10_pos (p * k)) as P0. pose proof (p10_pos (- (p * k))) as P1.
  assert (E : (X / p10 (- (p * k)) == X * p10 (p * k))%Q).
  { apply Qmult_inj_r with (p10 (- (p * k))); [lra|]. unfold Qdiv. rewrite <- Qmult_assoc, (Qmult_comm (/ _)), Qmult_inv_r by lra.
    rewrite <- Qmult_assoc, <- p10_add, Z.add_opp_diag_r. reflexivity. }
  rewrite <- E. exact H.
Qed.
Lemma Hpw : (3 <= Z.to_nat p <= 37)%nat.
Proof using Hp. clear - Hp. lia. Qed.
Lemma fok : fpow_ok (f_bits F) fpow (Z.to_nat p).
Proof using HF Hp Hfp. clear - HF Hp Hfp. apply builtin_root_ok; auto; [apply (f_bits_ge c F HF)|]. lia. Qed.

Lemma rootn_accurate mem v fuel : (64 <= fuel)%nat -> memory_ok mem -> normal c v -> (0 < value c v \/ value c v < 0 /\ p = 3%Z)%Q ->
  - M + edc c * (elem_number c + 8) < dexp v < M - edc c * (elem_number c + 8) ->
  not_near_power c p (p10 (- start_kept F p)) (Qabs (value c v)) ->
  exists y, rootn c F fsqrt fpow fuel mem v p = Ret y /\ normal c y /\ (0 < value c y <-> 0 < value c v)%Q /\
    (Qabs (value c y ^ p - value c v) <= 20 * inject_Z p * eps * Qabs (value c v))%Q.
Proof using Hc Hk HF HJ Hp Hfp Hen.
  intros Hfu Hm Nv Sv Rv Hcl.
  assert (Zv : iszero v = false).
  { destruct (iszero v) eqn:Q; auto. pose proof (value_zero c Hc v Nv Q) as V0. destruct Sv as [Sv|[Sv _]]; lra. }
  pose proof (value_sign c Hc v Nv Zv) as SG.
  destruct (rootn_full c F fsqrt fpow Hc Hk HF HJ (Z.to_nat p) Hpw fok en_eq mem v fuel) as (y & R1 & R2 & R3 & R4 & R5); auto.
  { destruct Sv as [Sv|[Sv Ep]]; [left|right; rewrite Ep; reflexivity]. destruct (dneg v); auto. lra. }
  { rewrite kept_eq. apply clear_eq. exact Hcl. }
  rewrite Z2Nat.id in R1 by (clear - Hp; lia). exists y. split; auto. split; auto.
  pose proof (value_sign c Hc y R2 R4) as SY. rewrite R3 in SY.
  split; [destruct (dneg v); split; intros; lra|].
  assert (Y0 : ~ (value c y == 0)%Q) by (destruct (dneg v); lra).
  rewrite qp_power, Z2Nat.id in R5 by (auto; clear - Hp; lia). unfold iN in R5. rewrite Z2Nat.id in R5 by (clear - Hp; lia).
  rewrite Qmult_assoc in R5. exact R5.
Qed.

Lemma rootn_neg_accurate mem v fuel : (64 <= fuel)%nat -> memory_ok mem -> normal c v -> (0 < value c v)%Q ->
  - M + edc c * (elem_number c + 8) < dexp v < M - edc c * (elem_number c + 8) ->
  not_near_power c p (p10 (- start_kept F p)) (value c v) ->
  exists y, rootn c F fsqrt fpow fuel mem v (- p) = Ret y /\ (Qabs (value c v * value c y ^ p - 1) <= 30 * inject_Z p * eps)%Q.
Proof using Hc Hk HF HJ Hp Hfp Hen.
  intros Hfu Hm Nv Sv Rv Hcl.
  assert (Zv : iszero v = false).
  { destruct (iszero v) eqn:Q; auto. pose proof (value_zero c Hc v Nv Q) as V0. lra. }
  pose proof (value_sign c Hc v Nv Zv) as SG.
  destruct (rootn_neg c F fsqrt fpow Hc Hk HF HJ (Z.to_nat p) Hpw fok en_eq mem v fuel) as (y & R1 & R2); auto.
  { destruct (dneg v); auto. lra. }
  { rewrite kept_eq. apply clear_eq. intros k Hkk. specialize (Hcl k Hkk). rewrite (Qabs_pos (value c v)) by lra. exact Hcl. }
  rewrite Z2Nat.id in R1 by (clear - Hp; lia). exists y. split; auto.
  unfold iN in R2. rewrite Z2Nat.id in R2 by (clear - Hp; lia). rewrite Qmult_assoc in R2.
  destruct (Qeq_dec (value c y) 0) as [Y0|Y0].
  - exfalso. assert (Q0 : (qp (value c y) (Z.to_nat p) == 0)%Q).
    { rewrite (qp_compat _ 0%Q _ Y0). destruct (Z.to_nat p) eqn:En; [clear - Hp En; lia|]. cbn [qp]. ring. }
    rewrite Q0 in R2. setoid_replace (value c v * 0 - 1)%Q with (-1 # 1)%Q in R2 by ring. change (Qabs (-1 # 1)) with 1%Q in R2.
    assert (eps <= 1 # 100000)%Q.
    { change (1 # 100000)%Q with (p10 (-5)). apply (proj2 (p10_le _ _)). pose proof (edc_pos c) as He. destruct Hc as [Hc1 _]. clear - He Hc1. lia. }
    assert (P37 : (inject_Z p <= 37)%Q) by (change 37%Q with (inject_Z 37); rewrite <- Zle_Qle; apply Hp).
    assert (P3 : (0 <= inject_Z p)%Q) by (change 0%Q with (inject_Z 0); rewrite <- Zle_Qle; clear - Hp; lia).
    destruct (eps_small c Hc) as [e0 _].
    assert (inject_Z p * eps <= 37 * (1 # 100000))%Q by (apply Qmult_le_compat_nonneg; split; lra). lra.
  - rewrite qp_power, Z2Nat.id in R2 by (auto; clear - Hp; lia). exact R2.
Qed.
End R3.

Lemma rootn_special c F fsqrt fpow fuel mem v : cfg_ok c -> normal c v ->
  rootn c F fsqrt fpow fuel mem v 0 = Ret (zero c) /\
  (forall p, 0 <= p -> p <> 3 -> (value c v < 0)%Q -> rootn c F fsqrt fpow fuel mem v p = Ret (zero c)) /\
  ((0 <= value c v)%Q -> rootn c F fsqrt fpow fuel mem v 1 = Ret v) /\
  ((0 <= value c v)%Q -> rootn c F fsqrt fpow fuel mem v 2 = lift (calculate_sqrt c F fsqrt mem v)) /\
  rootn c F fsqrt fpow fuel mem v (- 2 ^ 31) = Fault.
Proof.
  intros Hc Nv. destruct (ops_spec c Hc v (zero c) Nv (zero_normal c)) as [OL _].
  assert (V0 : (value c (zero c) == 0)%Q) by (apply value_zero_c; auto). rewrite V0 in OL.
  split; [reflexivity|]. split.
  { intros p Hp P3 Sv. unfold rootn. replace (p <? 0) with false by lia. unfold rootn_nonneg. apply OL in Sv. rewrite Sv.
    replace (p =? 3) with false by lia. cbn [negb andb]. rewrite Bool.orb_true_r. reflexivity. }
  assert (NL : (0 <= value c v)%Q -> op_lt v (zero c) = false).
  { intros H. apply Bool.not_true_is_false. intros K. apply OL in K. lra. }
  split; [|split; [|reflexivity]]; intros H; unfold rootn, rootn_nonneg; rewrite (NL H); reflexivity.
Qed.

(** A case meeting the hypotheses: the roots of 12345678.9, 50 digits, double. *)
Lemma xa_not_near p : 3 <= p -> not_near_power c50 p (p10 (- start_kept f_double p)) (value c50 xa).
Proof.
  intros Hp k Hk. change (edc c50) with 8 in Hk. destruct Hk as [j ->].
  assert (VX : (value c50 xa == 123456789 # 10)%Q) by (vm_compute; reflexivity). rewrite VX.
  assert (S0 : (p10 (- start_kept f_double p) <= 1 # 10000)%Q).
  { change (1 # 10000)%Q with (p10 (-4)). apply (proj2 (p10_le _ _)). unfold start_kept. destruct (p =? 3); cbn; lia. }
  pose proof (p10_pos (p * (j * 8))) as P0. destruct (Z_le_gt_dec j 0) as [J|J].
  - assert (K : (p10 (p * (j * 8)) <= p10 0)%Q).
    { apply (proj2 (p10_le _ _)). assert (0 <= p * (- j)) by (apply Z.mul_nonneg_nonneg; lia). lia. }
    change (p10 0) with 1%Q in K.
    assert (A : (123456789 # 10 <= (123456789 # 10) / p10 (p * (j * 8)))%Q) by (apply Qle_shift_div_l; lra).
    rewrite Qabs_pos by lra. lra.
  - assert (K : (p10 24 <= p10 (p * (j * 8)))%Q).
    { apply (proj2 (p10_le _ _)). assert (3 * j <= p * j) by (apply Z.mul_le_mono_nonneg_r; lia). lia. }
    change (p10 24) with 1000000000000000000000000%Q in K.
    assert (A : ((123456789 # 10) / p10 (p * (j * 8)) <= 1 # 10)%Q) by (apply Qle_shift_div_r; lra).
    rewrite Qabs_neg by lra. lra.
Qed.

Lemma root_case : cfg_ok c50 /\ newton_ok c50 /\ float_fits c50 f_double /\ (digit_loops c50 f_double <= nel c50)%nat /\
  (forall p, 3 <= p <= 37 -> builtin_root (f_bits f_double) (fpow_ieee (f_bits f_double)) p /\ enough_doublings c50 f_double p /\
     not_near_power c50 p (p10 (- start_kept f_double p)) (value c50 xa)) /\
  memory_ok mem0 /\ normal c50 xa /\ (0 < value c50 xa)%Q /\
  - max_exp10_of (c_expo c50) + edc c50 * (elem_number c50 + 8) < dexp xa < max_exp10_of (c_expo c50) - edc c50 * (elem_number c50 + 8).
Proof.
  destruct sqrt_case as (H1 & H2 & H3 & H4 & _ & H6 & H7 & H8 & H9 & _).
  split; [exact H1|]. split; [exact H2|]. split; [exact H3|]. split; [exact H4|]. split; [|auto].
  intros p Hp. split; [|split; [|apply xa_not_near; lia]].
  - apply builtin_root_ok; [cbn; lia|lia|]. apply fpow_ieee_ok; [cbn; lia|lia].
  - right. intros k Hk. change (elem_number c50) with 10. change (edc c50) with 8. change (f_digits10 f_double) with 15. intros H.
    destruct (Z_le_gt_dec k 2) as [K|K].
    + exfalso. assert (2 ^ k <= 2 ^ 2) by (apply Z.pow_le_mono_r; lia). change (2 ^ 2) with 4 in *. lia.
    + assert (2 ^ 3 <= 2 ^ k) by (apply Z.pow_le_mono_r; lia). change (2 ^ 3) with 8 in *. lia.
Qed.

(** The cube root of one, with a nearly correctly rounded built-in root: the result has a limb outside
    its range, and compares less than one. The cube root of 27 is not 3. *)
Definition bad_one : dec := mkDec (100000000 :: repeat 0 9) (-8) false 10.
Definition near_three : dec := mkDec (3 :: repeat 0 8 ++ [3]) 0 false 10.
Lemma root_of_one : builtin_root 53 (fpow_ieee 53) 3 /\ rootn c50 f_double (fsqrt_ieee 53) (fpow_ieee 53) 64 mem0 (one c50) 3 = Ret bad_one /\
  ~ normal c50 bad_one /\ op_lt bad_one (one c50) = true /\ op_eq bad_one (one c50) = false /\
  rootn c50 f_double (fsqrt_ieee 53) (fpow_ieee 53) 64 mem0 (from_ull c50 27) 3 = Ret near_three /\ normal c50 near_three /\
  (value c50 near_three == 3 + 3 * p10 (-72))%Q.
Proof.
  split; [apply builtin_root_ok; [lia|lia|]; apply fpow_ieee_ok; [lia|cbn; lia]|].
  split; [apply ret_is_true; vm_compute; reflexivity|].
  split; [intros (_ & K & _); specialize (Forall_inv K) as K2; vm_compute in K2; destruct K2 as [_ K2]; discriminate K2|].
  split; [vm_compute; reflexivity|]. split; [vm_compute; reflexivity|].
  split; [apply ret_is_true; vm_compute; reflexivity|]. split; [apply normal_b_sound; vm_compute; reflexivity|vm_compute; reflexivity].
Qed.
