(** Sqrt4_proofs.v - the square root as stated in Properties_Sqrt, and a case meeting the hypotheses. *)
From Verif Require Export Sqrt3_proofs Div_proofs Refute_func.
From Coq Require Import Lqa.
Local Open Scope Z_scope.

Lemma root_bracket (e r v : Q) : (0 < e)%Q -> (e <= 1 # 2)%Q -> (0 < v)%Q -> (0 < r)%Q -> (Qabs (r * r - v) <= e * v)%Q ->
  (forall t, 0 <= t -> t * t <= v -> t * (1 - e) <= r)%Q /\ (forall t, 0 <= t -> v <= t * t -> r <= t * (1 + e))%Q.
Proof.
  intros e0 e1 v0 r0 H. apply Qabs_Qle_condition in H. destruct H as [H1 H2].
  assert (EE : (0 <= e * e)%Q) by (apply Qmult_le_0_compat; lra).
  assert (EE1 : (e * e <= (1 # 2) * e)%Q) by (apply Qmult_le_compat_r; lra).
  split; intros t t0 Ht.
  - destruct (Qlt_le_dec r (t * (1 - e))) as [C|C]; [|exact C]. exfalso.
    assert (T : (0 < t * (1 - e))%Q) by lra.
    assert (K1 : (r * r < t * (1 - e) * (t * (1 - e)))%Q).
    { apply Qlt_trans with (t * (1 - e) * r)%Q; [apply Qmult_lt_compat_r; auto|].
      setoid_replace (t * (1 - e) * r)%Q with (r * (t * (1 - e)))%Q by ring. apply Qmult_lt_compat_r; auto. }
    assert (K2 : (t * t * ((1 - e) * (1 - e)) <= v * ((1 - e) * (1 - e)))%Q) by (apply Qmult_le_compat_r; [lra|apply Qmult_le_0_compat; lra]).
    assert (K3 : (e * e * v <= (1 # 2) * e * v)%Q) by (apply Qmult_le_compat_r; lra).
    assert (K4 : (0 < e * v)%Q) by (apply Qmult_lt_0_compat; auto).
    lra.
  - destruct (Qlt_le_dec (t * (1 + e)) r) as [C|C]; [|exact C]. exfalso.
    assert (T : (0 <= t * (1 + e))%Q) by (apply Qmult_le_0_compat; lra).
    assert (K1 : (t * (1 + e) * (t * (1 + e)) < r * r)%Q).
    { apply Qle_lt_trans with (r * (t * (1 + e)))%Q; [apply Qmult_le_compat_r; lra|].
      setoid_replace (r * (t * (1 + e)))%Q with (t * (1 + e) * r)%Q by ring. apply Qmult_lt_compat_r; auto. }
    assert (K2 : (v * ((1 + e) * (1 + e)) <= t * t * ((1 + e) * (1 + e)))%Q) by (apply Qmult_le_compat_r; [lra|apply Qmult_le_0_compat; lra]).
    assert (K3 : (0 <= e * e * v)%Q) by (apply Qmult_le_0_compat; lra).
    assert (K4 : (0 < e * v)%Q) by (apply Qmult_lt_0_compat; auto).
    lra.
Qed.

Lemma sqrt_accurate c F fsqrt mem v : cfg_ok c -> newton_ok c -> float_fits c F -> (digit_loops c F <= nel c)%nat ->
  fsqrt_ok (f_bits F) fsqrt -> memory_ok mem -> normal c v -> (0 < value c v)%Q ->
  - max_exp10_of (c_expo c) + edc c * (elem_number c + 8) < dexp v < max_exp10_of (c_expo c) - edc c * (elem_number c + 8) ->
  (is_one c v \/ is_nines c v \/ clear_of c (p10 (- (f_digits10 F - 1))) (value c v)) ->
  exists r, calculate_sqrt c F fsqrt mem v = Some r /\ normal c r /\ (0 < value c r)%Q /\
    (Qabs (value c r * value c r - value c v) <= 11 * p10 (- (c_digits10 c + 2 * edc c)) * value c v)%Q.
Proof.
  intros Hc Hk HF HJ Hsq Hm Nv Pv Rv Cv. set (eps := p10 (- (c_digits10 c + 2 * edc c))).
  assert (Ep : (0 < eps)%Q) by apply p10_pos.
  assert (Zv : iszero v = false).
  { destruct (iszero v) eqn:Z; auto. rewrite (value_zero c Hc v Nv Z) in Pv. lra. }
  pose proof (value_sign c Hc v Nv Zv) as VS.
  assert (Sv : dneg v = false) by (destruct (dneg v); [lra|reflexivity]).
  destruct (isone_sign_neutral c v) eqn:Iv.
  - exists v. unfold calculate_sqrt. rewrite Sv, Zv, Iv. cbn [negb andb]. split; [reflexivity|]. split; [exact Nv|]. split; [exact Pv|].
    apply (proj1 (isone_iff c Hc v Nv Zv)) in Iv. unfold is_one, is_nines in Iv. rewrite Qabs_pos in Iv by lra.
    assert (Em : (p10 (- (edc c * elem_number c)) <= eps)%Q).
    { eapply Qle_trans; [|apply (eta_n_eps c Hc)]. unfold eta. apply (proj2 (p10_le _ _)). pose proof (edc_pos c). pose proof (nel_Z c Hc). lia. }
    pose proof (p10_pos (- (edc c * elem_number c))) as Em0.
    setoid_replace (value c v * value c v - value c v)%Q with ((value c v - 1) * value c v)%Q by ring.
    rewrite Qabs_Qmult, (Qabs_pos (value c v)) by lra. apply Qmult_le_compat_r; [|lra].
    apply Qabs_Qle_condition. destruct Iv as [I|I]; rewrite I; split; lra.
  - destruct Cv as [C|[C|C]];
      [rewrite (proj2 (isone_iff c Hc v Nv Zv) (or_introl C)) in Iv; discriminate|
       rewrite (proj2 (isone_iff c Hc v Nv Zv) (or_intror C)) in Iv; discriminate|].
    destruct (sqrt_spec c F fsqrt Hc HF HJ Hk Hsq mem v Hm Nv Zv Sv Iv Rv C) as (r & R1 & R2 & R3 & R4 & R5).
    exists r. split; [exact R1|]. split; [exact R2|].
    pose proof (value_sign c Hc r R2 R4) as VR. rewrite R3 in VR. split; [exact VR|].
    eapply Qle_trans; [exact R5|]. apply Qmult_le_compat_r; [|lra]. pose proof (eta_n_eps c Hc). unfold eps. lra.
Qed.

Lemma sqrt_bracket c F fsqrt mem v : cfg_ok c -> newton_ok c -> float_fits c F -> (digit_loops c F <= nel c)%nat ->
  fsqrt_ok (f_bits F) fsqrt -> memory_ok mem -> normal c v -> (0 < value c v)%Q ->
  - max_exp10_of (c_expo c) + edc c * (elem_number c + 8) < dexp v < max_exp10_of (c_expo c) - edc c * (elem_number c + 8) ->
  (is_one c v \/ is_nines c v \/ clear_of c (p10 (- (f_digits10 F - 1))) (value c v)) ->
  exists r, calculate_sqrt c F fsqrt mem v = Some r /\ normal c r /\
    (forall t, 0 <= t -> t * t <= value c v -> t * (1 - 11 * p10 (- (c_digits10 c + 2 * edc c))) <= value c r)%Q /\
    (forall t, 0 <= t -> value c v <= t * t -> value c r <= t * (1 + 11 * p10 (- (c_digits10 c + 2 * edc c))))%Q.
Proof.
  intros Hc Hk HF HJ Hsq Hm Nv Pv Rv Cv.
  destruct (sqrt_accurate c F fsqrt mem v Hc Hk HF HJ Hsq Hm Nv Pv Rv Cv) as (r & R1 & R2 & R3 & R4).
  exists r. split; [exact R1|]. split; [exact R2|].
  apply root_bracket; auto.
  - apply Qmult_lt_0_compat; [reflexivity|apply p10_pos].
  - assert (K : (p10 (- (c_digits10 c + 2 * edc c)) <= p10 (-5))%Q).
    { apply (proj2 (p10_le _ _)). pose proof (edc_pos c). destruct Hc. lia. }
    change (p10 (-5)) with (1 # 100000)%Q in K. lra.
Qed.

Lemma sqrt_special c F fsqrt mem v : cfg_ok c -> normal c v ->
  (dneg v = true -> calculate_sqrt c F fsqrt mem v = Some (zero c)) /\
  (dneg v = false -> iszero v = true -> calculate_sqrt c F fsqrt mem v = Some v) /\
  ((value c v == 1)%Q -> calculate_sqrt c F fsqrt mem v = Some v).
Proof.
  intros Hc Nv. unfold calculate_sqrt. repeat split.
  - intros ->. reflexivity.
  - intros -> ->. reflexivity.
  - intros V. assert (Zv : iszero v = false).
    { destruct (iszero v) eqn:Z; auto. rewrite (value_zero c Hc v Nv Z) in V. discriminate. }
    pose proof (value_sign c Hc v Nv Zv) as VS.
    destruct (dneg v); [lra|]. rewrite Zv.
    rewrite (proj2 (isone_iff c Hc v Nv Zv)); [reflexivity|]. left. unfold is_one. rewrite V. reflexivity.
Qed.

(** 12345678.9 is far from the excluded radicands. *)
Lemma xa_clear : clear_of c50 (p10 (- (f_digits10 f_double - 1))) (value c50 xa).
Proof.
  intros k Hk. change (edc c50) with 8 in Hk. destruct Hk as [j ->].
  assert (VX : (value c50 xa == 123456789 # 10)%Q) by (vm_compute; reflexivity).
  change (p10 (- (f_digits10 f_double - 1))) with (1 # 100000000000000)%Q. rewrite VX.
  pose proof (p10_pos (2 * (j * 8))) as P0.
  destruct (Z_le_gt_dec j 0) as [J|J].
  - assert (K : (p10 (2 * (j * 8)) <= p10 0)%Q) by (apply (proj2 (p10_le _ _)); lia). change (p10 0) with 1%Q in K.
    rewrite !Qabs_pos by lra. split; lra.
  - assert (K : (p10 16 <= p10 (2 * (j * 8)))%Q) by (apply (proj2 (p10_le _ _)); lia). change (p10 16) with 10000000000000000%Q in K.
    rewrite !Qabs_neg by lra. split; lra.
Qed.

Lemma sqrt_case : cfg_ok c50 /\ newton_ok c50 /\ float_fits c50 f_double /\ (digit_loops c50 f_double <= nel c50)%nat /\
  fsqrt_ok (f_bits f_double) (fsqrt_ieee (f_bits f_double)) /\ memory_ok mem0 /\ normal c50 xa /\ (0 < value c50 xa)%Q /\
  - max_exp10_of (c_expo c50) + edc c50 * (elem_number c50 + 8) < dexp xa < max_exp10_of (c_expo c50) - edc c50 * (elem_number c50 + 8) /\
  clear_of c50 (p10 (- (f_digits10 f_double - 1))) (value c50 xa).
Proof.
  destruct func_case as (H1 & H2 & H3 & H4 & H5 & H6 & _). repeat (split; [assumption|]).
  split; [apply fsqrt_ieee_ok; vm_compute; discriminate|]. split; [assumption|]. split; [assumption|].
  split; [vm_compute; reflexivity|]. split; [vm_compute; split; reflexivity|]. apply xa_clear.
Qed.

(** The square root of a perfect square need not be exact: one unit of the last limb too large for
    12345^2 and 1000^2 with 50 digits. *)
Lemma sqrt_not_exact : forall k, k = 12345 \/ k = 1000 -> exists r,
  calculate_sqrt c50 f_double (fsqrt_ieee (f_bits f_double)) mem0 (from_ull c50 (k * k)) = Some r /\
  normal c50 (from_ull c50 (k * k)) /\ (value c50 (from_ull c50 (k * k)) == inject_Z (k * k))%Q /\ normal c50 r /\
  (value c50 r == inject_Z k + p10 (- 72))%Q.
Proof.
  intros k [-> | ->]; eexists; (split; [vm_compute; reflexivity|]);
    (split; [apply normal_b_sound; vm_compute; reflexivity|]); (split; [vm_compute; reflexivity|]);
    (split; [apply normal_b_sound; vm_compute; reflexivity|]); vm_compute; reflexivity.
Qed.
