(** Mono3_proofs.v - division is monotone in the dividend away from dividends equal to the divisor;
    the failing cases. *)
From Verif Require Export Mono2_proofs Func_proofs Refute_func Refute_exp.
From Coq Require Import Lqa.
Local Open Scope Z_scope.

Section DM.
Variable c : cfg.
Variable F : ftype.
Notation n := (nel c).
Notation M := (max_exp10_of (c_expo c)).
Hypothesis Hc : cfg_ok c.
Hypothesis Hk : newton_ok c.
Hypothesis HF : float_fits c F.
Hypothesis HJ : (digit_loops c F <= nel c)%nat.

Lemma eta_tenth : (7 * eta c n <= 1 # 10)%Q.
Proof using Hc.
  destruct (eta_n c Hc) as [_ H]. lra.
Qed.

(** Exponent of the reciprocal of a divisor that is not a power of the limb base. *)
Lemma inv_exp z r : normal c z -> iszero z = false -> normal c r -> iszero r = false ->
  (Qabs (1 - value c r * value c z) <= 7 * eta c n)%Q -> - dexp z - 2 * edc c <= dexp r <= - dexp z.
Proof using Hc.
  clear HJ HF Hk F. intros Nz Zz Nr Zr H. pose proof eta_tenth as T.
  destruct (value_bracket c Hc z Nz Zz) as [A1 A2]. destruct (value_bracket c Hc r Nr Zr) as [B1 B2].
  assert (H2 : (9 # 10 <= Qabs (value c r) * Qabs (value c z))%Q /\ (Qabs (value c r) * Qabs (value c z) <= 11 # 10)%Q).
  { rewrite <- Qabs_Qmult. set (q := (value c r * value c z)%Q) in *. assert (K : (Qabs (1 - q) <= 1 # 10)%Q) by lra.
    apply Qabs_Qle_condition in K. rewrite Qabs_pos by lra. lra. }
  destruct H2 as [H2 H3]. set (a := Qabs (value c z)) in *. set (b := Qabs (value c r)) in *.
  pose proof (p10_pos (dexp z)) as P1. pose proof (p10_pos (dexp r)) as P2.
  destruct (normal_exp c z Nz) as [k1 K1]. destruct (normal_exp c r Nr) as [k2 K2]. pose proof (edc_pos c) as He.
  split.
  - assert (X : (p10 (-1) < p10 (dexp r + dexp z + 2 * edc c))%Q).
    { assert (Y : (p10 (-1) == 1 # 10)%Q) by reflexivity. rewrite Y.
      setoid_replace (p10 (dexp r + dexp z + 2 * edc c))%Q with (p10 (dexp r + edc c) * p10 (dexp z + edc c))%Q by (rewrite <- p10_add; replace (dexp r + edc c + (dexp z + edc c)) with (dexp r + dexp z + 2 * edc c) by lia; reflexivity).
      eapply Qlt_le_trans with (9 # 10)%Q; [reflexivity|]. eapply Qle_trans; [exact H2|].
      apply Qle_trans with (b * p10 (dexp z + edc c))%Q.
      - apply Qmult_le_l; lra.
      - apply Qmult_le_compat_r; lra. }
    apply (proj1 (p10_lt _ _)) in X. lia.
  - assert (X : (p10 (dexp r + dexp z) < p10 1)%Q).
    { assert (Y : (p10 1 == 10)%Q) by reflexivity. rewrite Y, p10_add.
      apply Qle_lt_trans with (b * a)%Q; [|lra].
      apply Qle_trans with (b * p10 (dexp z))%Q.
      - apply Qmult_le_compat_r; lra.
      - apply Qmult_le_l; lra. }
    apply (proj1 (p10_lt _ _)) in X. rewrite K1, K2 in *. clear - X He. 
    assert (k2 + k1 < 1) by nia. nia.
Qed.

Theorem div_mono mem x y z : memory_ok mem -> normal c x -> normal c y -> normal c z -> iszero z = false ->
  - M < dexp z < M - 3 * edc c -> ~ (Qabs (value c z) == p10 (dexp z))%Q ->
  - M + 2 * edc c < dexp x - dexp z < M -> - M + 2 * edc c < dexp y - dexp z < M ->
  ~ (Qabs (value c x) == Qabs (value c z))%Q -> ~ (Qabs (value c y) == Qabs (value c z))%Q ->
  (value c x <= value c y)%Q ->
  exists a b, divide c F mem x z = Some a /\ divide c F mem y z = Some b /\ normal c a /\ normal c b /\
    ((0 < value c z)%Q -> (value c a <= value c b)%Q) /\ ((value c z < 0)%Q -> (value c b <= value c a)%Q).
Proof using Hc Hk HF HJ.
  intros Hm Nx Ny Nz Zz Rz Pz Rx Ry Dx Dy H.
  assert (Hl : memory_ok (later mem 1)) by (intros i w; apply Hm).
  destruct (inv_spec c F Hc HF HJ Hk (later mem 1) z Hl Nz Zz Rz) as (r & R1 & R2 & R3 & R4 & R5 & R6).
  assert (Nr : normal c r).
  { destruct R4 as [N|(_ & _ & _ & K)]; auto. exfalso. apply Pz. apply base_power_value; auto. }
  assert (Zr : iszero r = false). { destruct R3 as (_ & _ & R3 & _). unfold iszero. lia. }
  destruct (inv_exp z r Nz Zz Nr Zr R5) as [I1 I2].
  assert (Un : forall w, normal c w -> ~ (Qabs (value c w) == Qabs (value c z))%Q ->
     divide c F mem w z = mul c (fst (mem 0%nat n)) (snd (mem 0%nat n)) w r).
  { intros w Nw Dw. unfold divide, div. destruct (normal_facts c Hc w Nw) as (Lw & _ & Pw & _). destruct (normal_facts c Hc z Nz) as (Lz & _ & Pz2 & _).
    rewrite Pw, Pz2, Nat.min_id.
    replace ((dexp w =? dexp z) && (compare_ranges (data w) (data z) =? 0)) with false; [rewrite R1; reflexivity|].
    symmetry. apply Bool.not_true_is_false. intros K. apply andb_prop in K. destruct K as [K1 K2]. apply (compare_eq_data c Hc w z Nw Nz) in K2.
    apply Dw. rewrite !value_low by auto. rewrite !sc_abs. rewrite K2. replace (dexp w) with (dexp z) by lia.
    destruct (dneg w), (dneg z); cbn [sgn]; rewrite !Z.abs_mul; reflexivity. }
  rewrite (Un x Nx Dx), (Un y Ny Dy).
  assert (Hp : pool_ok c (fst (mem 0%nat n)) (snd (mem 0%nat n))) by (apply memory_pool; auto).
  destruct (mul_mono c Hc (fst (mem 0%nat n)) (snd (mem 0%nat n)) (fst (mem 0%nat n)) (snd (mem 0%nat n)) x y r) as (a & b & A1 & A2 & A3 & A4 & A5 & A6); auto; try lia.
  { apply newton_mul_ok; auto. }
  exists a, b. split; [exact A1|]. split; [exact A2|]. split; [exact A3|]. split; [exact A4|].
  pose proof (value_sign c Hc z Nz Zz) as Sz. pose proof (value_sign c Hc r Nr Zr) as Sr. rewrite R2 in Sr.
  destruct (dneg z); split; intros Z; try (apply A5; lra); try (apply A6; lra); lra.
Qed.
End DM.

(** ** Failing cases *)
Definition v59 := mkx c50 false 0 [12345].
Definition x59 := mkx c50 false 0 [12345; 0; 0; 0; 0; 0; 0; 0; 0; 1].
Definition q59 := mkx c50 false (-8) [99999999; 99999999; 99999999; 99999999; 99999999; 99999999; 99999999; 99999999; 99999999; 99997875].
Lemma div_not_mono : normal c50 v59 /\ normal c50 x59 /\ op_lt v59 x59 = true /\
  divide c50 f_double mem0 v59 v59 = Some (one c50) /\ divide c50 f_double mem0 x59 v59 = Some q59 /\
  op_lt q59 (one c50) = true.
Proof.
  split; [apply normal_b_sound; vm_compute; reflexivity|]. split; [apply normal_b_sound; vm_compute; reflexivity|].
  split; [vm_compute; reflexivity|]. split; [apply div_self|]. split; [apply dec_is_true; vm_compute; reflexivity|vm_compute; reflexivity].
Qed.

Definition big59 := mkx c50 false (2 ^ 58) [99999999].
Definition lo59 := mkx c50 false (2 ^ 58 - 8) [99999999].
Definition hi59 := mkx c50 false (2 ^ 58) [1].
Definition p59 := mkx c50 false (2 ^ 59) [99999998; 1].
Lemma mul_not_mono : normal c50 lo59 /\ normal c50 hi59 /\ normal c50 big59 /\ op_lt lo59 hi59 = true /\
  mul c50 (junk_r c50) (junk_t c50) lo59 big59 = Some p59 /\
  mul c50 (junk_r c50) (junk_t c50) hi59 big59 = Some (value_max c50) /\ op_lt (value_max c50) p59 = true.
Proof.
  split; [apply normal_b_sound; vm_compute; reflexivity|]. split; [apply normal_b_sound; vm_compute; reflexivity|].
  split; [apply normal_b_sound; vm_compute; reflexivity|]. split; [vm_compute; reflexivity|].
  split; [apply dec_is_true; vm_compute; reflexivity|]. split; [apply dec_is_true; vm_compute; reflexivity|vm_compute; reflexivity].
Qed.

Lemma mono_case : cfg_ok c50 /\ newton_ok c50 /\ mul_ok c50 /\ float_fits c50 f_double /\ (digit_loops c50 f_double <= nel c50)%nat /\ memory_ok mem0 /\
  pool_ok c50 (junk_r c50) (junk_t c50) /\
  normal c50 xb /\ normal c50 xa /\ normal c50 xn /\ (value c50 xb < value c50 xa)%Q /\ (value c50 xn < 0)%Q /\ dexp xb <> dexp xa /\
  exp_safe c50 (Z.max (dexp xb) (dexp xn)) /\ exp_safe c50 (Z.max (dexp xa) (dexp xn)) /\
  - max_exp10_of (c_expo c50) < dexp xb + dexp xn < max_exp10_of (c_expo c50) /\
  - max_exp10_of (c_expo c50) < dexp xa + dexp xn < max_exp10_of (c_expo c50) /\
  - max_exp10_of (c_expo c50) < dexp xn < max_exp10_of (c_expo c50) - 3 * edc c50 /\ ~ (Qabs (value c50 xn) == p10 (dexp xn))%Q /\
  - max_exp10_of (c_expo c50) + 2 * edc c50 < dexp xb - dexp xn < max_exp10_of (c_expo c50) /\
  - max_exp10_of (c_expo c50) + 2 * edc c50 < dexp xa - dexp xn < max_exp10_of (c_expo c50) /\
  ~ (Qabs (value c50 xb) == Qabs (value c50 xn))%Q /\ ~ (Qabs (value c50 xa) == Qabs (value c50 xn))%Q.
Proof.
  destruct func_case as (H1 & H2 & H3 & H4 & H5 & H6 & _). 
  split; [exact H1|]. split; [exact H2|]. split; [apply newton_mul_ok; auto|]. split; [exact H3|]. split; [exact H4|]. split; [exact H5|].
  split; [split; reflexivity|]. split; [exact xb_normal|]. split; [exact xa_normal|]. split; [exact xn_normal|].
  split; [vm_compute; reflexivity|]. split; [vm_compute; reflexivity|]. split; [discriminate|].
  split; [split; [vm_compute; discriminate|vm_compute; reflexivity]|]. split; [split; [vm_compute; discriminate|vm_compute; reflexivity]|].
  split; [vm_compute; auto|]. split; [vm_compute; auto|]. split; [vm_compute; auto|].
  split; [vm_compute; discriminate|]. split; [vm_compute; auto|]. split; [vm_compute; auto|].
  split; vm_compute; discriminate.
Qed.
