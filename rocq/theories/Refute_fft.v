(** Refute_fft.v - where the FFT multiplication falls short of its claim: the read past the end of the
    limb array, and the lost last limb. Generic in the configuration and the floating-point type. *)
From Verif Require Export Fft_proofs Witness.
From Coq Require Import Lia ZifyBool Lqa.
Local Open Scope Z_scope.

(** The transform with exact arithmetic. *)
Definition exact_transform (L : limb_t) (u v : list Z) (k : nat) : Q :=
  (inject_Z (n_fft (length u) / 2) * inject_Z (convolution (half_limbs L u) (half_limbs L v) k))%Q.

Lemma exact_transform_ok L u v : Z.of_nat (length u) <= 2 ^ 29 -> transform_ok L (exact_transform L u v) u v.
Proof.
  intros Hl k _. unfold exact_transform.
  match goal with |- context [(?a - ?a)%Q] => setoid_replace (a - a)%Q with 0%Q by ring end.
  change (Qabs 0) with 0%Q. apply Qmult_le_0_compat; [|discriminate].
  change 0%Q with (inject_Z 0). rewrite <- Zle_Qle. pose proof (n_fft_pos (length u) Hl). apply Z.div_pos; lia.
Qed.

(** 2, 3 and 3 plus one unit in the last limb. *)
Definition f2 (c : cfg) : dec := mkDec (2 :: repeat 0 (nel c - 1)) 0 false (nel c).
Definition fu (c : cfg) (k l : Z) : dec := mkDec (k :: repeat 0 (nel c - 2) ++ [l]) 0 false (nel c).

(** 14320 decimal digits: 1793 limbs of 32 bits. *)
Definition c_fft : cfg := mkCfg U32 14320 E64.
Lemma c_fft_ok : cfg_ok c_fft /\ fft_ok c_fft 53.
Proof. split; [cfgok|]. vm_compute. repeat split; discriminate. Qed.

Section R.
Variable c : cfg.
Variable FP : Z.
Notation L := (c_limb c).
Notation B := (mask L).
Notation V := (limbs_value B).
Notation P n := (B ^ Z.of_nat n).
Notation n := (nel c).
Hypothesis Hc : cfg_ok c.
Hypothesis Hf : fft_ok c FP.

Lemma f2_facts : normal c (f2 c) /\ iszero (f2 c) = false /\ (value c (f2 c) == 2)%Q /\ V (data (f2 c)) = 2 * P (n - 1) /\
  isone_sign_neutral c (f2 c) = false.
Proof.
  pose proof (nel_ge4 c Hc) as Hn. pose proof (B_gt9 c) as HB. pose proof (mask_pos L) as HB0. pose proof (edc_pos c) as He.
  assert (Hl : length (data (f2 c)) = n) by (cbn [f2 data length]; rewrite repeat_length; lia).
  assert (HV : V (data (f2 c)) = 2 * P (n - 1)).
  { cbn [f2 data limbs_value]. rewrite limbs_value_repeat0, repeat_length. ring. }
  assert (Hn2 : normal c (f2 c)).
  { apply normal_intro; auto.
    - cbn [f2 data]. apply digits_ok_cons. split; [lia|]. apply digits_ok_repeat0; lia.
    - cbn [f2 data nth]. lia.
    - cbn [f2 dexp]. apply Z.divide_0_r.
    - cbn [f2 dexp]. pose proof (E_ge8 c). assert (0 < 2 ^ (ebits (c_expo c) - 1)) by (apply Z.pow_pos_nonneg; lia). lia. }
  assert (Hv : (value c (f2 c) == 2)%Q).
  { rewrite (value_low c _ Hl), HV. cbn [f2 dneg dexp sgn]. rewrite Bpow by lia. unfold low.
    rewrite Z.mul_1_l, inject_Z_mult, <- (p10_Z (edc c * Z.of_nat (n - 1))) by lia. rewrite <- Qmult_assoc, <- p10_add.
    replace (edc c * Z.of_nat (n - 1) + (0 - edc c * (Z.of_nat n - 1))) with 0 by lia. rewrite p10_0. reflexivity. }
  split; [auto|]. split; [reflexivity|]. split; [auto|]. split; [auto|].
  destruct (isone_sign_neutral c (f2 c)) eqn:Ei; auto. apply (isone_iff c Hc _ Hn2 eq_refl) in Ei.
  exfalso. destruct Ei as [Ei|Ei].
  - unfold is_one in Ei. rewrite Hv in Ei. discriminate.
  - unfold is_nines in Ei. rewrite Hv in Ei. pose proof (p10_pos (- (edc c * elem_number c))) as Hp.
    change (Qabs 2) with 2%Q in Ei. lra.
Qed.

Lemma fu_facts k l : 1 <= k < 10 -> 0 <= l < 10 -> (1 < k) ->
  normal c (fu c k l) /\ iszero (fu c k l) = false /\
  (value c (fu c k l) == inject_Z k + inject_Z l * p10 (- (edc c * (elem_number c - 1))))%Q /\
  V (data (fu c k l)) = k * P (n - 1) + l /\ isone_sign_neutral c (fu c k l) = false.
Proof.
  intros Hk Hl1 Hk1.
  pose proof (nel_ge4 c Hc) as Hn. pose proof (B_gt9 c) as HB. pose proof (mask_pos L) as HB0. pose proof (edc_pos c) as He.
  pose proof (nel_Z c Hc) as HZ.
  assert (Hl : length (data (fu c k l)) = n) by (cbn [fu data length]; rewrite app_length, repeat_length; cbn [length]; lia).
  assert (HV : V (data (fu c k l)) = k * P (n - 1) + l).
  { cbn [fu data limbs_value]. rewrite limbs_value_app, limbs_value_repeat0, app_length, repeat_length. cbn [limbs_value length].
    replace (n - 2 + 1)%nat with (n - 1)%nat by lia. change (Z.of_nat 0) with 0. rewrite Z.pow_0_r. ring. }
  assert (Hn2 : normal c (fu c k l)).
  { apply normal_intro; auto.
    - cbn [fu data]. apply digits_ok_cons. split; [lia|]. apply digits_ok_app. split; [apply digits_ok_repeat0; lia|].
      apply digits_ok_cons. split; [lia|constructor].
    - cbn [fu data nth]. lia.
    - cbn [fu dexp]. apply Z.divide_0_r.
    - cbn [fu dexp]. pose proof (E_ge8 c). assert (0 < 2 ^ (ebits (c_expo c) - 1)) by (apply Z.pow_pos_nonneg; lia). lia. }
  assert (Hv : (value c (fu c k l) == inject_Z k + inject_Z l * p10 (- (edc c * (elem_number c - 1))))%Q).
  { rewrite (value_low c _ Hl), HV. cbn [fu dneg dexp sgn]. rewrite Bpow by lia. unfold low.
    rewrite Z.mul_1_l, inject_Z_plus, inject_Z_mult, <- (p10_Z (edc c * Z.of_nat (n - 1))) by lia.
    rewrite Qmult_plus_distr_l, <- Qmult_assoc, <- p10_add.
    replace (edc c * Z.of_nat (n - 1) + (0 - edc c * (Z.of_nat n - 1))) with 0 by lia. rewrite p10_0, HZ.
    replace (0 - edc c * (elem_number c - 1)) with (- (edc c * (elem_number c - 1))) by ring. ring. }
  assert (Hi : isone_sign_neutral c (fu c k l) = false).
  { destruct (isone_sign_neutral c (fu c k l)) eqn:Ei; auto. apply (isone_iff c Hc) in Ei; [|auto|unfold iszero; cbn [fu data nth]; lia].
    exfalso. pose proof (p10_pos (- (edc c * elem_number c))) as Hp. pose proof (p10_pos (- (edc c * (elem_number c - 1)))) as Hp2.
    assert (Q1 : (2 <= inject_Z k)%Q) by (change 2%Q with (inject_Z 2); rewrite <- Zle_Qle; lia).
    assert (Q2 : (0 <= inject_Z l)%Q) by (change 0%Q with (inject_Z 0); rewrite <- Zle_Qle; lia).
    pose proof (Qmult_le_0_compat _ _ Q2 (Qlt_le_weak _ _ Hp2)) as Q3.
    assert (Q4 : (Qabs (value c (fu c k l)) == value c (fu c k l))%Q) by (apply Qabs_pos; rewrite Hv; lra).
    destruct Ei as [Ei|Ei]; [unfold is_one in Ei|unfold is_nines in Ei]; rewrite Q4, Hv in Ei; lra. }
  split; [auto|]. split; [unfold iszero; cbn [fu data nth]; lia|]. split; [auto|]. split; auto.
Qed.

Lemma small_expo : - max_exp10_of (c_expo c) < 0 + 0 < max_exp10_of (c_expo c).
Proof. pose proof (max_exp10_bounds c). lia. Qed.

(** Two single-limb integers whose product fits one limb: the leading product limb is zero, and the copy
    loop reads past the end of the array. *)
Lemma fft_overread af : transform_ok L af (data (f2 c)) (data (f2 c)) ->
  mul_fft c FP None af (f2 c) (f2 c) = None.
Proof.
  intros Ht. destruct f2_facts as (N2 & Z2 & V2 & D2 & O2).
  destruct (mul_fft_cases c FP Hc Hf af None _ _ N2 N2 Z2 Z2 O2 O2 small_expo Ht) as (R & HR & HS & [(_ & _ & ?)|(z & Ez & HL & _)]); [auto|].
  exfalso. destruct HL as [HL|HL]; [|congruence].
  pose proof (nel_ge4 c Hc) as Hn. pose proof (B_gt9 c) as HB. pose proof (mask_pos L) as HB0.
  rewrite D2 in HS. clear - HS HL Hn HB HB0.
  assert (HP : 0 < P (n - 1)) by (apply pow_pos_nat; lia).
  assert (Hp : P n = B * P (n - 1)) by (replace n with (S (n - 1)) at 1 by lia; apply pow_succ_nat).
  rewrite Hp in HS. clear Hp. set (p := P (n - 1)) in *. clearbody p.
  destruct HS as [HS _]. assert (p * (B * p) <= R * (B * p)) by (apply Z.mul_le_mono_nonneg_r; nia). nia.
Qed.

(** 2 times 3.00...01: the exact product 6.00...02 has no more limbs than the operands, but the last limb
    is lost, whatever the read past the end gives. *)
Lemma fft_last_limb af g : transform_ok L af (data (f2 c)) (data (fu c 3 1)) ->
  exists z, mul_fft c FP (Some g) af (f2 c) (fu c 3 1) = Some z /\ normal c (fu c 6 2) /\
    (value c (fu c 6 2) == value c (f2 c) * value c (fu c 3 1))%Q /\ (value c z < value c (fu c 6 2))%Q.
Proof.
  intros Ht. destruct f2_facts as (N2 & Z2 & V2 & D2 & O2).
  destruct (fu_facts 3 1 ltac:(lia) ltac:(lia) ltac:(lia)) as (N3 & Z3 & V3 & D3 & O3).
  destruct (fu_facts 6 2 ltac:(lia) ltac:(lia) ltac:(lia)) as (N6 & Z6 & V6 & D6 & O6).
  destruct (mul_fft_cases c FP Hc Hf af (Some g) _ _ N2 N3 Z2 Z3 O2 O3 small_expo Ht) as (R & HR & HS & [(_ & F & _)|(z & Ez & _ & Nz & Zz & Sz & Vz)]); [discriminate|].
  exists z. split; [auto|]. split; [auto|]. split; [rewrite V6, V2, V3; change (inject_Z 6) with 6%Q; change (inject_Z 3) with 3%Q;
    change (inject_Z 2) with 2%Q; change (inject_Z 1) with 1%Q; ring|].
  pose proof (nel_ge4 c Hc) as Hn. pose proof (B_gt9 c) as HB. pose proof (mask_pos L) as HB0. pose proof (edc_pos c) as He.
  assert (HR6 : R <= 6 * P (n - 2)).
  { rewrite D2, D3 in HS. clear - HS Hn HB HB0.
    assert (HP : 0 < P (n - 2)) by (apply pow_pos_nat; lia).
    assert (Hp : P n = B * P (n - 1)) by (replace n with (S (n - 1)) at 1 by lia; apply pow_succ_nat).
    assert (Hp1 : P (n - 1) = B * P (n - 2)) by (replace (n - 1)%nat with (S (n - 2)) at 1 by lia; apply pow_succ_nat).
    assert (HP1 : 0 < P (n - 1)) by (apply pow_pos_nat; lia).
    rewrite Hp in HS. destruct HS as [HS _]. set (q := P (n - 2)) in *. set (p := P (n - 1)) in *.
    assert (E1 : R * B * p <= (2 * (3 * p + 1)) * p) by lia. apply Z.mul_le_mono_pos_r in E1; auto.
    rewrite Hp1 in E1. clearbody p q. clear - E1 HB. assert (R * B < (6 * q + 1) * B) by nia. nia. }
  apply Qle_lt_trans with (Qabs (value c z)); [apply Qle_Qabs|]. rewrite Vz, V6.
  apply Qle_lt_trans with 6%Q.
  - apply Qle_trans with (inject_Z (6 * P (n - 2)) * p10 (low c (0 + 0 + edc c)))%Q.
    + cbn [f2 fu dexp]. apply Qmult_le_compat_r; [rewrite <- Zle_Qle; auto|apply Qlt_le_weak, p10_pos].
    + clear - He Hn. apply Qle_lteq. right. rewrite inject_Z_mult, Bpow by lia.
      assert (Hz : (inject_Z (10 ^ (ed L * Z.of_nat (n - 2))) == p10 (ed L * Z.of_nat (n - 2)))%Q) by (symmetry; apply p10_Z; apply Z.mul_nonneg_nonneg; unfold edc in He; lia).
      rewrite Hz. rewrite <- Qmult_assoc, <- p10_add. unfold low. fold (edc c).
      replace (edc c * Z.of_nat (n - 2) + (0 + 0 + edc c - edc c * (Z.of_nat n - 1))) with 0 by lia. rewrite p10_0. reflexivity.
  - pose proof (p10_pos (- (edc c * (elem_number c - 1)))) as Hp. change (inject_Z 6) with 6%Q. change (inject_Z 2) with 2%Q. lra.
Qed.
End R.

Lemma horner_fold h f k : horner h f k = fold_left (fun s i => h * s + f i) (seq 0 k) 0.
Proof.
  induction k as [|k IH]; [reflexivity|]. rewrite seq_S, fold_left_app. cbn [fold_left horner Nat.add]. rewrite IH. reflexivity.
Qed.

Lemma carry_release L P af u v : 8 <= P <= 64 -> digits_ok (mask L) u -> digits_ok (mask L) v ->
  length u = length v -> (1 <= length u)%nat -> Z.of_nat (length u) <= 2 ^ 29 ->
  2 * Z.of_nat (length u) * mask L < 2 ^ (P - 4) -> transform_ok L af u v ->
  let r := mul_loop_fft L P af (length u) in
  let W := mask L ^ Z.of_nat (length u) in
  length r = length u /\ digits_ok (mask L) r /\
  limbs_value (mask L) r * W <= limbs_value (mask L) u * limbs_value (mask L) v
    < (limbs_value (mask L) r + 2 * Z.of_nat (length u) * mask_half L) * W /\
  limbs_value (mask L) r = fold_left (fun s k => mask_half L * s + convolution (half_limbs L u) (half_limbs L v) k)
                             (seq 0 (2 * length u - 1)) 0.
Proof.
  intros HP Hu Hv Hl H1 H2 H3 H4. cbv zeta. destruct (mul_loop_fft_spec L P af u v HP Hu Hv Hl H1 H2 H3 H4) as (A & B & C & D).
  split; [auto|]. split; [auto|]. split; [auto|]. rewrite C, <- (horner_fold (mask_half L)). apply horner_ext. intros i _. symmetry. apply convolution_conv.
Qed.

Lemma carry_release_case :
  let u := [99; 99] in let af := exact_transform U8 u u in
  digits_ok (mask U8) u /\ 2 * Z.of_nat (length u) * mask U8 < 2 ^ (24 - 4) /\ transform_ok U8 af u u /\
  mul_loop_fft U8 24 af 2 = [99; 63].
Proof.
  split; [repeat constructor; cbn; lia|]. split; [reflexivity|]. split; [|vm_compute; reflexivity].
  apply exact_transform_ok. cbn. lia.
Qed.

Lemma product_accurate c FP af g x v : cfg_ok c -> fft_ok c FP -> normal c x -> normal c v ->
  iszero x = false -> iszero v = false ->
  ~ is_one c x -> ~ is_nines c x -> ~ is_one c v -> ~ is_nines c v ->
  - max_exp10_of (c_expo c) < dexp x + dexp v < max_exp10_of (c_expo c) ->
  transform_ok (c_limb c) af (data x) (data v) ->
  exists z, mul_fft c FP (Some g) af x v = Some z /\ normal c z /\ iszero z = false /\
    (0 <= value c x * value c v * value c z)%Q /\
    (Qabs (value c z) <= Qabs (value c x * value c v))%Q /\
    ((Qabs (value c x * value c v) - Qabs (value c z)) * inject_Z (mask_half (c_limb c))
      < Qabs (value c x * value c v) * (2 * inject_Z (elem_number c)) * p10 (- c_digits10 c))%Q.
Proof. intros. apply mul_fft_accurate; auto. Qed.

Lemma overread c FP : cfg_ok c -> fft_ok c FP -> exists x, normal c x /\ (value c x == 2)%Q /\
  forall af, transform_ok (c_limb c) af (data x) (data x) -> mul_fft c FP None af x x = None.
Proof.
  intros Hc Hf. exists (f2 c). destruct (f2_facts c Hc) as (A & _ & B & _). split; [auto|]. split; [auto|].
  intros af Ht. apply fft_overread; auto.
Qed.

Lemma last_limb c FP : cfg_ok c -> fft_ok c FP ->
  exists x v w, normal c x /\ normal c v /\ normal c w /\ (value c w == value c x * value c v)%Q /\
  forall af g, transform_ok (c_limb c) af (data x) (data v) ->
  exists z, mul_fft c FP (Some g) af x v = Some z /\ (value c z < value c w)%Q.
Proof.
  intros Hc Hf. exists (f2 c), (fu c 3 1), (fu c 6 2).
  destruct (f2_facts c Hc) as (A & _ & V2 & _).
  destruct (fu_facts c Hc 3 1 ltac:(lia) ltac:(lia) ltac:(lia)) as (N3 & _ & V3 & _).
  destruct (fu_facts c Hc 6 2 ltac:(lia) ltac:(lia) ltac:(lia)) as (N6 & _ & V6 & _).
  split; [auto|]. split; [auto|]. split; [auto|].
  split; [rewrite V6, V2, V3; change (inject_Z 6) with 6%Q; change (inject_Z 3) with 3%Q;
    change (inject_Z 2) with 2%Q; change (inject_Z 1) with 1%Q; ring|].
  intros af g Ht. destruct (fft_last_limb c FP Hc Hf af g Ht) as (z & E & _ & _ & H). exists z; auto.
Qed.

Lemma fft_case : cfg_ok c_fft /\ fft_ok c_fft 53 /\ normal c_fft (f2 c_fft) /\ normal c_fft (fu c_fft 3 1) /\
  ~ is_one c_fft (f2 c_fft) /\ ~ is_nines c_fft (f2 c_fft) /\ ~ is_one c_fft (fu c_fft 3 1) /\ ~ is_nines c_fft (fu c_fft 3 1) /\
  transform_ok (c_limb c_fft) (exact_transform U32 (data (f2 c_fft)) (data (fu c_fft 3 1))) (data (f2 c_fft)) (data (fu c_fft 3 1)).
Proof.
  destruct c_fft_ok as [Hc Hf]. split; [auto|]. split; [auto|].
  destruct (f2_facts c_fft Hc) as (N2 & Z2 & V2 & _ & O2).
  destruct (fu_facts c_fft Hc 3 1 ltac:(lia) ltac:(lia) ltac:(lia)) as (N3 & Z3 & V3 & _ & O3).
  split; [auto|]. split; [auto|].
  assert (G : forall x, normal c_fft x -> iszero x = false -> isone_sign_neutral c_fft x = false -> ~ is_one c_fft x /\ ~ is_nines c_fft x).
  { intros x Nx Zx Ox. assert (~ (is_one c_fft x \/ is_nines c_fft x)); [|tauto].
    intros H. apply (isone_iff c_fft Hc x Nx Zx) in H. congruence. }
  destruct (G _ N2 Z2 O2), (G _ N3 Z3 O3). repeat (split; [assumption|]). apply exact_transform_ok.
  destruct (normal_facts c_fft Hc _ N2) as (-> & _). vm_compute. discriminate.
Qed.
