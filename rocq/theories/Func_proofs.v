(** Func_proofs.v - the reciprocal, division and power lemmas restated on values only. *)
From Verif Require Export Refute_func.
From Coq Require Import Lqa.
Local Open Scope Z_scope.

Lemma base_power_value c v : cfg_ok c -> normal c v -> limbs_value (mask (c_limb c)) (data v) = mask (c_limb c) ^ Z.of_nat (nel c - 1) ->
  (Qabs (value c v) == p10 (dexp v))%Q.
Proof.
  intros Hc Hv H. destruct (normal_facts c Hc v Hv) as (Lv & _). rewrite value_low by auto. rewrite sc_abs.
  pose proof (mask_pos (c_limb c)) as HB. pose proof (pow_pos_nat (mask (c_limb c)) (nel c - 1) HB) as HP. pose proof (nel_ge4 c Hc) as Hn.
  pose proof (edc_pos c) as He.
  rewrite sgn_abs by lia. rewrite H. rewrite (p10_scale (dexp v) (low c (dexp v))) by (unfold low; nia).
  apply sc_eq. rewrite Bpow by lia. f_equal. unfold low, edc. lia.
Qed.

Lemma inv_accurate c F mem v : cfg_ok c -> newton_ok c -> float_fits c F -> (digit_loops c F <= nel c)%nat -> memory_ok mem ->
  normal c v -> iszero v = false -> - max_exp10_of (c_expo c) < dexp v < max_exp10_of (c_expo c) - 3 * edc c ->
  exists r, calculate_inv c F mem v = Some r /\ dneg r = dneg v /\
    (Qabs (value c r - 1 / value c v) <= 7 * p10 (- (c_digits10 c + 2 * edc c)) * Qabs (1 / value c v))%Q /\
    (~ (Qabs (value c v) == p10 (dexp v))%Q -> normal c r).
Proof.
  intros Hc Hk HF HJ Hm Hv Zv Rv. destruct (inv_spec c F Hc HF HJ Hk mem v Hm Hv Zv Rv) as (r & E1 & S & W & Sh & Acc & _).
  exists r. split; [auto|]. split; [auto|]. split.
  - pose proof (eta_n_eps c Hc) as Et. pose proof (value_nonzero c Hc v Hv Zv) as Nv.
    assert (Sp : (value c r - 1 / value c v == - ((1 - value c r * value c v) * (1 / value c v)))%Q) by (field; auto).
    rewrite Sp, Qabs_opp, Qabs_Qmult. apply Qmult_le_compat_r; [|apply Qabs_nonneg]. lra.
  - intros Np. destruct Sh as [N|(_ & _ & _ & K)]; auto. destruct Np. apply base_power_value; auto.
Qed.

Lemma div_accurate c F mem x v : cfg_ok c -> newton_ok c -> float_fits c F -> (digit_loops c F <= nel c)%nat -> memory_ok mem ->
  normal c x -> normal c v -> iszero x = false -> iszero v = false ->
  - max_exp10_of (c_expo c) < dexp v < max_exp10_of (c_expo c) - 3 * edc c ->
  - max_exp10_of (c_expo c) + 2 * edc c < dexp x - dexp v < max_exp10_of (c_expo c) ->
  exists z, divide c F mem x v = Some z /\ dneg z = xorb (dneg x) (dneg v) /\
    (Qabs (value c z - value c x / value c v) <= 9 * p10 (- (c_digits10 c + 2 * edc c)) * Qabs (value c x / value c v))%Q /\
    ((~ is_one c x /\ ~ is_nines c x) \/ ~ (Qabs (value c v) == p10 (dexp v))%Q -> normal c z).
Proof.
  intros Hc Hk HF HJ Hm Hx Hv Zx Zv Rv Rx. destruct (div_spec c Hc Hk F HF HJ mem x v Hm Hx Hv Zx Zv Rv Rx) as (z & E1 & S & _ & Acc & Sh).
  exists z. split; [auto|]. split; [auto|]. split; [exact Acc|].
  intros Np. destruct Sh as [N|(O & K & _)]; auto. exfalso. destruct Np as [[N1 N2]|Np].
  - apply (isone_iff c Hc x Hx Zx) in O. destruct O; auto.
  - apply Np. apply base_power_value; auto.
Qed.

Lemma div_int_signed c F mem x k : cfg_ok c -> newton_ok c -> float_fits c F -> (digit_loops c F <= nel c)%nat -> memory_ok mem ->
  normal c x -> iszero x = false -> - 2 ^ 63 <= k < 2 ^ 63 -> k <> 0 -> Z.abs k < 10 ^ (edc c * elem_number c) ->
  - max_exp10_of (c_expo c) + 36 <= dexp x < max_exp10_of (c_expo c) ->
  exists z, div_signed c F mem x k = Some z /\
    (Qabs (value c z - value c x / inject_Z k) <= 2 * p10 (- c_digits10 c) * Qabs (value c x / inject_Z k))%Q.
Proof.
  intros Hc Hk HF HJ Hm Hx Zx Hr H0 Hf Rx. destruct (div_any_signed c F Hc Hk HF HJ mem x k Hm Hx Zx Hr H0 Hf Rx) as (z & E1 & _ & Acc). eauto.
Qed.
Lemma div_int_unsigned c F mem x u : cfg_ok c -> newton_ok c -> float_fits c F -> (digit_loops c F <= nel c)%nat -> memory_ok mem ->
  normal c x -> iszero x = false -> 1 <= u < 2 ^ 64 -> u < 10 ^ (edc c * elem_number c) ->
  - max_exp10_of (c_expo c) + 36 <= dexp x < max_exp10_of (c_expo c) ->
  exists z, div_unsigned c F mem x u = Some z /\
    (Qabs (value c z - value c x / inject_Z u) <= 2 * p10 (- c_digits10 c) * Qabs (value c x / inject_Z u))%Q.
Proof.
  intros Hc Hk HF HJ Hm Hx Zx Hr Hf Rx. destruct (div_any_unsigned c F Hc Hk HF HJ mem x u Hm Hx Zx Hr Hf Rx) as (z & E1 & _ & Acc). eauto.
Qed.

Lemma div_self_both c F mem x : cfg_ok c -> normal c x -> iszero x = false ->
  divide c F mem x x = Some (one c) /\ divide c F mem x (negate x) = Some (negate (one c)) /\
  (value c (one c) == 1)%Q /\ (value c (negate (one c)) == -(1))%Q.
Proof.
  intros Hc Hx Zx. split; [apply div_self|]. split; [apply div_neg_self; auto|].
  destruct (max_min_values c Hc) as (_ & _ & _ & V1 & _). split; [auto|]. rewrite value_negate by (auto; apply one_normal; auto). rewrite V1. reflexivity.
Qed.

Lemma pow_pos_accurate c F mem b p : cfg_ok c -> newton_ok c -> memory_ok mem -> normal c b -> iszero b = false -> 1 <= p < 2 ^ 63 ->
  (inject_Z (4 * p) * p10 (- (c_digits10 c + 2 * edc c)) <= 1)%Q ->
  (p10 (- max_exp10_of (c_expo c) + 2 * edc c + 2) <= Qabs (value c b ^ p))%Q ->
  (Qabs (value c b ^ p) <= p10 (max_exp10_of (c_expo c) - 1))%Q ->
  exists z, pow_int c F mem b p = Some z /\ normal c z /\
    (Qabs (value c z - value c b ^ p) <= inject_Z (2 * (p - 1)) * p10 (- (c_digits10 c + 2 * edc c)) * Qabs (value c b ^ p))%Q.
Proof.
  intros Hc Hk Hm Hb Zb Hp Hs Hlo Hhi. unfold pow_int. replace (p <? 0) with false by lia.
  destruct (pow_accurate c Hc Hk mem Hm b Hb Zb p) as (z & E1 & N & _ & Acc); auto; try lia. eauto.
Qed.
Lemma pow_neg_acc c F mem b p : cfg_ok c -> newton_ok c -> float_fits c F -> (digit_loops c F <= nel c)%nat -> memory_ok mem ->
  normal c b -> iszero b = false -> - 2 ^ 63 < p < 0 ->
  (inject_Z (4 * - p) * p10 (- (c_digits10 c + 2 * edc c)) <= 1)%Q ->
  (p10 (- max_exp10_of (c_expo c) + 2 * edc c + 2) <= Qabs (value c b ^ (- p)))%Q ->
  (Qabs (value c b ^ (- p)) <= p10 (max_exp10_of (c_expo c) - 4 * edc c - 1))%Q ->
  exists z, pow_int c F mem b p = Some z /\
    (Qabs (value c z - value c b ^ p) <= inject_Z (7 - 5 * p) * p10 (- (c_digits10 c + 2 * edc c)) * Qabs (value c b ^ p))%Q.
Proof.
  intros Hc Hk HF HJ Hm Hb Zb Hp Hs Hlo Hhi.
  destruct (pow_neg_accurate c F Hc HF HJ Hk mem b p Hm Hb Zb Hp Hs Hlo Hhi) as (z & E1 & _ & Acc). eauto.
Qed.
Lemma pow_int_exact c F mem b p k : cfg_ok c -> mul_ok c -> memory_ok mem -> normal c b -> iszero b = false -> 0 <= p < 2 ^ 63 ->
  (value c b == inject_Z k)%Q -> Z.abs (k ^ p) < 10 ^ int_digits c ->
  exists z, pow_int c F mem b p = Some z /\ normal c z /\ (value c z == inject_Z (k ^ p))%Q.
Proof.
  intros Hc Hk Hm Hb Zb Hp Hv Hfit. unfold pow_int. replace (p <? 0) with false by lia. apply pow_exact; auto.
Qed.
Lemma pow_zero_one c F mem b : cfg_ok c -> mul_ok c -> memory_ok mem -> normal c b ->
  pow_int c F mem b 0 = Some (one c) /\ pow_int c F mem b 1 = Some b /\
  (iszero b = true -> - max_exp10_of (c_expo c) < dexp b < max_exp10_of (c_expo c) -> forall p, 1 <= p < 2 ^ 63 ->
     exists z, pow_int c F mem b p = Some z /\ (value c z == 0)%Q).
Proof.
  intros Hc Hk Hm Hb. unfold pow_int, pow_nonneg. cbn [Z.ltb Z.compare Z.eqb Pos.eqb]. rewrite small_one by auto.
  split; [reflexivity|]. split; [reflexivity|]. intros Zb Rb p Hp. replace (p <? 0) with false by lia.
  destruct (pow_zero_base c Hc Hk mem Hm b Hb p Zb Rb Hp) as (z & E1 & _ & V0). unfold pow_nonneg in E1. rewrite small_one in E1 by auto. eauto.
Qed.
Lemma pow_int_total c F mem b p : cfg_ok c -> newton_ok c -> memory_ok mem -> normal c b -> 0 <= p < 2 ^ 63 ->
  exists z, pow_int c F mem b p = Some z /\ normal c z.
Proof.
  intros Hc Hk Hm Hb Hp. unfold pow_int. replace (p <? 0) with false by lia. apply pow_nonneg_total; auto.
Qed.
