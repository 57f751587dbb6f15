(** Properties_Mono.v - monotonicity of the arithmetic operators. *)
From Verif Require Import Mono3_proofs Indep2_proofs.
Local Open Scope Z_scope.

(** C59. Rounded addition, subtraction and multiplication keep (or, for a negative factor, reverse) the order
    of their operands, as long as exponents stay inside the exponent type. *)
Theorem C59_addition_monotone : forall c x y z, cfg_ok c -> normal c x -> normal c y -> normal c z ->
  exp_safe c (Z.max (dexp x) (dexp z)) -> exp_safe c (Z.max (dexp y) (dexp z)) ->
  (value c x <= value c y)%Q ->
  (value c (add c x z) <= value c (add c y z))%Q /\ (value c (add c z x) <= value c (add c z y))%Q.
Proof. exact (fun c x y z Hc => add_mono_both c Hc x y z). Qed.
Print Assumptions C59_addition_monotone.

Theorem C59_subtraction_monotone : forall c x y z, cfg_ok c -> normal c x -> normal c y -> normal c z ->
  exp_safe c (Z.max (dexp x) (dexp z)) -> exp_safe c (Z.max (dexp y) (dexp z)) ->
  (value c x <= value c y)%Q ->
  (value c (sub c x z) <= value c (sub c y z))%Q /\ (value c (sub c z y) <= value c (sub c z x))%Q.
Proof. exact (fun c x y z Hc => sub_mono c Hc x y z). Qed.
Print Assumptions C59_subtraction_monotone.

(** The two products may find different contents in their working memory. Zeros, ones and 0.99...9 included. *)
Theorem C59_multiplication_monotone : forall c rm1 sc1 rm2 sc2 x y z, cfg_ok c -> mul_ok c ->
  pool_ok c rm1 sc1 -> pool_ok c rm2 sc2 -> normal c x -> normal c y -> normal c z ->
  - max_exp10_of (c_expo c) < dexp z < max_exp10_of (c_expo c) ->
  - max_exp10_of (c_expo c) < dexp x + dexp z < max_exp10_of (c_expo c) ->
  - max_exp10_of (c_expo c) < dexp y + dexp z < max_exp10_of (c_expo c) ->
  (value c x <= value c y)%Q ->
  exists a b, mul c rm1 sc1 x z = Some a /\ mul c rm2 sc2 y z = Some b /\ normal c a /\ normal c b /\
    ((0 <= value c z)%Q -> (value c a <= value c b)%Q) /\ ((value c z <= 0)%Q -> (value c b <= value c a)%Q).
Proof. exact (fun c rm1 sc1 rm2 sc2 x y z Hc => mul_mono c Hc rm1 sc1 rm2 sc2 x y z). Qed.
Print Assumptions C59_multiplication_monotone.

(** Across the overflow threshold the order is lost: the product of the smaller number is 9.99..*10^(M+7), that of
    the larger one saturates to max() = 9*10^M. *)
Theorem C59_saturation_refuted : normal c50 lo59 /\ normal c50 hi59 /\ normal c50 big59 /\ op_lt lo59 hi59 = true /\
  mul c50 (junk_r c50) (junk_t c50) lo59 big59 = Some p59 /\
  mul c50 (junk_r c50) (junk_t c50) hi59 big59 = Some (value_max c50) /\ op_lt (value_max c50) p59 = true.
Proof. exact mul_not_mono. Qed.
Print Assumptions C59_saturation_refuted.

(** C60. For a divisor that is not a power of the limb base, the quotient keeps the order of the dividends, unless
    one of the dividends has the magnitude of the divisor. *)
Theorem C60_division_monotone_partial : forall c F mem mem2 x y z, cfg_ok c -> newton_ok c -> float_fits c F ->
  (digit_loops c F <= nel c)%nat -> memory_ok mem -> memory_ok mem2 -> normal c x -> normal c y -> normal c z -> iszero z = false ->
  - max_exp10_of (c_expo c) < dexp z < max_exp10_of (c_expo c) - 3 * edc c -> ~ (Qabs (value c z) == p10 (dexp z))%Q ->
  - max_exp10_of (c_expo c) + 2 * edc c < dexp x - dexp z < max_exp10_of (c_expo c) ->
  - max_exp10_of (c_expo c) + 2 * edc c < dexp y - dexp z < max_exp10_of (c_expo c) ->
  ~ (Qabs (value c x) == Qabs (value c z))%Q -> ~ (Qabs (value c y) == Qabs (value c z))%Q ->
  (value c x <= value c y)%Q ->
  exists a b, divide c F mem x z = Some a /\ divide c F mem2 y z = Some b /\ normal c a /\ normal c b /\
    ((0 < value c z)%Q -> (value c a <= value c b)%Q) /\ ((value c z < 0)%Q -> (value c b <= value c a)%Q).
Proof.
  intros c F mem mem2 x y z Hc Hk HF HJ Hm Hm2. rewrite (divide_same c F mem2 mem y z (sizes_same mem2 mem Hm2 Hm)).
  exact (div_mono c F Hc Hk HF HJ mem x y z Hm).
Qed.
Print Assumptions C60_division_monotone_partial.

(** Equal operands are special-cased to the exact quotient one; the quotient of a dividend one unit larger is
    0.99..97875: x > v but x / v < v / v = 1. *)
Theorem C60_division_refuted : normal c50 v59 /\ normal c50 x59 /\ op_lt v59 x59 = true /\
  divide c50 f_double mem0 v59 v59 = Some (one c50) /\ divide c50 f_double mem0 x59 v59 = Some q59 /\
  op_lt q59 (one c50) = true.
Proof. exact div_not_mono. Qed.
Print Assumptions C60_division_refuted.

Example C59_C60_case : cfg_ok c50 /\ newton_ok c50 /\ mul_ok c50 /\ float_fits c50 f_double /\ (digit_loops c50 f_double <= nel c50)%nat /\ memory_ok mem0 /\
  pool_ok c50 (junk_r c50) (junk_t c50) /\
  normal c50 xb /\ normal c50 xa /\ normal c50 xn /\ (value c50 xb < value c50 xa)%Q /\ (value c50 xn < 0)%Q /\ dexp xb <> dexp xa /\
  exp_safe c50 (Z.max (dexp xb) (dexp xn)) /\ exp_safe c50 (Z.max (dexp xa) (dexp xn)) /\
  - max_exp10_of (c_expo c50) < dexp xb + dexp xn < max_exp10_of (c_expo c50) /\
  - max_exp10_of (c_expo c50) < dexp xa + dexp xn < max_exp10_of (c_expo c50) /\
  - max_exp10_of (c_expo c50) < dexp xn < max_exp10_of (c_expo c50) - 3 * edc c50 /\ ~ (Qabs (value c50 xn) == p10 (dexp xn))%Q /\
  - max_exp10_of (c_expo c50) + 2 * edc c50 < dexp xb - dexp xn < max_exp10_of (c_expo c50) /\
  - max_exp10_of (c_expo c50) + 2 * edc c50 < dexp xa - dexp xn < max_exp10_of (c_expo c50) /\
  ~ (Qabs (value c50 xb) == Qabs (value c50 xn))%Q /\ ~ (Qabs (value c50 xa) == Qabs (value c50 xn))%Q.
Proof. exact mono_case. Qed.
