(** Properties_Func.v - the property theorems about the reciprocal, division, integer powers and
    integer-valued arithmetic. [memory] is the arbitrary prior content of the working memory of each
    multiplication; [ftype] the built-in floating-point type used for the initial estimate. *)
From Verif Require Import Func_proofs Hist_proofs.
Local Open Scope Z_scope.

(** C39. The reciprocal is accurate to 7 units of 10^-(digits10 + two limbs), for every non-zero
    value whose exponent leaves room, with float and double estimates for every limb type and long
    double estimates for 8-bit limbs, whenever the estimate fits the limb array. *)
Theorem C39_reciprocal_accurate_partial : forall c F mem v, cfg_ok c -> newton_ok c -> float_fits c F ->
  (digit_loops c F <= nel c)%nat -> memory_ok mem -> normal c v -> iszero v = false ->
  - max_exp10_of (c_expo c) < dexp v < max_exp10_of (c_expo c) - 3 * edc c ->
  exists r, calculate_inv c F mem v = Some r /\ dneg r = dneg v /\
    (Qabs (value c r - 1 / value c v) <= 7 * p10 (- (c_digits10 c + 2 * edc c)) * Qabs (1 / value c v))%Q /\
    (~ (Qabs (value c v) == p10 (dexp v))%Q -> normal c r).
Proof. exact inv_accurate. Qed.
Print Assumptions C39_reciprocal_accurate_partial.
(** Literally the claim fails: the inverse of 10^8 equals 10^-8 but is not in normal form, so that it
    compares less than 10^-8; ... *)
Theorem C39_normal_form_refuted : exists r, normal c50 (from_ull c50 100000000) /\
  calculate_inv c50 f_double mem0 (from_ull c50 100000000) = Some r /\
  (value c50 r == value c50 e8)%Q /\ normal c50 e8 /\ ~ normal c50 r /\ cmp r e8 = -1.
Proof. exact inv_not_normal. Qed.
Print Assumptions C39_normal_form_refuted.
(** ... with few 8-bit limbs the estimate is written outside the limb array; ... *)
Theorem C39_out_of_bounds_refuted : cfg_ok c8 /\ normal c8 (from_ull c8 3) /\ (digit_loops c8 f_double > nel c8)%nat /\
  forall mem, calculate_inv c8 f_double mem (from_ull c8 3) = None.
Proof. exact inv_out_of_bounds. Qed.
Print Assumptions C39_out_of_bounds_refuted.
(** ... and with long double estimates and 32-bit limbs fewer than digits10 digits are right. *)
Theorem C39_long_double_refuted : cfg_ok c520 /\ normal c520 v520 /\ exists r,
  calculate_inv c520 f_long_double mem0 v520 = Some r /\ (p10 (- c_digits10 c520) < Qabs (1 - value c520 r * value c520 v520))%Q.
Proof. exact inv_long_double_inaccurate. Qed.
Print Assumptions C39_long_double_refuted.
Example C39_case : cfg_ok c50 /\ newton_ok c50 /\ float_fits c50 f_double /\ (digit_loops c50 f_double <= nel c50)%nat /\ memory_ok mem0 /\
  normal c50 xa /\ iszero xa = false /\ normal c50 xn /\ iszero xn = false /\ dexp xa <> dexp xn /\
  - max_exp10_of (c_expo c50) < dexp xn < max_exp10_of (c_expo c50) - 3 * edc c50 /\
  - max_exp10_of (c_expo c50) + 2 * edc c50 < dexp xa - dexp xn < max_exp10_of (c_expo c50).
Proof. exact func_case. Qed.
Example C39_configurations :
  (cfg_ok c1000 /\ newton_ok c1000 /\ float_fits c1000 f_double /\ (digit_loops c1000 f_double <= nel c1000)%nat /\ elems_for_kara <= elem_number c1000) /\
  (cfg_ok c20 /\ newton_ok c20 /\ float_fits c20 f_long_double /\ (digit_loops c20 f_long_double <= nel c20)%nat).
Proof. exact func_configs. Qed.

(** C42. Division is accurate to 9 units of 10^-(digits10 + two limbs), with the right sign, in normal form unless
    the dividend is one (or 0.99..9) in magnitude and the divisor a power of the limb base; C39_case
    meets the hypotheses. *)
Theorem C42_division_accurate : forall c F mem x v, cfg_ok c -> newton_ok c -> float_fits c F ->
  (digit_loops c F <= nel c)%nat -> memory_ok mem -> normal c x -> normal c v -> iszero x = false -> iszero v = false ->
  - max_exp10_of (c_expo c) < dexp v < max_exp10_of (c_expo c) - 3 * edc c ->
  - max_exp10_of (c_expo c) + 2 * edc c < dexp x - dexp v < max_exp10_of (c_expo c) ->
  exists z, divide c F mem x v = Some z /\ dneg z = xorb (dneg x) (dneg v) /\
    (Qabs (value c z - value c x / value c v) <= 9 * p10 (- (c_digits10 c + 2 * edc c)) * Qabs (value c x / value c v))%Q /\
    ((~ is_one c x /\ ~ is_nines c x) \/ ~ (Qabs (value c v) == p10 (dexp v))%Q -> normal c z).
Proof. exact div_accurate. Qed.
Print Assumptions C42_division_accurate.

(** C27. Conventions: x/x = 1, x/(-x) = -1, division by one or minus one is exact, dividing by zero
    gives zero, zero divided by a non-zero value is zero. *)
Theorem C27_equal_operands : forall c F mem x, cfg_ok c -> normal c x -> iszero x = false ->
  divide c F mem x x = Some (one c) /\ divide c F mem x (negate x) = Some (negate (one c)) /\
  (value c (one c) == 1)%Q /\ (value c (negate (one c)) == -(1))%Q.
Proof. exact div_self_both. Qed.
Print Assumptions C27_equal_operands.
Theorem C27_divide_by_one_partial : forall c F mem x v, cfg_ok c -> normal c x -> normal c v -> iszero x = false -> iszero v = false ->
  is_one c v -> ~ is_nines c x ->
  exists z, divide c F mem x v = Some z /\ normal c z /\ (value c z == value c x / value c v)%Q.
Proof. exact (fun c F mem x v Hc => div_by_one c F Hc mem x v). Qed.
Print Assumptions C27_divide_by_one_partial.
Theorem C27_divide_by_zero_partial : forall c F mem x v, cfg_ok c -> newton_ok c -> memory_ok mem -> normal c x -> normal c v -> iszero v = true ->
  (iszero x = true -> dexp x <> dexp v) -> exists z, divide c F mem x v = Some z /\ (value c z == 0)%Q.
Proof. exact (fun c F mem x v Hc Hk => div_by_zero c F Hc Hk mem x v). Qed.
Print Assumptions C27_divide_by_zero_partial.
Theorem C27_integer_zero_divisor : forall c bd x, div_ull c bd x 0 = Some (zero c).
Proof. exact zero_over_int. Qed.
Print Assumptions C27_integer_zero_divisor.
Theorem C27_zero_dividend : forall c F mem x v, cfg_ok c -> newton_ok c -> float_fits c F -> (digit_loops c F <= nel c)%nat -> memory_ok mem ->
  normal c x -> normal c v -> iszero x = true -> iszero v = false ->
  - max_exp10_of (c_expo c) < dexp v < max_exp10_of (c_expo c) - 3 * edc c ->
  exists z, divide c F mem x v = Some z /\ (value c z == 0)%Q.
Proof. exact (fun c F mem x v Hc Hk HF HJ => div_zero_num c F Hc Hk HF HJ mem x v). Qed.
Print Assumptions C27_zero_dividend.
(** Inconsistencies: 0/0 is 1, but a zero that carries an exponent, equal to 0 as a number, divided by 0
    is 0; 0.99..9/1 is 1; 1/0.99..9 is 0.99..9. *)
Theorem C27_conventions_refuted : divide c50 f_double mem0 (zero c50) (zero c50) = Some (one c50) /\
  (exists z, divide c50 f_double mem0 (mkx c50 false 8 [0]) (zero c50) = Some z /\ (value c50 z == 0)%Q /\
             normal c50 (mkx c50 false 8 [0]) /\ cmp (mkx c50 false 8 [0]) (zero c50) = 0) /\
  divide c50 f_double mem0 xnines (one c50) = Some (one c50) /\ ~ (value c50 xnines == 1)%Q /\
  divide c50 f_double mem0 (one c50) xnines = Some xnines.
Proof. exact zero_over_zero. Qed.
Print Assumptions C27_conventions_refuted.

(** C16, all divisors: dividing by any non-zero 64-bit integer is right to 2 units of 10^-digits10. *)
Theorem C16_div_any_unsigned_partial : forall c F mem x u, cfg_ok c -> newton_ok c -> float_fits c F -> (digit_loops c F <= nel c)%nat ->
  memory_ok mem -> normal c x -> iszero x = false -> 1 <= u < 2 ^ 64 -> u < 10 ^ (edc c * elem_number c) ->
  - max_exp10_of (c_expo c) + 36 <= dexp x < max_exp10_of (c_expo c) ->
  exists z, div_unsigned c F mem x u = Some z /\
    (Qabs (value c z - value c x / inject_Z u) <= 2 * p10 (- c_digits10 c) * Qabs (value c x / inject_Z u))%Q.
Proof. exact div_int_unsigned. Qed.
Print Assumptions C16_div_any_unsigned_partial.
Theorem C16_div_any_signed_partial : forall c F mem x k, cfg_ok c -> newton_ok c -> float_fits c F -> (digit_loops c F <= nel c)%nat ->
  memory_ok mem -> normal c x -> iszero x = false -> - 2 ^ 63 <= k < 2 ^ 63 -> k <> 0 -> Z.abs k < 10 ^ (edc c * elem_number c) ->
  - max_exp10_of (c_expo c) + 36 <= dexp x < max_exp10_of (c_expo c) ->
  exists z, div_signed c F mem x k = Some z /\
    (Qabs (value c z - value c x / inject_Z k) <= 2 * p10 (- c_digits10 c) * Qabs (value c x / inject_Z k))%Q.
Proof. exact div_int_signed. Qed.
Print Assumptions C16_div_any_signed_partial.

(** C33. Integer powers: exact for integers whose power fits; in general relative error 2(p-1) units of
    10^-(digits10 + two limbs) for positive exponents and 7+5|p| for negative ones. *)
Theorem C33_positive_power : forall c F mem b p, cfg_ok c -> newton_ok c -> memory_ok mem -> normal c b -> iszero b = false -> 1 <= p < 2 ^ 63 ->
  (inject_Z (4 * p) * p10 (- (c_digits10 c + 2 * edc c)) <= 1)%Q ->
  (p10 (- max_exp10_of (c_expo c) + 2 * edc c + 2) <= Qabs (value c b ^ p))%Q ->
  (Qabs (value c b ^ p) <= p10 (max_exp10_of (c_expo c) - 1))%Q ->
  exists z, pow_int c F mem b p = Some z /\ normal c z /\
    (Qabs (value c z - value c b ^ p) <= inject_Z (2 * (p - 1)) * p10 (- (c_digits10 c + 2 * edc c)) * Qabs (value c b ^ p))%Q.
Proof. exact pow_pos_accurate. Qed.
Print Assumptions C33_positive_power.
Theorem C33_negative_power : forall c F mem b p, cfg_ok c -> newton_ok c -> float_fits c F -> (digit_loops c F <= nel c)%nat -> memory_ok mem ->
  normal c b -> iszero b = false -> - 2 ^ 63 < p < 0 ->
  (inject_Z (4 * - p) * p10 (- (c_digits10 c + 2 * edc c)) <= 1)%Q ->
  (p10 (- max_exp10_of (c_expo c) + 2 * edc c + 2) <= Qabs (value c b ^ (- p)))%Q ->
  (Qabs (value c b ^ (- p)) <= p10 (max_exp10_of (c_expo c) - 4 * edc c - 1))%Q ->
  exists z, pow_int c F mem b p = Some z /\
    (Qabs (value c z - value c b ^ p) <= inject_Z (7 - 5 * p) * p10 (- (c_digits10 c + 2 * edc c)) * Qabs (value c b ^ p))%Q.
Proof. exact pow_neg_acc. Qed.
Print Assumptions C33_negative_power.
Theorem C33_integer_power_exact : forall c F mem b p k, cfg_ok c -> mul_ok c -> memory_ok mem -> normal c b -> iszero b = false -> 0 <= p < 2 ^ 63 ->
  (value c b == inject_Z k)%Q -> Z.abs (k ^ p) < 10 ^ int_digits c ->
  exists z, pow_int c F mem b p = Some z /\ normal c z /\ (value c z == inject_Z (k ^ p))%Q.
Proof. exact pow_int_exact. Qed.
Print Assumptions C33_integer_power_exact.
Theorem C33_special_powers : forall c F mem b, cfg_ok c -> mul_ok c -> memory_ok mem -> normal c b ->
  pow_int c F mem b 0 = Some (one c) /\ pow_int c F mem b 1 = Some b /\
  (iszero b = true -> - max_exp10_of (c_expo c) < dexp b < max_exp10_of (c_expo c) -> forall p, 1 <= p < 2 ^ 63 ->
     exists z, pow_int c F mem b p = Some z /\ (value c z == 0)%Q).
Proof. exact pow_zero_one. Qed.
Print Assumptions C33_special_powers.
Example C33_case : cfg_ok c20 /\ newton_ok c20 /\ float_fits c20 f_double /\ (digit_loops c20 f_double <= nel c20)%nat /\
  normal c20 x20 /\ iszero x20 = false /\ 0 <= 101 < 2 ^ 63 /\
  (inject_Z (4 * 101) * p10 (- (c_digits10 c20 + 2 * edc c20)) <= 1)%Q /\
  (p10 (- max_exp10_of (c_expo c20) + 2 * edc c20 + 2) <= Qabs (value c20 x20 ^ 101))%Q /\
  (Qabs (value c20 x20 ^ 101) <= p10 (max_exp10_of (c_expo c20) - 4 * edc c20 - 1))%Q.
Proof. exact pow_case. Qed.
Example C33_exact_case : cfg_ok c50 /\ mul_ok c50 /\ normal c50 (from_ull c50 7) /\ iszero (from_ull c50 7) = false /\
  (value c50 (from_ull c50 7) == inject_Z 7)%Q /\ Z.abs (7 ^ 50) < 10 ^ int_digits c50.
Proof. exact pow_int_case. Qed.

(** C36. Signed 64-bit operands: all defined except the minimum in -= and in pow. *)
Theorem C36_defined_partial : forall c mem x k, cfg_ok c -> newton_ok c -> memory_ok mem -> normal c x -> - 2 ^ 63 <= k < 2 ^ 63 ->
  normal c (add_sll c x k) /\
  (exists z, mul_sll c (fst (mem 0%nat (nel c))) (snd (mem 0%nat (nel c))) x k = Some z /\ normal c z) /\
  (k <> - 2 ^ 63 -> exists z, sub_sll c x k = Some z /\ normal c z).
Proof. exact integer_ops_defined. Qed.
Print Assumptions C36_defined_partial.
Theorem C36_division_defined_partial : forall c F mem x k, cfg_ok c -> newton_ok c -> float_fits c F -> (digit_loops c F <= nel c)%nat -> memory_ok mem ->
  normal c x -> - 2 ^ 63 <= k < 2 ^ 63 -> Z.abs k < 10 ^ (edc c * elem_number c) ->
  - max_exp10_of (c_expo c) + 36 <= dexp x < max_exp10_of (c_expo c) ->
  exists z, div_signed c F mem x k = Some z.
Proof. exact div_signed_defined. Qed.
Print Assumptions C36_division_defined_partial.
Theorem C36_power_defined_partial : forall c F mem b p, cfg_ok c -> newton_ok c -> memory_ok mem -> normal c b -> 0 <= p < 2 ^ 63 ->
  exists z, pow_int c F mem b p = Some z /\ normal c z.
Proof. exact pow_int_total. Qed.
Print Assumptions C36_power_defined_partial.
Theorem C36_minimum_refuted :
  (forall c x, sub_sll c x (- 2 ^ 63) = None) /\ (forall c F mem b, pow_int c F mem b (- 2 ^ 63) = None).
Proof. exact minimum_integer_undefined. Qed.
Print Assumptions C36_minimum_refuted.

(** C43. Integer-valued arithmetic is exact while operands and result fit the limbs. *)
Theorem C43_sum_exact : forall c x v k j, cfg_ok c -> normal c x -> normal c v ->
  (value c x == inject_Z k)%Q -> (value c v == inject_Z j)%Q ->
  Z.abs k < 10 ^ (elem_number c * edc c) -> Z.abs j < 10 ^ (elem_number c * edc c) -> Z.abs (k + j) < 10 ^ (elem_number c * edc c) ->
  (value c (add c x v) == inject_Z (k + j))%Q.
Proof. exact (fun c x v k j Hc => add_int_exact c Hc x v k j). Qed.
Print Assumptions C43_sum_exact.
Theorem C43_difference_exact : forall c x v k j, cfg_ok c -> normal c x -> normal c v ->
  (value c x == inject_Z k)%Q -> (value c v == inject_Z j)%Q ->
  Z.abs k < 10 ^ (elem_number c * edc c) -> Z.abs j < 10 ^ (elem_number c * edc c) -> Z.abs (k - j) < 10 ^ (elem_number c * edc c) ->
  (value c (sub c x v) == inject_Z (k - j))%Q.
Proof. exact (fun c x v k j Hc => sub_int_exact c Hc x v k j). Qed.
Print Assumptions C43_difference_exact.
Theorem C43_product_exact : forall c rmem scratch x v k j, cfg_ok c -> mul_ok c -> pool_ok c rmem scratch -> normal c x -> normal c v ->
  iszero x = false -> iszero v = false ->
  (value c x == inject_Z k)%Q -> (value c v == inject_Z j)%Q -> Z.abs (k * j) < 10 ^ int_digits c ->
  exists z, mul c rmem scratch x v = Some z /\ normal c z /\ iszero z = false /\ (value c z == inject_Z (k * j))%Q.
Proof. exact (fun c rmem scratch x v k j Hc => mul_int_exact c Hc rmem scratch x v k j). Qed.
Print Assumptions C43_product_exact.
Theorem C43_add_builtin_exact : forall c x k j, cfg_ok c -> normal c x -> (value c x == inject_Z k)%Q -> - 2 ^ 63 <= j < 2 ^ 63 ->
  Z.abs k < 10 ^ (elem_number c * edc c) -> Z.abs j < 10 ^ (elem_number c * edc c) -> Z.abs (k + j) < 10 ^ (elem_number c * edc c) ->
  (value c (add_sll c x j) == inject_Z (k + j))%Q.
Proof. exact (fun c x k j Hc => add_sll_exact c Hc x k j). Qed.
Print Assumptions C43_add_builtin_exact.
(** Whole histories: any program of negations, absolute values, copies, constructions, sums, differences
    (of different variables) and products, started on variables holding integers, computes exactly the
    integers that plain integer arithmetic computes, as long as all of them stay below the capacity. *)
Theorem C43_histories_exact : forall c mem i s t p, cfg_ok c -> mul_ok c -> (forall k, pool_ok c (fst (mem k)) (snd (mem k))) ->
  Forall (stmt_ok c) p -> Forall ring_stmt p -> Forall (fun o => (target o < length t)%nat) p ->
  Forall2 (holds c) s t -> stays_below (10 ^ (int_digits c - 1)) t p ->
  exists s', run c mem i s p = Some s' /\ Forall2 (holds c) s' (int_run t p).
Proof. exact (fun c mem i s t p Hc Hm Hp H1 H2 H3 => run_exact c Hc Hm mem p Hp H1 H2 i s t H3). Qed.
Print Assumptions C43_histories_exact.
Example C43_histories_case : cfg_ok c50 /\ mul_ok c50 /\ Forall (stmt_ok c50) ring_prog /\ Forall ring_stmt ring_prog /\
  Forall (fun o => (target o < 3)%nat) ring_prog /\ Forall2 (holds c50) [zero c50; zero c50; zero c50] [0; 0; 0] /\
  stays_below (10 ^ (int_digits c50 - 1)) [0; 0; 0] ring_prog /\
  int_run [0; 0; 0] ring_prog = [-227737579102942800175475975215; 227737579102942800175475975215; 0].
Proof. exact hist_case. Qed.
Example C43_case : let a := from_sll c50 (-98765432109876543) in let b := from_ull c50 7 in
  normal c50 a /\ normal c50 b /\ (value c50 a == inject_Z (-98765432109876543))%Q /\ (value c50 b == inject_Z 7)%Q /\
  Z.abs (-98765432109876543) < 10 ^ (elem_number c50 * edc c50) /\ Z.abs (-98765432109876543 * 7) < 10 ^ int_digits c50.
Proof. exact C43_case_proof. Qed.
