(** Properties_Arith.v - the property theorems about arithmetic, comparison and histories.
    Each theorem is closed by [exact] of a lemma proved elsewhere; concrete cases follow each one. *)
From Verif Require Import Laws_proofs Witness Refute_arith.
Local Open Scope Z_scope.

(** C01. Same-sign addition: truncated at the last stored limb of the result, exact whenever the true
    sum is a whole number of such units (in particular for equal exponents without carry-out), relative
    error below 10^-(digits10 + two limbs). *)
Theorem C01_add_same_sign : forall c x v, cfg_ok c -> normal c x -> normal c v ->
  iszero x = false -> iszero v = false -> dneg v = dneg x -> exp_safe c (Z.max (dexp x) (dexp v)) ->
  let z := add c x v in let s := (value c x + value c v)%Q in
  truncates c z s /\
  (forall k : Z, (s == inject_Z k * ulp c z)%Q -> (value c z == s)%Q) /\
  (Qabs (value c z - s) < Qabs s * p10 (- (c_digits10 c + 2 * edc c)))%Q.
Proof. exact (fun c x v Hc => add_same_all c Hc x v). Qed.
Print Assumptions C01_add_same_sign.

Theorem C01_add_same_exponent_exact : forall c x v, cfg_ok c -> normal c x -> normal c v ->
  iszero x = false -> iszero v = false -> dneg v = dneg x -> exp_safe c (Z.max (dexp x) (dexp v)) ->
  dexp x = dexp v -> dexp (add c x v) = dexp x -> (value c (add c x v) == value c x + value c v)%Q.
Proof. exact (fun c x v Hc => add_same_carry c Hc x v). Qed.
Print Assumptions C01_add_same_exponent_exact.

Example C01_case : cfg_ok c50 /\ normal c50 xa /\ normal c50 xb /\ iszero xa = false /\ iszero xb = false /\
  dneg xb = dneg xa /\ exp_safe c50 (Z.max (dexp xa) (dexp xb)) /\ dexp xa <> dexp xb.
Proof. exact C01_case_proof. Qed.

(** C02. Opposite-sign addition: moved away from zero by less than one unit of the larger operand's
    last limb; right sign; exact for equal exponents; zero exactly when the operands cancel. *)
Theorem C02_add_opposite_sign : forall c x v, cfg_ok c -> normal c x -> normal c v ->
  iszero x = false -> iszero v = false -> dneg v = negb (dneg x) -> exp_safe c (Z.max (dexp x) (dexp v)) ->
  rounds_away c (add c x v) (value c x + value c v)
              (p10 (Z.max (dexp x) (dexp v) - edc c * (Z.of_nat (nel c) - 1))) /\
  (dexp x = dexp v -> value c (add c x v) == value c x + value c v)%Q.
Proof. exact (fun c x v Hc => add_diff_away c Hc x v). Qed.
Print Assumptions C02_add_opposite_sign.

Theorem C02_zero_iff_cancels : forall c x v, cfg_ok c -> normal c x -> normal c v ->
  exp_safe c (Z.max (dexp x) (dexp v)) ->
  (value c (add c x v) == 0)%Q <-> (value c x + value c v == 0)%Q.
Proof. exact (fun c x v Hc => add_zero_iff c Hc x v). Qed.
Print Assumptions C02_zero_iff_cancels.

Theorem C02_subtraction : forall c x v, cfg_ok c -> normal c x -> normal c v ->
  iszero x = false -> iszero v = false -> exp_safe c (Z.max (dexp x) (dexp v)) ->
  (dneg x = negb (dneg v) -> truncates c (sub c x v) (value c x - value c v)) /\
  (dneg x = dneg v ->
     rounds_away c (sub c x v) (value c x - value c v)
                 (p10 (Z.max (dexp x) (dexp v) - edc c * (Z.of_nat (nel c) - 1))) /\
     (dexp x = dexp v -> value c (sub c x v) == value c x - value c v)%Q).
Proof. exact (fun c x v Hc => sub_as_add c Hc x v). Qed.
Print Assumptions C02_subtraction.

Example C02_case : cfg_ok c50 /\ normal c50 xa /\ normal c50 xn /\ iszero xa = false /\ iszero xn = false /\
  dneg xn = negb (dneg xa) /\ exp_safe c50 (Z.max (dexp xa) (dexp xn)) /\ dexp xa <> dexp xn.
Proof. exact C02_case_proof. Qed.

(** C03. Schoolbook limb multiplication is the exact product. *)
Theorem C03_schoolbook_exact : forall L a b, digits_ok (10 ^ ed L) a -> digits_ok (10 ^ ed L) b ->
  length a = length b -> (1 <= length a)%nat ->
  (L = U8 \/ Z.of_nat (length a) * ((10 ^ ed L - 1) * (10 ^ ed L - 1)) + Z.of_nat (length a) * 10 ^ ed L < 2 ^ dbits L) ->
  exists r, mul_school L a b = Some r /\ length r = (2 * length a)%nat /\ digits_ok (10 ^ ed L) r /\
    limbs_value (10 ^ ed L) r = limbs_value (10 ^ ed L) a * limbs_value (10 ^ ed L) b.
Proof. exact school_exact. Qed.
Print Assumptions C03_schoolbook_exact.

(** The accumulator condition holds for every length used with 32-bit limbs, and up to 42 limbs with
    16-bit limbs. *)
Theorem C03_accumulator_fits : forall L (k : Z), 0 <= k ->
  (L = U32 -> k < elems_for_kara -> k * ((10 ^ ed L - 1) * (10 ^ ed L - 1)) + k * 10 ^ ed L < 2 ^ dbits L) /\
  (L = U16 -> k <= 42 -> k * ((10 ^ ed L - 1) * (10 ^ ed L - 1)) + k * 10 ^ ed L < 2 ^ dbits L).
Proof. exact accumulator_fits. Qed.
Print Assumptions C03_accumulator_fits.

Example C03_case : digits_ok (10 ^ ed U32) [99999999; 99999999; 12345678] /\
  mul_school U32 [99999999; 99999999; 12345678] [99999999; 0; 87654321] =
    Some [99999998; 99999999; 99999999; 87654321; 23167199; 22374638].
Proof. exact C03_case_proof. Qed.

(** C04 is false: with 16-bit limbs the column accumulator wraps from 43 limbs on (160 digits); the
    computed square of 9999.99...9 is wrong by more than 400000 units in the last stored limb. *)
Theorem C04_schoolbook_overflow_refuted : exists z, cfg_ok c160 /\ normal c160 x160 /\ iszero x160 = false /\
  pool_ok c160 (junk_r c160) (junk_t c160) /\ elem_number c160 < elems_for_kara /\
  - max_exp10_of (c_expo c160) < dexp x160 + dexp x160 < max_exp10_of (c_expo c160) /\
  ~ is_one c160 x160 /\ ~ is_nines c160 x160 /\
  mul c160 (junk_r c160) (junk_t c160) x160 x160 = Some z /\
  ~ truncates c160 z (value c160 x160 * value c160 x160) /\
  (ulp c160 z * (400000 # 1) < value c160 x160 * value c160 x160 - value c160 z)%Q.
Proof. exact school_overflow. Qed.
Print Assumptions C04_schoolbook_overflow_refuted.

(** C05. Karatsuba: exact product, no access outside the result and scratch areas ([Some]), result
    independent of what those areas contained. *)
Theorem C05_karatsuba_exact : forall L k r a b t fuel, kara_size k -> (k <= fuel)%nat ->
  length r = (2 * k)%nat -> length a = k -> length b = k -> (4 * k <= length t)%nat ->
  digits_ok (10 ^ ed L) a -> digits_ok (10 ^ ed L) b ->
  exists r' t', kara fuel L r a b k t = Some (r', t') /\ length r' = (2 * k)%nat /\ length t' = length t /\
    digits_ok (10 ^ ed L) r' /\
    limbs_value (10 ^ ed L) r' = limbs_value (10 ^ ed L) a * limbs_value (10 ^ ed L) b /\
    (forall r2 t2, length r2 = (2 * k)%nat -> (4 * k <= length t2)%nat ->
       exists t2', kara fuel L r2 a b k t2 = Some (r', t2')).
Proof. exact kara_exact. Qed.
Print Assumptions C05_karatsuba_exact.

Example C05_case : kara_size 128 /\ length (repeat 99999999 128) = 128%nat /\ digits_ok (10 ^ ed U32) (repeat 99999999 128).
Proof. exact C05_case_proof. Qed.

(** C06. The padded size chosen for any limb count below the FFT threshold is adequate. *)
Theorem C06_padded_size_adequate : forall v, 1 <= v < elems_for_fft ->
  v <= a029750 v <= 1792 /\ kara_size (Z.to_nat (a029750 v)).
Proof. exact pad_adequate. Qed.
Print Assumptions C06_padded_size_adequate.
Example C06_case : a029750 113 = 128 /\ a029750 1537 = 1792.
Proof. exact C06_case_proof. Qed.

(** C07. Multiplication: truncated at the last stored limb, exact when representable, relative error
    below 10^-(digits10 + two limbs). *)
Theorem C07_multiplication : forall c rmem scratch x v, cfg_ok c -> mul_ok c -> pool_ok c rmem scratch ->
  normal c x -> normal c v -> iszero x = false -> iszero v = false ->
  ~ is_one c x -> ~ is_nines c x -> ~ is_one c v -> ~ is_nines c v ->
  - max_exp10_of (c_expo c) < dexp x + dexp v < max_exp10_of (c_expo c) ->
  exists z, mul c rmem scratch x v = Some z /\ normal c z /\
    truncates c z (value c x * value c v) /\
    (forall k, (value c x * value c v == inject_Z k * ulp c z)%Q -> (value c z == value c x * value c v)%Q) /\
    (Qabs (value c z - value c x * value c v) < Qabs (value c x * value c v) * p10 (- (c_digits10 c + 2 * edc c)))%Q.
Proof. exact (fun c rmem scratch x v Hc => mul_trunc_all c Hc rmem scratch x v). Qed.
Print Assumptions C07_multiplication.

(** ... and for all non-zero operands, the factors one and 0.99...9 included: right sign and relative error. *)
Theorem C07_multiplication_relative : forall c rmem scratch x v, cfg_ok c -> mul_ok c -> pool_ok c rmem scratch ->
  normal c x -> normal c v -> iszero x = false -> iszero v = false ->
  - max_exp10_of (c_expo c) < dexp x + dexp v < max_exp10_of (c_expo c) ->
  exists z, mul c rmem scratch x v = Some z /\ normal c z /\ iszero z = false /\ dneg z = xorb (dneg x) (dneg v) /\
    (Qabs (value c z - value c x * value c v) < Qabs (value c x * value c v) * p10 (- (c_digits10 c + 2 * edc c)))%Q.
Proof. exact (fun c rmem scratch x v Hc => mul_rel c Hc rmem scratch x v). Qed.
Print Assumptions C07_multiplication_relative.

Theorem C07_saturation : forall c rmem scratch x v, cfg_ok c -> mul_ok c -> pool_ok c rmem scratch ->
  normal c x -> normal c v -> iszero x = false -> iszero v = false ->
  ~ is_one c x -> ~ is_nines c x -> ~ is_one c v -> ~ is_nines c v -> - 2 ^ ebits (c_expo c) < dexp x + dexp v ->
  (max_exp10_of (c_expo c) <= dexp x + dexp v ->
     mul c rmem scratch x v = Some (set_neg (value_max c) (xorb (dneg x) (dneg v)))) /\
  (dexp x + dexp v <= - max_exp10_of (c_expo c) ->
     mul c rmem scratch x v = Some (set_neg (value_min c) (xorb (dneg x) (dneg v)))).
Proof. exact mul_saturates. Qed.
Print Assumptions C07_saturation.

Theorem C07_times_one_exact : forall c rmem scratch x, cfg_ok c -> normal c x -> iszero x = false -> ~ is_nines c x ->
  mul c rmem scratch x (one c) = Some x /\ mul c rmem scratch (one c) x = Some x.
Proof. exact mul_by_one. Qed.
Print Assumptions C07_times_one_exact.

Example C07_case : cfg_ok c50 /\ mul_ok c50 /\ pool_ok c50 (junk_r c50) (junk_t c50) /\ normal c50 xa /\ normal c50 xb /\
  iszero xa = false /\ iszero xb = false /\
  ~ is_one c50 xa /\ ~ is_nines c50 xa /\ ~ is_one c50 xb /\ ~ is_nines c50 xb /\
  - max_exp10_of (c_expo c50) < dexp xa + dexp xb < max_exp10_of (c_expo c50).
Proof. exact C07_case_proof. Qed.
Example C07_kara_case : cfg_ok c1000 /\ mul_ok c1000 /\ normal c1000 xk /\ elems_for_kara <= elem_number c1000 /\
  (exists z, mul c1000 (junk_r c1000) (junk_t c1000) xk xk = Some z /\ nth 0 (data z) 0 = 97546107).
Proof. exact C07_kara_case_proof. Qed.

(** C08. Comparison is the numeric order. *)
Theorem C08_cmp_is_numeric_order : forall c x v, cfg_ok c -> normal c x -> normal c v ->
  (cmp x v = -1 <-> (value c x < value c v)%Q) /\ (cmp x v = 0 <-> (value c x == value c v)%Q) /\
  (cmp x v = 1 <-> (value c v < value c x)%Q) /\ cmp v x = - cmp x v.
Proof. exact cmp_order. Qed.
Print Assumptions C08_cmp_is_numeric_order.

Theorem C08_operators : forall c x v, cfg_ok c -> normal c x -> normal c v ->
  (op_lt x v = true <-> (value c x < value c v)%Q) /\ (op_le x v = true <-> (value c x <= value c v)%Q) /\
  (op_eq x v = true <-> (value c x == value c v)%Q) /\ (op_ne x v = true <-> ~ (value c x == value c v)%Q) /\
  (op_ge x v = true <-> (value c v <= value c x)%Q) /\ (op_gt x v = true <-> (value c v < value c x)%Q).
Proof. exact (fun c x v Hc => ops_spec c Hc x v). Qed.
Print Assumptions C08_operators.

(** Equal non-zero values are the same object: the normal form is unique. *)
Theorem C08_normal_form_unique : forall c x v, cfg_ok c -> normal c x -> normal c v -> iszero x = false ->
  (value c x == value c v)%Q -> x = v.
Proof. exact (fun c x v Hc => value_unique c Hc x v). Qed.
Print Assumptions C08_normal_form_unique.
Example C08_case : normal c50 xa /\ normal c50 xn /\ cmp xn xa = -1.
Proof. exact C08_case_proof. Qed.

(** C09. Every history of statements (with in-range built-in integer arguments) runs to completion - no
    out-of-bounds access, no undefined integer operation - and leaves every variable in normal form. *)
Theorem C09_histories_keep_normal_form : forall c mem t s p, cfg_ok c -> mul_ok c ->
  (forall k, pool_ok c (fst (mem k)) (snd (mem k))) -> Forall (normal c) s -> Forall (stmt_ok c) p ->
  exists s', run c mem t s p = Some s' /\ Forall (normal c) s' /\ length s' = length s.
Proof. exact (fun c mem t s p Hc Hm => run_normal c Hc Hm mem t s p). Qed.
Print Assumptions C09_histories_keep_normal_form.
Example C09_case : Forall (stmt_ok c50) prog /\ Forall (normal c50) [zero c50; zero c50; zero c50] /\
  exists s, run c50 (fun _ => (junk_r c50, junk_t c50)) 0 [zero c50; zero c50; zero c50] prog = Some s /\
            map iszero s = [false; false; false].
Proof. exact C09_case_proof. Qed.

(** C10 (construction half). Every 64-bit integer is represented exactly when the limbs can hold it. *)
Theorem C10_from_unsigned_exact : forall c u, cfg_ok c -> 0 <= u < 2 ^ 64 ->
  normal c (from_ull c u) /\ truncates c (from_ull c u) (inject_Z u) /\
  (u < 10 ^ (edc c * elem_number c) -> (value c (from_ull c u) == inject_Z u)%Q).
Proof. exact from_ull_all. Qed.
Print Assumptions C10_from_unsigned_exact.
Theorem C10_from_signed_exact : forall c m, cfg_ok c -> - 2 ^ 63 <= m < 2 ^ 63 -> Z.abs m < 10 ^ (edc c * elem_number c) ->
  normal c (from_sll c m) /\ (value c (from_sll c m) == inject_Z m)%Q.
Proof. exact (fun c m Hc => from_sll_exact c Hc m). Qed.
Print Assumptions C10_from_signed_exact.
Theorem C10_from_limb_sized_exact : forall c u, cfg_ok c -> 0 <= u < 2 ^ lbits (c_limb c) ->
  normal c (from_small_unsigned c u) /\ (value c (from_small_unsigned c u) == inject_Z u)%Q.
Proof. exact (fun c u Hc => from_small_spec c Hc u). Qed.
Print Assumptions C10_from_limb_sized_exact.
Example C10_case : cfg_ok c50 /\ 0 <= 18446744073709551615 < 2 ^ 64 /\ 18446744073709551615 < 10 ^ (edc c50 * elem_number c50) /\
  data (from_ull c50 18446744073709551615) = [1844; 67440737; 9551615; 0; 0; 0; 0; 0; 0; 0].
Proof. exact C10_case_proof. Qed.

(** C15. Multiplication by a built-in integer. *)
Theorem C15_mul_unsigned : forall c rmem scratch x u, cfg_ok c -> mul_ok c -> pool_ok c rmem scratch ->
  normal c x -> iszero x = false -> 0 < u < 2 ^ 64 -> u < 10 ^ (edc c * elem_number c) ->
  - max_exp10_of (c_expo c) < dexp x -> dexp x + order_of_builtin_integer u < max_exp10_of (c_expo c) ->
  (u < 10 ^ edc c \/ ~ is_nines c x) ->
  exists z, mul_ull c rmem scratch x u = Some z /\ normal c z /\ iszero z = false /\
    truncates c z (value c x * inject_Z u) /\
    (forall k, (value c x * inject_Z u == inject_Z k * ulp c z)%Q -> (value c z == value c x * inject_Z u)%Q).
Proof. exact mul_ull_all. Qed.
Print Assumptions C15_mul_unsigned.
Theorem C15_mul_signed : forall c rmem scratch x m, cfg_ok c -> mul_ok c -> pool_ok c rmem scratch ->
  normal c x -> iszero x = false -> - 2 ^ 63 <= m < 2 ^ 63 -> m <> 0 -> Z.abs m < 10 ^ (edc c * elem_number c) ->
  - max_exp10_of (c_expo c) < dexp x -> dexp x + order_of_builtin_integer (Z.abs m) < max_exp10_of (c_expo c) ->
  (Z.abs m < 10 ^ edc c \/ ~ is_nines c x) ->
  exists z, mul_sll c rmem scratch x m = Some z /\ normal c z /\ iszero z = false /\
    truncates c z (value c x * inject_Z m) /\
    (forall k, (value c x * inject_Z m == inject_Z k * ulp c z)%Q -> (value c z == value c x * inject_Z m)%Q).
Proof. exact mul_sll_all. Qed.
Print Assumptions C15_mul_signed.
Theorem C15_order_is_digit_count : forall u, 0 < u < 2 ^ 64 ->
  1 <= order_of_builtin_integer u <= 20 /\ 10 ^ (order_of_builtin_integer u - 1) <= u < 10 ^ order_of_builtin_integer u.
Proof. exact order_spec. Qed.
Print Assumptions C15_order_is_digit_count.
Example C15_case : - 2 ^ 63 <= -12345678901 < 2 ^ 63 /\ Z.abs (-12345678901) < 10 ^ (edc c50 * elem_number c50) /\
  ~ is_nines c50 xa /\ dexp xa + order_of_builtin_integer (Z.abs (-12345678901)) < max_exp10_of (c_expo c50) /\
  exists z, mul_sll c50 (junk_r c50) (junk_t c50) xa (-12345678901) = Some z /\ dneg z = true.
Proof. exact C15_case_proof. Qed.

(** C16. Division by a built-in integer below the limb base: within 10^(2 limbs) units of the last
    limb, i.e. relative error below 10^-digits10; truncated when no limb shift is needed. Missing from
    the full claim: truncation in general (it is false, see the refutation) and divisors at or above the
    limb base. *)
Theorem C16_div_unsigned_partial : forall c bd x u, cfg_ok c -> normal c x -> iszero x = false -> 1 < u < 10 ^ edc c ->
  - max_exp10_of (c_expo c) <= dexp x - edc c ->
  exists z, div_ull c bd x u = Some z /\ normal c z /\ iszero z = false /\
    (u <= nth 0 (data x) 0 -> truncates c z (value c x / inject_Z u)) /\
    (Qabs (value c z - value c x / inject_Z u) < ulp c z * p10 (2 * edc c))%Q.
Proof. exact (fun c bd x u Hc => div_ull_spec c Hc bd x u). Qed.
Print Assumptions C16_div_unsigned_partial.
Theorem C16_div_unsigned_relative_partial : forall c bd x u, cfg_ok c -> normal c x -> iszero x = false -> 1 < u < 10 ^ edc c ->
  - max_exp10_of (c_expo c) <= dexp x - edc c ->
  exists z, div_ull c bd x u = Some z /\ normal c z /\ iszero z = false /\
    (Qabs (value c z - value c x / inject_Z u) < Qabs (value c z) * p10 (- c_digits10 c))%Q.
Proof. exact (fun c bd x u Hc => div_ull_rel c Hc bd x u). Qed.
Print Assumptions C16_div_unsigned_relative_partial.
Theorem C16_truncation_refuted : exists z, cfg_ok c50 /\ normal c50 x16 /\ iszero x16 = false /\ 1 < 3 < 10 ^ edc c50 /\
  div_ull c50 (fun _ _ => None) x16 3 = Some z /\ ~ truncates c50 z (value c50 x16 / inject_Z 3).
Proof. exact div_not_truncating. Qed.
Print Assumptions C16_truncation_refuted.
Example C16_case : cfg_ok c50 /\ normal c50 xa /\ 1 < 7 < 10 ^ edc c50 /\ - max_exp10_of (c_expo c50) <= dexp xa - edc c50 /\ 7 <= nth 0 (data xa) 0.
Proof. exact C16_case_proof. Qed.

(** C17. Zero annihilates as long as the other exponent is inside the exponent range ... *)
Theorem C17_zero_annihilates_partial : forall c rmem scratch x v, cfg_ok c -> mul_ok c -> pool_ok c rmem scratch ->
  normal c x -> normal c v -> iszero x = true \/ iszero v = true ->
  - max_exp10_of (c_expo c) < dexp v < max_exp10_of (c_expo c) ->
  exists z, mul c rmem scratch x v = Some z /\ (value c z == 0)%Q.
Proof. exact mul_zero. Qed.
Print Assumptions C17_zero_annihilates_partial.
(** ... but 0 * max() is max() while max() * 0 is 0. *)
Theorem C17_zero_annihilates_refuted :
  mul c50 (junk_r c50) (junk_t c50) (zero c50) (value_max c50) = Some (value_max c50) /\
  mul c50 (junk_r c50) (junk_t c50) (value_max c50) (zero c50) = Some (zero c50) /\
  ~ (value c50 (value_max c50) == 0)%Q.
Proof. exact zero_times_max. Qed.
Print Assumptions C17_zero_annihilates_refuted.
Example C17_case : normal c50 (zero c50) /\ normal c50 xn /\ iszero (zero c50) = true /\ dexp xn < 0.
Proof. exact C17_case_proof. Qed.

(** C18. For distinct objects holding the same value, subtraction gives zero; applied to the same
    object (x -= x) the code doubles the value instead. *)
Theorem C18_distinct_objects_partial : forall c x, cfg_ok c -> normal c x -> iszero x = false -> sub c x x = zero c.
Proof. exact (fun c x Hc => sub_self_distinct c Hc x). Qed.
Print Assumptions C18_distinct_objects_partial.
Theorem C18_self_subtraction_doubles : forall c x, cfg_ok c -> normal c x -> iszero x = false -> exp_safe c (dexp x) ->
  truncates c (sub_self c x) (2 * value c x)%Q.
Proof. exact (fun c x Hc => sub_self_doubling c Hc x). Qed.
Print Assumptions C18_self_subtraction_doubles.
Theorem C18_self_subtraction_refuted :
  sub_self c50 xa <> zero c50 /\ (value c50 (sub_self c50 xa) == 2 * value c50 xa)%Q /\ sub c50 xa xa = zero c50.
Proof. exact alias_sub_wrong. Qed.
Print Assumptions C18_self_subtraction_refuted.

(** C19 is false: a carry at reduced precision moves limbs to the wrong place. *)
Theorem C19_reduced_precision_refuted :
  get_precision c50 y19 = 32 /\ get_precision c50 w19 = 32 /\
  (p10 (dexp (add c50 y19 w19) - 8) <= Qabs (value c50 (add c50 y19 w19) - (value c50 y19 + value c50 w19)))%Q.
Proof. exact reduced_precision_wrong. Qed.
Print Assumptions C19_reduced_precision_refuted.

(** C21. Sign-magnitude exponents. *)
Theorem C21_make : forall w m, 1 <= w -> - 2 ^ (w - 1) <= m < 2 ^ (w - 1) ->
  uw_value (uw_make w m) = m /\ uw_ok w (uw_make w m).
Proof. exact uw_make_spec. Qed.
Print Assumptions C21_make.
Theorem C21_add : forall w a b, uw_ok w a -> uw_ok w b -> Z.abs (uw_value a + uw_value b) < 2 ^ w ->
  uw_value (uw_add w a b) = uw_value a + uw_value b /\ uw_ok w (uw_add w a b).
Proof. exact uw_add_spec. Qed.
Print Assumptions C21_add.
Theorem C21_sub : forall w a b, uw_ok w a -> uw_ok w b -> Z.abs (uw_value a - uw_value b) < 2 ^ w ->
  uw_value (uw_sub w a b) = uw_value a - uw_value b /\ uw_ok w (uw_sub w a b).
Proof. exact uw_sub_spec. Qed.
Print Assumptions C21_sub.
Example C21_case : uw_value (uw_sub 64 (uw_make 64 (-9223372036854775808)) (uw_make 64 5)) = -9223372036854775813.
Proof. exact C21_case_proof. Qed.

(** C28. *)
Theorem C28_constants : forall c, cfg_ok c ->
  (value c (nl_max c) == (9 # 1) * p10 (max_exp10_of (c_expo c)))%Q /\
  (value c (nl_min c) == p10 (- max_exp10_of (c_expo c)))%Q /\
  (value c (nl_round_error c) == 1 # 2)%Q /\ (value c (one c) == 1)%Q /\ (value c (two c) == 2)%Q /\ (value c (zero c) == 0)%Q.
Proof. exact (fun c Hc => max_min_values c Hc). Qed.
Print Assumptions C28_constants.
Theorem C28_epsilon_partial : forall c, cfg_ok c -> (value c (nl_epsilon c) == p10 (1 - c_digits10 c))%Q /\
  (normal c (nl_epsilon c) <-> c_digits10 c mod edc c <> 1).
Proof. exact eps_all. Qed.
Print Assumptions C28_epsilon_partial.
(** epsilon() is not in normal form when digits10 leaves one digit in its top limb: it compares unequal
    to (and less than) the number it denotes. *)
Theorem C28_epsilon_refuted : normal c9 e9 /\ (value c9 (nl_epsilon c9) == value c9 e9)%Q /\
  op_eq (nl_epsilon c9) e9 = false /\ op_lt (nl_epsilon c9) e9 = true.
Proof. exact eps_compare_wrong. Qed.
Print Assumptions C28_epsilon_refuted.
(** lowest() and infinity() are zero and max() is not the largest value, for every configuration. *)
Theorem C28_limits_refuted : forall c, cfg_ok c ->
  (value c (nl_lowest c) == 0)%Q /\ (value c (nl_infinity c) == 0)%Q /\
  exists x, normal c x /\ (value c (nl_max c) < value c x)%Q.
Proof. exact limits_wrong. Qed.
Print Assumptions C28_limits_refuted.

(** C34. Commutativity (identical result objects). *)
Theorem C34_addition_commutes : forall c x v, cfg_ok c -> normal c x -> normal c v -> iszero x = false -> iszero v = false ->
  add c x v = add c v x.
Proof. exact (fun c x v Hc => add_comm c Hc x v). Qed.
Print Assumptions C34_addition_commutes.
Theorem C34_multiplication_commutes_partial : forall c rmem scratch x v, cfg_ok c -> mul_ok c -> pool_ok c rmem scratch ->
  normal c x -> normal c v -> iszero x = false -> iszero v = false -> - 2 ^ ebits (c_expo c) < dexp x + dexp v ->
  ~ is_nines c x -> ~ is_nines c v -> mul c rmem scratch x v = mul c rmem scratch v x.
Proof. exact (fun c rmem scratch x v Hc Hm => mul_comm c Hc Hm rmem scratch x v). Qed.
Print Assumptions C34_multiplication_commutes_partial.
(** 1 * 0.99...9 = 0.99...9 but 0.99...9 * 1 = 1. *)
Theorem C34_multiplication_refuted : is_nines c50 xnines /\ normal c50 xnines /\
  mul c50 (junk_r c50) (junk_t c50) (one c50) xnines = Some xnines /\
  mul c50 (junk_r c50) (junk_t c50) xnines (one c50) = Some (one c50) /\
  op_eq xnines (one c50) = false.
Proof. exact nines_not_comm. Qed.
Print Assumptions C34_multiplication_refuted.
Example C34_case : normal c50 xa /\ normal c50 xn /\ ~ is_nines c50 xa /\ ~ is_nines c50 xn /\ add c50 xa xn <> xa.
Proof. exact C34_case_proof. Qed.

(** C35. Working precision. *)
Theorem C35_precision_clamped : forall c x k, cfg_ok c ->
  let p := Z.of_nat (dprec (precision c x k)) in
  2 <= p <= elem_number c /\ data (precision c x k) = data x /\ dexp (precision c x k) = dexp x /\
  dneg (precision c x k) = dneg x /\ (value c (precision c x k) == value c x)%Q /\
  (0 <= k <= elem_number c * edc c -> k <= get_precision c (precision c x k)) /\
  (k <= 2 * edc c -> p = 2) /\
  (elem_number c * edc c <= k -> p = elem_number c) /\
  (2 * edc c <= k <= elem_number c * edc c -> get_precision c (precision c x k) < k + edc c).
Proof. exact (fun c x k Hc => precision_spec c Hc x k). Qed.
Print Assumptions C35_precision_clamped.
Theorem C35_precision_monotone : forall c x y j k, j <= k -> (dprec (precision c x j) <= dprec (precision c y k))%nat.
Proof. exact precision_mono. Qed.
Print Assumptions C35_precision_monotone.

(** C37. *)
Theorem C37_ilogb : forall c x, cfg_ok c -> normal c x -> iszero x = false ->
  dexp x + edc c <= 2 ^ (ebits (c_expo c) - 1) ->
  (p10 (ilogb c x) <= Qabs (value c x))%Q /\ (Qabs (value c x) < p10 (ilogb c x + 1))%Q.
Proof. exact (fun c x Hc => ilogb_spec c Hc x). Qed.
Print Assumptions C37_ilogb.
Example C37_case : ilogb c50 xa = 7 /\ ilogb c50 xb = -8 /\ ilogb c50 xn = -1.
Proof. exact C37_case_proof. Qed.

(** C38. *)
Theorem C38_isint_exact : forall c x, cfg_ok c -> normal c x -> (iszero x = false \/ 0 <= dexp x) ->
  (isint c x = true <-> is_integer (value c x)).
Proof. exact (fun c x Hc => isint_spec c Hc x). Qed.
Print Assumptions C38_isint_exact.
(** A zero obtained as 0 * 1.2e-8 is not recognised as an integer. *)
Theorem C38_isint_zero_refuted : exists z, mul c50 (junk_r c50) (junk_t c50) (zero c50) xb = Some z /\
  (value c50 z == 0)%Q /\ isint c50 z = false.
Proof. exact isint_zero_wrong. Qed.
Print Assumptions C38_isint_zero_refuted.
Example C38_case : isint c50 xa = false /\ isint c50 (mkx c50 false 8 [1; 5]) = true.
Proof. exact C38_case_proof. Qed.

(** C40. Identities (as identical objects). *)
Theorem C40_additive_identities : forall c x, cfg_ok c -> normal c x -> iszero x = false ->
  add c x (zero c) = x /\ add c (zero c) x = x /\ add c x (negate x) = zero c /\ sub c x x = zero c /\
  negate (negate x) = x /\ (value c (negate x) == - value c x)%Q.
Proof. exact add_identities. Qed.
Print Assumptions C40_additive_identities.
Theorem C40_fabs : forall c x, cfg_ok c -> normal c x -> (iszero x = true -> dneg x = false) ->
  normal c (fabs x) /\ (value c (fabs x) == Qabs (value c x))%Q /\ dneg (fabs x) = false /\ fabs (negate x) = fabs x.
Proof. exact (fun c x Hc => fabs_spec c Hc x). Qed.
Print Assumptions C40_fabs.
