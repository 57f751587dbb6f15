(** Properties_Conv.v - the property theorems about conversions from and to the built-in floating-point
    types and about ldexp. *)
From Verif Require Import Conv8_proofs.
Local Open Scope Z_scope.

(** C45. A normal float, double or long double mu * 2^p (mu of exactly as many bits as the type has)
    converts to a number of the same sign within (2|p| + 1) units of 10^-(digits10 + two limbs). *)
Theorem C45_from_float_accurate : forall c, cfg_ok c -> newton_ok c -> forall F FI mem neg q mu p,
  std_float F -> binary_normal F q mu p -> memory_ok mem -> 2 ^ f_bits F <= 10 ^ (edc c * elem_number c) ->
  (p10 (- max_exp10_of (c_expo c) + 2 * edc c + 22) <= q)%Q -> (q <= p10 (max_exp10_of (c_expo c) - 1))%Q ->
  (inject_Z (4 * Z.abs p) * p10 (- (c_digits10 c + 2 * edc c)) <= 1)%Q -> Z.abs p < 2 ^ 63 ->
  exists z, from_float c F FI mem neg q = Some z /\ normal c z /\ iszero z = false /\ dneg z = neg /\
    (Qabs (value c z - (if neg then - q else q)) <= inject_Z (2 * Z.abs p + 1) * p10 (- (c_digits10 c + 2 * edc c)) * q)%Q.
Proof. exact from_float_accurate. Qed.
Print Assumptions C45_from_float_accurate.
(** It is exact when the number and the power of one half (or two) have no more digits than are kept. *)
Theorem C45_from_float_exact : forall c, cfg_ok c -> newton_ok c -> forall F FI mem neg q mu p K j,
  std_float F -> binary_normal F q mu p -> memory_ok mem -> 2 ^ f_bits F <= 10 ^ (edc c * elem_number c) ->
  (p10 (- max_exp10_of (c_expo c) + 2 * edc c + 22) <= q)%Q -> (q <= p10 (max_exp10_of (c_expo c) - 1))%Q -> Z.abs p < 2 ^ 63 ->
  (if p <? 0 then 5 ^ (- p) else 2 ^ p) < 10 ^ kept c -> (q == inject_Z K * p10 (- j))%Q -> Z.abs K < 10 ^ kept c ->
  exists z, from_float c F FI mem neg q = Some z /\ normal c z /\ dneg z = neg /\ (value c z == (if neg then - q else q))%Q.
Proof. exact from_float_exact. Qed.
Print Assumptions C45_from_float_exact.
(** In particular for integers, when 5^(bits of the type - 1) fits the digits that are kept. *)
Theorem C45_from_float_integer : forall c F FI mem neg q mu p (i : Z), cfg_ok c -> newton_ok c -> std_float F ->
  binary_normal F q mu p -> memory_ok mem -> (q == inject_Z i)%Q -> 5 ^ (f_bits F - 1) < 10 ^ kept c -> i < 10 ^ kept c ->
  (q <= p10 (max_exp10_of (c_expo c) - 1))%Q -> Z.abs p < 2 ^ 63 ->
  exists z, from_float c F FI mem neg q = Some z /\ normal c z /\ dneg z = neg /\ (value c z == (if neg then - inject_Z i else inject_Z i))%Q.
Proof. exact from_float_int. Qed.
Print Assumptions C45_from_float_integer.
(** Zero converts to zero, but so does every subnormal number. *)
Theorem C45_subnormal_flush_refuted : forall c F FI mem neg q, cfg_ok c -> newton_ok c -> std_float F -> memory_ok mem ->
  (0 <= q)%Q -> (q < f_min F)%Q ->
  exists z, from_float c F FI mem neg q = Some z /\ (value c z == 0)%Q /\ dneg z = (neg && negb (Qeq_bool q 0)).
Proof. exact from_float_flush. Qed.
Print Assumptions C45_subnormal_flush_refuted.
(** The double 1.0 becomes 0.99.. in a 16-digit type, and converting that to an integer gives 0. *)
Theorem C45_one_refuted : exists z, from_float (mkCfg U32 16 E32) f_double f_double mem0 false 1 = Some z /\ normal (mkCfg U32 16 E32) z /\
  (value (mkCfg U32 16 E32) z < 1)%Q /\ to_ull (mkCfg U32 16 E32) z = Some 0 /\ to_sll (mkCfg U32 16 E32) z = Some 0.
Proof. exact from_one_fails. Qed.
Print Assumptions C45_one_refuted.
Theorem C45_hundred_refuted : exists z, from_float c20 f_double f_double mem0 false 100 = Some z /\ (value c20 z < 100)%Q.
Proof. exact from_hundred_fails. Qed.
Print Assumptions C45_hundred_refuted.
(** Converting a built-in number and converting the result back to its type returns it. *)
Theorem C45_round_trip : forall c strtold F FI mem neg q mu p, cfg_ok c -> newton_ok c -> std_float F -> strtold_ok strtold ->
  binary_normal F q mu p -> memory_ok mem -> 2 ^ f_bits F <= 10 ^ (edc c * elem_number c) ->
  (p10 (- max_exp10_of (c_expo c) + 2 * edc c + 22) <= q)%Q -> (q <= p10 (max_exp10_of (c_expo c) - 1))%Q ->
  (inject_Z (4 * Z.abs p + 4) * p10 (- (c_digits10 c + 2 * edc c)) <= p10 (-21))%Q -> Z.abs p < 2 ^ 63 ->
  (2 * f_min f_long_double <= q)%Q -> (2 * q <= f_max f_long_double)%Q ->
  (p10 (edc c + 1 - 10 ^ (exp_width c - 1)) <= q)%Q -> (q <= p10 (10 ^ (exp_width c - 1) - 1))%Q ->
  exists z r, from_float c F FI mem neg q = Some z /\ to_float c strtold F z = Some r /\ (r == (if neg then - q else q))%Q.
Proof. exact round_trip. Qed.
Print Assumptions C45_round_trip.
Example C45_case : cfg_ok c20 /\ newton_ok c20 /\ std_float f_double /\ binary_normal f_double tenth 7205759403792794 (-56) /\ memory_ok mem0 /\
  2 ^ f_bits f_double <= 10 ^ (edc c20 * elem_number c20) /\ (p10 (- max_exp10_of (c_expo c20) + 2 * edc c20 + 22) <= tenth)%Q /\
  (tenth <= p10 (max_exp10_of (c_expo c20) - 1))%Q /\ (inject_Z (4 * Z.abs (-56) + 4) * p10 (- (c_digits10 c20 + 2 * edc c20)) <= p10 (-21))%Q /\
  (2 * f_min f_long_double <= tenth)%Q /\ (2 * tenth <= f_max f_long_double)%Q /\
  (p10 (edc c20 + 1 - 10 ^ (exp_width c20 - 1)) <= tenth)%Q /\ (tenth <= p10 (10 ^ (exp_width c20 - 1) - 1))%Q.
Proof. exact conv_case. Qed.
Example C45_integer_case : cfg_ok c50 /\ newton_ok c50 /\ std_float f_double /\ binary_normal f_double 12345 (12345 * 2 ^ 39) (-39) /\
  (12345 == inject_Z 12345)%Q /\ 5 ^ (f_bits f_double - 1) < 10 ^ kept c50 /\ 12345 < 10 ^ kept c50 /\ (12345 <= p10 (max_exp10_of (c_expo c50) - 1))%Q.
Proof. exact conv_int_case. Qed.

(** C46. Conversion to float, double or long double of a number in the range of the type gives a finite
    number of the same sign, within 17/16 units of 2^-bits. The C library's strtold is a parameter,
    assumed correctly rounded. *)
Theorem C46_to_float_accurate_partial : forall c, cfg_ok c -> forall strtold F x, std_float F -> strtold_ok strtold -> normal c x -> text_room c x ->
  (2 * f_min F <= Qabs (value c x))%Q -> (Qabs (value c x) <= f_max F)%Q ->
  exists r, to_float c strtold F x = Some r /\ (f_min F <= Qabs r)%Q /\ (Qabs r <= f_max F)%Q /\
    ((0 < r)%Q <-> dneg x = false) /\
    (Qabs (r - value c x) <= (17 # 16) * p2 (- f_bits F) * Qabs (value c x))%Q.
Proof. exact to_float_accurate. Qed.
Print Assumptions C46_to_float_accurate_partial.
Theorem C46_to_float_zero : forall c, cfg_ok c -> forall strtold F x, std_float F -> strtold_ok strtold -> normal c x -> text_room c x ->
  iszero x = true -> exists r, to_float c strtold F x = Some r /\ (r == 0)%Q.
Proof. exact to_float_zero. Qed.
Print Assumptions C46_to_float_zero.
(** A number of the built-in type, or one within 2e-21 of it, converts to exactly that number. *)
Theorem C46_to_float_near_exact : forall c, cfg_ok c -> forall strtold F x q mu p (neg : bool), std_float F -> strtold_ok strtold -> normal c x -> text_room c x ->
  binary_normal F q mu p -> (2 * f_min f_long_double <= q)%Q -> (2 * q <= f_max f_long_double)%Q ->
  (Qabs (value c x - (if neg then - q else q)) <= 2 * p10 (-21) * q)%Q ->
  exists r, to_float c strtold F x = Some r /\ (r == (if neg then - q else q))%Q.
Proof. exact to_float_near. Qed.
Print Assumptions C46_to_float_near_exact.
(** The conversion of 10^1001 (20 digits, 8-bit limbs, 16-bit exponent) hands strtold an unterminated text. *)
Theorem C46_unterminated_refuted : exists x, normal c20 x /\ (value c20 x == p10 1001)%Q /\ ldbl_text c20 x = None.
Proof. exact no_terminator. Qed.
Print Assumptions C46_unterminated_refuted.
(** The result is not always the nearest double: the number is rounded twice. *)
Theorem C46_nearest_refuted : exists x, normal c50 x /\ to_float c50 strtold_ref f_double x = Some 1%Q /\
  (Qabs (value c50 x - (1 + p2 (-52))) < Qabs (value c50 x - 1))%Q.
Proof. exact double_rounding. Qed.
Print Assumptions C46_nearest_refuted.
(** A correctly rounded strtold exists. *)
Theorem C46_strtold_exists : strtold_ok strtold_ref.
Proof. exact strtold_ref_ok. Qed.
Print Assumptions C46_strtold_exists.
Example C46_case : cfg_ok c20 /\ std_float f_float /\ strtold_ok strtold_ref /\ normal c20 x20 /\ text_room c20 x20 /\
  (2 * f_min f_float <= Qabs (value c20 x20))%Q /\ (Qabs (value c20 x20) <= f_max f_float)%Q.
Proof. exact to_case. Qed.

(** C47. ldexp(v, e) is v * 2^e within 2 units of 10^-digits10 and 5|e| units of 10^-(digits10 + two limbs). *)
Theorem C47_ldexp_accurate_partial : forall c, cfg_ok c -> newton_ok c -> forall FI mem v e,
  float_fits c FI -> (digit_loops c FI <= nel c)%nat -> memory_ok mem ->
  2 ^ 63 < 10 ^ (edc c * elem_number c) -> normal c v -> iszero v = false ->
  - 2 ^ 31 < e < 2 ^ 31 -> (inject_Z (4 * Z.abs e) * p10 (- (c_digits10 c + 2 * edc c)) <= 1)%Q ->
  - max_exp10_of (c_expo c) + 40 <= dexp v < max_exp10_of (c_expo c) -> (p2 (Z.abs e) <= p10 (max_exp10_of (c_expo c) - 40))%Q ->
  (p10 (- max_exp10_of (c_expo c) + 60) <= Qabs (value c v * p2 e))%Q -> (Qabs (value c v * p2 e) <= p10 (max_exp10_of (c_expo c) - 60))%Q ->
  exists z, ldexp c FI mem v e = Some z /\
    (Qabs (value c z - value c v * p2 e) <=
      (2 * p10 (- c_digits10 c) + inject_Z (5 * Z.abs e) * p10 (- (c_digits10 c + 2 * edc c))) * Qabs (value c v * p2 e))%Q.
Proof. exact ldexp_accurate. Qed.
Print Assumptions C47_ldexp_accurate_partial.
Theorem C47_int_min_refuted : forall c FI mem v, ldexp c FI mem v (- 2 ^ 31) = None.
Proof. exact ldexp_min. Qed.
Print Assumptions C47_int_min_refuted.
Example C47_case : cfg_ok c20 /\ newton_ok c20 /\ float_fits c20 f_double /\ (digit_loops c20 f_double <= nel c20)%nat /\ memory_ok mem0 /\
  2 ^ 63 < 10 ^ (edc c20 * elem_number c20) /\ normal c20 x20 /\ iszero x20 = false /\ - 2 ^ 31 < -100 < 2 ^ 31 /\
  (inject_Z (4 * Z.abs (-100)) * p10 (- (c_digits10 c20 + 2 * edc c20)) <= 1)%Q /\
  - max_exp10_of (c_expo c20) + 40 <= dexp x20 < max_exp10_of (c_expo c20) /\ (p2 (Z.abs (-100)) <= p10 (max_exp10_of (c_expo c20) - 40))%Q /\
  (p10 (- max_exp10_of (c_expo c20) + 60) <= Qabs (value c20 x20 * p2 (-100)))%Q /\ (Qabs (value c20 x20 * p2 (-100)) <= p10 (max_exp10_of (c_expo c20) - 60))%Q.
Proof. exact ldexp_case. Qed.
