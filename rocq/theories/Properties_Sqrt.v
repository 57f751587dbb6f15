(** Properties_Sqrt.v - the property theorems about the square root. [fsqrt] is the built-in square
    root of the floating-point type used for the starting value; [memory] the arbitrary prior content
    of the working memory of each multiplication. *)
From Verif Require Import Sqrt4_proofs.
Local Open Scope Z_scope.

(** C44. sqrt(v) returns a positive value in normal form whose square is within 11 units of
    10^-(digits10 + two limbs) of v, relatively; equivalently it is within that relative distance of
    the root. Hypotheses: the exponent leaves room; the built-in sqrt is right to two units in the
    last bit of its type; and v is 1 or 0.99..9, or stays a relative 10 * 10^-(digits of the built-in
    type - 1) away from every even power of the limb base, taken once and a quarter of it. *)
Theorem C44_sqrt_accurate_partial : forall c F fsqrt mem v, cfg_ok c -> newton_ok c -> float_fits c F -> (digit_loops c F <= nel c)%nat ->
  (forall q, rep (f_bits F) q -> 1 # 200 <= q -> q <= 2 -> rep (f_bits F) (fsqrt q) /\ 0 < fsqrt q /\
     q * ((1 - 2 * p2 (- f_bits F)) * (1 - 2 * p2 (- f_bits F))) <= fsqrt q * fsqrt q /\
     fsqrt q * fsqrt q <= q * ((1 + 2 * p2 (- f_bits F)) * (1 + 2 * p2 (- f_bits F))))%Q ->
  memory_ok mem -> normal c v -> (0 < value c v)%Q ->
  - max_exp10_of (c_expo c) + edc c * (elem_number c + 8) < dexp v < max_exp10_of (c_expo c) - edc c * (elem_number c + 8) ->
  (is_one c v \/ is_nines c v \/
   forall k, (edc c | k) -> (10 * p10 (- (f_digits10 F - 1)) * p10 (2 * k) <= Qabs (value c v - p10 (2 * k)) /\
                             10 * p10 (- (f_digits10 F - 1)) * p10 (2 * k) <= Qabs (4 * value c v - p10 (2 * k)))%Q) ->
  exists r, calculate_sqrt c F fsqrt mem v = Some r /\ normal c r /\ (0 < value c r)%Q /\
    (Qabs (value c r * value c r - value c v) <= 11 * p10 (- (c_digits10 c + 2 * edc c)) * value c v)%Q.
Proof. exact sqrt_accurate. Qed.
Print Assumptions C44_sqrt_accurate_partial.
Theorem C44_sqrt_brackets_root_partial : forall c F fsqrt mem v, cfg_ok c -> newton_ok c -> float_fits c F -> (digit_loops c F <= nel c)%nat ->
  fsqrt_ok (f_bits F) fsqrt -> memory_ok mem -> normal c v -> (0 < value c v)%Q ->
  - max_exp10_of (c_expo c) + edc c * (elem_number c + 8) < dexp v < max_exp10_of (c_expo c) - edc c * (elem_number c + 8) ->
  (is_one c v \/ is_nines c v \/ clear_of c (p10 (- (f_digits10 F - 1))) (value c v)) ->
  exists r, calculate_sqrt c F fsqrt mem v = Some r /\ normal c r /\
    (forall t, 0 <= t -> t * t <= value c v -> t * (1 - 11 * p10 (- (c_digits10 c + 2 * edc c))) <= value c r)%Q /\
    (forall t, 0 <= t -> value c v <= t * t -> value c r <= t * (1 + 11 * p10 (- (c_digits10 c + 2 * edc c))))%Q.
Proof. exact sqrt_bracket. Qed.
Print Assumptions C44_sqrt_brackets_root_partial.
(** The correctly rounded square root satisfies the hypothesis on the built-in. *)
Theorem C44_ieee_sqrt_suffices : forall P, 24 <= P -> fsqrt_ok P (fsqrt_ieee P).
Proof. exact fsqrt_ieee_ok. Qed.
Print Assumptions C44_ieee_sqrt_suffices.
(** A negative radicand gives zero; zero and one are their own roots. *)
Theorem C44_sqrt_special : forall c F fsqrt mem v, cfg_ok c -> normal c v ->
  (dneg v = true -> calculate_sqrt c F fsqrt mem v = Some (zero c)) /\
  (dneg v = false -> iszero v = true -> calculate_sqrt c F fsqrt mem v = Some v) /\
  ((value c v == 1)%Q -> calculate_sqrt c F fsqrt mem v = Some v).
Proof. exact sqrt_special. Qed.
Print Assumptions C44_sqrt_special.
(** The root of a perfect square is not always exact. *)
Theorem C44_perfect_square_refuted : forall k, k = 12345 \/ k = 1000 -> exists r,
  calculate_sqrt c50 f_double (fsqrt_ieee (f_bits f_double)) mem0 (from_ull c50 (k * k)) = Some r /\
  normal c50 (from_ull c50 (k * k)) /\ (value c50 (from_ull c50 (k * k)) == inject_Z (k * k))%Q /\ normal c50 r /\
  (value c50 r == inject_Z k + p10 (- 72))%Q.
Proof. exact sqrt_not_exact. Qed.
Print Assumptions C44_perfect_square_refuted.
Example C44_case : cfg_ok c50 /\ newton_ok c50 /\ float_fits c50 f_double /\ (digit_loops c50 f_double <= nel c50)%nat /\
  fsqrt_ok (f_bits f_double) (fsqrt_ieee (f_bits f_double)) /\ memory_ok mem0 /\ normal c50 xa /\ (0 < value c50 xa)%Q /\
  - max_exp10_of (c_expo c50) + edc c50 * (elem_number c50 + 8) < dexp xa < max_exp10_of (c_expo c50) - edc c50 * (elem_number c50 + 8) /\
  clear_of c50 (p10 (- (f_digits10 f_double - 1))) (value c50 xa).
Proof. exact sqrt_case. Qed.
