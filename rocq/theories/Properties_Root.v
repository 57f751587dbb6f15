(** Properties_Root.v - the property theorems about cbrt and rootn. [fsqrt] and [fpow] are the built-in
    sqrt and pow(q, -1/p); [memory] the arbitrary prior content of the working memory of each
    multiplication; [fuel] counts loop iterations: the theorems hold for every fuel of at least 64, so the
    loops end. *)
From Verif Require Import Rootn3_proofs Rootinv_proofs.
Local Open Scope Z_scope.

(** C58. rootn(v, p) for 3 <= p <= 37 (cbrt is p = 3) returns, and the p-th power of the result is within
    20 p units of 10^-(digits10 + two limbs) of v, relatively; the result has v's sign. Hypotheses: v > 0,
    or p = 3; the exponent leaves room; the built-in pow is right to five units in the last bit of its
    type; the digit counts allow [enough_doublings] (always for p = 3); |v| is not within the precision of
    the built-in type of a power (limb base)^(k p). *)
Theorem C58_rootn_accurate_partial : forall c F (fsqrt : Q -> Q) fpow p mem v fuel, cfg_ok c -> newton_ok c -> float_fits c F -> (digit_loops c F <= nel c)%nat ->
  3 <= p <= 37 -> builtin_root (f_bits F) fpow p -> enough_doublings c F p -> (64 <= fuel)%nat -> memory_ok mem -> normal c v ->
  (0 < value c v \/ value c v < 0 /\ p = 3%Z)%Q ->
  - max_exp10_of (c_expo c) + edc c * (elem_number c + 8) < dexp v < max_exp10_of (c_expo c) - edc c * (elem_number c + 8) ->
  not_near_power c p (p10 (- start_kept F p)) (Qabs (value c v)) ->
  exists y, rootn c F fsqrt fpow fuel mem v p = Ret y /\ normal c y /\ (0 < value c y <-> 0 < value c v)%Q /\
    (Qabs (value c y ^ p - value c v) <= 20 * inject_Z p * p10 (- (c_digits10 c + 2 * edc c)) * Qabs (value c v))%Q.
Proof. intros. apply rootn_accurate; auto. Qed.
Print Assumptions C58_rootn_accurate_partial.
(** Negative indices: the reciprocal root. *)
Theorem C58_rootn_negative_index_partial : forall c F (fsqrt : Q -> Q) fpow p mem v fuel, cfg_ok c -> newton_ok c -> float_fits c F -> (digit_loops c F <= nel c)%nat ->
  3 <= p <= 37 -> builtin_root (f_bits F) fpow p -> enough_doublings c F p -> (64 <= fuel)%nat -> memory_ok mem -> normal c v -> (0 < value c v)%Q ->
  - max_exp10_of (c_expo c) + edc c * (elem_number c + 8) < dexp v < max_exp10_of (c_expo c) - edc c * (elem_number c + 8) ->
  not_near_power c p (p10 (- start_kept F p)) (value c v) ->
  exists y, rootn c F fsqrt fpow fuel mem v (- p) = Ret y /\
    (Qabs (value c v * value c y ^ p - 1) <= 30 * inject_Z p * p10 (- (c_digits10 c + 2 * edc c)))%Q.
Proof. intros. apply rootn_neg_accurate; auto. Qed.
Print Assumptions C58_rootn_negative_index_partial.
(** A built-in root within one unit in the last bit or so meets the hypothesis on the built-in. *)
Theorem C58_rounded_pow_suffices : forall P p, 24 <= P -> 3 <= p <= 37 -> builtin_root P (fpow_ieee P) p.
Proof. intros P p HP Hp. apply builtin_root_ok; [exact HP|apply Hp|]. apply fpow_ieee_ok; [exact HP|]. lia. Qed.
Print Assumptions C58_rounded_pow_suffices.
(** Index 0 gives zero; a negative radicand gives zero for every non-negative index but 3, the odd ones
    and 1 included; otherwise index 1 is the identity and index 2 the square root. *)
Theorem C58_rootn_special : forall c F fsqrt fpow fuel mem v, cfg_ok c -> normal c v ->
  rootn c F fsqrt fpow fuel mem v 0 = Ret (zero c) /\
  (forall p, 0 <= p -> p <> 3 -> (value c v < 0)%Q -> rootn c F fsqrt fpow fuel mem v p = Ret (zero c)) /\
  ((0 <= value c v)%Q -> rootn c F fsqrt fpow fuel mem v 1 = Ret v) /\
  ((0 <= value c v)%Q -> rootn c F fsqrt fpow fuel mem v 2 = lift (calculate_sqrt c F fsqrt mem v)).
Proof. intros c F fsqrt fpow fuel mem v Hc Nv. destruct (rootn_special c F fsqrt fpow fuel mem v Hc Nv) as (H1 & H2 & H3 & H4 & _). auto. Qed.
Print Assumptions C58_rootn_special.
(** The smallest 32-bit index overflows on negation: undefined behaviour for every radicand. *)
Theorem C58_smallest_index_refuted : forall c F fsqrt fpow fuel mem v, rootn c F fsqrt fpow fuel mem v (- 2 ^ 31) = Fault.
Proof. intros. reflexivity. Qed.
Print Assumptions C58_smallest_index_refuted.
(** The excluded radicand 1: with an accurate built-in pow the cube root of one is a representation with
    a limb equal to the limb base, which compares less than one and not equal to it. The cube root of 27
    is 3 + 3 * 10^-72, and so not equal to 3. *)
Theorem C58_root_of_one_refuted : exists bad near3,
  builtin_root 53 (fpow_ieee 53) 3 /\ rootn c50 f_double (fsqrt_ieee 53) (fpow_ieee 53) 64 mem0 (one c50) 3 = Ret bad /\
  ~ normal c50 bad /\ op_lt bad (one c50) = true /\ op_eq bad (one c50) = false /\
  rootn c50 f_double (fsqrt_ieee 53) (fpow_ieee 53) 64 mem0 (from_ull c50 27) 3 = Ret near3 /\ normal c50 near3 /\
  (value c50 near3 == 3 + 3 * p10 (-72))%Q.
Proof. exists bad_one, near_three. exact root_of_one. Qed.
Print Assumptions C58_root_of_one_refuted.
Example C58_case : cfg_ok c50 /\ newton_ok c50 /\ float_fits c50 f_double /\ (digit_loops c50 f_double <= nel c50)%nat /\
  (forall p, 3 <= p <= 37 -> builtin_root (f_bits f_double) (fpow_ieee (f_bits f_double)) p /\ enough_doublings c50 f_double p /\
     not_near_power c50 p (p10 (- start_kept f_double p)) (value c50 xa)) /\
  memory_ok mem0 /\ normal c50 xa /\ (0 < value c50 xa)%Q /\
  - max_exp10_of (c_expo c50) + edc c50 * (elem_number c50 + 8) < dexp xa < max_exp10_of (c_expo c50) - edc c50 * (elem_number c50 + 8).
Proof. exact root_case. Qed.

(** C64. rootn_inv(v, p), 3 <= p <= 37 and v > 0: it returns a positive number whose p-th power times v is 1
    within 12 p units of 10^-(digits10 + two limbs). Hypotheses on the built-in pow, the exponent and the
    excluded neighbourhoods as in C58. *)
Theorem C64_rootn_inv_accurate_partial : forall c F fpow p mem v fuel, cfg_ok c -> newton_ok c -> float_fits c F -> (digit_loops c F <= nel c)%nat ->
  3 <= p <= 37 -> builtin_root (f_bits F) fpow p -> enough_doublings c F p -> (64 <= fuel)%nat -> memory_ok mem -> normal c v -> (0 < value c v)%Q ->
  - max_exp10_of (c_expo c) + edc c * (elem_number c + 8) < dexp v < max_exp10_of (c_expo c) - edc c * (elem_number c + 8) ->
  not_near_power c p (p10 (- start_kept F p)) (value c v) ->
  exists y, rootn_inv c F fpow fuel mem v p = Ret y /\ normal c y /\ (0 < value c y)%Q /\
    (Qabs (value c v * value c y ^ p - 1) <= 12 * inject_Z p * p10 (- (c_digits10 c + 2 * edc c)))%Q.
Proof. intros. apply rootn_inv_accurate; auto. Qed.
Print Assumptions C64_rootn_inv_accurate_partial.
(** Index 1 gives back the argument, not its reciprocal: for v = 12345678.9 the product with v, which
    should be 1, is above 10^14. Indices below 1 give zero. *)
Theorem C64_rootn_inv_of_index_one_refuted : forall c F fpow fuel mem v,
  rootn_inv c F fpow fuel mem v 1 = Ret v /\ (forall p, p < 1 -> rootn_inv c F fpow fuel mem v p = Ret (zero c)) /\
  exists y, rootn_inv c50 f_double fpow fuel mem xa 1 = Ret y /\ (100000000000000 < value c50 xa * value c50 y ^ 1)%Q.
Proof.
  intros c F fpow fuel mem v. split; [reflexivity|]. split.
  { intros p Hp. unfold rootn_inv. replace (p <? 1) with true by lia. reflexivity. }
  exists xa. split; [reflexivity|vm_compute; reflexivity].
Qed.
Print Assumptions C64_rootn_inv_of_index_one_refuted.
Example C64_case : cfg_ok c50 /\ newton_ok c50 /\ float_fits c50 f_double /\ (digit_loops c50 f_double <= nel c50)%nat /\
  (forall p, 3 <= p <= 37 -> builtin_root (f_bits f_double) (fpow_ieee (f_bits f_double)) p /\ enough_doublings c50 f_double p /\
     not_near_power c50 p (p10 (- start_kept f_double p)) (value c50 xa)) /\
  memory_ok mem0 /\ normal c50 xa /\ (0 < value c50 xa)%Q /\
  - max_exp10_of (c_expo c50) + edc c50 * (elem_number c50 + 8) < dexp xa < max_exp10_of (c_expo c50) - edc c50 * (elem_number c50 + 8).
Proof. exact root_case. Qed.
