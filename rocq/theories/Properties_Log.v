(** Properties_Log.v - termination of log, pow with a real exponent and the root functions. *)
From Verif Require Import Log_proofs.
Local Open Scope Z_scope.

(** C26. log returns, after at most one nested call, for every argument from one up, and for every positive
    argument below one by at least 8 units of 10^-(digits10 + two limbs), provided the branch for
    arguments above one (straight-line code and bounded loops) returns. *)
Theorem C26_log_returns_partial : forall c F core mems x, cfg_ok c -> newton_ok c -> float_fits c F ->
  (digit_loops c F <= nel c)%nat -> memory_ok (mems 0%nat) -> normal c x ->
  (1 <= value c x \/ 0 < value c x <= 1 - 8 * p10 (- (c_digits10 c + 2 * edc c)))%Q ->
  - max_exp10_of (c_expo c) < dexp x < max_exp10_of (c_expo c) - 3 * edc c -> (forall y, core y <> None) ->
  exists r, forall fuel, log c F core (2 + fuel) mems x = Ret r.
Proof. intros c F core mems x Hc. exact (log_returns c F Hc core mems x). Qed.
Print Assumptions C26_log_returns_partial.
Example C26_case : cfg_ok c50 /\ newton_ok c50 /\ float_fits c50 f_double /\ (digit_loops c50 f_double <= nel c50)%nat /\ memory_ok mem0 /\
  normal c50 xb /\ (0 < value c50 xb)%Q /\ (value c50 xb <= 1 - 8 * p10 (- (c_digits10 c50 + 2 * edc c50)))%Q /\
  - max_exp10_of (c_expo c50) < dexp xb < max_exp10_of (c_expo c50) - 3 * edc c50.
Proof. exact log_case. Qed.

(** The claim is false of the code: log of zero or of a negative number never returns, ... *)
Theorem C26_log_nonpositive_refuted : forall c F core fuel mems x r, cfg_ok c -> normal c x -> (value c x <= 0)%Q ->
  log c F core fuel mems x <> Ret r.
Proof. intros c F core fuel mems x r Hc Nx Vx. exact (log_nonpos c F Hc core fuel mems x r (nonpos_flags c Hc x Nx Vx)). Qed.
Print Assumptions C26_log_nonpositive_refuted.
(** ... for zero, minus one and the positive number just below one because the recursion never ends; ... *)
Theorem C26_log_recursion_refuted : forall c F core fuel mems x, cfg_ok c -> normal c x ->
  (value c x == 0)%Q \/ (value c x == -(1))%Q \/ (value c x == 1 - p10 (- (edc c * elem_number c)))%Q ->
  log c F core fuel mems x = Running.
Proof. exact log_never_ends. Qed.
Print Assumptions C26_log_recursion_refuted.
Example C26_recursion_case : normal c50 xnines /\ (value c50 xnines == 1 - p10 (- (edc c50 * elem_number c50)))%Q /\ normal c50 (zero c50).
Proof. exact log_nines_case. Qed.
(** ... pow(x, a) with x <= 0 and a <> 0 does not return, even for integer a; ... *)
Theorem C26_pow_nonpositive_refuted : forall c F core exp fuel mems mem x a r, cfg_ok c -> normal c x -> (value c x <= 0)%Q ->
  iszero a = false -> pow_real c F core exp fuel mems mem x a <> Ret r.
Proof.
  intros c F core exp fuel mems mem x a r Hc Nx Vx Za. exact (pow_real_nonpos c F Hc core exp fuel mems mem x a r Za (nonpos_flags c Hc x Nx Vx)).
Qed.
Print Assumptions C26_pow_nonpositive_refuted.
(** ... the cube root and higher roots of zero do not return when the built-in pow(0, -1/p) is infinite,
    as IEEE arithmetic has it; ... *)
Theorem C26_root_of_zero_refuted : forall c F (fpow : Q -> Z -> xfloat) fuel mem x (p : Z), cfg_ok c ->
  (forall q (k : Z), (q == 0)%Q -> 2 <= k -> fpow q k = XInf) -> normal c x -> (value c x == 0)%Q ->
  3 <= p < 2 ^ (ebits (c_expo c) - 1) -> rootn_ge3 c F fpow fuel mem x p = Running.
Proof. exact root_of_zero. Qed.
Print Assumptions C26_root_of_zero_refuted.
(** ... and a root index that is a multiple of 2^(exponent bits) divides by zero. *)
Theorem C26_root_index_refuted : forall F fpow fuel mem x, rootn_inv c20 F fpow (S fuel) mem x 65536 = Fault.
Proof. intros. apply rootn_mod_zero; [discriminate|reflexivity]. Qed.
Print Assumptions C26_root_index_refuted.
