(** Properties_Rem.v - the property theorems about fmod and frexp. [Z.rem a b] is the standard library's
    remainder of truncated division: a = b * (a quot b) + rem, |rem| < |b|, with the sign of a. *)
From Verif Require Import Fmod_proofs Fmod2_proofs Frexp3_proofs.
Local Open Scope Z_scope.

(** C48. fmod of integer-valued numbers of either sign by positive ones is the exact remainder of truncated
    division. *)
Theorem C48_integer_remainder_partial : forall c F mem x v a b, cfg_ok c -> newton_ok c -> float_fits c F ->
  (digit_loops c F <= nel c)%nat -> memory_ok mem -> normal c x -> normal c v ->
  (value c x == inject_Z a)%Q -> (value c v == inject_Z b)%Q -> a <> 0 -> 0 < b ->
  4 <= edc c <= c_digits10 c + 4 -> Z.abs a <= 10 ^ (c_digits10 c - 1) - 3 -> Z.abs a < 10 ^ int_digits c ->
  dexp x < max_exp10_of (c_expo c) - 3 * edc c -> dexp v < max_exp10_of (c_expo c) - 3 * edc c ->
  1 < Z.abs a \/ b = 1 \/ ~ (value c v == p10 (dexp v))%Q ->
  exists z, fmod c F mem x v = Some z /\ (value c z == inject_Z (Z.rem a b))%Q.
Proof. intros c F mem x v a b Hc Hk HF HJ Hm Nx Nv Vx Vv Ha Hb [H4 H5]. exact (fmod_int c F Hc Hk HF HJ mem x v a b Hm Nx Nv Vx Vv Ha Hb H4 H5). Qed.
Print Assumptions C48_integer_remainder_partial.
(** Literally the claim fails: fmod(5, -3) is -1 instead of 2 and fmod(0, -3) is -3 instead of 0, ... *)
Theorem C48_negative_divisor_refuted :
  (exists z, fmod c50 f_double mem0 (from_sll c50 5) (from_sll c50 (-3)) = Some z /\ (value c50 z == -(1))%Q) /\
  (exists z, fmod c50 f_double mem0 (zero c50) (from_sll c50 (-3)) = Some z /\ (value c50 z == -(3))%Q).
Proof. exact fmod_negative_divisor. Qed.
Print Assumptions C48_negative_divisor_refuted.
(** ... and with 8-bit limbs 8280 = 90 * 92 leaves the remainder 92 when divided by 92. *)
Theorem C48_small_limbs_refuted :
  exists z, fmod c20 f_double mem0 (from_sll c20 8280) (from_sll c20 92) = Some z /\ (value c20 z == 92)%Q.
Proof. exact fmod_u8. Qed.
Print Assumptions C48_small_limbs_refuted.
Example C48_case : let x := from_sll c50 (-98765432109876543) in let v := from_ull c50 1234567 in
  memory_ok mem0 /\ normal c50 x /\ normal c50 v /\ (value c50 x == inject_Z (-98765432109876543))%Q /\ (value c50 v == inject_Z 1234567)%Q /\
  4 <= edc c50 /\ edc c50 <= c_digits10 c50 + 4 /\ Z.abs (-98765432109876543) <= 10 ^ (c_digits10 c50 - 1) - 3 /\
  Z.abs (-98765432109876543) < 10 ^ int_digits c50 /\ dexp x < max_exp10_of (c_expo c50) - 3 * edc c50 /\
  dexp v < max_exp10_of (c_expo c50) - 3 * edc c50.
Proof. exact fmod_case. Qed.

(** C49. frexp returns a fraction r with 1/2 <= |r| < 1 of the sign of x and an exponent e with r * 2^e = x
    up to (|k| + 6000) units of 10^-(digits10 + 2) relative, k the decimal exponent of x; in particular both
    loops end, within 2 * (|k| / 2500 + 7) steps. *)
Theorem C49_frexp_accurate_partial : forall c F mem fuel x k, cfg_ok c -> newton_ok c -> float_fits c F ->
  (digit_loops c F <= nel c)%nat -> memory_ok mem -> normal c x -> iszero x = false -> leading_exponent (value c x) k ->
  (Z.to_nat (2 * (Z.abs k / 2500 + 7)) <= fuel)%nat ->
  Z.abs k + Z.abs k / 2500 + 1 <= max_exp10_of (c_expo c) - 34 -> 4 * Z.abs k + 28 < 2 ^ (ebits (c_expo c) - 1) -> 4 * Z.abs k + 28 < 2 ^ 31 ->
  (inject_Z (Z.abs k + 6000) * p10 (- (c_digits10 c + 2)) <= 1 # 10)%Q ->
  exists r e, frexp c F fuel mem x = Some (r, e) /\ normal c r /\ dneg r = dneg x /\
    ((1 # 2) <= Qabs (value c r))%Q /\ (Qabs (value c r) < 1)%Q /\
    (Qabs (value c r * Qpower 2 e - value c x) <= inject_Z (Z.abs k + 6000) * p10 (- (c_digits10 c + 2)) * Qabs (value c x))%Q.
Proof. intros c F mem fuel x k Hc Hk HF HJ. exact (frexp_accurate c F Hc Hk HF HJ mem fuel x k). Qed.
Print Assumptions C49_frexp_accurate_partial.
Theorem C49_frexp_zero : forall c F fuel mem x, iszero x = true -> frexp c F fuel mem x = Some (x, 0).
Proof. exact frexp_zero. Qed.
Print Assumptions C49_frexp_zero.
(** Literally the claim fails: the fraction of 2^107, which is stored exactly, comes out as 0.99..9 with
    exponent 107 instead of 1/2 with exponent 108; ... *)
Theorem C49_power_of_two_refuted : normal c50 x107 /\ (value c50 x107 == inject_Z (2 ^ 107))%Q /\
  exists r, frexp c50 f_double 20 mem0 x107 = Some (r, 107) /\ (value c50 r < 1)%Q /\ ((9 # 10) < value c50 r)%Q.
Proof. exact frexp_power_of_two. Qed.
Print Assumptions C49_power_of_two_refuted.
(** ... and with the 8-bit exponent type the binary exponent of 10^40 is not representable (undefined
    conversion). *)
Theorem C49_small_exponent_refuted : let c := mkCfg U32 9 E8 in cfg_ok c /\ normal c (mkx c false 40 [1]) /\
  (value c (mkx c false 40 [1%Z]) == p10 40)%Q /\ forall fuel mem, frexp c f_double fuel mem (mkx c false 40 [1]) = None.
Proof. exact frexp_small_exponent. Qed.
Print Assumptions C49_small_exponent_refuted.
Example C49_case : memory_ok mem0 /\ normal c50 xa /\ iszero xa = false /\ leading_exponent (value c50 xa) (ilogb c50 xa) /\
  Z.abs (ilogb c50 xa) + Z.abs (ilogb c50 xa) / 2500 + 1 <= max_exp10_of (c_expo c50) - 34 /\
  4 * Z.abs (ilogb c50 xa) + 28 < 2 ^ (ebits (c_expo c50) - 1) /\ 4 * Z.abs (ilogb c50 xa) + 28 < 2 ^ 31 /\
  (inject_Z (Z.abs (ilogb c50 xa) + 6000) * p10 (- (c_digits10 c50 + 2)) <= 1 # 10)%Q.
Proof. exact frexp_case. Qed.
