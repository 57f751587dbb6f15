(** Properties_Fft.v - the property theorems about multiplication through the FFT. [FP] is the number of
    significant bits of the floating-point type the transform uses, [af] the array the transform leaves. *)
From Verif Require Import Refute_fft.
Local Open Scope Z_scope.

(** C32. When the transform's answer is within a quarter of the true convolution coefficients, the rounding
    to integers is exact and the carry release gives limbs that are in range and hold the convolution's
    columns 0 .. 2 len - 2 exactly; the columns below them are left out, so that the limbs may fall short
    of the true product's upper half, by less than 2 len half-limbs in the last place, and never exceed it. *)
Theorem C32_carry_release_partial : forall L P af u v, 8 <= P <= 64 -> digits_ok (mask L) u -> digits_ok (mask L) v ->
  length u = length v -> (1 <= length u)%nat -> Z.of_nat (length u) <= 2 ^ 29 ->
  2 * Z.of_nat (length u) * mask L < 2 ^ (P - 4) -> transform_ok L af u v ->
  let r := mul_loop_fft L P af (length u) in
  let W := mask L ^ Z.of_nat (length u) in
  length r = length u /\ digits_ok (mask L) r /\
  limbs_value (mask L) r * W <= limbs_value (mask L) u * limbs_value (mask L) v
    < (limbs_value (mask L) r + 2 * Z.of_nat (length u) * mask_half L) * W /\
  limbs_value (mask L) r = fold_left (fun s k => mask_half L * s + convolution (half_limbs L u) (half_limbs L v) k)
                             (seq 0 (2 * length u - 1)) 0.
Proof. exact carry_release. Qed.
Print Assumptions C32_carry_release_partial.
Example C32_carry_release_case :
  let u := [99; 99] in let af := exact_transform U8 u u in
  digits_ok (mask U8) u /\ 2 * Z.of_nat (length u) * mask U8 < 2 ^ (24 - 4) /\ transform_ok U8 af u u /\
  mul_loop_fft U8 24 af 2 = [99; 63].
Proof. exact carry_release_case. Qed.

(** The multiplication operator at FFT precisions, when a read past the end of an array merely gives some
    limb: the result is in normal form, never exceeds the product in magnitude, has its sign and a
    relative error below 2 * limbs / sqrt(limb base) * 10^-digits10. *)
Theorem C32_product_accurate_partial : forall c FP af g x v, cfg_ok c -> fft_ok c FP -> normal c x -> normal c v ->
  iszero x = false -> iszero v = false ->
  ~ is_one c x -> ~ is_nines c x -> ~ is_one c v -> ~ is_nines c v ->
  - max_exp10_of (c_expo c) < dexp x + dexp v < max_exp10_of (c_expo c) ->
  transform_ok (c_limb c) af (data x) (data v) ->
  exists z, mul_fft c FP (Some g) af x v = Some z /\ normal c z /\ iszero z = false /\
    (0 <= value c x * value c v * value c z)%Q /\
    (Qabs (value c z) <= Qabs (value c x * value c v))%Q /\
    ((Qabs (value c x * value c v) - Qabs (value c z)) * inject_Z (mask_half (c_limb c))
      < Qabs (value c x * value c v) * (2 * inject_Z (elem_number c)) * p10 (- c_digits10 c))%Q.
Proof. exact product_accurate. Qed.
Print Assumptions C32_product_accurate_partial.

(** Literally the claim fails: 2 * 2 reads an element outside the limb array at every FFT precision, ... *)
Theorem C32_no_overread_refuted : forall c FP, cfg_ok c -> fft_ok c FP ->
  exists x, normal c x /\ (value c x == 2)%Q /\
  forall af, transform_ok (c_limb c) af (data x) (data x) -> mul_fft c FP None af x x = None.
Proof. exact overread. Qed.
Print Assumptions C32_no_overread_refuted.
(** ... and a product that fits the limb array loses its last limb: 2 * 3.00...01 is less than the
    representable 6.00...02. *)
Theorem C32_exact_product_refuted : forall c FP, cfg_ok c -> fft_ok c FP ->
  exists x v w, normal c x /\ normal c v /\ normal c w /\ (value c w == value c x * value c v)%Q /\
  forall af g, transform_ok (c_limb c) af (data x) (data v) ->
  exists z, mul_fft c FP (Some g) af x v = Some z /\ (value c z < value c w)%Q.
Proof. exact last_limb. Qed.
Print Assumptions C32_exact_product_refuted.

(** 14320 digits with 32-bit limbs and double: the hypotheses hold, with the exact transform. *)
Example C32_case : cfg_ok c_fft /\ fft_ok c_fft 53 /\ normal c_fft (f2 c_fft) /\ normal c_fft (fu c_fft 3 1) /\
  ~ is_one c_fft (f2 c_fft) /\ ~ is_nines c_fft (f2 c_fft) /\ ~ is_one c_fft (fu c_fft 3 1) /\ ~ is_nines c_fft (fu c_fft 3 1) /\
  transform_ok (c_limb c_fft) (exact_transform U32 (data (f2 c_fft)) (data (fu c_fft 3 1))) (data (f2 c_fft)) (data (fu c_fft 3 1)).
Proof. exact fft_case. Qed.
