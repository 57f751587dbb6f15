(** Properties_Transform.v - the FFT of decwide_t_detail_fft.h. *)
From Coq Require Import Lra Lia QArith Qreals.
From Verif Require Import Spec_Fft Spec_Transform Transform4_proofs Transform5_proofs Sine_proofs.
Import ListNotations.
Local Open Scope R_scope.

(** C55. Carried out in exact arithmetic, for every power of two of at least 8 points and all data: the complex
    transform ends and leaves the discrete Fourier transform of the array in the array (angle +2 pi jk/n forward,
    -2 pi jk/n inverse), and writes nothing beyond it. *)
Theorem C55_complex_transform : forall fwd p d, (3 <= p)%nat ->
  exists d', fft exact fwd (2 ^ p) d = Some d' /\ is_dft fwd (2 ^ p) d d' /\ (forall i, (2 * 2 ^ p <= i)%nat -> d' i = d i).
Proof. exact fft_is_dft. Qed.
Print Assumptions C55_complex_transform.

(** The transform of 2^p real numbers, packed. *)
Theorem C55_real_transform : forall p x, (4 <= p)%nat ->
  exists d, rfft exact (2 ^ p) x = Some d /\ is_real_dft (2 ^ p) x d /\ (forall i, (2 ^ p <= i)%nat -> d i = x i).
Proof. exact rfft_is_real_dft. Qed.
Print Assumptions C55_real_transform.

(** The inverse real transform undoes it, up to the factor n/2. *)
Theorem C55_inverse_transform : forall p x y, (4 <= p)%nat -> is_real_dft (2 ^ p) x y ->
  exists d, irfft exact (2 ^ p) y = Some d /\ (forall i, (i < 2 ^ p)%nat -> d i = INR (2 ^ p / 2) * x i) /\
    (forall i, (2 ^ p <= i)%nat -> d i = y i).
Proof. exact irfft_inverts. Qed.
Print Assumptions C55_inverse_transform.

(** There and back: 16 numbers. *)
Example C55_case : exists y d, rfft exact 16 INR = Some y /\ is_real_dft 16 INR y /\ irfft exact 16 y = Some d /\ d 5%nat = 40.
Proof.
  destruct (rfft_is_real_dft 4 INR ltac:(lia)) as (y & E & H & _).
  destruct (irfft_inverts 4 INR y ltac:(lia) H) as (d & E2 & H2 & _).
  exists y, d. split; [exact E|]. split; [exact H|]. split; [exact E2|].
  rewrite H2 by (cbn; lia). change (2 ^ 4 / 2)%nat with 8%nat. cbn [INR]. lra.
Qed.

(** C56. Two digit arrays that fill at most half of the transform: after the two forward transforms, the pointwise
    product and the inverse transform the array holds n/2 times the convolution. *)
Theorem C56_convolution_exact : forall p ha hb af bf, (4 <= p)%nat -> (2 * length ha <= 2 ^ p)%nat -> (2 * length hb <= 2 ^ p)%nat ->
  exists d, convolve exact (2 ^ p) ha hb af bf = Some d /\
  (forall k, (k < 2 ^ p)%nat -> d k = INR (2 ^ p / 2) * IZR (convolution ha hb k)) /\
  (forall i, (2 ^ p <= i)%nat -> d i = af i).
Proof. exact convolve_ok. Qed.
Print Assumptions C56_convolution_exact.

(** The transform size chosen by operator*= is large enough for that. *)
Theorem C56_transform_size : forall len, (Z.of_nat len <= 2 ^ 29)%Z ->
  exists p, (5 <= p)%nat /\ Z.to_nat (n_fft len) = (2 ^ p)%nat /\ n_fft len = (2 ^ Z.of_nat p)%Z /\ (4 * len <= 2 ^ p)%nat.
Proof. exact n_fft_size. Qed.
Print Assumptions C56_transform_size.

(** The limbs of a product, when the floating-point run of the transform code ends within a quarter unit
    (of n/2) of its exact run. Missing: a bound for the rounding errors of the floating-point run. *)
Theorem C56_product_partial : forall L P u v af bf d (r : nat -> Q), (8 <= P <= 64)%Z ->
  digits_ok (mask L) u -> digits_ok (mask L) v ->
  length u = length v -> (1 <= length u)%nat -> (Z.of_nat (length u) <= 2 ^ 29)%Z ->
  (2 * Z.of_nat (length u) * mask L < 2 ^ (P - 4))%Z ->
  convolve exact (Z.to_nat (n_fft (length u))) (half_limbs L u) (half_limbs L v) af bf = Some d ->
  (forall k, (k <= 2 * length u - 2)%nat -> Rabs (Q2R (r k) - d k) <= IZR (n_fft (length u) / 2) / 4) ->
  let w := mul_loop_fft L P r (length u) in
  let W := (mask L ^ Z.of_nat (length u))%Z in
  length w = length u /\ digits_ok (mask L) w /\
  (limbs_value (mask L) w * W <= limbs_value (mask L) u * limbs_value (mask L) v
    < (limbs_value (mask L) w + 2 * Z.of_nat (length u) * mask_half L) * W)%Z.
Proof. exact fft_multiplication. Qed.
Print Assumptions C56_product_partial.

(** The model run with nine-digit fixed-point numbers: 12345 * 9071 digit by digit. *)
Example C56_run : run_matches 16 [1; 2; 3; 4; 5]%Z [9; 0; 7; 1]%Z [9; 18; 34; 51; 68; 31; 39; 5]%Z = true.
Proof. exact convolve_run. Qed.
Example C56_case : let u := [99; 99]%Z in exists d,
  convolve exact (Z.to_nat (n_fft 2)) (half_limbs U8 u) (half_limbs U8 u) (fun _ => 0) (fun _ => 0) = Some d /\
  digits_ok (mask U8) u /\ (2 * Z.of_nat 2 * mask U8 < 2 ^ (24 - 4))%Z /\ d 2%nat = 16 * 243.
Proof.
  intros u. destruct (convolve_limbs U8 u u (fun _ => 0) (fun _ => 0) eq_refl ltac:(cbn; lia)) as (d & E & H).
  exists d. split; [exact E|]. split; [repeat constructor; cbn; lia|]. split; [reflexivity|].
  rewrite H by (cbn; lia). change (n_fft (length u) / 2)%Z with 16%Z. f_equal.
Qed.

(** C57. The literals of the sine table are the sines they stand for, to 41 significant digits; for one point
    the table gives sin(pi) = 0. *)
Theorem C57_sine_table : forall k, (1 <= k <= 31)%nat ->
  Rabs (Q2R (template_sin_order_1 (2 ^ Z.of_nat k)) - sin (PI / IZR (2 ^ Z.of_nat k)))
    <= / (2 * 10 ^ 40) * sin (PI / IZR (2 ^ Z.of_nat k)).
Proof. exact sin_table_ok. Qed.
Print Assumptions C57_sine_table.
Theorem C57_sine_one : Q2R (template_sin_order_1 1) = sin (PI / 1).
Proof. exact sin_table_1. Qed.
Print Assumptions C57_sine_one.
Example C57_case : (template_sin_order_1 8 == 38268343236508977172845998403039886676134 # 100000000000000000000000000000000000000000)%Q.
Proof. vm_compute. reflexivity. Qed.
