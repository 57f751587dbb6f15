(** Spec_Fft.v - the discrete convolution and what is expected of the floating-point transform. *)
From Verif Require Export Spec_Dec Model_Fft.
Local Open Scope Z_scope.

(** Coefficient [k] of the product of the polynomials with the coefficient lists [a] and [b]. *)
Definition convolution (a b : list Z) (k : nat) : Z :=
  fold_right (fun i s => nth i a 0 * nth (k - i) b 0 + s) 0 (seq 0 (k + 1)).

(** [af] is the transform's answer for the product of the limb arrays [u] and [v]: every array element
    that is used is within a quarter unit (times n_fft / 2) of the convolution of the half-limbs. *)
Definition transform_ok (L : limb_t) (af : nat -> Q) (u v : list Z) : Prop :=
  forall k, (k <= 2 * length u - 2)%nat ->
  (Qabs (af k - inject_Z (n_fft (length u) / 2) * inject_Z (convolution (half_limbs L u) (half_limbs L v) k))
   <= inject_Z (n_fft (length u) / 2) * (1 # 4))%Q.

(** Configurations multiplied through the FFT with a floating-point type of [P] significant bits: large
    enough to be dispatched to it, and such that every convolution coefficient is well inside the exactly
    represented integers (double: up to 2^28 limbs of 8 digits). *)
Definition fft_ok (c : cfg) (P : Z) : Prop :=
  8 <= P <= 64 /\ elems_for_fft <= elem_number c <= 2 ^ 29 /\
  2 * elem_number c * 10 ^ edc c < 2 ^ (P - 4).
