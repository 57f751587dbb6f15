(** Spec_Transform.v - the discrete Fourier transform over the real numbers, by its defining sums, and the
    FFT code run with exact arithmetic. *)
From Coq Require Export Reals.
From Verif Require Export Model_Transform.
Local Open Scope R_scope.

(** f 0 + ... + f (n-1). *)
Fixpoint rsum (n : nat) (f : nat -> R) : R :=
  match n with O => 0 | S k => rsum k f + f k end.

(** Angle of the twiddle factor: 2 pi j k / n, positive for the forward transform. *)
Definition angle (fwd : bool) (n j k : nat) : R :=
  (if fwd then 1 else -1) * (2 * PI * (INR j * INR k) / INR n).

(** [d'] is the complex transform of [d]: n complex numbers, real and imaginary parts side by side. *)
Definition is_dft (fwd : bool) (n : nat) (d d' : nat -> R) : Prop :=
  forall k, (k < n)%nat ->
  d' (2 * k)%nat = rsum n (fun j => d (2 * j)%nat * cos (angle fwd n j k) - d (2 * j + 1)%nat * sin (angle fwd n j k)) /\
  d' (2 * k + 1)%nat = rsum n (fun j => d (2 * j)%nat * sin (angle fwd n j k) + d (2 * j + 1)%nat * cos (angle fwd n j k)).

(** [d] holds the first half of the transform of the n real numbers [x]; the transforms at 0 and n/2, which
    are real, share the first two elements. *)
Definition is_real_dft (n : nat) (x d : nat -> R) : Prop :=
  d 0%nat = rsum n x /\
  d 1%nat = rsum n (fun j => x j * cos (PI * INR j)) /\
  forall k, (1 <= k)%nat -> (2 * k < n)%nat ->
  d (2 * k)%nat = rsum n (fun j => x j * cos (angle true n j k)) /\
  d (2 * k + 1)%nat = rsum n (fun j => x j * sin (angle true n j k)).

(** Real arithmetic, and the sines the table stands for. *)
Definition exact : arith R :=
  mkArith R IZR Rplus Rminus Rmult Ropp (fun x => x / 2) (fun n => sin (PI / INR n)).
