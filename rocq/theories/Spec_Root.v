(** Spec_Root.v - vocabulary of the statements about roots: what is assumed of the built-in power function,
    and which numbers are excluded. *)
From Verif Require Export Spec_Dec Model_Float Model_Log Float_proofs.
Local Open Scope Z_scope.

(** The built-in pow(q, -1/p), on the representable numbers between 10^-p / 2 and 2: finite, positive,
    relative error at most 5 * 2^-P, P the bits of the type (a correctly rounded one has 1 * 2^-P). *)
Definition builtin_root (P : Z) (fpow : Q -> Z -> xfloat) (p : Z) : Prop := forall q, rep P q ->
  ((1 # 2) * p10 (- p) <= q)%Q -> (q <= 2)%Q ->
  exists y, fpow q p = XFin y /\ rep P y /\ (0 < y)%Q /\
    ((1 - 5 * p2 (- P)) ^ p <= y ^ p * q)%Q /\ (y ^ p * q <= (1 + 5 * p2 (- P)) ^ p)%Q.

(** [X] differs relatively by more than [tau] from the p-th power of every power of the limb base. *)
Definition not_near_power (c : cfg) (p : Z) (tau X : Q) : Prop := forall k, (edc c | k) -> (tau < Qabs (X / p10 (p * k) - 1))%Q.

(** Digits of the floating-point starting value that are certain. *)
Definition start_kept (F : ftype) (p : Z) : Z := if p =? 3 then f_digits10 F - 1 else f_digits10 F - 2.

(** The iteration doubles a count of digits that starts at digits10 - 1 of the built-in type, until it
    covers the limb array. For p > 3 one digit fewer is certain; this says that doubling the certain digits
    equally often still covers all limbs but one. *)
Definition enough_doublings (c : cfg) (F : ftype) (p : Z) : Prop := p = 3 \/
  forall k, 0 <= k -> elem_number c * edc c <= (f_digits10 F - 1) * 2 ^ k -> edc c * (elem_number c - 1) <= (f_digits10 F - 2) * 2 ^ k.
