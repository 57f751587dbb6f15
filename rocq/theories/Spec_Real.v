(** Spec_Real.v - the real number an object denotes, and what it means for an object to hold a real
    constant as precisely as it can. PI, exp and ln are those of the standard library's Reals. *)
From Coq Require Export Reals Qreals.
From Verif Require Export Spec_Dec.
Local Open Scope R_scope.

Definition rvalue (c : cfg) (x : dec) : R := Q2R (value c x).

(** Powers of ten as reals. *)
Definition r10 (k : Z) : R := Q2R (p10 k).

(** [z] is the real [r] >= 0 cut off after [z]'s last stored limb. *)
Definition cuts_off (c : cfg) (z : dec) (r : R) : Prop := rvalue c z <= r < rvalue c z + Q2R (ulp c z).

(** [z] is the real [r] up to the relative error [e]. *)
Definition rel_close (c : cfg) (z : dec) (r e : R) : Prop := Rabs (rvalue c z - r) <= e * Rabs r.
