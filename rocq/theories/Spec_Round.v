(** Spec_Round.v - rounding and integer-part notions, said without the code. *)
From Verif Require Export Spec_Dec.
From Coq Require Export Qround.
Local Open Scope Z_scope.

(** [r] is [q] rounded to the nearest multiple of the unit [u], halves away from zero. *)
Definition rounds_half_up (u q r : Q) : Prop :=
  (0 <= q * r)%Q /\
  exists k : Z, (Qabs r == inject_Z k * u)%Q /\
    (inject_Z k * u - u / 2 <= Qabs q)%Q /\ (Qabs q < inject_Z k * u + u / 2)%Q.

(** [k] is the decimal exponent of the leading digit of [q]. *)
Definition leading_exponent (q : Q) (k : Z) : Prop := (p10 k <= Qabs q)%Q /\ (Qabs q < p10 (k + 1))%Q.

(** Truncation towards zero. *)
Definition truncZ (q : Q) : Z := if Qle_bool 0 q then Qfloor q else Qceiling q.

(** Clamping to a closed integer range. *)
Definition clamp (lo hi k : Z) : Z := Z.max lo (Z.min hi k).

(** [r] is [q] up to a rounding at the (digits10+4)-th significant digit: off by less than two units there,
    and equal to [q] when [q] has at most digits10+4 significant digits. *)
Definition nearly (c : cfg) (q r : Q) : Prop :=
  exists k : Z, leading_exponent q k /\
    (Qabs (r - q) < 2 * p10 (k - (c_digits10 c + 3)))%Q /\
    ((exists m : Z, q == inject_Z m * p10 (k - (c_digits10 c + 3)))%Q -> r == q)%Q.

(** Numbers with leading digit at 10^k whose rounding digit lies in the last limb but one: exactly one
    limb lies below it. *)
Definition guard_limb_kept (c : cfg) (k : Z) : Prop :=
  (c_digits10 c + 3 - k mod edc c + (edc c - 1)) / edc c + 2 = elem_number c.
