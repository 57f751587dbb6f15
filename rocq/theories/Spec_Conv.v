(** Spec_Conv.v - the built-in floating-point types and strtold, said without the library's code. *)
From Verif Require Export Spec_Str Model_Conv.
Local Open Scope Z_scope.

(** float, double and long double (x87 extended). *)
Definition std_float (F : ftype) : Prop := F = f_float \/ F = f_double \/ F = f_long_double.

(** A normal positive number of the type: an integer of exactly [f_bits] bits times a power of two. *)
Definition binary_normal (F : ftype) (q : Q) (mu p : Z) : Prop :=
  2 ^ (f_bits F - 1) <= mu < 2 ^ f_bits F /\ (q == inject_Z mu * p2 p)%Q /\ (f_min F <= q)%Q.

(** The largest finite magnitude of the type. *)
Definition f_max (F : ftype) : Q :=
  (inject_Z (2 ^ f_bits F - 1) * p2 ((if f_bits F =? 24 then 128 else if f_bits F =? 53 then 1024 else 16384) - f_bits F))%Q.

(** A C library whose strtold is correctly rounded (to nearest, 64 significant bits) in the normal range of long double. *)
Definition strtold_ok (strtold : list Z -> Q) : Prop :=
  forall l, lit_ok l -> l_int l <> [] -> (forall u s ds, l_exp l = Some (u, s, ds) -> ds <> []) ->
    ((lit_value l == 0)%Q \/ (f_min f_long_double <= Qabs (lit_value l))%Q /\ (Qabs (lit_value l) <= f_max f_long_double)%Q) ->
    (strtold (lit_text l) == fl 64 (lit_value l))%Q.

(** Room for the text: the exponent fits its digits, and the leading group of digits or the exponent is not full. *)
Definition text_room (c : cfg) (x : dec) : Prop :=
  Z.abs (dexp x) < 2 ^ (ebits (c_expo c) - 1) /\ Z.abs (dexp x) < 10 ^ exp_width c /\
  ((Qabs (value c x) < p10 (dexp x + edc c - 1))%Q \/ Z.abs (dexp x) < 10 ^ (exp_width c - 1)).

(** Number of decimal digits that are always kept. *)
Definition kept (c : cfg) : Z := edc c * (elem_number c - 1) + 1.
