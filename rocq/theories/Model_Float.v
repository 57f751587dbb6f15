(** Model_Float.v - the built-in floating-point types used internally (InternalFloatType).

    A floating-point number is modelled by the rational it denotes; each built-in operation is the
    exact rational operation followed by rounding to nearest, ties to even, at the precision of the
    type (IEEE 754). Simplifications: the exponent range is unbounded (no overflow or subnormals; the
    code modelled here only handles mantissas of moderate size), no excess precision, no fused
    multiply-add. *)
From Coq Require Export ZArith QArith Qabs Qround Qpower Bool.
Local Open Scope Z_scope.

(** A binary floating-point type: bits of significand, numeric_limits digits10 and max_digits10. *)
Record ftype := mkF { f_bits : Z; f_digits10 : Z; f_max_digits10 : Z }.
Definition f_float : ftype := mkF 24 6 9.
Definition f_double : ftype := mkF 53 15 17.
(** x87 80-bit extended precision. *)
Definition f_long_double : ftype := mkF 64 18 21.

(** 2^e as a rational. *)
Definition p2 (e : Z) : Q := Qpower (2 # 1) e.

(** The exponent of the leading bit of a positive rational. *)
Definition lead2 (q : Q) : Z :=
  let k := Z.log2 (Qnum q) - Z.log2 (Zpos (Qden q)) in
  if Qle_bool (p2 k) q then k else k - 1.

(** Nearest integer, ties to even. *)
Definition rne (q : Q) : Z :=
  let f := Qfloor q in
  match Qcompare (q - inject_Z f) (1 # 2) with
  | Lt => f
  | Gt => f + 1
  | Eq => if Z.even f then f else f + 1
  end.

(** Rounding of a positive rational to [P] significant bits. *)
Definition fl_pos (P : Z) (q : Q) : Q :=
  let e := lead2 q - P + 1 in inject_Z (rne (q / p2 e)) * p2 e.

(** IEEE rounding to nearest even with [P] significant bits. *)
Definition fl (P : Z) (q : Q) : Q :=
  if Qeq_bool q 0 then 0
  else if Qle_bool 0 q then Qred (fl_pos P q) else Qred (- fl_pos P (- q)).
