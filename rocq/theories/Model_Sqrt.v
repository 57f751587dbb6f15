(** Model_Sqrt.v - the square root (coupled Newton iteration from a floating-point estimate). *)
From Verif Require Export Model_Inv Model_Misc.
Local Open Scope Z_scope.

(** IEEE square root of a rational between 2^-20 and 2^20: rounding to nearest even with [P] bits of the
    exact root (the root is taken to P+16 fractional bits with a sticky bit, then rounded once).
    An instance of the parameter [fsqrt] below. *)
Definition fsqrt_ieee (P : Z) (q : Q) : Q :=
  let m := Z.sqrt (Qfloor (q * inject_Z (4 ^ (P + 16)))) in
  let exact := Qeq_bool (inject_Z (m * m)) (q * inject_Z (4 ^ (P + 16))) in
  fl P (inject_Z (if exact then 2 * m else 2 * m + 1) / inject_Z (2 ^ (P + 17))).

Section SQRT.
Variable c : cfg.
Variable F : ftype.                       (* InternalFloatType *)
Variable fsqrt : Q -> Q.                  (* the built-in sqrt of that type *)
Let L := c_limb c.
Let E := ebits (c_expo c).
Let P := f_bits F.

(** One pass: returns the new vi and the new *this. Models: decwide_t.h 1929-1941.
    "x * -2" is mul_signed_long_long (1341-1423), "a + b" a copy and operator+= (5150-5170). [i] numbers the multiplications. *)
Definition sqrt_step (mem : memory) (i : nat) (x s vi : dec) : option (dec * dec) :=
  do q <- mulm c mem i s vi;
  do q2 <- mul_sll c [] [] q (-2);
  do w <- mulm c mem (i + 1) vi (add c q2 (one c));
  let vi' := add c vi w in
  do sq <- mulm c mem (i + 2) s s;
  do w2 <- mulm c mem (i + 3) vi' (add c (negate sq) x);
  Some (vi', add c s w2).

(** The iteration. Models: decwide_t.h 1905-1942. *)
Fixpoint sqrt_loop (fuel : nat) (mem : memory) (orig : nat) (i : nat) (digits : Z) (x s vi : dec) : option dec :=
  match fuel with
  | O => None
  | S f =>
      if digits <? Z.of_nat orig * ed L then
        let np := newton_prec c digits in
        do (vi', s') <- sqrt_step mem i (precision c x np) (precision c s np) (precision c vi np);
        sqrt_loop f mem orig (i + 4) (digits * 2) (precision c x np) s' vi'
      else Some s
  end.

(** The two starting values. Models: decwide_t.h 1856-1895. *)
Definition sqrt_start (v : dec) : option (dec * dec) :=
  let '(dd0, ne0) := extract_parts c F v in
  let odd := negb (scast E (Z.rem ne0 2) =? 0) in
  let ne := if odd then scast E (ne0 + 1) else ne0 in
  let dd := if odd then fl P (dd0 / 10) else dd0 in
  let sqd := fsqrt dd in
  do s <- from_mantissa c F sqd (scast E (Z.quot ne 2));
  do vi <- from_mantissa c F (fl P ((1 # 2) / sqd)) (scast E (Z.quot (scast E (- ne)) 2));
  Some (s, vi).

(** Models: decwide_t.h 1834-1948 (calculate_sqrt). *)
Definition calculate_sqrt (mem : memory) (v : dec) : option dec :=
  if dneg v then Some (zero c)
  else if iszero v then Some v
  else if negb (dneg v) && isone_sign_neutral c v then Some v
  else
    do (s, vi) <- sqrt_start v;
    do r <- sqrt_loop 64 mem (dprec v) 0 (f_digits10 F - 1) v s vi;
    Some (mkDec (data r) (dexp r) (dneg r) (dprec v)).

End SQRT.
