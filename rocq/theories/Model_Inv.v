(** Model_Inv.v - the reciprocal (Newton iteration from a floating-point estimate), division built on
    it, and integer powers. *)
From Verif Require Export Model_Dec Model_Float.
Local Open Scope Z_scope.

Section INV.
Variable c : cfg.
Variable F : ftype.                       (* InternalFloatType *)
Let L := c_limb c.
Let B := mask L.
Let E := ebits (c_expo c).
Let n := nel c.
Let P := f_bits F.

(** The memory pools the successive multiplications of one computation get: for multiplication number
    [i] at [prec] limbs, the prior contents of the result and scratch areas (arbitrary). *)
Definition memory := nat -> nat -> list Z * list Z.

(** operator*= with the pool of multiplication number [i]. Models: decwide_t.h 1222-1308, and
    2900-2932 (a fresh pool sized for the working precision is created by each call; a zero operand
    first makes *this the full-precision zero, 1227-1230). *)
Definition mulm (mem : memory) (i : nat) (x v : dec) : option dec :=
  let m := mem i (Nat.min (dprec (if iszero x || iszero v then zero c else x)) (dprec v)) in mul c (fst m) (snd m) x v.

(** Number of limbs exchanged with the built-in type. Models: decwide_t.h 2206-2231 and 823-848. *)
Definition digit_loops : nat :=
  Z.to_nat (f_max_digits10 F / ed L + (if f_max_digits10 F mod ed L =? 0 then 0 else 1)).

(** Accumulation loop. Models: decwide_t.h 2241-2248. *)
Fixpoint ep_loop (limbs : list Z) (mantissa scale : Q) : Q :=
  match limbs with
  | [] => mantissa
  | d :: t => ep_loop t (fl P (mantissa + fl P (fl P (inject_Z d) * scale))) (fl P (scale / fl P (inject_Z B)))
  end.

(** Models: decwide_t.h 2189-2254 (extract_parts). *)
Definition extract_parts (x : dec) : Q * Z :=
  let d0 := nth 0 (data x) 0 in
  let expval := order_of_builtin_integer d0 in
  let p := ucast (lbits L) (10 ^ expval) in
  let scale := fl P (1 / fl P (inject_Z p)) in
  let m := ep_loop (firstn (Nat.min (length (data x)) digit_loops) (data x)) 0 scale in
  ((if dneg x then - m else m)%Q, scast E (scast E expval + dexp x)).

(** "while(d > 10) { d /= 10; ++e; }". Models: decwide_t.h 807. [None]: out of fuel. *)
Fixpoint fm_down (fuel : nat) (d : Q) (e : Z) : option (Q * Z) :=
  match fuel with
  | O => None
  | S f => if Qle_bool d 10 then Some (d, e) else fm_down f (fl P (d / 10)) (scast E (e + 1))
  end.
(** "while(d < 1) { d *= 10; --e; }". Models: decwide_t.h 808. *)
Fixpoint fm_up (fuel : nat) (d : Q) (e : Z) : option (Q * Z) :=
  match fuel with
  | O => None
  | S f => if Qle_bool 1 d then Some (d, e) else fm_up f (fl P (d * 10)) (scast E (e - 1))
  end.
(** "while(shift % ed != 0) { d *= 10; --e; --shift; }". Models: decwide_t.h 810-817. *)
Fixpoint fm_shift (fuel : nat) (d : Q) (e shift : Z) : option (Q * Z) :=
  match fuel with
  | O => None
  | S f => if Z.rem shift (ed L) =? 0 then Some (d, e)
           else fm_shift f (fl P (d * 10)) (scast E (e - 1)) (shift - 1)
  end.
(** Digit extraction. Models: decwide_t.h 856-866. The float-to-integer conversion truncates. *)
Fixpoint fm_digits (k : nat) (d : Q) : list Z :=
  match k with
  | O => []
  | S k' => let m := Qfloor d in
            m :: fm_digits k' (fl P (fl P (d - fl P (inject_Z m)) * fl P (inject_Z B)))
  end.

(** Models: decwide_t.h 766-873 (constructor from mantissa and exponent). [None]: more digits than
    limbs (writes outside the limb array), or a mantissa outside 10^-30..10^30.
    Simplification: "mantissa below the smallest normal number" is "mantissa zero". *)
Definition from_mantissa (mantissa : Q) (exponent : Z) : option dec :=
  if Qeq_bool mantissa 0 then Some (zero c)
  else
    let b_neg := negb (Qle_bool 0 mantissa) in
    let d := (if b_neg then - mantissa else mantissa)%Q in
    do (d, e) <- fm_down 32 d exponent;
    do (d, e) <- fm_up 32 d e;
    do (d, e) <- fm_shift 9 d e (Z.rem e (ed L));
    if (digit_loops <=? n)%nat
    then Some (mkDec (fm_digits digit_loops d ++ repeat 0 (n - digit_loops)) e b_neg n)
    else None.

(** Working precision (digits) of one iteration. Models: decwide_t.h 1798-1811. *)
Definition newton_prec (digits : Z) : Z := digits * 2 + Z.min (ed L + 1) 9.

(** The Newton iteration. Models: decwide_t.h 1793-1824. [i] numbers the multiplications. *)
Fixpoint inv_loop (fuel : nat) (mem : memory) (orig : nat) (i : nat) (digits : Z) (r x : dec) : option dec :=
  match fuel with
  | O => None
  | S f =>
      if digits <? Z.of_nat orig * ed L then
        let r1 := precision c r (newton_prec digits) in
        let x1 := precision c x (newton_prec digits) in
        do q <- mulm mem i r1 x1;
        do r' <- mulm mem (i + 1) r1 (sub c (two c) q);
        inv_loop f mem orig (i + 2) (digits * 2) r' x1
      else Some r
  end.

(** Models: decwide_t.h 1752-1832 (calculate_inv). *)
Definition calculate_inv (mem : memory) (v : dec) : option dec :=
  if iszero v then Some (zero c)
  else if isone_sign_neutral c v then Some v
  else
    let x := set_neg v false in
    let '(dd, ne) := extract_parts x in
    do est <- from_mantissa (fl P (1 / dd)) (scast E (- ne));
    do r <- inv_loop 64 mem (dprec v) 0 (f_digits10 F - 1) est x;
    Some (mkDec (data r) (dexp r) (dneg v) (dprec v)).

(** Later multiplications of the same computation use later pools. *)
Definition later (mem : memory) (k : nat) : memory := fun i p => mem (k + i)%nat p.

(** Models: decwide_t.h 1310-1339 (operator/=). Multiplication 0 is the one after the reciprocal. *)
Definition divide (mem : memory) (x v : dec) : option dec :=
  let m := mem 0%nat (Nat.min (dprec x) (dprec v)) in
  div c (calculate_inv (later mem 1)) (fst m) (snd m) x v.

(** Models: decwide_t.h 1425-1511 with the large divisors going through operator/= (1447). *)
Definition div_unsigned (mem : memory) (x : dec) (u : Z) : option dec :=
  div_ull c (fun y k => divide mem y (from_ull c k)) x u.
Definition div_signed (mem : memory) (x : dec) (k : Z) : option dec :=
  div_sll c (fun y k => divide mem y (from_ull c k)) x k.

(** The ladder. Models: decwide_t.h 6278-6301; result and y start as 1 and b. *)
Fixpoint pow_ladder (fuel : nat) (mem : memory) (i : nat) (p : Z) (result y : dec) : option dec :=
  match fuel with
  | O => None
  | S f =>
      do result <- (if Z.odd p then mulm mem i result y else Some result);
      let p' := p / 2 in
      if p' =? 0 then Some result
      else do y <- mulm mem (i + 1) y y; pow_ladder f mem (i + 2) p' result y
  end.

(** Models: decwide_t.h 6255-6304 (pow with a non-negative std::int64_t exponent). *)
Definition pow_nonneg (mem : memory) (b : dec) (p : Z) : option dec :=
  if p =? 0 then Some (from_small_unsigned c 1)
  else if p =? 1 then Some b
  else if p =? 2 then mulm mem 0 b b
  else if p =? 3 then do r <- mulm mem 0 b b; mulm mem 1 r b
  else if p =? 4 then do r <- mulm mem 0 b b; mulm mem 1 r r
  else pow_ladder 64 mem 0 p (from_small_unsigned c 1) b.

(** Models: decwide_t.h 6263 (negative exponents: -p in std::int64_t, undefined for the minimum;
    then the reciprocal of the power). *)
Definition pow_int (mem : memory) (b : dec) (p : Z) : option dec :=
  if p <? 0 then
    do q <- neg_sll p;
    do r <- pow_nonneg mem b q;
    calculate_inv (later mem 200) r
  else pow_nonneg mem b p.

End INV.
