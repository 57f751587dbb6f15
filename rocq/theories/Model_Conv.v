(** Model_Conv.v - conversion from and to the built-in floating-point types, and ldexp. A built-in
    number is its sign and its magnitude as a rational (infinities and NaN are not modelled). *)
From Verif Require Export Model_Inv Model_Misc Model_Str.
Local Open Scope Z_scope.

(** numeric_limits<T>::min(): the smallest normal magnitude of float, double, long double (x87). *)
Definition f_min (F : ftype) : Q := p2 (if f_bits F =? 24 then -126 else if f_bits F =? 53 then -1022 else -16382).

(** The bit loop: [k] passes left, fraction, mantissa so far (a uintmax_t).
    Models: decwide_t_detail.h 149-170. *)
Fixpoint nf_bits (k : nat) (man : Q) (m : Z) : Z :=
  match k with
  | O => m
  | S j =>
      let man2 := (man * 2)%Q in
      let n2 := Qfloor man2 in
      let m1 := if negb (n2 =? 0) then Z.lor m 1 else m in
      nf_bits j (man2 - inject_Z n2)%Q (match j with O => m1 | S _ => ucast 64 (Z.shiftl m1 1) end)
  end.

(** Mantissa and exponent. Models: decwide_t_detail.h 118-199 (native_float_parts). std::frexp is taken
    from the C standard; [q] is the absolute value. *)
Definition native_parts (F : ftype) (q : Q) : Z * Z :=
  if negb (Qle_bool (f_min F) q) then (0, 0)
  else
    let e := lead2 q + 1 in
    let m := nf_bits (Z.to_nat (f_bits F)) (q * p2 (- e)) 0 in
    (Z.lor m (ucast 64 (Z.shiftl 1 (f_bits F - 1))), e - 1).

Section CONV.
Variable c : cfg.
Let L := c_limb c.
Let E := ebits (c_expo c).

(** Models: decwide_t.h 2749-2778 (from_builtin_float_type) and the constructors 722-735. [F] is the type
    of the argument, [FI] the internal floating-point type (needed by pow only for negative powers). *)
Definition from_float (F FI : ftype) (mem : memory) (neg : bool) (q : Q) : option dec :=
  let b_neg := neg && negb (Qeq_bool q 0) in
  let '(m, e) := native_parts F q in
  let x := from_ull c m in
  let p := e - (f_bits F - 1) in
  do r <- (if p <? -2 then do h <- pow_int c FI (later mem 1) (half c) (- p); mulm c mem 0 x h
           else if p =? -2 then div_unsigned c FI mem x 4
           else if p =? -1 then div_unsigned c FI mem x 2
           else if p =? 0 then Some x
           else if p =? 1 then (let w := mem 0%nat (dprec x) in mul_ull c (fst w) (snd w) x 2)
           else if p =? 2 then (let w := mem 0%nat (dprec x) in mul_ull c (fst w) (snd w) x 4)
           else do h <- pow_int c FI (later mem 1) (two c) p; mulm c mem 0 x h);
  Some (set_neg r b_neg).

(** Number of limbs handed to strtold: max_digits10 of long double is 21. Models: decwide_t.h 2313-2332. *)
Definition ldbl_elems : Z :=
  Z.min (21 / ed L + (if 21 mod ed L =? 0 then 0 else 1) + 1) (elem_number c).

(** digits10 of the unsigned exponent type. Models: decwide_t.h 2336. *)
Definition exp_width : Z :=
  match c_expo c with E8 => 2 | E16 => 4 | E32 => 9 | E64 => 19 end.

(** The text handed to strtold. [None]: the exponent's digits do not fit their buffer, the text fills the
    array so that no terminating zero is left, or the exponent is the minimum of its (32- or 64-bit)
    type. Models: decwide_t.h 2304-2420 (extract_long_double) with get_output_digits (3732-3800) and
    its decimal point. *)
Definition ldbl_text (x : dec) : option (list Z) :=
  let k := Z.to_nat ldbl_elems in
  match firstn k (data x) with
  | [] => None
  | u :: r =>
      do t <- limb_text c u;
      do q <- concat_texts c r;
      if (dexp x =? - 2 ^ (E - 1)) && (32 <=? E) then None
      else
        do et <- baselexical_cast 10 extract10 (Z.to_nat exp_width) (Z.abs (dexp x));
        let s := (if dneg x then 45 else 43) :: t ++ 46 :: q ++ 69 :: (if dexp x <? 0 then 45 else 43) :: et in
        if Z.of_nat (length s) <? 1 + ldbl_elems * ed L + 1 + 2 + exp_width then Some s else None
  end.

(** Conversion to long double, double and float, given the C library's strtold.
    Models: decwide_t.h 2304-2426 and the conversion operators 2551-2553 (static_cast from long double). *)
Definition to_float (strtold : list Z -> Q) (F : ftype) (x : dec) : option Q :=
  do s <- ldbl_text x;
  let l := strtold s in
  Some (if f_bits F =? 64 then l else fl (f_bits F) l).

(** Models: decwide_t.h 5622-5644 (ldexp); negating the minimum int is undefined. *)
Definition ldexp (FI : ftype) (mem : memory) (v : dec) (e : Z) : option dec :=
  if e =? 0 then Some v
  else if e <=? -64 then
    if e =? - 2 ^ 31 then None
    else do h <- pow_int c FI (later mem 1000) (two c) (- e); divide c FI mem v h
  else if e >=? 64 then
    do h <- pow_int c FI (later mem 1) (two c) e; mulm c mem 0 v h
  else if e <? 0 then div_unsigned c FI mem v (Z.shiftl 1 (- e))
  else let m := mem 0%nat (dprec v) in mul_ull c (fst m) (snd m) v (Z.shiftl 1 e).

End CONV.
