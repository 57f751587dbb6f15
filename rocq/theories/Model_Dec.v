(** Model_Dec.v - the decwide_t object and its arithmetic (math/wide_decimal/decwide_t.h).

    [None] is the "does not happen in the C++" outcome of a bounds-checked helper (an
    out-of-bounds access in the limb loops); theorems show it is not reached.
    my_fpclass is not modelled: every constructor sets it to "finite" and nothing changes it.
    The build variant modelled is the default one (dynamic memory allocation enabled). *)
From Verif Require Export Model_Limb.
Local Open Scope Z_scope.

(** * unsigned_wrap: sign-magnitude integers on an unsigned machine type of [w] bits. *)
Record uwrap := mkUW { uw_neg : bool; uw_val : Z }.

(** Models: decwide_t_detail.h 647-651 (constructor from the signed type); ~u + 1 is [ucast (-u)]. *)
Definition uw_make (w n : Z) : uwrap :=
  if n <? 0 then mkUW true (ucast w (- ucast w n)) else mkUW false (ucast w n).

(** Models: decwide_t_detail.h 691-730 (operator+=). *)
Definition uw_add (w : Z) (a b : uwrap) : uwrap :=
  if eqb (uw_neg a) (uw_neg b) then mkUW (uw_neg a) (ucast w (uw_val a + uw_val b))
  else if negb (uw_neg a) then
    if uw_val a >? uw_val b then mkUW (uw_neg a) (ucast w (uw_val a + ucast w (- uw_val b)))
    else let v := ucast w (uw_val b + ucast w (- uw_val a)) in mkUW (negb (v =? 0)) v
  else
    if uw_val a >? uw_val b then mkUW (uw_neg a) (ucast w (uw_val a + ucast w (- uw_val b)))
    else mkUW false (ucast w (uw_val b + ucast w (- uw_val a))).

(** Models: decwide_t_detail.h 732-751 (operator-=) and 755 (operator- on a copy). *)
Definition uw_sub (w : Z) (a b : uwrap) : uwrap :=
  if uw_val a =? 0 then
    if negb (uw_val b =? 0) then mkUW (negb (uw_neg b)) (uw_val b) else a
  else
    let r := uw_add w (mkUW (negb (uw_neg a)) (uw_val a)) b in
    mkUW (if negb (uw_val r =? 0) then negb (uw_neg r) else false) (uw_val r).

(** Models: decwide_t_detail.h 264-287 (negate, unsigned and signed versions; the signed one
    goes through unsigned long long). *)
Definition negate_u (w u : Z) : Z := ucast w (- u).
Definition negate_s (w n : Z) : Z := scast w (negate_u 64 (ucast 64 n)).

(** Models: decwide_t_detail.h 414-456 (order_of_builtin_integer; only the returned count).
    Fuel: 64 iterations suffice for any 64-bit value (proved); [None] = out of fuel. *)
Fixpoint order_loop (fuel : nat) (un expval : Z) : option Z :=
  match fuel with
  | O => None
  | S f => let un' := un / 10 in
           if un' =? 0 then Some (expval + 1) else order_loop f un' (expval + 1)
  end.
Definition order_of_builtin_integer (n : Z) : Z :=
  match order_loop 64 n 0 with Some k => k | None => -1 end.

(** * The object. Models: decwide_t.h 2625-2637 (data members). *)
Record dec := mkDec { data : list Z; dexp : Z; dneg : bool; dprec : nat }.

Section CFG.
Variable c : cfg.
Let L := c_limb c.
Let B := mask L.
Let E := ebits (c_expo c).
Let max_exp10 := max_exp10_of (c_expo c).
Let min_exp10 := - max_exp10.
Definition nel : nat := Z.to_nat (elem_number c).

(** Models: decwide_t.h 2571-2603 (from_lst). *)
Definition from_lst (l : list Z) (e : Z) : dec :=
  mkDec (if (length l <? nel)%nat then l ++ repeat 0 (nel - length l) else firstn nel l) e false nel.

(** Models: decwide_t.h 644-650 (default constructor, which value-initialises the limbs) and
    4296-4350 (zero/one/two/half). *)
Definition zero : dec := mkDec (repeat 0 nel) 0 false nel.
Definition one : dec := from_lst [1] 0.
Definition two : dec := from_lst [2] 0.
Definition half : dec := from_lst [mask L / 2] (- ed L).

(** Models: decwide_t.h 2109-2114 (iszero). *)
Definition iszero (x : dec) : bool := nth 0 (data x) 0 =? 0.

(** Models: decwide_t.h 2640-2676 (isone_sign_neutral). *)
Definition isone_sign_neutral (x : dec) : bool :=
  if (nth 0 (data x) 0 =? 1) && (dexp x =? 0) then forallb (fun d => d =? 0) (tl (data x))
  else if (nth 0 (data x) 0 =? B - 1) && (dexp x =? - ed L)
       then forallb (fun d => d =? B - 1) (tl (data x))
       else false.

(** Models: decwide_t.h 2094-2102 (negate). *)
Definition negate (x : dec) : dec :=
  if iszero x then x else mkDec (data x) (dexp x) (negb (dneg x)) (dprec x).

Definition set_neg (x : dec) (s : bool) : dec := mkDec (data x) (dexp x) s (dprec x).

(** std::copy(src, src + len - k, dst + k) with zero fill of dst[0..k): [v] shifted down by k limbs
    in an array of the same length. Models: decwide_t.h 983-989, 1001-1008, 1093-1099, 1118-1124. *)
Definition shift_down (k : nat) (v : list Z) : list Z := repeat 0 k ++ firstn (length v - k) v.

(** Number of leading zero limbs (std::find_if). Models: decwide_t.h 1154-1161. *)
Fixpoint count_lead0 (l : list Z) : nat :=
  match l with
  | [] => O
  | x :: t => if x =? 0 then S (count_lead0 t) else O
  end.

(** Carry out of the top limb: copy_backward(begin, begin+prec-1, END OF ARRAY), data[0] = carry.
    Models: decwide_t.h 1051-1077. Note that the copy ends at the end of the whole array, not at
    the working precision. *)
Definition add_carry_shift (d : list Z) (prec : nat) (carry : Z) : list Z :=
  carry :: tl (firstn (length d - (prec - 1)) d ++ firstn (prec - 1) d).

(** Same-sign branch. Models: decwide_t.h 973-1078. [ofs] >= 0: v is shifted; otherwise *this is. *)
Definition add_same_sign (x v : dec) (prec : nat) (ofs : Z) : dec :=
  let '(d, e, carry) :=
    if ofs >=? 0 then
      let m := shift_down (Z.to_nat ofs) (data v) in
      let '(r, carry) := add_n L (firstn prec (data x)) (firstn prec m) in
      (r ++ skipn prec (data x), dexp x, carry)
    else
      let m := shift_down (Z.to_nat (- ofs)) (data x) in
      let '(r, carry) := add_n L (firstn prec m) (firstn prec (data v)) in
      (r ++ skipn prec (data x), dexp v, carry) in
  if carry =? 0 then mkDec d e (dneg x) (dprec x)
  else mkDec (add_carry_shift d prec carry) (scast E (e + ed L)) (dneg x) (dprec x).

(** "Justify the data" and underflow-to-zero check. Models: decwide_t.h 1154-1210. *)
Definition justify (x : dec) (prec : nat) : dec :=
  let sj := count_lead0 (firstn prec (data x)) in
  let x1 :=
    if (sj =? 0)%nat then x
    else if (sj =? length (firstn prec (data x)))%nat
         then mkDec (data x) 0 false (dprec x)
         else mkDec (skipn sj (data x) ++ repeat 0 sj)
                    (scast E (dexp x - scast E (scast E (Z.of_nat sj) * ed L)))
                    (dneg x) (dprec x) in
  if forallb (fun d => d =? 0) (data x1) then zero else x1.

(** Different-sign branch. Models: decwide_t.h 1079-1211. *)
Definition add_diff_sign (x v : dec) (prec : nat) (ofs : Z) : dec :=
  if (ofs >? 0) || ((ofs =? 0) && (compare_ranges (firstn prec (data x)) (firstn prec (data v)) >? 0))
  then
    let m := shift_down (Z.to_nat ofs) (data v) in
    let r := fst (sub_n L (firstn prec (data x)) (firstn prec m)) in
    justify (mkDec (r ++ skipn prec (data x)) (dexp x) (dneg x) (dprec x)) prec
  else
    let dx := if ofs =? 0 then data x else shift_down (Z.to_nat (- ofs)) (data x) in
    let r := fst (sub_n L (firstn prec (data v)) (firstn prec dx)) in
    justify (mkDec (r ++ skipn prec dx) (dexp v) (dneg v) (dprec x)) prec.

(** Models: decwide_t.h 913-1214 (operator+=). *)
Definition add (x v : dec) : dec :=
  if iszero x then v
  else
    let prec := Nat.min (dprec x) (dprec v) in
    let max_delta := scast E (scast E (Z.of_nat prec) * ed L) in
    let ofs := uw_sub E (uw_make E (dexp x)) (uw_make E (dexp v)) in
    if iszero v || (negb (uw_neg ofs) && (uw_val ofs >=? ucast E max_delta)) then x
    else if uw_neg ofs && (uw_val ofs >=? ucast E max_delta) then v
    else
      let o := if uw_neg ofs then - (uw_val ofs / ed L) else uw_val ofs / ed L in
      if eqb (dneg x) (dneg v) then add_same_sign x v prec o else add_diff_sign x v prec o.

(** Models: decwide_t.h 1216-1220 (operator-=) when [v] is a different object. *)
Definition sub (x v : dec) : dec := negate (add (negate x) v).

(** Models: decwide_t.h 1216-1220 (operator-=) when [v] is the same object as *this: the
    negation of *this is seen through v. *)
Definition sub_self (x : dec) : dec := let x' := negate x in negate (add x' x').

(** Models: decwide_t.h 1641-1642. *)
Definition value_max : dec := from_lst [9] max_exp10.
Definition value_min : dec := from_lst [1] min_exp10.

(** Store the 2*prec product limbs: leading limb zero -> limbs 1..prec, else limbs 0..prec-1 and
    a larger exponent. Models: decwide_t.h 2810-2834 (and the identical code 2874-2898, 2949-2973). *)
Definition store_product (x : dec) (e : Z) (res : list Z) (prec : nat) : dec :=
  if nth 0 res 0 =? 0
  then mkDec (firstn prec (skipn 1 res) ++ skipn prec (data x)) e (dneg x) (dprec x)
  else mkDec (firstn prec res ++ skipn prec (data x)) (scast E (e + ed L)) (dneg x) (dprec x).

(** The schoolbook and Karatsuba cases of eval_mul_dispatch_multiplication_method.
    Models: decwide_t.h 2780-2973 (and 2985-3067). [scratch] is the prior content of the pool
    from the scratch pointer on (4*kara_elems limbs), [rmem] that of the result area.
    The FFT case (prec >= 1793 limbs) is modelled separately (Model_Fft.v): [None] here. *)
Definition mul_dispatch (rmem scratch : list Z) (x v : dec) (e : Z) (prec : nat) : option dec :=
  if (Z.of_nat prec <? elems_for_kara) then
    do res <- mul_school L (firstn prec (data x)) (firstn prec (data v));
    Some (store_product x e res prec)
  else if (Z.of_nat prec <? elems_for_fft) then
    let k := Z.to_nat (a029750 (Z.of_nat prec)) in
    let u_local := firstn prec (data x) ++ repeat 0 (k - prec) in
    let v_local := firstn prec (data v) ++ repeat 0 (k - prec) in
    do (res, _) <- kara k L rmem u_local v_local k scratch;
    Some (store_product x e res prec)
  else None.

(** Models: decwide_t.h 1222-1308 (operator*=). The zero case does NOT return early. *)
Definition mul (rmem scratch : list Z) (x0 v : dec) : option dec :=
  let x := if iszero x0 || iszero v then zero else x0 in
  let result_neg := xorb (dneg x) (dneg v) in
  let x := set_neg x false in
  do r <-
    (if isone_sign_neutral x then Some v
     else if isone_sign_neutral v then Some x
     else
       let result_exp := uw_add E (uw_make E (dexp x)) (uw_make E (dexp v)) in
       if negb (uw_neg result_exp) && (uw_val result_exp >=? max_exp10) then Some value_max
       else if uw_neg result_exp && (uw_val result_exp >=? max_exp10) then Some value_min
       else
         let e := if negb (uw_neg result_exp) then scast E (uw_val result_exp)
                  else negate_s E (scast E (uw_val result_exp)) in
         mul_dispatch rmem scratch x v e (Nat.min (dprec x) (dprec v)));
  Some (set_neg r result_neg).

(** Models: decwide_t.h 2678-2747 (from_unsigned_long_long): little-endian limb extraction bounded by
    the temporary array size, reversed, then copied/truncated to the limb count. *)
Fixpoint ull_limbs (k : nat) (uu : Z) : list Z :=
  match k with
  | O => []
  | S k' => if uu =? 0 then [] else ucast (lbits L) (uu mod B) :: ull_limbs k' (uu / B)
  end.
Definition ull_tmp_size : nat := Z.to_nat (19 / ed L + 3).
Definition from_ull (u : Z) : dec :=
  let tmp := ull_limbs ull_tmp_size u in
  let i := length tmp in
  let e := if (1 <? i)%nat
           then scast E (scast E (scast E (Z.of_nat (i - 1)) * ed L)) else 0 in
  let m := Nat.min i (Nat.min ull_tmp_size nel) in
  mkDec (firstn m (rev tmp) ++ repeat 0 (nel - m)) e false nel.

(** Models: decwide_t.h 700-714 (constructor from signed integers; 64-bit case). *)
Definition from_sll (n : Z) : dec :=
  let s := n <? 0 in
  let u := if negb s then ucast 64 n else negate_u 64 (ucast 64 n) in
  set_neg (from_ull u) s.

(** Models: decwide_t.h 657-680 (constructor from unsigned types no wider than the limb). *)
Definition from_small_unsigned (u : Z) : dec :=
  if u <? B then mkDec (u :: repeat 0 (nel - 1)) 0 false nel
  else mkDec (u / B :: u mod B :: repeat 0 (nel - 2)) (ed L) false nel.

(** Models: decwide_t.h 1356-1423 (mul_unsigned_long_long). *)
Definition mul_ull (rmem scratch : list Z) (x0 : dec) (n : Z) : option dec :=
  let b_neg := dneg x0 in
  let x := set_neg x0 false in
  if iszero x || (n =? 0) then Some zero
  else
    let result_exp := uw_add E (uw_make E (dexp x))
                               (uw_make E (scast E (order_of_builtin_integer n))) in
    if negb (uw_neg result_exp) && (uw_val result_exp >=? max_exp10)
    then Some (if negb b_neg then value_max else negate value_max)
    else if n >=? B then mul rmem scratch (set_neg x b_neg) (from_ull n)
    else if n =? 1 then Some (set_neg x b_neg)
    else
      let p := dprec x in
      let '(r, carry) := mul_loop_n L (firstn p (data x)) (ucast (lbits L) n) in
      if carry =? 0 then Some (mkDec (r ++ skipn p (data x)) (dexp x) b_neg p)
      else Some (mkDec (carry :: firstn (p - 1) r ++ skipn p (data x))
                       (scast E (dexp x + ed L)) b_neg p).

(** Models: decwide_t.h 1425-1511 (div_unsigned_long_long) for n below the limb base; larger n go
    through operator/= and are given by the parameter [big_div]. The left shift copies
    [begin+1, begin+prec-1), i.e. prec-2 limbs: limb prec-2 keeps its old value. *)
Definition div_ull (big_div : dec -> Z -> option dec) (x0 : dec) (n : Z) : option dec :=
  let b_neg := dneg x0 in
  let x := set_neg x0 false in
  if n =? 0 then Some zero
  else if iszero x then Some x
  else if n >=? B then big_div (set_neg x b_neg) n
  else
    let nn := ucast (lbits L) n in
    let x1 :=
      if nn >? 1 then
        let p := dprec x in
        let '(r, prev) := div_loop_n L (firstn p (data x)) nn 0 in
        let d := r ++ skipn p (data x) in
        if nth 0 d 0 =? 0 then
          let val_prev := ucast (lbits L) (ucast 64 (prev * B) / nn) in
          let d1 := firstn (p - 2) (skipn 1 d) ++ skipn (p - 2) d in
          mkDec (firstn (p - 1) d1 ++ val_prev :: skipn p d1) (scast E (dexp x - ed L)) false p
        else mkDec d (dexp x) false p
      else x in
    if dexp x1 <? min_exp10 then Some zero else Some (set_neg x1 b_neg).

(** Models: decwide_t.h 1342-1354 (add_/sub_unsigned_long_long). *)
Definition add_ull (x : dec) (n : Z) : dec := add x (from_ull n).
Definition sub_ull (x : dec) (n : Z) : dec := sub x (from_ull n).

(** Models: decwide_t.h 1514-1528 (add_signed_long_long). *)
Definition add_sll (x : dec) (n : Z) : dec :=
  if n <? 0 then negate (add_ull (negate x) (negate_u 64 (ucast 64 n)))
  else add_ull x n.

(** Signed 64-bit negation: undefined for the minimum ([None]). *)
Definition neg_sll (n : Z) : option Z := if n =? - 2 ^ 63 then None else Some (- n).

(** Models: decwide_t.h 1530-1533 (sub_signed_long_long): evaluates -n in signed long long. *)
Definition sub_sll (x : dec) (n : Z) : option dec := do m <- neg_sll n; Some (add_sll x m).

(** Models: decwide_t.h 1535-1546 (mul_signed_long_long). *)
Definition mul_sll (rmem scratch : list Z) (x : dec) (n : Z) : option dec :=
  let b_neg := n <? 0 in
  do r <- mul_ull rmem scratch x (if negb b_neg then ucast 64 n else negate_u 64 (ucast 64 n));
  Some (if negb b_neg then r else negate r).

(** Models: decwide_t.h 1548-1559 (div_signed_long_long). *)
Definition div_sll (big_div : dec -> Z -> option dec) (x : dec) (n : Z) : option dec :=
  let b_neg := n <? 0 in
  do r <- div_ull big_div x (if negb b_neg then ucast 64 n else negate_u 64 (ucast 64 n));
  Some (if negb b_neg then r else negate r).

(** Models: decwide_t.h 1561-1638 (cmp). *)
Definition cmp (x v : dec) : Z :=
  if iszero x then (if iszero v then 0 else if dneg v then 1 else -1)
  else if iszero v then (if dneg x then -1 else 1)
  else if negb (eqb (dneg x) (dneg v)) then (if dneg x then -1 else 1)
  else if negb (dexp x =? dexp v) then
    let val_cmp_exp := if dexp x <? dexp v then 1 else -1 in
    if dneg x then val_cmp_exp else - val_cmp_exp
  else
    let val_cmp_data := compare_ranges (data x) (data v) in
    if negb (dneg x) then val_cmp_data else - val_cmp_data.

(** Models: decwide_t.h 5472-5477 (the six comparison operators). *)
Definition op_lt (x v : dec) : bool := cmp x v <? 0.
Definition op_le (x v : dec) : bool := cmp x v <=? 0.
Definition op_eq (x v : dec) : bool := cmp x v =? 0.
Definition op_ne (x v : dec) : bool := negb (cmp x v =? 0).
Definition op_ge (x v : dec) : bool := cmp x v >=? 0.
Definition op_gt (x v : dec) : bool := cmp x v >? 0.

(** Models: decwide_t.h 1310-1339 (operator/=), with the reciprocal as a parameter. *)
Definition div (inv : dec -> option dec) (rmem scratch : list Z) (x v : dec) : option dec :=
  if (dexp x =? dexp v) && (compare_ranges (data x) (data v) =? 0) then
    let negate_one := xorb (dneg x) (dneg v) in
    Some (if negate_one then negate one else one)
  else do i <- inv v; mul rmem scratch x i.

(** Models: decwide_t.h 2605-2622 (decwide_t_digits10_for_epsilon). *)
Definition digits10_for_epsilon : Z :=
  (c_digits10 c / ed L + (if c_digits10 c mod ed L =? 0 then 0 else 1)) * ed L.

(** Models: decwide_t_detail.h 370-384 (pow10_maker, uint32 arithmetic). *)
Fixpoint pow10_maker (n : nat) : Z :=
  match n with O => 1 | S n' => ucast 32 (pow10_maker n' * 10) end.

(** Models: decwide_t.h 1644-1669 (my_value_eps). *)
Definition value_eps : dec :=
  from_lst [ucast (lbits L) (pow10_maker (Z.to_nat (1 + digits10_for_epsilon - c_digits10 c)))]
           (scast E (- digits10_for_epsilon)).

(** Models: decwide_t.h 1700-1722 (precision); C++ division/remainder truncate. *)
Definition precision (x : dec) (prec_digits : Z) : dec :=
  let needed := Z.quot prec_digits (ed L) + (if Z.rem prec_digits (ed L) =? 0 then 0 else 1) in
  mkDec (data x) (dexp x) (dneg x) (Z.to_nat (Z.min (elem_number c) (Z.max needed 2))).

(** Models: decwide_t.h 1724-1727 (get_precision). *)
Definition get_precision (x : dec) : Z := Z.of_nat (dprec x) * ed L.

(** Models: decwide_t.h 2128-2175 (isint). *)
Definition isint (x : dec) : bool :=
  if dexp x <? 0 then false
  else if iszero x || isone_sign_neutral x then true
  else
    let off := (Z.to_nat (dexp x / ed L) + 1)%nat in
    if (nel <=? off)%nat then true else forallb (fun d => d =? 0) (skipn off (data x)).

(** Models: decwide_t.h 2181-2182 (operator++ / operator--). *)
Definition incr (x : dec) : dec := add x one.
Definition decr (x : dec) : dec := sub x one.

(** Models: decwide_t.h 4209-4217 (fabs/abs): negate a negative copy. *)
Definition fabs (x : dec) : dec := if dneg x then negate x else x.

End CFG.
