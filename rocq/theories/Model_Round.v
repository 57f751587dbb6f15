(** Model_Round.v - rounding, integer part, conversion to built-in integers, floor and ceil
    (math/wide_decimal/decwide_t.h). *)
From Verif Require Export Model_Misc.
Local Open Scope Z_scope.

(** Models: decwide_t_detail.h 501 (max_digits10). *)
Definition max_digits10 (c : cfg) : Z := c_digits10 c + 4.

(** Models: decwide_t_detail.h 387-412 (pow10_maker_as_runtime_value): table of 10^0..10^9, the last
    entry beyond it. *)
Definition pow10_rt (k : Z) : Z := if k <? 10 then 10 ^ k else 10 ^ 9.

(** Models: decwide_t_detail.h 474-485 (digit_at_pos_in_limb). *)
Definition digit_at (L : limb_t) (u pos : Z) : Z :=
  ucast 8 (ucast (lbits L) (ucast (lbits L) (u / pow10_rt pos) mod 10)).

(** Number of decimal digits of a limb: while(t > 0) { t /= 10; ++k; }.
    Models: decwide_t.h 3151-3159. Fuel 10 covers every 32-bit limb (proved). *)
Fixpoint limb_digits (fuel : nat) (t : Z) : Z :=
  match fuel with
  | O => 0
  | S f => if t >? 0 then 1 + limb_digits f (t / 10) else 0
  end.

(** The carry loop of eval_round_self over the limbs above the rounded one; it stops as soon as the
    carry is used up. Models: decwide_t.h 3281-3305. *)
Fixpoint round_carry (L : limb_t) (l : list Z) (carry : Z) : list Z * Z :=
  match l with
  | [] => ([], carry)
  | x :: t =>
      let '(r, cy) := round_carry L t carry in
      if cy =? 0 then (x :: r, 0)
      else
        let tt := ucast (lbits L) (x + cy) in
        let c' := if tt >=? mask L then 1 else 0 in
        (ucast (lbits L) (tt - (if c' =? 0 then 0 else mask L)) :: r, c')
  end.

Section CFG.
Variable c : cfg.
Notation L := (c_limb c).
Notation B := (mask L).
Notation E := (ebits (c_expo c)).
Notation n := (nel c).

(** Models: decwide_t.h 3140-3331 (eval_round_self). [None]: an index outside the limb array.
    C++ / and % truncate. The limbs below the rounded one are cleared only if there are at least two
    of them (3244-3257: idx + 1 < size - 1). *)
Definition round_self (x : dec) : option dec :=
  if iszero x then Some x
  else
    let d := data x in
    let digits0 := limb_digits 10 (nth 0 d 0) in
    let rest := max_digits10 c - digits0 in
    let rest_div := Z.quot rest (ed L) in
    let rest_mod := Z.rem rest (ed L) in
    let idx := rest_div + (if rest_mod =? 0 then 0 else 1) in
    let round_idx := if rest_mod =? 0 then idx + 1 else idx in
    let pos := if rest_mod =? 0 then 0 else ed L - rest_mod in
    let round_pos := if pos =? 0 then ed L - 1 else pos - 1 in
    do rl <- nth_error d (Z.to_nat round_idx);
    do ll <- nth_error d (Z.to_nat idx);
    let round_digit := digit_at L rl round_pos in
    let p := pow10_rt pos in
    let i := Z.to_nat idx in
    let ll1 := ucast (lbits L) (ll - ucast (lbits L) (ll mod ucast (lbits L) p)) in
    let lower := if idx + 1 <? Z.of_nat (length d) - 1
                 then repeat 0 (length d - (i + 1)) else skipn (i + 1) d in
    if round_digit >=? 5 then
      let t := ucast (lbits L) (ll1 + ucast (lbits L) p) in
      if t >=? B then
        let '(pre, carry) := round_carry L (firstn i d) 1 in
        let d' := pre ++ ucast (lbits L) (t - B) :: lower in
        if carry =? 0 then Some (mkDec d' (dexp x) (dneg x) (dprec x))
        else Some (mkDec (carry :: firstn (length d - 1) d') (scast E (dexp x + ed L)) (dneg x) (dprec x))
      else Some (mkDec (firstn i d ++ t :: lower) (dexp x) (dneg x) (dprec x))
    else Some (mkDec (firstn i d ++ ll1 :: lower) (dexp x) (dneg x) (dprec x)).

(** Models: decwide_t.h 2258-2302 (extract_integer_part). *)
Definition extract_integer_part (x : dec) : dec :=
  if dexp x <? 0 then zero c
  else if dexp x >=? scast E (c_digits10 c - 1) then x
  else let first_clear := (Z.to_nat (Z.quot (dexp x) (ed L)) + 1)%nat in
       mkDec (firstn first_clear (data x) ++ repeat 0 (n - first_clear)) (dexp x) (dneg x) (dprec x).

(** val = val * 10^ed + limb over limbs 1 .. imax, in unsigned long long. A negative imax becomes a huge
    unsigned loop bound, so the loop leaves the limb array: [None].
    Models: decwide_t.h 2463-2482 and 2525-2542. *)
Fixpoint ull_acc (l : list Z) (val : Z) : Z :=
  match l with
  | [] => val
  | x :: t => ull_acc t (ucast 64 (ucast 64 (val * B) + x))
  end.
Definition ull_of_limbs (x : dec) : option Z :=
  let imax := Z.min (Z.quot (scast 32 (dexp x)) (ed L)) (elem_number c - 1) in
  if imax <? 0 then None
  else Some (ull_acc (firstn (Z.to_nat imax) (skipn 1 (data x))) (nth 0 (data x) 0)).

(** Models: decwide_t.h 5602-5604. *)
Definition ull_max : dec := from_ull c (2 ^ 64 - 1).
Definition sll_min : dec := from_sll c (- 2 ^ 63).
Definition sll_max : dec := from_sll c (2 ^ 63 - 1).

(** Models: decwide_t.h 2428-2489 (extract_signed_long_long). *)
Definition to_sll (x : dec) : option Z :=
  if dexp x >=? 0 then
    if negb (dneg x) && op_gt x sll_max then Some (2 ^ 63 - 1)
    else if dneg x && op_lt x sll_min then Some (- 2 ^ 63)
    else
      do r <- round_self x;
      let xn := fabs (extract_integer_part r) in
      do val <- ull_of_limbs xn;
      Some (scast 64 (if negb (dneg x) then val else negate_u 64 val))
  else Some 0.

(** Models: decwide_t.h 2491-2549 (extract_unsigned_long_long). *)
Definition to_ull (x : dec) : option Z :=
  if dneg x then do v <- to_sll x; Some (ucast 64 v)
  else if dexp x >=? 0 then
    do r <- round_self x;
    let xn := extract_integer_part r in
    if op_gt xn ull_max then Some (2 ^ 64 - 1) else ull_of_limbs xn
  else Some 0.

(** Models: decwide_t.h 4219-4239 (floor) and 4241-4261 (ceil). *)
Definition dfloor (x : dec) : option dec :=
  do r <- round_self x;
  if isint c r then Some r
  else Some (extract_integer_part (if dneg r then sub c r (one c) else r)).
Definition dceil (x : dec) : option dec :=
  do r <- round_self x;
  if isint c r then Some r
  else Some (extract_integer_part (if negb (dneg r) then add c r (one c) else r)).

End CFG.
