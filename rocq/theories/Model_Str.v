(** Model_Str.v - text input and output (math/wide_decimal/decwide_t.h).
    Characters are their ASCII codes in [Z]; a std::string is a list of them. [None]: the C++ throws
    (std::out_of_range, std::length_error) or leaves a buffer. The execution character set is ASCII;
    std::size_t, std::uint_fast32_t, std::ptrdiff_t are 64-bit; running out of memory is not modelled. *)
From Verif Require Export Model_Round Model_Util.
Local Open Scope Z_scope.

Notation "'do' x <- a ; b" := (match a with Some x => b | None => None end)
  (at level 200, x pattern, a at level 100, b at level 200).

(** * std::string primitives *)
(** std::string::find(char). *)
Fixpoint find_ch (ch : Z) (s : list Z) : option nat :=
  match s with
  | [] => None
  | x :: t => if x =? ch then Some O else do k <- find_ch ch t; Some (S k)
  end.
(** str.erase(pos, 1) for a position found by find. *)
Definition erase1 (s : list Z) (p : nat) : list Z := firstn p s ++ skipn (S p) s.
(** str.insert(pos, count, ch): out_of_range if pos > size(), length_error beyond max_size(). *)
Definition str_max : Z := 2 ^ 63 - 1.
Definition insert_at (s : list Z) (pos cnt ch : Z) : option (list Z) :=
  if (pos <? 0) || (Z.of_nat (length s) <? pos) then None
  else if (cnt <? 0) || (str_max <? Z.of_nat (length s) + cnt) then None
  else Some (firstn (Z.to_nat pos) s ++ repeat ch (Z.to_nat cnt) ++ skipn (Z.to_nat pos) s).
(** find_if(c != '0') from the front, then erase up to it; and the same from the back. *)
Fixpoint drop0 (s : list Z) : list Z :=
  match s with x :: t => if x =? 48 then drop0 t else s | [] => [] end.
Definition strip0 (s : list Z) : list Z := rev (drop0 (rev s)).

(** * strtoll / strtoul in base 10 (C library, not project code): optional white space, optional sign,
    digits; saturating. *)
Definition is_ws (ch : Z) : bool := (ch =? 32) || ((9 <=? ch) && (ch <=? 13)).
Fixpoint skip_ws (s : list Z) : list Z :=
  match s with x :: t => if is_ws x then skip_ws t else s | [] => [] end.
Fixpoint digit_prefix (s : list Z) : list Z :=
  match s with x :: t => if (48 <=? x) && (x <=? 57) then (x - 48) :: digit_prefix t else [] | [] => [] end.
Definition digits_num (l : list Z) : Z := fold_left (fun v d => 10 * v + d) l 0.
Definition split_sign (s : list Z) : bool * list Z :=
  match s with
  | x :: t => if x =? 45 then (true, t) else if x =? 43 then (false, t) else (false, s)
  | [] => (false, [])
  end.
Definition strtoll (s : list Z) : Z :=
  let '(neg, t) := split_sign (skip_ws s) in
  let v := digits_num (digit_prefix t) in
  if neg then Z.max (- 2 ^ 63) (- v) else Z.min (2 ^ 63 - 1) v.
Definition strtoul (s : list Z) : Z :=
  let '(neg, t) := split_sign (skip_ws s) in
  let v := digits_num (digit_prefix t) in
  if v >? 2 ^ 64 - 1 then 2 ^ 64 - 1 else if neg then ucast 64 (- v) else v.

Section CFG.
Variable c : cfg.
Notation L := (c_limb c).
Notation E := (ebits (c_expo c)).
Notation n := (nel c).
Definition sze (s : list Z) : Z := Z.of_nat (length s).

(** Models: decwide_t.h 3334-3354 (pos_of_e_func). *)
Definition pos_of_e (s : list Z) : option nat :=
  match find_ch 101 s with Some p => Some p | None => find_ch 69 s end.

(** Exponent part and what is left of the text. Models: decwide_t.h 3359-3383. *)
Definition rd_exponent (s : list Z) : Z * list Z :=
  match pos_of_e s with
  | Some p => (scast E (strtoll (skipn (S p) s)), firstn p s)
  | None => (0, s)
  end.

(** Sign characters, wherever they are. Models: decwide_t.h 3385-3402. *)
Definition rd_sign (s : list Z) : bool * list Z :=
  let '(neg, s1) := match find_ch 45 s with Some p => (true, erase1 s p) | None => (false, s) end in
  (neg, match find_ch 43 s1 with Some p => erase1 s1 p | None => s1 end).

(** Bring the text to the form digits '.' digits; outer [None] = throws, inner [None] = the text denotes
    zero. Models: decwide_t.h 3404-3427 (leading zeros) and 3435-3535 (decimal point). *)
Definition rd_point (s : list Z) (e : Z) : option (option (list Z * Z)) :=
  let s1 := drop0 s in
  if negb (length s1 =? length s)%nat && (length s1 =? 0)%nat then Some None
  else match find_ch 46 s1 with
       | None => Some (Some (s1 ++ [46], e))
       | Some _ =>
           let s2 := strip0 s1 in
           if (length s2 =? 1)%nat && (hd 0 s2 =? 46) then Some None
           else if hd 0 s2 =? 46 then
             match tl s2 with
             | [] => None
             | t =>
                 let r := drop0 t in
                 let delta := sze t - sze r in
                 do s3 <- insert_at r 1 1 46;
                 Some (Some (s3, scast E (e - scast E (scast E delta + 1))))
             end
           else Some (Some (s2, e))
       end.

(** Move the point right until the exponent is a multiple of the limb digits.
    Models: decwide_t.h 3537-3594. *)
Definition rd_shift (s : list Z) (e : Z) : option (list Z * Z) :=
  let rem := Z.rem e (ed L) in
  let n_shift := if rem =? 0 then 0 else if e <? 0 then rem + ed L else rem in
  do pos <- find_ch 46 s;
  let p1 := Z.of_nat pos + 1 in
  let s1 := if sze s - p1 <? n_shift then s ++ repeat 48 (Z.to_nat (n_shift - (sze s - p1))) else s in
  if n_shift =? 0 then Some (s1, e)
  else do s2 <- insert_at s1 (p1 + n_shift) 1 46;
       Some (erase1 s2 pos, scast E (e - n_shift)).

(** Move the point left by whole limbs until at most one limb is left of it.
    Models: decwide_t.h 3596-3629. *)
Definition rd_reduce (s : list Z) (e : Z) : option (list Z * Z) :=
  do pos <- find_ch 46 s;
  if Z.of_nat pos >? ed L then
    let n_pos := scast 32 (Z.of_nat pos) in
    let k := Z.quot n_pos (ed L) - (if Z.rem n_pos (ed L) =? 0 then 1 else 0) in
    do s1 <- insert_at s (ucast 64 (ucast 64 n_pos - ucast 64 (ucast 64 k * ed L))) 1 46;
    if sze s1 <? Z.of_nat pos + 1 then None
    else Some (erase1 s1 (pos + 1), scast E (e + scast E (scast E k * ed L)))
  else Some (s, e).

(** Pad the fraction to whole limbs, cut it to the limbs available.
    Models: decwide_t.h 3631-3660. *)
Definition rd_pad (s : list Z) : option (list Z) :=
  do pos <- find_ch 46 s;
  let n_dec := scast 32 (scast 32 (sze s - 1) - scast 32 (Z.of_nat pos)) in
  let n_rem := Z.rem n_dec (ed L) in
  let n_cnt := if n_rem =? 0 then 0 else ed L - n_rem in
  let s1 := s ++ repeat 48 (Z.to_nat n_cnt) in
  let max_dec := (elem_number c - 1) * ed L in
  Some (if sze s1 - Z.of_nat pos >? max_dec then firstn (Z.to_nat (Z.of_nat pos + 1 + max_dec)) s1 else s1).

(** The limbs after the first: [k] groups of ed digits. Models: decwide_t.h 3690-3727. *)
Fixpoint rd_chunks (k : nat) (s : list Z) : list Z :=
  match k with
  | O => []
  | S k' => ucast (lbits L) (strtoul (firstn (Z.to_nat (ed L)) s)) :: rd_chunks k' (skipn (Z.to_nat (ed L)) s)
  end.

(** Models: decwide_t.h 3662-3729 (extract the data); writing past the last limb is [None]. *)
Definition rd_limbs (s : list Z) : option (list Z) :=
  do pos <- find_ch 46 s;
  let frac := skipn (S pos) s in
  let l := ucast (lbits L) (strtoul (firstn pos s)) :: rd_chunks (Z.to_nat (sze frac / ed L)) frac in
  if (length l <=? n)%nat then Some (l ++ repeat 0 (n - length l)) else None.

(** Models: decwide_t.h 3357-3729 (rd_string) on an object of working precision [prec]; the constructor
    from text (728-737) calls it with the full precision, operator>> (4193-4205) with the object's. *)
Definition rd_string_on (prec : nat) (s : list Z) : option dec :=
  let '(e0, s0) := rd_exponent s in
  let '(neg, s1) := rd_sign s0 in
  do r <- rd_point s1 e0;
  match r with
  | None => Some (zero c)
  | Some (s2, e2) =>
      do (s3, e3) <- rd_shift s2 e2;
      do (s4, e4) <- rd_reduce s3 e3;
      do s5 <- rd_pad s4;
      do d <- rd_limbs s5;
      Some (mkDec d e4 neg prec)
  end.
Definition rd_string (s : list Z) : option dec := rd_string_on n s.

(** * Output *)

(** One limb as text in a buffer of ed characters. Models: util_baselexical_cast.h 112-176 as called at
    decwide_t.h 3757 and 3785. *)
Definition limb_text (u : Z) : option (list Z) := baselexical_cast 10 extract10 (Z.to_nat (ed L)) u.
(** Right-justified in ed characters, filled with '0' on the left. Models: decwide_t.h 3789-3793. *)
Definition limb_text_full (u : Z) : option (list Z) :=
  do t <- limb_text u; Some (repeat 48 (Z.to_nat (ed L) - length t) ++ t).
Fixpoint concat_texts (l : list Z) : option (list Z) :=
  match l with
  | [] => Some []
  | u :: r => do t <- limb_text_full u; do q <- concat_texts r; Some (t ++ q)
  end.

(** The first [k] limbs as digits. Models: decwide_t.h 3732-3800 (get_output_digits), without the
    inserted point. *)
Definition get_output_digits (x : dec) (k : nat) : option (list Z) :=
  match firstn k (data x) with
  | [] => None
  | u :: r => do t <- limb_text u; do q <- concat_texts r; Some (t ++ q)
  end.

(** Round the digit text up by one unit in its last place; [true] = it was all nines and the exponent
    goes up. Recursion on the reversed text. Models: decwide_t.h 3853-3888. *)
Fixpoint round_up_rev (r : list Z) : list Z * bool :=
  match r with
  | [] => ([], false)
  | [a] => if a - 48 =? 9 then ([49], true) else ([a + 1], false)
  | a :: t => if a - 48 =? 9 then let '(t', b) := round_up_rev t in (48 :: t', b) else (a + 1 :: t, false)
  end.

(** Models: decwide_t.h 3803-3890 (get_output_string): text of [nd] digits and exponent. *)
Definition get_output_string (x : dec) (e nd : Z) : option (list Z * Z) :=
  let k := Z.min (ucast 64 (ucast 64 (nd / ed L) + 2)) (elem_number c) in
  do s <- get_output_digits x (Z.to_nat k);
  if sze s >? nd then
    let round := ucast 32 (nth (Z.to_nat nd) s 0 - 48) in
    let s1 := firstn (Z.to_nat nd) s in
    if round >=? 5 then
      if (length s1 =? 0)%nat then None
      else let '(r, carry) := round_up_rev (rev s1) in
           Some (rev r, if carry then scast E (e + 1) else e)
    else Some (s1, e)
  else Some (s, e).

(** Models: decwide_t.h 4119-4176 (special_extend_string_to_precision). *)
Definition special_extend (s : list Z) (prec : Z) : option (list Z) :=
  do c0 <- nth_error s 0;
  do c1 <- (if c0 =? 48 then nth_error s 1 else Some 0);
  if (c0 =? 48) && (c1 =? 46) then
    if (length s =? 2)%nat then insert_at s (sze s) prec 48
    else insert_at s (sze s) (ucast 64 (prec - sze (drop0 (skipn 2 s)))) 48
  else insert_at s (sze s) (ucast 64 (prec - (sze s - 1))) 48.

(** Trim trailing zeros, then the point. Models: decwide_t.h 3917-3950 and 4073-4115. *)
Definition finish_digits (s : list Z) (prec : Z) (showpoint trim : bool) : option (list Z) :=
  let s1 := if trim then strip0 s else s in
  if showpoint then (if trim then special_extend s1 prec else Some s1)
  else match s1 with
       | [] => None
       | _ => Some (if last s1 0 =? 46 then removelast s1 else s1)
       end.

(** Models: decwide_t.h 3893-3990 (wr_string_scientific). -the_exp is computed in int, or in 64 bits for
    a 64-bit exponent type, where negating the least value is undefined: [None]. *)
Definition wr_scientific (s : list Z) (e prec : Z) (showpoint upper trim : bool) : option (list Z) :=
  let len1 := ucast 64 (sze s - 1) in
  do s1 <- (if prec >? len1 then insert_at s (sze s) (prec - len1) 48 else Some s);
  do s2 <- insert_at s1 1 1 46;
  do s3 <- finish_digits s2 prec showpoint trim;
  let neg := e <? 0 in
  if neg && (E =? 64) && (e =? - 2 ^ 63) then None else
  let u := ucast 64 (if neg then scast E (- e) else e) in
  do t <- baselexical_cast 10 extract10 20 u;
  let m := (length t mod 3)%nat in
  Some (s3 ++ [if upper then 69 else 101] ++ [if neg then 45 else 43]
           ++ repeat 48 (if (m =? 0)%nat then O else (3 - m)%nat) ++ t).

(** Models: decwide_t.h 3992-4117 (wr_string_fixed). *)
Definition wr_fixed (s : list Z) (e prec : Z) (showpoint trim : bool) : option (list Z) :=
  if e <? 0 then
    let zins := negate_s E (scast E (e + 1)) in
    let n_pad := scast E (scast E prec - scast E (scast E (sze s) + zins)) in
    do s1 <- insert_at s 0 (ucast 64 zins) 48;
    do s2 <- insert_at s1 0 1 46;
    do s3 <- insert_at s2 0 1 48;
    do s4 <- (if n_pad >? 0 then insert_at s3 (sze s3) n_pad 48 else Some s3);
    finish_digits s4 prec showpoint trim
  else
    let e1 := ucast 64 (scast E (e + 1)) in
    do s1 <- (if sze s <? e1 then insert_at s (sze s) (e1 - sze s) 48 else Some s);
    do s2 <- insert_at s1 e1 1 46;
    let n_pad := scast E (scast E prec - scast E (scast E (sze s2 - 1) - scast E (e + 1))) in
    do s3 <- (if n_pad >? 0 then insert_at s2 (sze s2) n_pad 48 else Some s2);
    finish_digits s3 prec showpoint trim.

(** The stream state used. floatfield: both bits set counts as scientific, as in the code. *)
Inductive ffield := FScientific | FFixed | FNone.
Record fmt := mkFmt { f_field : ffield; f_prec : Z; f_showpos : bool; f_upper : bool; f_showpoint : bool;
                      f_width : Z; f_fill : Z; f_left : bool }.

(** Models: decwide_t.h 4403-4437 (precision). *)
Definition os_precision (f : fmt) : Z :=
  if f_prec f <=? 0 then (match f_field f with FScientific => 0 | _ => 6 end) else ucast 64 (f_prec f).

(** Models: decwide_t.h 4439-4463 (choice of notation). *)
Definition uses_scientific (f : fmt) (e : Z) : bool :=
  match f_field f with
  | FScientific => true
  | FFixed => false
  | FNone =>
      let hi := Z.min (scast E (c_digits10 c)) (Z.max (scast E (os_precision f)) 6) in
      (e <? -4) || (e >=? hi)
  end.

(** Models: decwide_t.h 4465-4510 (number of digits requested). *)
Definition digits_wanted (f : fmt) (e : Z) : Z :=
  let p := os_precision f in
  let max1 := ucast 64 (max_digits10 c + 1) in
  let w := if uses_scientific f e then Z.min max1 (ucast 64 (1 + p))
           else if e >=? 0 then ucast 64 (Z.min (scast E (scast E (e + 1) + scast E p)) (scast E max1))
           else Z.min p max1 in
  match f_field f with FNone => Z.min w (Z.min p (max_digits10 c)) | _ => w end.

(** Digits, point and exponent, without sign and padding. Models: decwide_t.h 4401-4529. *)
Definition wr_body (f : fmt) (x : dec) : option (list Z) :=
  let e0 := ilogb c x in
  let p := os_precision f in
  do (s, e) <- get_output_string x e0 (digits_wanted f e0);
  match f_field f with
  | FScientific => wr_scientific s e p (f_showpoint f) (f_upper f) false
  | FFixed => wr_fixed s e p (f_showpoint f) false
  | FNone => if uses_scientific f e0 then wr_scientific s e p (f_showpoint f) (f_upper f) true
             else wr_fixed s e p (f_showpoint f) true
  end.

(** Models: decwide_t.h 4383-4558 (wr_string), and operator<< (4178-4192), which hands the result to
    the stream's own string inserter. *)
Definition wr_string (f : fmt) (x : dec) : option (list Z) :=
  do b <- wr_body f x;
  let s := (if dneg x then [45] else if f_showpos f then [43] else []) ++ b in
  let w := if f_width f >=? 0 then f_width f else 0 in
  if w >? sze s then
    let fill := repeat (f_fill f) (Z.to_nat (w - sze s)) in
    Some (if f_left f then s ++ fill else fill ++ s)
  else Some s.

End CFG.
