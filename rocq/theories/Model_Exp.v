(** Model_Exp.v - the stored constants, exp, log, and the functions built from them
    (math/wide_decimal/decwide_t.h). *)
From Verif Require Export Model_Inv Model_Round Model_Misc Model_Conv Model_Log.
Local Open Scope Z_scope.

Section EXP.
Variable c : cfg.
Variable F : ftype.
Let L := c_limb c.
Let E := ebits (c_expo c).

(** The memory of the multiplications of a computation, one stream for each numbered step. *)
Definition memories := Z -> memory.

(** calc_pi for at most 51 digits, per limb type. Models: decwide_t.h 4711-4810. *)
Definition pi_small : dec :=
  from_lst c
    (match L with
     | U8 =>
      [3; 14; 15; 92; 65; 35; 89; 79; 32; 38; 46; 26; 43; 38; 32; 79; 50; 28; 84; 19; 71; 69; 39;
       93; 75; 10; 58; 20; 97; 49; 44; 59; 23; 7; 81; 64; 6; 28; 62; 8; 99; 86; 28; 3; 48; 25; 34;
       21; 17]
     | U16 =>
      [3; 1415; 9265; 3589; 7932; 3846; 2643; 3832; 7950; 2884; 1971; 6939; 9375; 1058; 2097; 4944;
       5923; 781; 6406; 2862; 899; 8628; 348; 2534; 2117]
     | U32 =>
      [3; 14159265; 35897932; 38462643; 38327950; 28841971; 69399375; 10582097; 49445923; 7816406;
       28620899; 86280348; 25342117]
     end) 0.

(** calc_ln_two for at most 51 digits, per limb type. Models: decwide_t.h 4902-4983. *)
Definition ln2_small : dec :=
  from_lst c
    (match L with
     | U8 =>
      [69; 31; 47; 18; 5; 59; 94; 53; 9; 41; 72; 32; 12; 14; 58; 17; 65; 68; 7; 55; 0; 13; 43; 60;
       25; 52; 54; 12; 6; 80; 0; 94; 93; 39; 36; 21; 96; 96; 94; 71; 56; 5; 86; 33; 26; 99; 64; 18;
       68; 75; 42; 0]
     | U16 =>
      [6931; 4718; 559; 9453; 941; 7232; 1214; 5817; 6568; 755; 13; 4360; 2552; 5412; 680; 94; 9339;
       3621; 9696; 9471; 5605; 8633; 2699; 6418; 6875; 4200]
     | U32 =>
      [69314718; 5599453; 9417232; 12145817; 65680755; 134360; 25525412; 6800094; 93393621;
       96969471; 56058633; 26996418; 68754200]
     end) (- ed L).

(** calc_ln_ten_low_precision for at most 51 digits, per limb type. Models: decwide_t.h 4985-5070. *)
Definition ln10_small : dec :=
  from_lst c
    (match L with
     | U8 =>
      [2; 30; 25; 85; 9; 29; 94; 4; 56; 84; 1; 79; 91; 45; 46; 84; 36; 42; 7; 60; 11; 1; 48; 86; 28;
       77; 29; 76; 3; 33; 27; 90; 9; 67; 57; 26; 9; 67; 73; 52; 48; 2; 35; 99; 72; 5; 8; 95; 98]
     | U16 =>
      [2; 3025; 8509; 2994; 456; 8401; 7991; 4546; 8436; 4207; 6011; 148; 8628; 7729; 7603; 3327;
       9009; 6757; 2609; 6773; 5248; 235; 9972; 508; 9598]
     | U32 =>
      [2; 30258509; 29940456; 84017991; 45468436; 42076011; 1488628; 77297603; 33279009; 67572609;
       67735248; 2359972; 5089598]
     end) 0.

(** Negation of an exponent and conversion back to its type: small types are promoted first, for the
    32- and 64-bit types negating the minimum is undefined. *)
Definition neg_exp (e : Z) : option Z :=
  if (e =? - 2 ^ (E - 1)) && (32 <=? E) then None else Some (scast E (- e)).

(** Models: decwide_t.h 6157-6169 (the iteration goal). *)
Definition exp_goal (x : dec) : option Z :=
  do d <- neg_exp (ilogb c (nl_epsilon c));
  Some (Z.min (Z.max 0 d) (scast E (get_precision c x))).

(** Models: decwide_t.h 6172-6195 (the series). [k] counts the iterations left (n runs to 99999). *)
Fixpoint exp_loop (k : nat) (mems : memories) (i : Z) (goal : Z) (xh t h : dec) : option dec :=
  match k with
  | O => Some h
  | S k' =>
      do t1 <- mulm c (mems (2 * i)) 0 t xh;
      do t2 <- div_unsigned c F (mems (2 * i + 1)) t1 i;
      do stop <- (if i >? 4 then do d <- neg_exp (ilogb c t2); Some (Z.max 0 d >? goal) else Some false);
      if stop then Some h else exp_loop k' mems (i + 1) goal xh t2 (add c h t2)
  end.

(** Models: decwide_t.h 6107-6220 (exp for at most 2000 digits); [ln2] is the constant ln_two(). The
    product with ln2 is made by mul_unsigned_long_long, the quotient by 2048 by div_unsigned_long_long. *)
Definition wexp (ln2 : dec) (mems : memories) (x : dec) : option dec :=
  if dneg x || op_gt x (zero c) then
    let xx := if negb (dneg x) then x else negate x in
    do q <- divide c F (mems (-1)) xx ln2;
    do u <- to_ull c q;
    let nf := ucast 32 u in
    let m := mems (-2) 0%nat (dprec ln2) in
    do nl <- mul_ull c (fst m) (snd m) ln2 nf;
    do d <- div_unsigned c F (mems (-3)) (sub c xx nl) 2048;
    let xh := precision c d (get_precision c x) in
    let h0 := precision c (add c (one c) xh) (get_precision c x) in
    do goal <- exp_goal x;
    do h <- exp_loop (Z.to_nat 99998) mems 2 goal xh xh h0;
    do r <- pow_int c F (mems (-4)) h 2048;
    do r2 <- (if negb (nf =? 0) then ldexp c F (mems (-5)) r (scast 32 nf) else Some r);
    if dneg x then calculate_inv c F (mems (-6)) r2 else Some r2
  else Some (one c).

(** Models: decwide_t.h 6222-6230 (sinh), 6232-6240 (cosh), 6242-6252 (tanh). *)
Definition wsinh (ln2 : dec) (mems : memories) (x : dec) : option dec :=
  do ep <- wexp ln2 mems x;
  do em <- calculate_inv c F (mems (-7)) ep;
  div_unsigned c F (mems (-8)) (sub c ep em) 2.
Definition wcosh (ln2 : dec) (mems : memories) (x : dec) : option dec :=
  do ep <- wexp ln2 mems x;
  do em <- calculate_inv c F (mems (-7)) ep;
  div_unsigned c F (mems (-8)) (add c ep em) 2.
Definition wtanh (ln2 : dec) (mems : memories) (x : dec) : option dec :=
  do ep <- wexp ln2 mems x;
  do em <- calculate_inv c F (mems (-7)) ep;
  divide c F (mems (-8)) (sub c ep em) (add c ep em).

(** Models: decwide_t_detail.h 387-411 (pow10_maker_as_runtime_value). *)
Definition pow10_runtime (k : nat) : Z :=
  nth k [1; 10; 100; 1000; 10000; 100000; 1000000; 10000000; 100000000; 1000000000] 1000000000.

(** Models: decwide_t.h 5957-5984 (the series). [k] counts the iterations left (i runs to 9999). The
    digits of the term are converted to 32 bits before they are compared. *)
Fixpoint log_loop (k : nat) (mems : memories) (i : Z) (goal : Z) (y y_pow sum : dec) (negative_term : bool) : option dec :=
  match k with
  | O => Some sum
  | S k' =>
      do yp <- mulm c (mems (2 * i)) 0 y_pow y;
      do term <- div_unsigned c F (mems (2 * i + 1)) yp i;
      do stop <- (if i >? 4 then
                    do d <- neg_exp (ilogb c yp);
                    Some (iszero yp || (Z.max 0 (scast 32 d) >? goal))
                  else Some false);
      if stop then Some sum
      else log_loop k' mems (i + 1) goal y yp (if negative_term then sub c sum term else add c sum term) (negb negative_term)
  end.

(** The branch of log for arguments above one, at most 51 digits. Models: decwide_t.h 5893-5995. *)
Definition log_core (mems : memories) (x : dec) : option dec :=
  let n := ilogb c x in
  let scale := from_lst c [ucast (lbits L) (pow10_runtime (Z.to_nat (ucast 32 (Z.rem n (ed L)))))]
                        (scast E (Z.quot n (ed L) * ed L)) in
  do xs <- divide c F (mems (-1)) x scale;
  do limit <- from_float c f_float F (mems (-2)) false (fl 24 (18 # 10));
  do p <- (if op_gt xs limit then do d <- div_unsigned c F (mems (-3)) xs 10; Some (d, scast E (n + 1)) else Some (xs, n));
  let '(x_scaled, n1) := p in
  let goal := scast E (scast E (c_digits10 c) + 5) in
  let y := sub c x_scaled (one c) in
  do sum <- log_loop (Z.to_nat 9998) mems 2 goal y y y true;
  let m := mems (-4) 0%nat (dprec ln10_small) in
  do l <- mul_sll c (fst m) (snd m) ln10_small n1;
  Some (add c l sum).

End EXP.
