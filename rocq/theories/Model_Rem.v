(** Model_Rem.v - fmod and frexp (math/wide_decimal/decwide_t.h). *)
From Verif Require Export Model_Inv Model_Round Model_Misc.
Local Open Scope Z_scope.

Section REM.
Variable c : cfg.
Variable F : ftype.
Let E := ebits (c_expo c).

(** Models: decwide_t.h 5663-5673 (fmod); [mem] is the working memory met by the successive multiplications. *)
Definition fmod (mem : memory) (v1 v2 : dec) : option dec :=
  do q <- divide c F mem v1 v2;
  do nv <- (if dneg v1 then dceil c q else dfloor c q);
  do m <- mulm c (later mem 2000) 0 nv v2;
  Some (sub c v1 m).

(** The constant 1000/301, a long double literal (64 significant bits). Models: decwide_t.h 2062-2068. *)
Definition frexp_ratio : Q := fl 64 (33222591362126245847176079734219269102990033 # 10000000000000000000000000000000000000000000).

(** The first estimate of the binary exponent: product of long doubles, truncated; a value outside the
    exponent type is undefined. Models: decwide_t.h 2063-2068. *)
Definition frexp_start (i : Z) : option Z :=
  let p := fl 64 (inject_Z i * frexp_ratio) in
  let t := if Qle_bool 0 p then Qfloor p else Qceiling p in
  if (- 2 ^ (E - 1) <=? t) && (t <? 2 ^ (E - 1)) then Some t else None.

(** Models: decwide_t.h 2074-2079. The exponent counter wraps in its type. *)
Fixpoint frexp_down (fuel : nat) (mem : memory) (r : dec) (t : Z) : option (dec * Z) :=
  if cmp r (one c) >=? 0 then
    match fuel with
    | O => None
    | S f => do r2 <- div_signed c F mem r 2; frexp_down f (later mem 1000) r2 (scast E (t + 1))
    end
  else Some (r, t).

(** Models: decwide_t.h 2081-2086. *)
Fixpoint frexp_up (fuel : nat) (mem : memory) (r : dec) (t : Z) : option (dec * Z) :=
  if cmp r (half c) <? 0 then
    match fuel with
    | O => None
    | S f => let m := mem 0%nat (dprec r) in
             do r2 <- mul_sll c (fst m) (snd m) r 2; frexp_up f (later mem 1) r2 (scast E (t - 1))
    end
  else Some (r, t).

(** Models: decwide_t.h 2040-2092 (calculate_frexp) and 5646-5661 (frexp); [None]: out of fuel or undefined. *)
Definition frexp (fuel : nat) (mem : memory) (x : dec) : option (dec * Z) :=
  if iszero x then Some (x, 0)
  else
    let a := if dneg x then negate x else x in
    do t <- frexp_start (ilogb c a);
    do h <- pow_int c F (later mem 1) (two c) (- t);
    do r <- mulm c mem 0 a h;
    do p1 <- frexp_down fuel (later mem 3000) r t;
    do p2 <- frexp_up fuel (later mem 4000) (fst p1) (snd p1);
    let '(r, t) := p2 in
    Some (if dneg x then negate r else r, scast 32 t).

End REM.
