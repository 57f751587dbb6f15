(** Model_Log.v - control flow of log, pow with a real exponent, and the root functions
    (math/wide_decimal/decwide_t.h). Loops and recursions whose termination is in question take a fuel
    argument and say [Running] when it is used up. *)
From Verif Require Export Model_Inv.
Local Open Scope Z_scope.

(** [Ret r]: returned r; [Fault]: undefined behaviour was met; [Running]: still running when the fuel is
    used up. *)
Inductive outcome (A : Type) : Type := Ret (r : A) | Fault | Running.
Arguments Ret {A} r. Arguments Fault {A}. Arguments Running {A}.

Definition obind {A B} (o : outcome A) (f : A -> outcome B) : outcome B :=
  match o with Ret a => f a | Fault => Fault | Running => Running end.
Definition lift {A} (o : option A) : outcome A := match o with Some a => Ret a | None => Fault end.

(** Values of a built-in floating-point type that matter here: finite ones and positive infinity. *)
Inductive xfloat : Type := XFin (q : Q) | XInf.

Section LOG.
Variable c : cfg.
Variable F : ftype.
Let L := c_limb c.
Let E := ebits (c_expo c).
Let n := nel c.
Let P := f_bits F.

(** log. Models: decwide_t.h 5736-5879 and 5882-6001 (two versions with the same outer structure).
    [core] stands for the middle branch (arguments above one), whose loops are bounded by 128 resp. 10000
    iterations; [mems k] is the memory of the k-th nested call. *)
Fixpoint log (core : dec -> option dec) (fuel : nat) (mems : nat -> memory) (x : dec) : outcome dec :=
  match fuel with
  | O => Running
  | S f =>
      if op_lt x (one c) then
        obind (lift (calculate_inv c F (mems 0%nat) x)) (fun y =>
        obind (log core f (fun k => mems (S k)) y) (fun r => Ret (negate r)))
      else if op_gt x (one c) then lift (core x)
      else Ret (zero c)
  end.

(** pow with a real exponent. Models: decwide_t.h 5613-5619. [exp]: the exponential function. *)
Definition pow_real (core exp : dec -> option dec) (fuel : nat) (mems : nat -> memory) (mem : memory) (x a : dec) : outcome dec :=
  if iszero a then Ret (one c)
  else obind (log core fuel mems x) (fun l => obind (lift (mulm c mem 0 a l)) (fun t => lift (exp t))).

(** "while(d > 10) { d /= 10; ++e; }" of the mantissa/exponent constructor, with infinity: infinity
    divided by ten is infinity. Models: decwide_t.h 807. *)
Fixpoint scale_down (fuel : nat) (d : xfloat) (e : Z) : outcome (Q * Z) :=
  match fuel with
  | O => Running
  | S f =>
      match d with
      | XFin q => if Qle_bool q 10 then Ret (q, e) else scale_down f (XFin (fl P (q / 10))) (scast E (e + 1))
      | XInf => scale_down f XInf (scast E (e + 1))
      end
  end.

(** The constructor from mantissa and exponent, for any non-negative mantissa. Models: decwide_t.h
    766-873. *)
Definition from_mantissa_x (fuel : nat) (d : xfloat) (e : Z) : outcome dec :=
  match d with
  | XFin q => lift (from_mantissa c F q e)
  | XInf => obind (scale_down fuel d e) (fun de => lift (from_mantissa c F (fst de) (snd de)))
  end.

(** "while(ne % p != 0) { ++ne; dd /= 10; }". Models: decwide_t.h 1981-1986. p is converted to the
    exponent type first; a remainder by zero is undefined. *)
Fixpoint root_adjust (fuel : nat) (p : Z) (dd : Q) (ne : Z) : outcome (Q * Z) :=
  match fuel with
  | O => Running
  | S f =>
      if scast E p =? 0 then Fault
      else if Z.rem ne (scast E p) =? 0 then Ret (dd, ne)
      else root_adjust f p (fl P (dd / 10)) (scast E (ne + 1))
  end.

(** The Newton iteration of the inverse root. Models: decwide_t.h 2000-2033. *)
Fixpoint rootn_loop (fuel : nat) (mem : memory) (orig : nat) (i : nat) (p digits : Z) (r x : dec) : outcome dec :=
  match fuel with
  | O => Running
  | S f =>
      if digits <? Z.of_nat orig * ed L then
        let r1 := precision c r (newton_prec c digits) in
        let x1 := precision c x (newton_prec c digits) in
        obind (lift (do w <- pow_nonneg c (later mem (200 * i)) r1 p;
                     do q <- mulm c (later mem (200 * i)) 150 (negate w) x1;
                     do s <- div_signed c F (later mem (200 * i + 160)) (add c q (one c)) p;
                     let term := precision c (add c s (one c)) (newton_prec c digits) in
                     mulm c (later mem (200 * i)) 199 r1 term)) (fun r' =>
        rootn_loop f mem orig (i + 1) p (digits * 2) r' x1)
      else Ret r
  end.

(** calculate_rootn_inv. Models: decwide_t.h 1950-2038. [fpow d p] stands for the built-in
    pow(d, -1 / p). *)
Definition rootn_inv (fpow : Q -> Z -> xfloat) (fuel : nat) (mem : memory) (v : dec) (p : Z) : outcome dec :=
  if p <? 1 then Ret (zero c)
  else if p =? 1 then Ret v
  else
    let '(dd, ne) := extract_parts c F v in
    obind (root_adjust fuel p dd ne) (fun dn =>
    obind (from_mantissa_x fuel (fpow (fst dn) p) (Z.quot (scast E (- snd dn)) p)) (fun est =>
    obind (rootn_loop fuel mem (dprec v) 0 p (f_digits10 F - 1) est v) (fun r =>
    Ret (mkDec (data r) (dexp r) (dneg r) (dprec v))))).

(** rootn for p >= 3 (cbrt is p = 3). Models: decwide_t.h 5683-5725, branches 5712-5722; [lt0] is the
    comparison "x < 0". *)
Definition rootn_ge3 (fpow : Q -> Z -> xfloat) (fuel : nat) (mem : memory) (x : dec) (p : Z) : outcome dec :=
  let lt0 := op_lt x (zero c) in
  if lt0 && negb (p =? 3) then Ret (zero c)
  else
    obind (rootn_inv fpow fuel mem (if p =? 3 then set_neg x false else x) p) (fun r =>
    obind (lift (calculate_inv c F (later (later mem 4000) 4000) r)) (fun r =>
    Ret (if (p =? 3) && lt0 then negate r else r))).

End LOG.
