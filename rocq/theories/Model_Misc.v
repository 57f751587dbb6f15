(** Model_Misc.v - small observers, numeric_limits, and histories of operations on named variables
    (math/wide_decimal/decwide_t.h). *)
From Verif Require Export Model_Dec.
Local Open Scope Z_scope.

(** Models: decwide_t.h 4263-4275 (ilogb); the order of the leading limb is counted by
    order_of_builtin_integer, the sum is cast to the exponent type. *)
Definition ilogb (c : cfg) (x : dec) : Z :=
  scast (ebits (c_expo c))
        (dexp x + scast (ebits (c_expo c))
                        (scast (ebits (c_expo c)) (order_of_builtin_integer (nth 0 (data x) 0)) - 1)).

(** Models: decwide_t.h 5551-5580 (numeric_limits: min, max, lowest, epsilon, round_error, infinity,
    quiet_NaN); [epsilon] repeats the text of my_value_eps (1644-1669). *)
Definition nl_min (c : cfg) : dec := value_min c.
Definition nl_max (c : cfg) : dec := value_max c.
Definition nl_lowest (c : cfg) : dec := zero c.
Definition nl_epsilon (c : cfg) : dec := value_eps c.
Definition nl_round_error (c : cfg) : dec := half c.
Definition nl_infinity (c : cfg) : dec := zero c.
Definition nl_quiet_NaN (c : cfg) : dec := zero c.

(** * Histories: a program is a list of statements on numbered variables. *)
Inductive stmt :=
| SNeg  (d : nat)              (* x.negate(),           decwide_t.h 2094-2102 *)
| SAbs  (d : nat)              (* x = fabs(x),          4209-4212 *)
| SCopy (d s : nat)            (* x = y                 *)
| SInt  (d : nat) (k : Z)      (* x = decwide_t(n),     700-714 *)
| SUInt (d : nat) (k : Z)      (* x = decwide_t(u),     682-698 *)
| SAdd  (d s : nat)            (* x += y,               913-1214 *)
| SSub  (d s : nat)            (* x -= y,               1216-1220 *)
| SMul  (d s : nat)            (* x *= y,               1222-1308 *)
| SAddI (d : nat) (k : Z)      (* x += n (signed),      1514-1528 *)
| SSubI (d : nat) (k : Z)      (* x -= n (signed),      1530-1533 *)
| SMulI (d : nat) (k : Z)      (* x *= n (signed),      1535-1546 *)
| SDivI (d : nat) (k : Z)      (* x /= n (signed), |n| below the limb base, 1548-1559 *)
| SInc  (d : nat)              (* ++x,                  2181 *)
| SDec  (d : nat).             (* --x,                  2182 *)

Definition store := list dec.
Definition get (c : cfg) (s : store) (i : nat) : dec := nth i s (zero c).
Fixpoint set (s : store) (i : nat) (x : dec) : store :=
  match s, i with
  | [], _ => []
  | _ :: t, O => x :: t
  | y :: t, S i' => y :: set t i' x
  end.

(** One statement; [rmem]/[scratch] are the (arbitrary) previous contents of the memory a
    multiplication works in. x -= x goes through the aliased code path. [None]: the C++ statement has
    no defined behaviour in the model (out-of-bounds access, signed overflow) or divides by an integer
    not below the limb base (which needs the full division). *)
Definition step (c : cfg) (rmem scratch : list Z) (s : store) (o : stmt) : option store :=
  let g := get c s in
  let put d r := match r with Some x => Some (set s d x) | None => None end in
  match o with
  | SNeg d => put d (Some (negate (g d)))
  | SAbs d => put d (Some (fabs (g d)))
  | SCopy d i => put d (Some (g i))
  | SInt d n => put d (Some (from_sll c n))
  | SUInt d n => put d (Some (from_ull c n))
  | SAdd d i => put d (Some (add c (g d) (g i)))
  | SSub d i => put d (Some (if (d =? i)%nat then sub_self c (g d) else sub c (g d) (g i)))
  | SMul d i => put d (mul c rmem scratch (g d) (g i))
  | SAddI d n => put d (Some (add_sll c (g d) n))
  | SSubI d n => put d (sub_sll c (g d) n)
  | SMulI d n => put d (mul_sll c rmem scratch (g d) n)
  | SDivI d n => put d (div_sll c (fun _ _ => None) (g d) n)
  | SInc d => put d (Some (incr c (g d)))
  | SDec d => put d (Some (decr c (g d)))
  end.

(** Run a program; the memory contents may differ at every statement. *)
Fixpoint run (c : cfg) (mem : nat -> list Z * list Z) (t : nat) (s : store) (p : list stmt) : option store :=
  match p with
  | [] => Some s
  | o :: p' =>
      match step c (fst (mem t)) (snd (mem t)) s o with
      | Some s' => run c mem (S t) s' p'
      | None => None
      end
  end.
