(** Spec_Hist.v - reference semantics of a history on plain integers. *)
From Verif Require Export Model_Misc Spec_Dec.
Local Open Scope Z_scope.

(** Replace entry [i] (nothing happens past the end). *)
Fixpoint put_int (s : list Z) (i : nat) (k : Z) : list Z :=
  match s, i with
  | [], _ => []
  | _ :: t, O => k :: t
  | y :: t, S j => y :: put_int t j k
  end.

(** What each statement means on integers. *)
Definition int_step (s : list Z) (o : stmt) : list Z :=
  let g i := nth i s 0 in
  match o with
  | SNeg d => put_int s d (- g d)
  | SAbs d => put_int s d (Z.abs (g d))
  | SCopy d i => put_int s d (g i)
  | SInt d k | SUInt d k => put_int s d k
  | SAdd d i => put_int s d (g d + g i)
  | SSub d i => put_int s d (g d - g i)
  | SMul d i => put_int s d (g d * g i)
  | SAddI d k => put_int s d (g d + k)
  | SSubI d k => put_int s d (g d - k)
  | SMulI d k => put_int s d (g d * k)
  | SDivI d k => put_int s d (Z.quot (g d) k)
  | SInc d => put_int s d (g d + 1)
  | SDec d => put_int s d (g d - 1)
  end.
Definition int_run (s : list Z) (p : list stmt) : list Z := fold_left int_step p s.

(** The built-in operand of a statement (0 if it has none). *)
Definition operand (o : stmt) : Z :=
  match o with SInt _ k | SUInt _ k | SAddI _ k | SSubI _ k | SMulI _ k | SDivI _ k => k | _ => 0 end.

(** The statement has no division and does not subtract a variable from itself. *)
Definition ring_stmt (o : stmt) : Prop :=
  match o with SDivI _ _ => False | SSub d i => d <> i | _ => True end.

(** Every integer that occurs in the history is below [cap] in absolute value. *)
Fixpoint stays_below (cap : Z) (s : list Z) (p : list stmt) : Prop :=
  Forall (fun k => Z.abs k < cap) s /\
  match p with
  | [] => True
  | o :: p' => Z.abs (operand o) < cap /\ stays_below cap (int_step s o) p'
  end.

(** A variable holds the integer [k] (a zero with an exponent inside the documented range). *)
Definition holds (c : cfg) (x : dec) (k : Z) : Prop :=
  normal c x /\ (value c x == inject_Z k)%Q /\ (k = 0 -> - max_exp10_of (c_expo c) < dexp x < max_exp10_of (c_expo c)).

(** The variable a statement assigns. *)
Definition target (o : stmt) : nat :=
  match o with SNeg d | SAbs d | SCopy d _ | SInt d _ | SUInt d _ | SAdd d _ | SSub d _ | SMul d _ | SAddI d _ | SSubI d _ | SMulI d _ | SDivI d _ | SInc d | SDec d => d end.
