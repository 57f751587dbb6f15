(** Spec_Util.v - what the utility containers are supposed to do, said without their code. *)
From Verif Require Export Spec Model_Util.
Local Open Scope Z_scope.

(** * A client's ledger of the slot allocator *)
Inductive lop := LAlloc (count : Z) | LFree (p : Z).

(** The ledger: pointers handed out and not yet given back. *)
Definition lstep (base : Z) (width : nat) (sl : slots * list Z) (o : lop) : slots * list Z :=
  let '(s, live) := sl in
  match o with
  | LAlloc n => let '(p, s') := allocate base width n s in
                (s', if p =? 0 then live else p :: live)
  | LFree p => (deallocate base width p s, remove Z.eq_dec p live)
  end.

(** A history in which the client frees only what it holds (or nullptr). *)
Fixpoint lrun (base : Z) (width : nat) (sl : slots * list Z) (h : list lop) : slots * list Z :=
  match h with [] => sl | o :: t => lrun base width (lstep base width sl o) t end.
Fixpoint client_ok (base : Z) (width : nat) (sl : slots * list Z) (h : list lop) : Prop :=
  match h with
  | [] => True
  | o :: t => match o with LFree p => p = 0 \/ In p (snd sl) | LAlloc _ => True end
              /\ client_ok base width (lstep base width sl o) t
  end.

(** * Arrays as plain values *)
Definition vworld := nat -> option (list Z).
Definition vset (v : vworld) (d : nat) (x : option (list Z)) : vworld :=
  fun i => if (i =? d)%nat then x else v i.

(** Each array is a value of its own; copies are independent; a moved-from array is empty; assignment
    overwrites the common prefix; the rvalue swap is excluded. *)
Definition vstep (v : vworld) (o : aop) : option vworld :=
  match o with
  | ANew d vs => match v d with None => Some (vset v d (Some vs)) | _ => None end
  | ACopy d s => match v d, v s with None, Some l => Some (vset v d (Some l)) | _, _ => None end
  | AMove d s => match v d, v s with
                 | None, Some l => Some (vset (vset v s (Some [])) d (Some l)) | _, _ => None end
  | AAssign d s => match v d, v s with
                   | Some a, Some b =>
                       Some (vset v d (Some (firstn (length a) b ++ skipn (length b) a)))
                   | _, _ => None end
  | AMoveAssign d s | ASwap d s =>
      match v d, v s with
      | Some a, Some b => Some (vset (vset v d (Some b)) s (Some a)) | _, _ => None end
  | ASwapR _ _ => None
  | APut d i x => match v d with
                  | Some a => if (i <? length a)%nat
                              then Some (vset v d (Some (firstn i a ++ x :: skipn (S i) a))) else None
                  | None => None end
  | AFill d x => match v d with Some a => Some (vset v d (Some (repeat x (length a)))) | None => None end
  | ADestroy d => match v d with Some _ => Some (vset v d None) | None => None end
  end.
Fixpoint vrun (v : vworld) (p : list aop) : option vworld :=
  match p with [] => Some v | o :: t => match vstep v o with Some v' => vrun v' t | None => None end end.

(** Every block is owned by exactly one array while allocated, and every array's storage is allocated. *)
Definition owns (w : world) (d b : nat) : Prop :=
  exists a, w_vars w d = Some a /\ a_elems a = Some b.
Definition allocated (w : world) (b : nat) : Prop :=
  exists cs, nth_error (w_heap w) b = Some (mkBlock true cs).
Definition unique_ownership (w : world) : Prop :=
  (forall d1 d2 b, owns w d1 b -> owns w d2 b -> d1 = d2) /\
  (forall d b, owns w d b -> allocated w b) /\
  (forall b, allocated w b -> exists d, owns w d b).

(** * Lexicographic order *)
Inductive lex_lt : list Z -> list Z -> Prop :=
| lex_nil : forall y b, lex_lt [] (y :: b)
| lex_head : forall x y a b, x < y -> lex_lt (x :: a) (y :: b)
| lex_tail : forall x a b, lex_lt a b -> lex_lt (x :: a) (x :: b).

(** * Text of a number: value of a digit character in base 10/16, either case. *)
Definition char_value (ch : Z) : Z :=
  if ch <=? 57 then ch - 48 else if ch <=? 70 then ch - 55 else ch - 87.
(** The number a digit string denotes. *)
Definition text_value (base : Z) (t : list Z) : Z := limbs_value base (map char_value t).
