(** Model_Util.v - the utility containers: slot allocator, dynamic array, base-10/16 text of unsigned
    integers (util/memory/util_n_slot_array_allocator.h, util/utility/util_dynamic_array.h,
    util/utility/util_baselexical_cast.h). *)
From Verif Require Export Model_Config.
Local Open Scope Z_scope.

(** * n_slot_array_allocator<T, SlotWidth, SlotCount>

    Pointers are integers counted in elements of T: nullptr is 0, and slot i of the pool (static member
    slot_array_memory) starts at [base + i * width]. *)

(** The mutable static members. Models: util_n_slot_array_allocator.h 148-150
    (slot_flags, slot_max_index; the element storage itself is not read by the allocator). *)
Record slots := mkSlots { sl_flags : list Z; sl_max : nat }.

(** Zero-initialised statics. Models: util_n_slot_array_allocator.h 153-166. *)
Definition slots_init (count : nat) : slots := mkSlots (repeat 0 count) 0.

(** Address of slot [i]. Models: util_n_slot_array_allocator.h 99 and 134 (slot_array_memory[i].data()). *)
Definition slot_addr (base : Z) (width : nat) (i : nat) : Z := base + Z.of_nat i * Z.of_nat width.

(** The search loop: first slot with flag 0, from index [i] on.
    Models: util_n_slot_array_allocator.h 91-110. *)
Fixpoint find_free (flags : list Z) (i : nat) : option nat :=
  match flags with
  | [] => None
  | f :: t => if f =? 0 then Some i else find_free t (S i)
  end.

Fixpoint upd {A} (l : list A) (i : nat) (v : A) : list A :=
  match l, i with
  | [], _ => []
  | _ :: t, O => v :: t
  | x :: t, S i' => x :: upd t i' v
  end.

(** Models: util_n_slot_array_allocator.h 77-113 (allocate). The requested [count] is ignored. *)
Definition allocate (base : Z) (width : nat) (count : Z) (s : slots) : Z * slots :=
  match find_free (sl_flags s) 0 with
  | None => (0, s)
  | Some i => (slot_addr base width i,
               mkSlots (upd (sl_flags s) i 1) (if (sl_max s <? i)%nat then i else sl_max s))
  end.

(** The search loop of deallocate over [n] remaining slots from index [i].
    Models: util_n_slot_array_allocator.h 132-144. *)
Fixpoint find_slot (base : Z) (width : nat) (p : Z) (n i : nat) : option nat :=
  match n with
  | O => None
  | S n' => if p =? slot_addr base width i then Some i else find_slot base width p n' (S i)
  end.

(** Models: util_n_slot_array_allocator.h 126-145 (deallocate). *)
Definition deallocate (base : Z) (width : nat) (p : Z) (s : slots) : slots :=
  match find_slot base width p (length (sl_flags s)) 0 with
  | None => s
  | Some i => mkSlots (upd (sl_flags s) i 0) (sl_max s)
  end.

(** * dynamic_array<T> with std::allocator: objects on a heap of blocks. *)

(** A heap block: still allocated?, contents. *)
Record block := mkBlock { b_live : bool; b_cells : list Z }.
Definition heap := list block.

(** The data members. Models: util_dynamic_array.h 213-214 (elem_count, elems; nullptr is [None]). *)
Record arr := mkArr { a_count : nat; a_elems : option nat }.
Definition null_arr : arr := mkArr 0 None.

(** Named array objects: [None] = no object of that name (not constructed, or destroyed). *)
Record world := mkWorld { w_heap : heap; w_vars : nat -> option arr }.
Definition world_init : world := mkWorld [] (fun _ => None).
Definition set_var (f : nat -> option arr) (d : nat) (a : option arr) : nat -> option arr :=
  fun i => if (i =? d)%nat then a else f i.

(** Reading the range [elems, elems + n): [None] = null dereference, freed block or past the end. *)
Definition read_n (h : heap) (p : option nat) (n : nat) : option (list Z) :=
  if (n =? 0)%nat then Some []
  else match p with
       | None => None
       | Some b => match nth_error h b with
                   | Some (mkBlock true cs) => if (n <=? length cs)%nat then Some (firstn n cs) else None
                   | _ => None
                   end
       end.

(** Writing the values [vs] at elems[k..]: [None] as for reading. *)
Definition write_at (h : heap) (p : option nat) (k : nat) (vs : list Z) : option heap :=
  if (length vs =? 0)%nat then Some h
  else match p with
       | None => None
       | Some b => match nth_error h b with
                   | Some (mkBlock true cs) =>
                       if (k + length vs <=? length cs)%nat
                       then Some (upd h b (mkBlock true (firstn k cs ++ vs ++ skipn (k + length vs) cs)))
                       else None
                   | _ => None
                   end
       end.

(** std::allocator::allocate: a fresh block of n elements (uninitialised: modelled as zeros, every
    caller writes all of them). deallocate: nullptr is a no-op, a freed block is an error. *)
Definition halloc (h : heap) (n : nat) : heap * nat := (h ++ [mkBlock true (repeat 0 n)], length h).
Definition hfree (h : heap) (p : option nat) : option heap :=
  match p with
  | None => Some h
  | Some b => match nth_error h b with
              | Some (mkBlock true cs) => Some (upd h b (mkBlock false cs))
              | _ => None
              end
  end.

Inductive aop :=
| ANew (d : nat) (vs : list Z)   (* dynamic_array d(first, last) / {list} / (count, v): 49-69, 84-112 *)
| ACopy (d s : nat)              (* dynamic_array d(s): 71-82 *)
| AMove (d s : nat)              (* dynamic_array d(std::move(s)): 115-120 *)
| AAssign (d s : nat)            (* d = s: 134-144 *)
| AMoveAssign (d s : nat)        (* d = std::move(s): 147-153 *)
| ASwap (d s : nat)              (* d.swap(s): 197-204 *)
| ASwapR (d s : nat)             (* d.swap(std::move(s)): 206-210 *)
| APut (d i : nat) (v : Z)       (* d[i] = v: 179 *)
| AFill (d : nat) (v : Z)        (* d.fill(v): 192-195 *)
| ADestroy (d : nat).            (* end of d's lifetime: 123-131 *)

Notation "'do' x <- e1 ; e2" := (match e1 with Some x => e2 | None => None end)
  (at level 200, x pattern, e1 at level 100, e2 at level 200).

(** Constructor body shared by the range, list and count/value constructors and the copy constructor:
    allocate if count > 0, then copy the elements in. Models: util_dynamic_array.h 49-112. *)
Definition build (w : world) (d : nat) (vs : list Z) : option world :=
  if (length vs =? 0)%nat then Some (mkWorld (w_heap w) (set_var (w_vars w) d (Some (mkArr 0 None))))
  else let '(h, b) := halloc (w_heap w) (length vs) in
       do h' <- write_at h (Some b) 0 vs;
       Some (mkWorld h' (set_var (w_vars w) d (Some (mkArr (length vs) (Some b))))).

(** One operation. [None]: undefined behaviour, or a name that has no object / already has one. *)
Definition astep (w : world) (o : aop) : option world :=
  match o with
  | ANew d vs => match w_vars w d with Some _ => None | None => build w d vs end
  | ACopy d s =>
      match w_vars w d with
      | Some _ => None
      | None => do a <- w_vars w s;
                do vs <- read_n (w_heap w) (a_elems a) (a_count a);
                build w d vs
      end
  | AMove d s =>
      match w_vars w d with
      | Some _ => None
      | None => do a <- w_vars w s;
                Some (mkWorld (w_heap w) (set_var (set_var (w_vars w) s (Some null_arr)) d (Some a)))
      end
  | AAssign d s =>
      do a <- w_vars w d;
      do b <- w_vars w s;
      if (d =? s)%nat then Some w
      else do vs <- read_n (w_heap w) (a_elems b) (Nat.min (a_count a) (a_count b));
           do h <- write_at (w_heap w) (a_elems a) 0 vs;
           Some (mkWorld h (w_vars w))
  | AMoveAssign d s =>
      do a <- w_vars w d;
      do b <- w_vars w s;
      Some (mkWorld (w_heap w) (set_var (set_var (w_vars w) d (Some b)) s (Some a)))
  | ASwap d s =>
      do a <- w_vars w d;
      do b <- w_vars w s;
      if (d =? s)%nat then Some w
      else Some (mkWorld (w_heap w) (set_var (set_var (w_vars w) d (Some b)) s (Some a)))
  | ASwapR d s =>
      do a <- w_vars w d;
      do b <- w_vars w s;
      Some (mkWorld (w_heap w) (set_var (w_vars w) d (Some b)))
  | APut d i v =>
      do a <- w_vars w d;
      if (i <? a_count a)%nat
      then do h <- write_at (w_heap w) (a_elems a) i [v]; Some (mkWorld h (w_vars w))
      else None
  | AFill d v =>
      do a <- w_vars w d;
      do h <- write_at (w_heap w) (a_elems a) 0 (repeat v (a_count a));
      Some (mkWorld h (w_vars w))
  | ADestroy d =>
      do a <- w_vars w d;
      do h <- hfree (w_heap w) (a_elems a);
      Some (mkWorld h (set_var (w_vars w) d None))
  end.

Fixpoint arun (w : world) (p : list aop) : option world :=
  match p with
  | [] => Some w
  | o :: p' => do w' <- astep w o; arun w' p'
  end.

(** Contents of the array named [d], as an observer (cbegin()..cend()) sees them. *)
Definition contents (w : world) (d : nat) : option (list Z) :=
  do a <- w_vars w d; read_n (w_heap w) (a_elems a) (a_count a).

(** std::equal on equally long ranges. Models: util_dynamic_array.h 217-234 (operator==). *)
Fixpoint std_equal (a b : list Z) : bool :=
  match a, b with
  | x :: a', y :: b' => (x =? y) && std_equal a' b'
  | _, _ => true
  end.
Definition arr_eq (a b : list Z) : bool :=
  if (length a =? length b)%nat then (length a =? 0)%nat || std_equal a b else false.

(** std::lexicographical_compare (library algorithm). *)
Fixpoint std_lex (a b : list Z) : bool :=
  match a, b with
  | _, [] => false
  | [], _ :: _ => true
  | x :: a', y :: b' => if x <? y then true else if y <? x then false else std_lex a' b'
  end.

(** Models: util_dynamic_array.h 236-272 (operator<): only the common prefix is compared. *)
Definition arr_lt (a b : list Z) : bool :=
  if (length a =? 0)%nat then negb (length b =? 0)%nat
  else let k := Nat.min (length a) (length b) in std_lex (firstn k a) (firstn k b).

(** Models: util_dynamic_array.h 274-300 (operators !=, >, >=, <=). *)
Definition arr_ne (a b : list Z) : bool := negb (arr_eq a b).
Definition arr_gt (a b : list Z) : bool := arr_lt b a.
Definition arr_ge (a b : list Z) : bool := negb (arr_lt a b).
Definition arr_le (a b : list Z) : bool := negb (arr_lt b a).

(** * baselexical_cast (the hand-written variant, used before C++17) *)

(** Character codes. Models: util_baselexical_cast.h 57-87 (base 16) and 89-109 (base 10). *)
Definition extract16 (upper : bool) (ch : Z) : Z :=
  if ch <=? 9 then ch + 48
  else if (10 <=? ch) && (ch <=? 15) then (if upper then 65 else 97) + (ch - 10) else ch.
Definition extract10 (ch : Z) : Z := if ch <=? 9 then ch + 48 else ch.

(** The digit loop: characters in the order written (least significant first).
    Models: util_baselexical_cast.h 137-162. Fuel 64 suffices for 64-bit values (proved). *)
Fixpoint blc_loop (fuel : nat) (base : Z) (ex : Z -> Z) (x : Z) : option (list Z) :=
  if x =? 0 then Some []
  else match fuel with
       | O => None
       | S f => do r <- blc_loop f base ex (x / base); Some (ex (x mod base) :: r)
       end.

(** The text written at [out]; [cap] is the room between [first] and [last], which the code does not
    look at: [None] = it writes past the end. Models: util_baselexical_cast.h 112-176. *)
Definition baselexical_cast (base : Z) (ex : Z -> Z) (cap : nat) (u : Z) : option (list Z) :=
  do l <- (if u =? 0 then Some [ex 0] else do r <- blc_loop 64 base ex u; Some (rev r));
  if (length l <=? cap)%nat then Some l else None.
