(** Model_Limb.v - the limb-array loops of math/wide_decimal/decwide_t_detail_ops.h.

    Arrays are big-endian [list Z] (element 0 is the most significant limb, as in the C++).
    A downward loop "for j = count-1 .. 0" over equally long arrays becomes structural
    recursion that first handles the tail; in-place updates return the new array.
    Casts of the limb / double-limb types are written explicitly with [ucast]/[scast].
    Array accesses that are not obviously aligned are bounds-checked: [None] is an
    out-of-bounds access. *)
From Verif Require Export Model_Config.
Local Open Scope Z_scope.

(** Models: decwide_t_detail_ops.h 36-66 (compare_ranges); the loop stops at the first
    differing pair, result 1 / -1 / 0. The common length plays the role of [count]. *)
Fixpoint compare_ranges (a b : list Z) : Z :=
  match a, b with
  | x :: a', y :: b' => if x =? y then compare_ranges a' b' else if x >? y then 1 else -1
  | _, _ => 0
  end.

(** Models: decwide_t_detail_ops.h 68-104 (eval_add_n). Result array and carry. *)
Fixpoint add_n (L : limb_t) (u v : list Z) : list Z * Z :=
  match u, v with
  | x :: u', y :: v' =>
      let '(r, carry) := add_n L u' v' in
      let t := ucast (lbits L) (ucast (lbits L) (x + y) + carry) in
      let c := if t >=? mask L then 1 else 0 in
      (ucast (lbits L) (t - (if c =? 0 then 0 else mask L)) :: r, c)
  | _, _ => ([], 0)
  end.

(** Models: decwide_t_detail_ops.h 106-160 (eval_subtract_n). Result array and borrow flag.
    [~vjb + 1] in the limb type is [ucast (-vjb)]. *)
Fixpoint sub_n (L : limb_t) (u v : list Z) : list Z * bool :=
  match u, v with
  | x :: u', y :: v' =>
      let '(r, borrow) := sub_n L u' v' in
      let vjb := ucast (lbits L) (y + (if borrow : bool then 1 else 0)) in
      let t := scast (lbits L) (ucast (lbits L) (x + ucast (lbits L) (- vjb))) in
      if t <? 0
      then (ucast (lbits L) (scast (lbits L) (t + mask L)) :: r, true)
      else (ucast (lbits L) t :: r, false)
  | _, _ => ([], false)
  end.

(** Inner loop of the u8 row-wise multiplication: one factor limb [ai] against all of [b],
    accumulated onto the window [w] = r[i+1 .. i+count].
    Models: decwide_t_detail_ops.h 219-231. *)
Fixpoint row_loop (L : limb_t) (ai : Z) (b w : list Z) : list Z * Z :=
  match b, w with
  | x :: b', y :: w' =>
      let '(r, carry) := row_loop L ai b' w' in
      let c1 := ucast (dbits L) (carry + ucast (dbits L) (ai * x)) in
      let c2 := ucast (dbits L) (c1 + y) in
      (ucast (lbits L) (c2 mod mask L) :: r, ucast (dbits L) (c2 / mask L))
  | _, _ => ([], 0)
  end.

(** Outer loop of the u8 multiplication, i = k-1 .. 0, on the result array [r].
    Models: decwide_t_detail_ops.h 204-235. *)
Fixpoint mul_rows (L : limb_t) (a b : list Z) (k : nat) (r : list Z) : option (list Z) :=
  match k with
  | O => Some r
  | S i =>
      match nth_error a i with
      | None => None
      | Some ai =>
          let count := length b in
          if (i + 1 + count <=? length r)%nat then
            let '(w', carry) := row_loop L ai b (firstn count (skipn (i + 1) r)) in
            mul_rows L a b i (firstn i r ++ ucast (lbits L) carry :: w' ++ skipn (i + 1 + count) r)
          else None
      end
  end.

(** Models: decwide_t_detail_ops.h 162-236 (eval_multiply_n_by_n_to_2n for uint8_t),
    including the initial std::fill of the 2*count result limbs. *)
Definition mul_school_rows (L : limb_t) (a b : list Z) : option (list Z) :=
  mul_rows L a b (length a) (repeat 0 (2 * length a)).

(** Inner loops of the column-wise multiplication: accumulate a[i]*b[k] for the listed
    index pairs in the double-limb type.
    Models: decwide_t_detail_ops.h 286-295 and 307-310. *)
Fixpoint col_loop (L : limb_t) (a b : list Z) (ps : list (nat * nat)) (sum : Z) : option Z :=
  match ps with
  | [] => Some sum
  | (i, k) :: ps' =>
      match nth_error a i, nth_error b k with
      | Some x, Some y => col_loop L a b ps' (ucast (dbits L) (sum + ucast (dbits L) (x * y)))
      | _, _ => None
      end
  end.

(** Index pairs of a low-order column: i = count-1 down to j, with b[count-1-(i-j)].
    Models: decwide_t_detail_ops.h 286-294. *)
Definition low_pairs (count j : nat) : list (nat * nat) :=
  map (fun i => (i, count - 1 - (i - j))%nat) (rev (seq j (count - j))).

(** Index pairs of a high-order column: i = j down to 0, a[j-i]*b[i].
    Models: decwide_t_detail_ops.h 307-310. *)
Definition high_pairs (j : nat) : list (nat * nat) :=
  map (fun i => (j - i, i)%nat) (rev (seq 0 (j + 1))).

(** The column loops: each column emits one limb (through the reverse iterator, i.e. in front
    of what was already emitted) and passes a carry on.
    Models: decwide_t_detail_ops.h 280-315. *)
Fixpoint col_columns (L : limb_t) (a b : list Z) (cols : list (list (nat * nat)))
         (carry : Z) (acc : list Z) : option (list Z * Z) :=
  match cols with
  | [] => Some (acc, carry)
  | ps :: cols' =>
      match col_loop L a b ps carry with
      | None => None
      | Some sum => col_columns L a b cols' (ucast (dbits L) (sum / mask L))
                                (ucast (lbits L) (sum mod mask L) :: acc)
      end
  end.

(** Models: decwide_t_detail_ops.h 238-318 (eval_multiply_n_by_n_to_2n for uint16_t/uint32_t):
    low columns j = count-1 .. 1, high columns j = count-1 .. 0, then the last carry. *)
Definition mul_school_cols (L : limb_t) (a b : list Z) : option (list Z) :=
  let count := length a in
  match col_columns L a b
          (map (low_pairs count) (rev (seq 1 (count - 1))) ++
           map high_pairs (rev (seq 0 count))) 0 [] with
  | None => None
  | Some (acc, carry) => Some (ucast (lbits L) carry :: acc)
  end.

(** Overload selection on the limb type (std::enable_if).
    Models: decwide_t_detail_ops.h 162-169, 238-247. *)
Definition mul_school (L : limb_t) (a b : list Z) : option (list Z) :=
  match L with
  | U8 => mul_school_rows L a b
  | U16 | U32 => mul_school_cols L a b
  end.

(** Models: decwide_t_detail_ops.h 320-354 (mul_loop_n). New array and carry. *)
Fixpoint mul_loop_n (L : limb_t) (u : list Z) (n : Z) : list Z * Z :=
  match u with
  | [] => ([], 0)
  | x :: u' =>
      let '(r, carry) := mul_loop_n L u' n in
      let t := ucast (dbits L) (carry + ucast (dbits L) (x * n)) in
      (ucast (lbits L) (t mod mask L) :: r, ucast (lbits L) (t / mask L))
  end.

(** Models: decwide_t_detail_ops.h 356-389 (div_loop_n), ascending j with running remainder.
    [n] = 0 (division by zero, UB in C++) is excluded by every caller. *)
Fixpoint div_loop_n (L : limb_t) (u : list Z) (n prev : Z) : list Z * Z :=
  match u with
  | [] => ([], prev)
  | x :: u' =>
      let t := ucast (dbits L) (x + ucast (dbits L) (prev * mask L)) in
      let '(r, last) := div_loop_n L u' n (ucast (lbits L) (t mod n)) in
      (ucast (lbits L) (t / n) :: r, last)
  end.

(** Models: decwide_t_detail_ops.h 391-433 (eval_multiply_kara_propagate_carry): the loop runs
    from the last limb while the carry is non-zero; returns array and the carry left over
    (which the C++ discards). *)
Fixpoint prop_carry_aux (L : limb_t) (t : list Z) (carry : bool) : list Z * bool :=
  match t with
  | [] => ([], carry)
  | x :: t' =>
      let '(r, c) := prop_carry_aux L t' carry in
      if c then
        let tt := ucast (lbits L) (x + 1) in
        if tt >=? mask L then (ucast (lbits L) (tt - mask L) :: r, true) else (tt :: r, false)
      else (x :: r, false)
  end.
Definition propagate_carry (L : limb_t) (t : list Z) (carry : Z) : list Z :=
  fst (prop_carry_aux L t (negb (carry =? 0))).

(** Models: decwide_t_detail_ops.h 435-476 (eval_multiply_kara_propagate_borrow). *)
Fixpoint prop_borrow_aux (L : limb_t) (t : list Z) (borrow : bool) : list Z * bool :=
  match t with
  | [] => ([], borrow)
  | x :: t' =>
      let '(r, c) := prop_borrow_aux L t' borrow in
      if c then
        let tt := scast (lbits L) (x - 1) in
        if tt <? 0 then (ucast (lbits L) (scast (lbits L) (tt + mask L)) :: r, true)
        else (ucast (lbits L) tt :: r, false)
      else (x :: r, false)
  end.
Definition propagate_borrow (L : limb_t) (t : list Z) (has_borrow : bool) : list Z :=
  fst (prop_borrow_aux L t has_borrow).

(** Bounds-checked slice read / write used for the pointer arithmetic of Karatsuba. *)
Definition rdsl (l : list Z) (off len : nat) : option (list Z) :=
  if (off + len <=? length l)%nat then Some (firstn len (skipn off l)) else None.
Definition wrsl (l : list Z) (off : nat) (vs : list Z) : option (list Z) :=
  if (off + length vs <=? length l)%nat
  then Some (firstn off l ++ vs ++ skipn (off + length vs) l) else None.

Notation "'do' x <- e1 ; e2" := (match e1 with Some x => e2 | None => None end)
  (at level 200, x pattern, e1 at level 100, e2 at level 200, right associativity).

(** "eval_add_n(r1, r1, src, n); propagate_carry(r0, nh, carry)" on the result array [r].
    Models: decwide_t_detail_ops.h 553-557 and 591-593. *)
Definition kara_add_mid (L : limb_t) (r : list Z) (nh n : nat) (src : list Z) : option (list Z) :=
  do r1 <- rdsl r nh n;
  let '(r1', carry) := add_n L r1 src in
  do r' <- wrsl r nh r1';
  do r0 <- rdsl r' 0 nh;
  wrsl r' 0 (propagate_carry L r0 carry).

(** "eval_subtract_n(r1, r1, src, n); propagate_borrow(r0, nh, has_borrow)".
    Models: decwide_t_detail_ops.h 597-599. *)
Definition kara_sub_mid (L : limb_t) (r : list Z) (nh n : nat) (src : list Z) : option (list Z) :=
  do r1 <- rdsl r nh n;
  let '(r1', borrow) := sub_n L r1 src in
  do r' <- wrsl r nh r1';
  do r0 <- rdsl r' 0 nh;
  wrsl r' 0 (propagate_borrow L r0 borrow).

(** "|x - y| into t[off ..]" guarded by the comparison result; nothing is written if equal.
    Models: decwide_t_detail_ops.h 560-569 and 572-581. *)
Definition kara_absdiff (L : limb_t) (t : list Z) (off : nat) (x y : list Z) : option (list Z) :=
  let c := compare_ranges x y in
  if c =? 1 then wrsl t off (fst (sub_n L x y))
  else if c =? -1 then wrsl t off (fst (sub_n L y x))
  else Some t.

(** Models: decwide_t_detail_ops.h 478-610 (eval_multiply_kara_n_by_n_to_2n).
    [r] is the memory from the result pointer on, [t] the memory from the scratch pointer on;
    both are returned updated. The recursive calls receive the sub-ranges r[0..n), r[n..2n)
    and t[n..2n) as their result area. Running out of fuel gives [None]. *)
Fixpoint kara (fuel : nat) (L : limb_t) (r a b : list Z) (n : nat) (t : list Z)
  : option (list Z * list Z) :=
  match fuel with
  | O => None
  | S fuel' =>
    if (n <=? 32)%nat then
      do a' <- rdsl a 0 n;
      do b' <- rdsl b 0 n;
      do p <- mul_school L a' b';
      do r' <- wrsl r 0 p;
      Some (r', t)
    else
      let nh := (n / 2)%nat in
      do a1 <- rdsl a 0 nh;
      do a0 <- rdsl a nh nh;
      do b1 <- rdsl b 0 nh;
      do b0 <- rdsl b nh nh;
      (* Step 1 *)
      do rA <- rdsl r 0 n;
      do (rA', t) <- kara fuel' L rA a1 b1 nh t;
      do r <- wrsl r 0 rA';
      do rB <- rdsl r n n;
      do (rB', t) <- kara fuel' L rB a0 b0 nh t;
      do r <- wrsl r n rB';
      do rall <- rdsl r 0 (n + n);
      do t <- wrsl t 0 rall;
      (* Step 2 *)
      do t0 <- rdsl t 0 n;
      do r <- kara_add_mid L r nh n t0;
      do t2 <- rdsl t n n;
      do r <- kara_add_mid L r nh n t2;
      (* Step 3, 4 *)
      do t <- kara_absdiff L t 0 a1 a0;
      do t <- kara_absdiff L t nh b0 b1;
      (* Step 5 *)
      do ta <- rdsl t 0 nh;
      do tb <- rdsl t nh nh;
      do t2old <- rdsl t n n;
      do t4 <- rdsl t (n + n) (length t - (n + n));
      do (t2', t4') <- kara fuel' L t2old ta tb nh t4;
      do t <- wrsl t n t2';
      do t <- wrsl t (n + n) t4';
      (* Step 6 *)
      do t2 <- rdsl t n n;
      let sgn := compare_ranges a1 a0 * compare_ranges b0 b1 in
      if sgn =? 1 then do r <- kara_add_mid L r nh n t2; Some (r, t)
      else if sgn =? -1 then do r <- kara_sub_mid L r nh n t2; Some (r, t)
      else Some (r, t)
  end.

(** Models: decwide_t_detail.h 318-334 (the table a029750_data). *)
Definition a029750_table : list Z :=
  [32; 40; 48; 56; 64; 80; 96; 112; 128; 160; 192; 224; 256; 320; 384; 448; 512; 640; 768; 896; 1024; 1280; 1536; 1792; 2048; 2560; 3072; 3584; 4096; 5120; 6144; 7168; 8192; 10240; 12288; 14336; 16384; 20480; 24576; 28672; 32768; 40960; 49152; 57344; 65536; 81920; 98304; 114688; 131072; 163840; 196608; 229376; 262144; 327680; 393216; 458752; 524288; 655360; 786432; 917504; 1048576; 1310720; 1572864; 1835008; 2097152].

(** std::lower_bound on a sorted array: first element that is >= value.
    Simplification: the binary search is replaced by the linear search it is equivalent to. *)
Definition lower_bound (tbl : list Z) (v : Z) : option Z := find (fun x => v <=? x) tbl.

(** Models: decwide_t_detail.h 345-347 (a029750_as_runtime_value). *)
Definition a029750 (v : Z) : Z :=
  match lower_bound a029750_table v with Some x => x | None => last a029750_table 0 end.
