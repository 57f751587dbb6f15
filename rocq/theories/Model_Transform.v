(** Model_Transform.v - the FFT itself (math/wide_decimal/decwide_t_detail_fft.h) and its use for the
    convolution of two limb arrays (decwide_t_detail_ops.h 671-729).

    The code is a template over the floating-point type. The model is the same code over an [arith]: a carrier
    with the operations the code uses and the table of sines. An array is a function from indices to elements
    ([mem]); a pointer into it is an index. Simplification: indices and sizes are natural numbers, the
    std::uint32_t wrap-around is left out (all of them stay at or below n_fft <= 2^31). *)
From Coq Require Export List ZArith Arith Bool.
From Coq Require QArith.QArith.
From Verif Require Import Model_Limb.
Import ListNotations.
Local Open Scope nat_scope.

(** The operations of the floating-point type. [fz k]: the constant k; [fhalf]: template_fast_div_by_two;
    [fsin n]: template_sin_order_1(n). Models: decwide_t_detail_fft.h 29-65 (constants, halving). *)
Record arith (T : Type) : Type := mkArith {
  fz : Z -> T;
  fadd : T -> T -> T;
  fsub : T -> T -> T;
  fmul : T -> T -> T;
  fopp : T -> T;
  fhalf : T -> T;
  fsin : nat -> T }.
Arguments fz {T}. Arguments fadd {T}. Arguments fsub {T}. Arguments fmul {T}.
Arguments fopp {T}. Arguments fhalf {T}. Arguments fsin {T}.

(** The values a loop variable takes: start, start + step, ... below stop. *)
Definition for_values (start step stop : nat) : list nat :=
  map (fun a => start + a * step) (seq 0 ((stop - start + (step - 1)) / step)).

(** One array store. *)
Definition store {T} (m : nat -> T) (i : nat) (v : T) : nat -> T := fun k => if k =? i then v else m k.

Section TRANSFORM.
Context {T : Type} (A : arith T).
Notation mem := (nat -> T).
Local Notation "x +. y" := (fadd A x y) (at level 50, left associativity).
Local Notation "x -. y" := (fsub A x y) (at level 50, left associativity).
Local Notation "x *. y" := (fmul A x y) (at level 40, left associativity).

(** Models: decwide_t_detail_fft.h 109-113 (template_sin_order_2). *)
Definition sin_order_2 (num_points : nat) : T := fsin A (num_points / 2).

(** Models: decwide_t_detail_fft.h 115-127 (const_unique_wp_real_init, forward and inverse). *)
Definition wp_real_init (fwd : bool) (num_points : nat) : T :=
  if fwd then fsin A num_points else fopp A (fsin A num_points).

(** Models: decwide_t_detail_fft.h 129-141 (const_unique_wp_imag, forward and inverse). *)
Definition wp_imag (fwd : bool) (num_points : nat) : T :=
  if fwd then sin_order_2 num_points else fopp A (sin_order_2 num_points).

(** Models: decwide_t_detail_fft.h 143-153 (const_unique_wp_real). *)
Definition wp_real (fwd : bool) (num_points : nat) : T :=
  fz A (-2) *. (wp_real_init fwd num_points *. wp_real_init fwd num_points).

(** real_part, imag_part after one turn of a twiddle recurrence.
    Models: decwide_t_detail_fft.h 190-193, 301-304, 341-344. *)
Definition next_twiddle (fwd : bool) (num_points : nat) (w : T * T) : T * T :=
  let '(real_part, imag_part) := w in
  let tmp_real := real_part in
  (real_part +. ((tmp_real *. wp_real fwd num_points) -. (imag_part *. wp_imag fwd num_points)),
   imag_part +. ((imag_part *. wp_real fwd num_points) +. (tmp_real *. wp_imag fwd num_points))).

(** Models: decwide_t_detail_fft.h 197-237 (danielson_lanczos_apply_4_basecase); [b] is the pointer. *)
Definition dl_basecase (fwd : bool) (b : nat) (d : mem) : mem :=
  let tmp_real_2_0 := d (b + 2) in
  let tmp_imag_2_0 := d (b + 3) in
  let d := store d (b + 2) (d (b + 0) -. tmp_real_2_0) in
  let d := store d (b + 3) (d (b + 1) -. tmp_imag_2_0) in
  let d := store d (b + 0) (d (b + 0) +. tmp_real_2_0) in
  let d := store d (b + 1) (d (b + 1) +. tmp_imag_2_0) in
  let tmp_real_2_4 := d (b + (2 + 4)) in
  let tmp_imag_2_4 := d (b + (3 + 4)) in
  let d := store d (b + (2 + 4)) (d (b + (0 + 4)) -. tmp_real_2_4) in
  let d := store d (b + (3 + 4)) (d (b + (1 + 4)) -. tmp_imag_2_4) in
  let d := store d (b + (0 + 4)) (d (b + (0 + 4)) +. tmp_real_2_4) in
  let d := store d (b + (1 + 4)) (d (b + (1 + 4)) +. tmp_imag_2_4) in
  let tmp_real := d (b + 4) in
  let tmp_imag := d (b + 5) in
  let d := store d (b + 4) (d (b + 0) -. tmp_real) in
  let d := store d (b + 5) (d (b + 1) -. tmp_imag) in
  let d := store d (b + 0) (d (b + 0) +. tmp_real) in
  let d := store d (b + 1) (d (b + 1) +. tmp_imag) in
  let real_part := wp_real fwd 4 +. fz A 1 in
  let imag_part := wp_imag fwd 4 in
  let tmp_real := (real_part *. d (b + 6)) -. (imag_part *. d (b + 7)) in
  let tmp_imag := (real_part *. d (b + 7)) +. (imag_part *. d (b + 6)) in
  let d := store d (b + 6) (d (b + 2) -. tmp_real) in
  let d := store d (b + 7) (d (b + 3) -. tmp_imag) in
  let d := store d (b + 2) (d (b + 2) +. tmp_real) in
  store d (b + 3) (d (b + 3) +. tmp_imag).

(** One turn of the butterfly loop at loop value [i]. Models: decwide_t_detail_fft.h 181-193. *)
Definition butterfly (fwd : bool) (num_points b : nat) (s : mem * (T * T)) (i : nat) : mem * (T * T) :=
  let '(d, (real_part, imag_part)) := s in
  let tmp_real := (real_part *. d (b + (i + (num_points + 0)))) -. (imag_part *. d (b + (i + (num_points + 1)))) in
  let tmp_imag := (real_part *. d (b + (i + (num_points + 1)))) +. (imag_part *. d (b + (i + (num_points + 0)))) in
  let d := store d (b + (i + (num_points + 0))) (d (b + (i + 0)) -. tmp_real) in
  let d := store d (b + (i + (num_points + 1))) (d (b + (i + 1)) -. tmp_imag) in
  let d := store d (b + (i + 0)) (d (b + (i + 0)) +. tmp_real) in
  let d := store d (b + (i + 1)) (d (b + (i + 1)) +. tmp_imag) in
  (d, next_twiddle fwd num_points (real_part, imag_part)).

(** Models: decwide_t_detail_fft.h 159-195 (danielson_lanczos_apply). [fuel] bounds the depth of the
    recursion; None when it is used up (for sizes below 8 the C++ recursion does not end). *)
Fixpoint dl_apply (fuel : nat) (fwd : bool) (num_points b : nat) (d : mem) : option mem :=
  match fuel with
  | O => None
  | S fuel' =>
      do d <-
        (if num_points =? 8
         then Some (dl_basecase fwd (b + num_points) (dl_basecase fwd b d))
         else do d1 <- dl_apply fuel' fwd (num_points / 2) b d;
              dl_apply fuel' fwd (num_points / 2) (b + num_points) d1);
      Some (fst (fold_left (butterfly fwd num_points b) (for_values 0 2 num_points) (d, (fz A 1, fz A 0))))
  end.

(** The next bit-reversed index; [fuel] >= the turns of the while loop (m halves in each).
    Models: decwide_t_detail_fft.h 255-263. *)
Fixpoint next_reversed (fuel j m : nat) : nat :=
  match fuel with
  | O => j + m
  | S fuel' => if (1 <? m) && (m <? j) then next_reversed fuel' (j - m) (m / 2) else j + m
  end.

(** Models: decwide_t_detail_fft.h 249-263: one turn of the swapping loop, state (array, j). *)
Definition swap_turn (num_points : nat) (s : mem * nat) (i : nat) : mem * nat :=
  let '(d, j) := s in
  let d := if i <? j
           then let d := (let t := d (j - 1) in store (store d (j - 1) (d (i - 1))) (i - 1) t) in
                (let t := d j in store (store d j (d i)) i t)
           else d in
  (d, next_reversed num_points j num_points).

(** Models: decwide_t_detail_fft.h 239-267 (fft_lanczos_fft). *)
Definition fft (fwd : bool) (num_points : nat) (d : mem) : option mem :=
  dl_apply num_points fwd num_points 0
    (fst (fold_left (swap_turn num_points) (for_values 1 2 (num_points * 2)) (d, 1))).

(** One turn of the loop that makes a real transform out of a complex one.
    Models: decwide_t_detail_fft.h 282-304. *)
Definition rfft_turn (num_points : nat) (s : mem * (T * T)) (i : nat) : mem * (T * T) :=
  let '(d, (real_part, imag_part)) := s in
  let i1 := i + i in let i3 := num_points - i1 in
  let i2 := 1 + i1 in let i4 := 1 + i3 in
  let h1r := fhalf A (d i1 +. d i3) in
  let h1i := fhalf A (d i2 -. d i4) in
  let h2r := fhalf A (d i2 +. d i4) in
  let h2i := fhalf A (d i1 -. d i3) in
  let d := store d i1 ((h1r +. (real_part *. h2r)) +. (imag_part *. h2i)) in
  let d := store d i2 ((h1i -. (real_part *. h2i)) +. (imag_part *. h2r)) in
  let d := store d i3 ((h1r -. (real_part *. h2r)) -. (imag_part *. h2i)) in
  let d := store d i4 ((fopp A h1i -. (real_part *. h2i)) +. (imag_part *. h2r)) in
  (d, next_twiddle true num_points (real_part, imag_part)).

(** Models: decwide_t_detail_fft.h 269-311 (rfft_lanczos_rfft, forward). *)
Definition rfft (num_points : nat) (d : mem) : option mem :=
  do d <- fft true (num_points / 2) d;
  let w := (fz A 1 +. wp_real true num_points, wp_imag true num_points) in
  let d := fst (fold_left (rfft_turn num_points) (for_values 1 1 (num_points / 4)) (d, w)) in
  let f0_tmp := d 0 in
  let d := store d 0 (f0_tmp +. d 1) in
  Some (store d 1 (f0_tmp -. d 1)).

(** Models: decwide_t_detail_fft.h 324-344. *)
Definition irfft_turn (num_points : nat) (s : mem * (T * T)) (i : nat) : mem * (T * T) :=
  let '(d, (real_part, imag_part)) := s in
  let i1 := i + i in let i3 := num_points - i1 in
  let i2 := 1 + i1 in let i4 := 1 + i3 in
  let h1r := fhalf A (d i1 +. d i3) in
  let h1i := fhalf A (d i2 -. d i4) in
  let h2r := fhalf A (d i2 +. d i4) in
  let h2i := fhalf A (d i1 -. d i3) in
  let d := store d i1 ((h1r -. (real_part *. h2r)) -. (imag_part *. h2i)) in
  let d := store d i2 ((h1i +. (real_part *. h2i)) -. (imag_part *. h2r)) in
  let d := store d i3 ((h1r +. (real_part *. h2r)) +. (imag_part *. h2i)) in
  let d := store d i4 ((fopp A h1i +. (real_part *. h2i)) -. (imag_part *. h2r)) in
  (d, next_twiddle false num_points (real_part, imag_part)).

(** Models: decwide_t_detail_fft.h 313-353 (rfft_lanczos_rfft, inverse). *)
Definition irfft (num_points : nat) (d : mem) : option mem :=
  let w := (fz A 1 +. wp_real false num_points, wp_imag false num_points) in
  let d := fst (fold_left (irfft_turn num_points) (for_values 1 1 (num_points / 4)) (d, w)) in
  let f0_tmp := d 0 in
  let d := store d 0 (fhalf A (f0_tmp +. d 1)) in
  let d := store d 1 (fhalf A (f0_tmp -. d 1)) in
  fft false (num_points / 2) d.

(** One turn of the pointwise product. Models: decwide_t_detail_ops.h 722-725. *)
Definition product_turn (bf : mem) (af : mem) (j : nat) : mem :=
  let tmp_aj := af j in
  let af := store af (j + 0) ((tmp_aj *. bf (j + 0)) -. (af (j + 1) *. bf (j + 1))) in
  store af (j + 1) ((tmp_aj *. bf (j + 1)) +. (af (j + 1) *. bf (j + 0))).

(** The array after filling: half-limbs [h], then zeros up to n_fft (whatever was in the pool beyond).
    Models: decwide_t_detail_ops.h 689-707. *)
Definition filled (h : list Z) (n : nat) (old : mem) : mem :=
  fun i => if i <? length h then fz A (nth i h 0%Z) else if i <? n then fz A 0 else old i.

(** The array af when the carry release starts. Models: decwide_t_detail_ops.h 689-729. *)
Definition convolve (n : nat) (ha hb : list Z) (af bf : mem) : option mem :=
  do a <- rfft n (filled ha n af);
  do b <- rfft n (filled hb n bf);
  let a := store a 0 (a 0 *. b 0) in
  let a := store a 1 (a 1 *. b 1) in
  irfft n (fold_left (product_turn b) (for_values 2 2 n) a).

End TRANSFORM.

(** The literals of the sine table, for 2, 4, 8, ..., 2^31 points: (m, e) stands for m * 10^e (the first one
    is 1.0F). Models: decwide_t_detail_fft.h 71-103. *)
Definition sin_literals : list (Z * Z) :=
 ([ (1, 0);
   (70710678118654752440084436210484903928484, -41);
   (38268343236508977172845998403039886676134, -41);
   (19509032201612826784828486847702224092769, -41);
   (98017140329560601994195563888641845861137, -42);
   (49067674327418014254954976942682658314745, -42);
   (24541228522912288031734529459282925065466, -42);
   (12271538285719926079408261951003212140372, -42);
   (61358846491544753596402345903725809170579, -43);
   (30679567629659762701453654909198425189446, -43);
   (15339801862847656123036971502640790799549, -43);
   (76699031874270452693856835794857664314092, -44);
   (38349518757139558907246168118138126339503, -44);
   (19174759731070330743990956198900093346887, -44);
   (95873799095977345870517210976476351187066, -45);
   (47936899603066884549003990494658872746867, -45);
   (23968449808418218729186577165021820094761, -45);
   (11984224905069706421521561596988984804732, -45);
   (59921124526424278428797118088908617299872, -46);
   (29960562263346607504548128083570598118252, -46);
   (14980281131690112288542788461553611206918, -46);
   (74901405658471572113049856673065563715596, -47);
   (37450702829238412390316917908463317739740, -47);
   (18725351414619534486882457659356361712045, -47);
   (93626757073098082799067286680885620193237, -48);
   (46813378536549092695115518138540096959504, -48);
   (23406689268274552759505493419034844037886, -48);
   (11703344634137277181246213503238103798093, -48);
   (58516723170686386908097901008341396943900, -49);
   (29258361585343193579282304690689559020176, -49);
   (14629180792671596805295321618659637103743, -49)])%Z.

(** Models: decwide_t_detail_fft.h 67-107 (template_sin_order_1). Simplifications: the chain of conditionals is a
    search in the list; the conversion of the literal to the floating-point type is left out. *)
Definition template_sin_order_1 (num_points : Z) : QArith_base.Q :=
  match find (fun r => (num_points =? 2 ^ Z.of_nat (fst r))%Z) (combine (seq 1 31) sin_literals) with
  | Some (_, (m, e)) => QArith_base.Qmake m (Z.to_pos (10 ^ (- e)))
  | None => QArith_base.Qmake 0 1
  end.
