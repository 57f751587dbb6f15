(** Model_Fft.v - multiplication through the FFT: splitting into half-limbs, rounding of the transform
    output, carry release, and the operator*= branch that uses it
    (math/wide_decimal/decwide_t_detail_ops.h, decwide_t.h).

    The output of the inverse transform is a parameter: [af j] is the number the array element j holds
    when the carry-release loop starts. Theorems assume it is within a quarter of n_fft/2 of n_fft/2 times
    the true convolution coefficient. *)
From Verif Require Export Model_Dec Model_Float.
Local Open Scope Z_scope.

(** Half-limbs, high half first. Models: decwide_t_detail_ops.h 688-697. *)
Definition half_limbs (L : limb_t) (u : list Z) : list Z :=
  flat_map (fun d => [d / mask_half L; d mod mask_half L]) u.

(** Models: decwide_t_detail.h 351-366 (a000079_as_constexpr): smallest power of two >= max(value, 8),
    saturating at 2^31. Simplification: the nested conditionals are a search in the list of their
    thresholds. *)
Definition a000079_table : list Z := map (fun k => 2 ^ Z.of_nat k) (seq 3 28).
Definition a000079 (v : Z) : Z :=
  match lower_bound a000079_table v with Some x => x | None => 2 ^ 31 end.

(** Models: decwide_t.h 3094-3099 (n_fft). *)
Definition n_fft (prec : nat) : Z := ucast 32 (a000079 (Z.of_nat prec) * 4).

(** static_cast<uint64>(af[j] / (n_fft / 2) + 0.5). Models: decwide_t_detail_ops.h 745-757; [P] is the
    significand width of the FFT floating-point type. A negative sum has no defined conversion: callers'
    hypotheses exclude it. *)
Definition fft_round (P n : Z) (q : Q) : Z :=
  ucast 64 (Qfloor (fl P (fl P (q / inject_Z (n / 2)) + (1 # 2)))).

(** Carry release from limb [cnt-1] down to limb 0; [x j] is the rounded value of array element j.
    Models: decwide_t_detail_ops.h 734-768. *)
Fixpoint fft_release (L : limb_t) (x : nat -> Z) (cnt : nat) (carry : Z) (acc : list Z) : list Z * Z :=
  match cnt with
  | O => (acc, carry)
  | S j =>
      let h := mask_half L in
      let xlo := ucast 64 (x (2 * j)%nat + carry) in
      let c1 := xlo / h in
      let nlo := ucast (lbits L) (ucast 64 (xlo - ucast 64 (c1 * h))) in
      let xhi := ucast 64 ((if (j =? 0)%nat then 0 else x (2 * j - 1)%nat) + c1) in
      let c2 := xhi / h in
      let nhi := ucast (lbits L) (ucast 64 (xhi - ucast 64 (c2 * h))) in
      fft_release L x j c2 (ucast (lbits L) (ucast (lbits L) (nhi * h) + nlo) :: acc)
  end.

(** Models: decwide_t_detail_ops.h 671-770 (mul_loop_fft) after the transforms; r[0..prec). *)
Definition mul_loop_fft (L : limb_t) (P : Z) (af : nat -> Q) (prec : nat) : list Z :=
  fst (fft_release L (fun j => fft_round P (n_fft prec) (af j)) prec 0 []).

Section CFG.
Variable c : cfg.
Let L := c_limb c.
Let E := ebits (c_expo c).
Let max_exp10 := max_exp10_of (c_expo c).
Let min_exp10 := - max_exp10.
Let n := nel c.

(** The FFT case of the dispatch. When the leading product limb is zero, the code copies
    [min(prec, limb count)] limbs from index 1 on, i.e. at full precision it reads the element past the
    end of the limb array, and then clears the last limb. [beyond] says what a read past the end gives:
    [None] - it is an error (C++: undefined behaviour); [Some g] - it yields the value g.
    Models: decwide_t.h 3079-3137. *)
Definition fft_dispatch (P : Z) (beyond : option Z) (af : nat -> Q) (x : dec) (e : Z) (prec : nat) : option dec :=
  let d := mul_loop_fft L P af prec ++ skipn prec (data x) in
  if negb (nth 0 d 0 =? 0) then Some (mkDec d (scast E (e + ed L)) (dneg x) (dprec x))
  else
    let limit := Nat.min prec n in
    do mem <- (if (1 + limit <=? length d)%nat then Some d
               else do g <- beyond; Some (d ++ [g]));
    let d1 := firstn limit (skipn 1 mem) ++ skipn limit d in
    Some (mkDec (firstn (length d1 - 1) d1 ++ [0]) e (dneg x) (dprec x)).

(** operator*= at FFT size: decwide_t.h 1222-1308 again (see [mul]), with the FFT dispatch. *)
Definition mul_fft (P : Z) (beyond : option Z) (af : nat -> Q) (x0 v : dec) : option dec :=
  let x := if iszero x0 || iszero v then zero c else x0 in
  let result_neg := xorb (dneg x) (dneg v) in
  let x := set_neg x false in
  do r <-
    (if isone_sign_neutral c x then Some v
     else if isone_sign_neutral c v then Some x
     else
       let result_exp := uw_add E (uw_make E (dexp x)) (uw_make E (dexp v)) in
       if negb (uw_neg result_exp) && (uw_val result_exp >=? max_exp10) then Some (value_max c)
       else if uw_neg result_exp && (uw_val result_exp >=? max_exp10) then Some (value_min c)
       else
         let e := if negb (uw_neg result_exp) then scast E (uw_val result_exp)
                  else negate_s E (scast E (uw_val result_exp)) in
         fft_dispatch P beyond af x e (Nat.min (dprec x) (dprec v)));
  Some (set_neg r result_neg).

End CFG.
