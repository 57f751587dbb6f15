(** Spec_Str.v - decimal literals, their text and their value, said without the library's code. *)
From Verif Require Export Spec_Round Model_Str.
Local Open Scope Z_scope.

(** A literal: [sign] digits [. digits] [e|E [sign] digits]. [Some true] is '-', [Some false] is '+'. *)
Record literal := mkLit {
  l_sign : option bool; l_int : list Z; l_frac : option (list Z);
  l_exp : option (bool * option bool * list Z) }.

Definition digit_text (l : list Z) : list Z := map (fun d => 48 + d) l.
Definition sign_text (s : option bool) : list Z :=
  match s with Some true => [45] | Some false => [43] | None => [] end.
Definition frac_digits (l : literal) : list Z := match l_frac l with Some f => f | None => [] end.

(** The characters of a literal. *)
Definition lit_text (l : literal) : list Z :=
  sign_text (l_sign l) ++ digit_text (l_int l)
  ++ (match l_frac l with Some f => 46 :: digit_text f | None => [] end)
  ++ (match l_exp l with
      | Some (upper, s, ds) => (if upper then 69 else 101) :: sign_text s ++ digit_text ds
      | None => [] end).

(** The decimal exponent written in a literal. *)
Definition lit_exp (l : literal) : Z :=
  match l_exp l with
  | Some (_, s, ds) => (match s with Some true => -1 | _ => 1 end) * limbs_value 10 ds
  | None => 0
  end.

(** The rational number a literal denotes. *)
Definition lit_value (l : literal) : Q :=
  (inject_Z ((match l_sign l with Some true => -1 | _ => 1 end) * limbs_value 10 (l_int l ++ frac_digits l))
   * p10 (lit_exp l - Z.of_nat (length (frac_digits l))))%Q.

Definition lit_ok (l : literal) : Prop :=
  digits_ok 10 (l_int l) /\ digits_ok 10 (frac_digits l) /\
  match l_exp l with Some (_, _, ds) => digits_ok 10 ds | None => True end.

(** Literals whose exponent, moved by the length of the digit string and two limbs, stays in the exponent
    type, and whose text is shorter than 2^30 characters. *)
Definition lit_fits (c : cfg) (l : literal) : Prop :=
  Z.of_nat (length (lit_text l)) < 2 ^ 30 /\
  Z.abs (lit_exp l) + Z.of_nat (length (l_int l ++ frac_digits l)) + 2 * edc c < 2 ^ (ebits (c_expo c) - 1).

(** * Formatted output *)

(** The precision a format stands for: the stream's, except that the code reads a non-positive one as six,
    or as zero in scientific notation. *)
Definition stream_precision (f : fmt) : Z :=
  if f_prec f <=? 0 then (match f_field f with FScientific => 0 | _ => 6 end) else f_prec f.

(** Significant digits shown for a number with leading digit at 10^k. *)
Definition sig_digits (c : cfg) (f : fmt) (k : Z) : Z :=
  let p := stream_precision f in
  match f_field f with
  | FScientific => Z.min (p + 1) (c_digits10 c + 5)
  | FFixed => Z.min (if 0 <=? k then k + 1 + p else p) (c_digits10 c + 5)
  | FNone => Z.min p (c_digits10 c + 4)
  end.

(** Whether an exponent is shown. *)
Definition shows_exponent (c : cfg) (f : fmt) (k : Z) : bool :=
  match f_field f with
  | FScientific => true
  | FFixed => false
  | FNone => (k <? -4) || (Z.min (c_digits10 c) (Z.max (stream_precision f) 6) <=? k)
  end.

(** Exponent, precision and digits together stay inside the exponent type. *)
Definition print_fits (c : cfg) (f : fmt) (k : Z) : Prop :=
  Z.abs k + 2 * Z.max 6 (f_prec f) + elem_number c * edc c + 8 < 2 ^ Z.min 58 (ebits (c_expo c) - 1).

(** What the flags promise about the layout of the literal shown. *)
Definition layout_ok (c : cfg) (f : fmt) (k : Z) (l : literal) : Prop :=
  let p := stream_precision f in
  let nf := Z.of_nat (length (frac_digits l)) in
  (l_exp l = None <-> shows_exponent c f k = false) /\
  match l_exp l with
  | Some (upper, s, ts) => length (l_int l) = 1%nat /\ upper = f_upper f /\ s <> None /\
                           Z.of_nat (length ts) mod 3 = 0 /\ ts <> []
  | None => Z.of_nat (length (l_int l)) = 1 + Z.max 0 k \/ Z.of_nat (length (l_int l)) = 1 + Z.max 0 (k + 1)
  end /\
  match f_field f with
  | FScientific => nf = p /\ (l_frac l = None <-> p = 0 /\ f_showpoint f = false)
  | FFixed => (0 <= k -> nf = p) /\ (k < 0 -> p <= nf)
  | FNone => if f_showpoint f then l_frac l <> None
             else l_frac l = None \/ last (frac_digits l) 0 <> 0
  end.

(** The default notation with showpoint needs an integer part no longer than the precision. *)
Definition showpoint_ok (c : cfg) (f : fmt) (k : Z) : Prop :=
  f_field f = FNone -> f_showpoint f = true -> shows_exponent c f k = true \/ k + 2 <= stream_precision f.

(** [s] is [t] padded with the fill character to the width, on the right if left-justified and else on the
    left. *)
Definition padded (f : fmt) (t s : list Z) : Prop :=
  exists j, s = (if f_left f then t ++ repeat (f_fill f) j else repeat (f_fill f) j ++ t) /\
    Z.of_nat (length s) = Z.max (f_width f) (Z.of_nat (length t)).

(** The sign shown. *)
Definition shown_sign (f : fmt) (neg : bool) : option bool :=
  if neg then Some true else if f_showpos f then Some false else None.
