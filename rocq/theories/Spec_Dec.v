(** Spec_Dec.v - what a decwide_t object denotes, and when it is in normal form.
    Uses only the record fields of the model object. *)
From Verif Require Export Spec Model_Dec.
Local Open Scope Z_scope.

(** Decimal digits per limb of a configuration, and number of limbs. *)
Definition edc (c : cfg) : Z := ed (c_limb c).

(** The rational number an object denotes. *)
Definition value (c : cfg) (x : dec) : Q := number_value (edc c) (dneg x) (data x) (dexp x).

(** Weight of one unit in the last stored limb of an object. *)
Definition ulp (c : cfg) (x : dec) : Q := p10 (dexp x - edc c * (Z.of_nat (length (data x)) - 1)).

(** Normal form: right number of limbs, every limb a base-10^ed digit, leading limb zero only for
    the number zero, exponent a multiple of the limb digits and inside the exponent type,
    full working precision. *)
Definition normal (c : cfg) (x : dec) : Prop :=
  length (data x) = nel c /\
  digits_ok (10 ^ edc c) (data x) /\
  (nth 0 (data x) 0 = 0 -> data x = repeat 0 (nel c)) /\
  (edc c | dexp x) /\
  - 2 ^ (ebits (c_expo c) - 1) <= dexp x < 2 ^ (ebits (c_expo c) - 1) /\
  dprec x = nel c.

(** A usable configuration: at least one digit, and the digits of the whole limb array fit the
    exponent type. *)
Definition cfg_ok (c : cfg) : Prop :=
  1 <= c_digits10 c /\ elem_number c * edc c < 2 ^ (ebits (c_expo c) - 1).

(** Exponents far enough from the ends of the exponent type that renormalising a sum or product by
    up to the whole limb array cannot leave the type. *)
Definition exp_safe (c : cfg) (e : Z) : Prop :=
  - 2 ^ (ebits (c_expo c) - 1) + elem_number c * edc c <= e
  /\ e + edc c < 2 ^ (ebits (c_expo c) - 1).

(** [z] is the rational [q] truncated towards zero at [z]'s last stored limb. *)
Definition truncates (c : cfg) (z : dec) (q : Q) : Prop :=
  (0 <= q * value c z)%Q /\ (Qabs (value c z) <= Qabs q)%Q /\ (Qabs q < Qabs (value c z) + ulp c z)%Q.

(** [z] is [q] moved away from zero by less than [w]; same sign, and zero only if [q] is. *)
Definition rounds_away (c : cfg) (z : dec) (q w : Q) : Prop :=
  (0 <= q * value c z)%Q /\ (Qabs q <= Qabs (value c z))%Q /\ (Qabs (value c z) < Qabs q + w)%Q.

(** Working memory handed to one multiplication (the result area and the Karatsuba scratch area,
    2 and 4 times the padded limb count): lengths fixed, contents arbitrary. *)
Definition pool_ok (c : cfg) (rmem scratch : list Z) : Prop :=
  let k := Z.to_nat (a029750 (elem_number c)) in
  length rmem = (2 * k)%nat /\ length scratch = (4 * k)%nat.

(** Configurations whose multiplication is schoolbook or Karatsuba and whose schoolbook column sums
    fit the double-limb accumulator (column-wise code is used for 16- and 32-bit limbs). *)
Definition mul_ok (c : cfg) : Prop :=
  elem_number c < elems_for_fft /\
  (elem_number c < elems_for_kara ->
   c_limb c = U8 \/
   elem_number c * ((10 ^ edc c - 1) * (10 ^ edc c - 1)) + elem_number c * 10 ^ edc c < 2 ^ dbits (c_limb c)).

(** The number one (or minus one) exactly. *)
Definition is_one (c : cfg) (x : dec) : Prop := (Qabs (value c x) == 1)%Q.
(** The all-nines number 0.99...9 just below one (limb exponent -ed): 1 - 10^(-ed*limbs). *)
Definition is_nines (c : cfg) (x : dec) : Prop :=
  (Qabs (value c x) == 1 - p10 (- (edc c * elem_number c)))%Q.
