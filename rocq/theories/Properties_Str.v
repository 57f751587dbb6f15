(** Properties_Str.v - the property theorems about text input and output. *)
From Coq Require Import String.
From Verif Require Import Witness Refute_str.
From Coq Require Import Lia.
Local Open Scope Z_scope.

(** C12. A literal [sign]digits[.digits][e[sign]digits] is read as the value it denotes, truncated at the last
    stored limb; its sign is kept unless the value is zero. *)
Theorem C12_parse_truncates : forall c l, cfg_ok c -> lit_ok l -> lit_fits c l ->
  exists z, rd_string c (lit_text l) = Some z /\ normal c z /\ truncates c z (lit_value l) /\
    (iszero z = true -> (lit_value l == 0)%Q) /\
    ((lit_value l == 0)%Q \/ dneg z = match l_sign l with Some true => true | _ => false end).
Proof. exact (fun c l Hc => rd_string_spec c Hc l). Qed.
Print Assumptions C12_parse_truncates.
(** ... and exactly, when its significant digits (an integer m < 10^d, d the digits of all limbs but the first,
    plus one) fit. *)
Theorem C12_parse_exact : forall c l m k, cfg_ok c -> lit_ok l -> lit_fits c l ->
  (Qabs (lit_value l) == inject_Z m * p10 k)%Q -> m < 10 ^ ((elem_number c - 1) * edc c + 1) ->
  exists z, rd_string c (lit_text l) = Some z /\ normal c z /\ (value c z == lit_value l)%Q.
Proof.
  intros c l m k Hc Hok Hf Hm Hk. destruct (rd_string_spec c Hc l Hok Hf) as (z & Z1 & Z2 & Z3 & Z4 & _).
  exists z. split; [auto|]. split; [auto|]. exact (truncates_exact c Hc z (lit_value l) m k Z2 Z3 Z4 Hm Hk).
Qed.
Print Assumptions C12_parse_exact.
Example C12_case : lit_text lit1 = txt "-123.456e7" /\ lit_ok lit1 /\ lit_fits c50 lit1 /\
  (lit_value lit1 == -1234560000 # 1)%Q /\ rd_string c50 (lit_text lit1) = Some xs1.
Proof. exact lit1_case. Qed.
(** Outside [lit_fits] the exponent wraps silently. *)
Theorem C12_exponent_wraps_refuted : rd_string c9e8 (txt "1e128") = rd_string c9e8 (txt "1e-128") /\
  (exists z, rd_string c9e8 (txt "1e300") = Some z /\ iszero z = false /\ value c9e8 z == p10 44)%Q.
Proof. exact parse_wraps. Qed.
Print Assumptions C12_exponent_wraps_refuted.
Theorem C12_accepts_non_literals : rd_string c50 [] = Some (zero c50) /\
  rd_string c50 (txt "-") = Some (set_neg (zero c50) true) /\
  rd_string c50 (txt "1-2+3") = Some (mkx c50 true 0 [123]) /\ rd_string c50 (txt "hello") = Some (zero c50) /\
  rd_string c50 (txt "1.2.3") = Some (mkx c50 false 0 [1; 2]).
Proof. exact parse_accepts. Qed.
Print Assumptions C12_accepts_non_literals.

(** C14. The digits extracted for [nd] digits are the value rounded half-up at the nd-th significant digit,
    written without leading zero; the exponent goes up by one exactly by a carry. *)
Theorem C14_digits_half_up : forall c x nd k, cfg_ok c -> normal c x -> iszero x = false ->
  leading_exponent (value c x) k -> - 2 ^ (ebits (c_expo c) - 1) <= k -> k + edc c <= 2 ^ (ebits (c_expo c) - 1) -> 1 <= nd < 2 ^ 63 ->
  exists ds e, get_output_string c x (ilogb c x) nd = Some (digit_text ds, e) /\ digits_ok 10 ds /\ hd 0 ds <> 0 /\
    1 <= Z.of_nat (length ds) <= nd /\ (e = k \/ e = k + 1) /\
    rounds_half_up (p10 (k - nd + 1)) (Qabs (value c x)) (inject_Z (limbs_value 10 ds) * p10 (e - (Z.of_nat (length ds) - 1)))%Q.
Proof.
  intros c x nd k Hc Hx Zx Hl Hk1 Hk2 Hnd. pose proof (lead_dexp c Hc x k Hx Zx Hl) as Hd.
  pose proof (lead_ilogb c Hc x k Hx Zx Hl Hk2) as Hi. pose proof (Add_proofs.edc_pos c).
  assert (2 <= edc c) by (unfold edc; destruct (c_limb c); cbn; lia).
  destruct (get_output_string_spec c Hc x nd) as (ds & e & G); auto; try lia. rewrite Hi in *. exists ds, e. exact G.
Qed.
Print Assumptions C14_digits_half_up.
(** The text written for every format, value and precision in range (any flags): optional sign, a literal laid
    out as the flags ask, padding; the literal denotes the value rounded half-up at the last digit shown. *)
Theorem C14_print_half_up : forall c f x k, cfg_ok c -> normal c x -> iszero x = false ->
  leading_exponent (value c x) k -> print_fits c f k -> showpoint_ok c f k ->
  exists l s, wr_string c f x = Some s /\ padded f (lit_text l) s /\ lit_ok l /\
    l_sign l = shown_sign f (dneg x) /\
    rounds_half_up (p10 (k - sig_digits c f k + 1)) (value c x) (lit_value l).
Proof.
  intros c f x k Hc Hx Zx Hl Hf Hs. destruct (print_spec c Hc f x k Hx Zx Hl Hf Hs) as (l & s & S1 & S2 & S3 & S4 & S5 & S6 & _).
  exists l, s. auto.
Qed.
Print Assumptions C14_print_half_up.
Theorem C14_print_zero : forall c f x, cfg_ok c -> normal c x -> iszero x = true -> dexp x = 0 -> print_fits c f 0 ->
  exists l s, wr_string c f x = Some s /\ padded f (lit_text l) s /\ lit_ok l /\
    l_sign l = shown_sign f (dneg x) /\ (lit_value l == 0)%Q.
Proof.
  intros c f x Hc Hx Zx Hd Hf. destruct (print_zero_spec c Hc f x Hx Zx Hd Hf) as (l & s & S1 & S2 & S3 & S4 & S5 & S6 & _).
  exists l, s. repeat (split; [auto|]).
  pose proof (Sum_proofs.value_zero c Hc x Hx Zx) as H0.
  rewrite (half_up_exact _ (value c x) (lit_value l) 0 (Value_proofs.p10_pos _) ltac:(rewrite H0; symmetry; apply Qmult_0_l) S6). exact H0.
Qed.
Print Assumptions C14_print_zero.
Example C14_case : cfg_ok c50 /\ normal c50 xs1 /\ iszero xs1 = false /\ leading_exponent (value c50 xs1) 9 /\
  print_fits c50 fsci 9 /\ showpoint_ok c50 fsci 9 /\
  wr_string c50 fsci xs1 = Some (txt "-1.2346E+009****") /\
  wr_string c50 (plain FFixed 2 false) xs1 = Some (txt "-1234560000.00") /\
  wr_string c50 (plain FNone 6 false) xs1 = Some (txt "-1.23456e+009") /\
  wr_string c50 (plain FNone 6 true) xs2 = Some (txt "0.000123450").
Proof. exact print_case. Qed.

(** C13. Printing (any format without padding) and parsing returns the value rounded half-up at the last digit
    shown, and the identical object when the value has no more digits. *)
Theorem C13_print_parse : forall c f x k, cfg_ok c -> normal c x -> iszero x = false ->
  leading_exponent (value c x) k -> print_fits c f k -> showpoint_ok c f k -> f_width f <= 0 ->
  Z.abs k + 2 * Z.max 6 (f_prec f) + c_digits10 c + 36 < 2 ^ 30 ->
  exists s z, wr_string c f x = Some s /\ rd_string c s = Some z /\ normal c z /\
    rounds_half_up (p10 (k - sig_digits c f k + 1)) (value c x) (value c z) /\
    ((exists m : Z, value c x == inject_Z m * p10 (k - sig_digits c f k + 1))%Q -> z = x).
Proof. exact (fun c f x k Hc => roundtrip_spec c Hc f x k). Qed.
Print Assumptions C13_print_parse.
Example C13_case : let f := plain FScientific 20 false in
  normal c50 xs1 /\ leading_exponent (value c50 xs1) 9 /\ print_fits c50 f 9 /\ showpoint_ok c50 f 9 /\ f_width f <= 0 /\
  Z.abs 9 + 2 * Z.max 6 (f_prec f) + c_digits10 c50 + 36 < 2 ^ 30 /\
  (exists m : Z, value c50 xs1 == inject_Z m * p10 (9 - sig_digits c50 f 9 + 1))%Q.
Proof. exact roundtrip_case. Qed.

(** C31. What the flags get: sign, width, fill and justification; in scientific notation exactly the requested
    fraction digits; in fixed notation exactly the requested fraction digits from one up and at least as many
    below; exponents only where asked for; the point dropped without showpoint. *)
Theorem C31_layout_partial : forall c f x k, cfg_ok c -> normal c x -> iszero x = false ->
  leading_exponent (value c x) k -> print_fits c f k -> showpoint_ok c f k ->
  exists l s, wr_string c f x = Some s /\ padded f (lit_text l) s /\ l_sign l = shown_sign f (dneg x) /\ layout_ok c f k l.
Proof.
  intros c f x k Hc Hx Zx Hl Hf Hs. destruct (print_spec c Hc f x k Hx Zx Hl Hf Hs) as (l & s & S1 & S2 & S3 & S4 & S5 & S6 & _).
  exists l, s. auto.
Qed.
Print Assumptions C31_layout_partial.
(** Where it departs from the built-in types: 0.00012345 at fixed precision 2; fixed precision 0; 12345 at
    default precision 2; the same with showpoint throws; zero with an exponent; the least 8-bit exponent. *)
Theorem C31_flags_refuted :
  wr_string c50 (plain FFixed 2 false) xs2 = Some (txt "0.00012") /\
  wr_string c50 (plain FFixed 0 false) (mkx c50 false 0 [2; 50000000]) = Some (txt "2.500000") /\
  wr_string c50 (plain FNone 2 false) (mkx c50 false 0 [12345]) = Some (txt "12000") /\
  wr_string c50 (plain FNone 2 true) (mkx c50 false 0 [12345]) = None /\
  wr_string c50 (plain FScientific 3 false) (mkDec (repeat 0 10) (-8) false 10) = Some (txt "0.000e-008") /\
  wr_string c9e8 (plain FScientific 3 false) (mkx c9e8 false (-128) [1]) = Some (txt "1.000e-018446744073709551488").
Proof. exact format_wrong. Qed.
Print Assumptions C31_flags_refuted.
