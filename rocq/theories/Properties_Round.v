(** Properties_Round.v - the property theorems about rounding, floor/ceil and integer conversion. *)
From Verif Require Import Refute_round.
From Coq Require Import Lia.
Local Open Scope Z_scope.

(** C30. Rounding to digits10+4 significant digits is half-up (away from zero) for every configuration
    whose rounded digit never lies in the last limb but one ... *)
Theorem C30_half_up : forall c x, cfg_ok c -> normal c x -> iszero x = false -> edc c <= c_digits10 c + 4 ->
  dexp x + edc c < 2 ^ (ebits (c_expo c) - 1) ->
  (c_digits10 c + 2) / edc c + 3 < elem_number c ->
  exists z k, round_self c x = Some z /\ normal c z /\ leading_exponent (value c x) k /\
    rounds_half_up (p10 (k - (c_digits10 c + 3))) (value c x) (value c z).
Proof. exact half_up_cfg. Qed.
Print Assumptions C30_half_up.
(** ... and for the others it is half-up up to one surviving limb, less than one unit too large in
    magnitude; values that need no rounding stay as they are. *)
Theorem C30_half_up_all_partial : forall c x, cfg_ok c -> normal c x -> iszero x = false -> edc c <= c_digits10 c + 4 ->
  dexp x + edc c < 2 ^ (ebits (c_expo c) - 1) ->
  exists z r k, round_self c x = Some z /\ normal c z /\ leading_exponent (value c x) k /\
    rounds_half_up (p10 (k - (c_digits10 c + 3))) (value c x) r /\
    (0 <= r * value c z)%Q /\ (Qabs r <= Qabs (value c z))%Q /\ (Qabs (value c z) < Qabs r + p10 (k - (c_digits10 c + 3)))%Q /\
    (~ guard_limb_kept c k -> value c z == r)%Q /\
    ((exists m : Z, value c x == inject_Z m * p10 (k - (c_digits10 c + 3)))%Q -> (value c z == value c x)%Q).
Proof. exact half_up_all. Qed.
Print Assumptions C30_half_up_all_partial.
Theorem C30_half_up_refuted : exists z, cfg_ok c48 /\ normal c48 x48 /\ iszero x48 = false /\ dexp x48 = 0 /\
  round_self c48 x48 = Some z /\ leading_exponent (value c48 x48) 0 /\
  ~ rounds_half_up (p10 (0 - (c_digits10 c48 + 3))) (value c48 x48) (value c48 z).
Proof. exact half_up_fails. Qed.
Print Assumptions C30_half_up_refuted.
Example C30_case : cfg_ok c50 /\ normal c50 xn /\ iszero xn = false /\ edc c50 <= c_digits10 c50 + 4 /\
  dexp xn + edc c50 < 2 ^ (ebits (c_expo c50) - 1) /\ (c_digits10 c50 + 2) / edc c50 + 3 < elem_number c50 /\
  round_self c50 x3 = Some (mkx c50 false 0 [3]).
Proof. exact C30_case_proof. Qed.

(** C20. floor and ceil: exact floor/ceiling of the value rounded at digits10+4 significant digits
    (hence of the value itself when it has no more digits), for |x| <= 10^(digits10-1) - 2. *)
Theorem C20_floor_ceil_partial : forall c x, cfg_ok c -> normal c x -> iszero x = false -> edc c <= c_digits10 c + 4 ->
  (Qabs (value c x) <= p10 (c_digits10 c - 1) - 2)%Q ->
  exists r, nearly c (value c x) r /\
    (exists z, dfloor c x = Some z /\ normal c z /\ value c z == inject_Z (Qfloor r))%Q /\
    (exists z, dceil c x = Some z /\ normal c z /\ value c z == inject_Z (Qceiling r))%Q.
Proof. exact (fun c x Hc => floor_ceil_spec c Hc x). Qed.
Print Assumptions C20_floor_ceil_partial.
Theorem C20_floor_ceil_zero_partial : forall c x, cfg_ok c -> normal c x -> iszero x = true -> 0 <= dexp x ->
  dfloor c x = Some x /\ dceil c x = Some x.
Proof. exact floor_ceil_zero. Qed.
Print Assumptions C20_floor_ceil_zero_partial.
(** Beyond that it fails: floor(2.99..9) = 3; floor of a half-integer returned unchanged or wrong;
    ceil of a zero product is one. *)
Theorem C20_floor_ceil_refuted :
  (normal c50 x3 /\ (value c50 x3 < 3)%Q /\ exists z, dfloor c50 x3 = Some z /\ value c50 z == 3)%Q /\
  (normal c9 xm9 /\ (value c9 xm9 == -199999999 # 2) /\ exists z, dfloor c9 xm9 = Some z /\ value c9 z == -200000001 # 2)%Q /\
  (normal c9 xp9 /\ (value c9 xp9 == 246913579 # 2) /\ exists z, dfloor c9 xp9 = Some z /\ value c9 z == 246913579 # 2)%Q /\
  (mul c50 (junk_r c50) (junk_t c50) (zero c50) xb = Some zb /\ (value c50 zb == 0)%Q /\
   exists z, dceil c50 zb = Some z /\ value c50 z == 1)%Q.
Proof. exact floor_wrong. Qed.
Print Assumptions C20_floor_ceil_refuted.
Example C20_case : cfg_ok c50 /\ normal c50 xn /\ iszero xn = false /\ edc c50 <= c_digits10 c50 + 4 /\
  (Qabs (value c50 xn) <= p10 (c_digits10 c50 - 1) - 2)%Q /\
  dfloor c50 (negate xa) = Some (mkx c50 true 0 [12345679]) /\ dceil c50 (negate xa) = Some (mkx c50 true 0 [12345678]).
Proof. exact C20_case_proof. Qed.

(** C11. Conversion to 64-bit integers truncates the rounded value and saturates (16 digits or more). *)
Theorem C11_to_signed_partial : forall c x, cfg_ok c -> 16 <= c_digits10 c -> normal c x -> iszero x = false ->
  ((inject_Z (2 ^ 63 - 1) < value c x)%Q -> to_sll c x = Some (2 ^ 63 - 1)) /\
  ((value c x < inject_Z (- 2 ^ 63))%Q -> to_sll c x = Some (- 2 ^ 63)) /\
  ((inject_Z (- 2 ^ 63) <= value c x)%Q -> (value c x <= inject_Z (2 ^ 63 - 1))%Q ->
     exists r, nearly c (value c x) r /\ to_sll c x = Some (truncZ r) /\ - 2 ^ 63 <= truncZ r <= 2 ^ 63 - 1).
Proof. exact (fun c x Hc Hd => to_sll_spec c Hc Hd x). Qed.
Print Assumptions C11_to_signed_partial.
Theorem C11_to_unsigned_partial : forall c x, cfg_ok c -> 16 <= c_digits10 c -> normal c x -> iszero x = false -> dneg x = false ->
  dexp x + edc c < 2 ^ (ebits (c_expo c) - 1) ->
  exists r, nearly c (value c x) r /\ to_ull c x = Some (clamp 0 (2 ^ 64 - 1) (truncZ r)).
Proof. exact (fun c x Hc Hd => to_ull_spec c Hc Hd x). Qed.
Print Assumptions C11_to_unsigned_partial.
Theorem C11_negative_to_unsigned_wraps : forall c x, dneg x = true ->
  to_ull c x = match to_sll c x with Some v => Some (v mod 2 ^ 64) | None => None end.
Proof. exact to_ull_neg. Qed.
Print Assumptions C11_negative_to_unsigned_wraps.
Theorem C11_zero_partial : forall c x, cfg_ok c -> 16 <= c_digits10 c -> normal c x -> iszero x = true -> dexp x < 2 ^ 31 ->
  to_sll c x = Some 0 /\ (dneg x = false -> to_ull c x = Some 0).
Proof. exact (fun c x Hc Hd => to_int_zero c Hc Hd x). Qed.
Print Assumptions C11_zero_partial.
Theorem C11_conversion_refuted :
  ((value c50 x3 < 3)%Q /\ to_sll c50 x3 = Some 3 /\ to_ull c50 x3 = Some 3) /\
  (to_ull c50 (from_sll c50 (-5)) = Some (2 ^ 64 - 5)) /\
  (normal c9 (from_sll c9 (2 ^ 63 - 1)) /\ (value c9 (from_sll c9 (2 ^ 63 - 1)) == inject_Z (2 ^ 63 - 1))%Q /\
   to_sll c9 (from_sll c9 (2 ^ 63 - 1)) = Some (-9223372036854551616)) /\
  (normal c50 xbig /\ mul c50 (junk_r c50) (junk_t c50) (zero c50) xbig = Some zbig /\ (value c50 zbig == 0)%Q /\ to_sll c50 zbig = None).
Proof. exact to_int_wrong. Qed.
Print Assumptions C11_conversion_refuted.
Example C11_case : cfg_ok c50 /\ 16 <= c_digits10 c50 /\ normal c50 (negate xa) /\ iszero (negate xa) = false /\
  to_sll c50 (negate xa) = Some (-12345678) /\ to_ull c50 xa = Some 12345678 /\
  to_sll c50 xbig = Some (2 ^ 63 - 1) /\ to_sll c50 (negate xbig) = Some (- 2 ^ 63) /\ to_ull c50 xbig = Some (2 ^ 64 - 1).
Proof. exact C11_case_proof. Qed.

(** C10. Integer conversion inverts integer construction (16 digits or more). *)
Theorem C10_signed_round_trip : forall c m, cfg_ok c -> 16 <= c_digits10 c -> - 2 ^ 63 <= m < 2 ^ 63 ->
  to_sll c (from_sll c m) = Some m.
Proof. exact (fun c m Hc Hd => roundtrip_sll c Hc Hd m). Qed.
Print Assumptions C10_signed_round_trip.
Theorem C10_unsigned_round_trip : forall c u, cfg_ok c -> 16 <= c_digits10 c -> 0 <= u < 2 ^ 64 ->
  to_ull c (from_ull c u) = Some u.
Proof. exact (fun c u Hc Hd => roundtrip_ull c Hc Hd u). Qed.
Print Assumptions C10_unsigned_round_trip.
Theorem C10_round_trip_small_config_refuted : cfg_ok c9 /\
  to_sll c9 (from_sll c9 (2 ^ 63 - 1)) <> Some (2 ^ 63 - 1).
Proof. split; [apply c9_ok|]. vm_compute. discriminate. Qed.
Print Assumptions C10_round_trip_small_config_refuted.
