(** Refute_round.v - concrete counterexamples and cases for rounding, floor/ceil and integer conversion. *)
From Verif Require Export ToInt_proofs Witness.
From Coq Require Import Lqa ZifyBool.
Local Open Scope Z_scope.

(** 48 digits, 32-bit limbs: nine limbs. *)
Definition c48 : cfg := mkCfg U32 48 E64.
Lemma c48_ok : cfg_ok c48. Proof. cfgok. Qed.
(** 1 + 12345678e-64 *)
Definition x48 : dec := mkDec ([1] ++ repeat 0 7 ++ [12345678]) 0 false 9.
(** 2.99...9 (72 nines) *)
Definition x3 : dec := mkDec (2 :: repeat 99999999 9) 0 false 10.
(** -99999999.5, 99999999.5, 123456789.5 at 9 digits *)
Definition xm9 : dec := mkx c9 true 0 [99999999; 50000000].
Definition xp9 : dec := mkx c9 false 8 [1; 23456789; 50000000].
(** 0 * 1.23456789e-8 and 0 * -(...): what multiplication returns. *)
Definition zb : dec := mkDec (repeat 0 10) (-8) false 10.
Definition zbig : dec := mkDec (repeat 0 10) (2 ^ 31) false 10.
Definition xbig : dec := mkx c50 false (2 ^ 31) [2].

Lemma x48_normal : normal c48 x48. Proof. apply normal_b_sound. reflexivity. Qed.
Lemma x3_normal : normal c50 x3. Proof. apply normal_b_sound. reflexivity. Qed.
Lemma xm9_normal : normal c9 xm9. Proof. apply normal_b_sound. reflexivity. Qed.
Lemma xp9_normal : normal c9 xp9. Proof. apply normal_b_sound. reflexivity. Qed.
Lemma xbig_normal : normal c50 xbig. Proof. apply normal_b_sound. vm_compute. reflexivity. Qed.

Lemma half_up_all c x : cfg_ok c -> normal c x -> iszero x = false -> edc c <= c_digits10 c + 4 ->
  dexp x + edc c < 2 ^ (ebits (c_expo c) - 1) ->
  exists z r k, round_self c x = Some z /\ normal c z /\ leading_exponent (value c x) k /\
    rounds_half_up (p10 (k - (c_digits10 c + 3))) (value c x) r /\
    (0 <= r * value c z)%Q /\ (Qabs r <= Qabs (value c z))%Q /\ (Qabs (value c z) < Qabs r + p10 (k - (c_digits10 c + 3)))%Q /\
    (~ guard_limb_kept c k -> value c z == r)%Q /\
    ((exists m : Z, value c x == inject_Z m * p10 (k - (c_digits10 c + 3)))%Q -> (value c z == value c x)%Q).
Proof.
  intros Hc Hx Zx Hm Hh. destruct (round_self_spec c Hc x Hx Zx Hm Hh)
    as (z & r & kk & H1 & H2 & H3 & H4 & H5 & H6 & H7 & H8 & H9 & H10 & H11 & _).
  exists z, r, kk. auto 12.
Qed.

Lemma half_up_cfg c x : cfg_ok c -> normal c x -> iszero x = false -> edc c <= c_digits10 c + 4 ->
  dexp x + edc c < 2 ^ (ebits (c_expo c) - 1) ->
  (c_digits10 c + 2) / edc c + 3 < elem_number c ->
  exists z k, round_self c x = Some z /\ normal c z /\ leading_exponent (value c x) k /\
    rounds_half_up (p10 (k - (c_digits10 c + 3))) (value c x) (value c z).
Proof.
  intros Hc Hx Zx Hm Hh Hg. destruct (half_up_all c x Hc Hx Zx Hm Hh) as (z & r & k & H1 & H2 & H3 & H4 & _ & _ & _ & H8 & _).
  exists z, k. split; [auto|]. split; [auto|]. split; [auto|].
  assert (HG : ~ guard_limb_kept c k).
  { unfold guard_limb_kept. pose proof (edc_pos c) as He. pose proof (Z.mod_pos_bound k (edc c) ltac:(lia)) as Hb. intros G.
    assert ((c_digits10 c + 3 - k mod edc c + (edc c - 1)) / edc c <= (c_digits10 c + 2 + 1 * edc c) / edc c) by (apply Z.div_le_mono; lia).
    rewrite Z.div_add in * by lia. lia. }
  specialize (H8 HG). destruct H4 as (A1 & kq & A2 & A3 & A4). split; [rewrite H8; auto|]. exists kq. rewrite H8. auto.
Qed.

Lemma C30_case_proof : cfg_ok c50 /\ normal c50 xn /\ iszero xn = false /\ edc c50 <= c_digits10 c50 + 4 /\
  dexp xn + edc c50 < 2 ^ (ebits (c_expo c50) - 1) /\ (c_digits10 c50 + 2) / edc c50 + 3 < elem_number c50 /\
  round_self c50 x3 = Some (mkx c50 false 0 [3]).
Proof. repeat split; try reflexivity; try discriminate; try apply xn_normal. Qed.

Lemma half_up_fails : exists z, cfg_ok c48 /\ normal c48 x48 /\ iszero x48 = false /\ dexp x48 = 0 /\
  round_self c48 x48 = Some z /\ leading_exponent (value c48 x48) 0 /\
  ~ rounds_half_up (p10 (0 - (c_digits10 c48 + 3))) (value c48 x48) (value c48 z).
Proof.
  eexists. split; [apply c48_ok|]. split; [apply x48_normal|]. split; [reflexivity|]. split; [reflexivity|].
  split; [vm_compute; reflexivity|]. split; [split; vm_compute; [discriminate|reflexivity]|].
  intros (_ & k & K1 & _).
  match type of K1 with (?a == _)%Q => assert (HA : (a == inject_Z (10 ^ 64 + 12345678) * p10 (-64))%Q) by (vm_compute; reflexivity) end.
  rewrite HA in K1. change (0 - (c_digits10 c48 + 3)) with (-51) in K1. rewrite (p10_scale (-51) (-64)) in K1 by lia.
  rewrite Qmult_assoc, <- inject_Z_mult in K1. apply sc_eq in K1. change (-51 - -64) with 13 in K1.
  change (10 ^ 64) with (1000000000000000000000000000000000000000000000000000 * 10 ^ 13) in K1. change (10 ^ 13) with 10000000000000 in K1. lia.
Qed.

Lemma floor_ceil_zero c x : cfg_ok c -> normal c x -> iszero x = true -> 0 <= dexp x ->
  dfloor c x = Some x /\ dceil c x = Some x.
Proof.
  intros Hc Hx Zx Hd. assert (HR : round_self c x = Some x) by (unfold round_self; rewrite Zx; auto).
  assert (HI : isint c x = true).
  { apply (isint_spec c Hc x Hx); auto. exists 0. rewrite (value_zero c Hc x Hx Zx). reflexivity. }
  unfold dfloor, dceil. rewrite HR, HI. auto.
Qed.

Lemma floor_wrong :
  (** floor(2.99..9) = 3 *)
  (normal c50 x3 /\ (value c50 x3 < 3)%Q /\ exists z, dfloor c50 x3 = Some z /\ value c50 z == 3)%Q /\
  (** floor(-99999999.5) and floor(123456789.5) are not integers at 9 digits *)
  (normal c9 xm9 /\ (value c9 xm9 == -199999999 # 2) /\ exists z, dfloor c9 xm9 = Some z /\ value c9 z == -200000001 # 2)%Q /\
  (normal c9 xp9 /\ (value c9 xp9 == 246913579 # 2) /\ exists z, dfloor c9 xp9 = Some z /\ value c9 z == 246913579 # 2)%Q /\
  (** ceil(0 * 1.23456789e-8) = 1 *)
  (mul c50 (junk_r c50) (junk_t c50) (zero c50) xb = Some zb /\ (value c50 zb == 0)%Q /\
   exists z, dceil c50 zb = Some z /\ value c50 z == 1)%Q.
Proof.
  split; [split; [apply x3_normal|]; split; [reflexivity|]; eexists; split; [vm_compute; reflexivity|reflexivity]|].
  split; [split; [apply xm9_normal|]; split; [reflexivity|]; eexists; split; [vm_compute; reflexivity|reflexivity]|].
  split; [split; [apply xp9_normal|]; split; [reflexivity|]; eexists; split; [vm_compute; reflexivity|reflexivity]|].
  split; [vm_compute; reflexivity|]. split; [reflexivity|]. eexists; split; [vm_compute; reflexivity|reflexivity].
Qed.

Lemma C20_case_proof : cfg_ok c50 /\ normal c50 xn /\ iszero xn = false /\ edc c50 <= c_digits10 c50 + 4 /\
  (Qabs (value c50 xn) <= p10 (c_digits10 c50 - 1) - 2)%Q /\
  dfloor c50 (negate xa) = Some (mkx c50 true 0 [12345679]) /\ dceil c50 (negate xa) = Some (mkx c50 true 0 [12345678]).
Proof. split; [apply c50_ok|]. split; [apply xn_normal|]. split; [reflexivity|]. split; [discriminate|]. split; [vm_compute; discriminate|]. split; reflexivity. Qed.

Lemma to_int_wrong :
  (** a value below 3 converts to 3 *)
  ((value c50 x3 < 3)%Q /\ to_sll c50 x3 = Some 3 /\ to_ull c50 x3 = Some 3) /\
  (** a negative value converts to a large unsigned number *)
  (to_ull c50 (from_sll c50 (-5)) = Some (2 ^ 64 - 5)) /\
  (** at nine digits the largest signed 64-bit integer converts back to a negative number *)
  (normal c9 (from_sll c9 (2 ^ 63 - 1)) /\ (value c9 (from_sll c9 (2 ^ 63 - 1)) == inject_Z (2 ^ 63 - 1))%Q /\
   to_sll c9 (from_sll c9 (2 ^ 63 - 1)) = Some (-9223372036854551616)) /\
  (** 0 * 2e2147483648 is a zero whose conversion reads outside the limb array *)
  (normal c50 xbig /\ mul c50 (junk_r c50) (junk_t c50) (zero c50) xbig = Some zbig /\ (value c50 zbig == 0)%Q /\ to_sll c50 zbig = None).
Proof.
  split; [split; [reflexivity|split; reflexivity]|]. split; [reflexivity|].
  split. { destruct (from_sll_exact c9 c9_ok (2 ^ 63 - 1)) as [N Hv]; [split; [discriminate|reflexivity]|reflexivity|]. split; [auto|]. split; [auto|]. vm_compute. reflexivity. }
  split; [apply xbig_normal|]. split; [vm_compute; reflexivity|]. split; [apply value_zero; [apply c50_ok|apply normal_b_sound; vm_compute; reflexivity|reflexivity]|]. vm_compute. reflexivity.
Qed.

Lemma C11_case_proof : cfg_ok c50 /\ 16 <= c_digits10 c50 /\ normal c50 (negate xa) /\ iszero (negate xa) = false /\
  to_sll c50 (negate xa) = Some (-12345678) /\ to_ull c50 xa = Some 12345678 /\
  to_sll c50 xbig = Some (2 ^ 63 - 1) /\ to_sll c50 (negate xbig) = Some (- 2 ^ 63) /\ to_ull c50 xbig = Some (2 ^ 64 - 1).
Proof. split; [apply c50_ok|]. split; [discriminate|]. split; [apply normal_b_sound; reflexivity|]. repeat split; vm_compute; reflexivity. Qed.
