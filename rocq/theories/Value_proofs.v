(** Value_proofs.v - from integer mantissas to rational values. *)
From Verif Require Export Add_proofs.
From Coq Require Import Qfield.
Local Open Scope Z_scope.

Lemma p10_pos e : (0 < p10 e)%Q.
Proof. unfold p10. apply Qpower_0_lt. reflexivity. Qed.
Lemma p10_nz e : ~ (p10 e == 0)%Q.
Proof. pose proof (p10_pos e). intros H0. rewrite H0 in H. apply (Qlt_irrefl 0); auto. Qed.
Lemma p10_add a b : (p10 (a + b) == p10 a * p10 b)%Q.
Proof. unfold p10. apply Qpower_plus. discriminate. Qed.
Lemma p10_Z k : 0 <= k -> (p10 k == inject_Z (10 ^ k))%Q.
Proof. intros H. unfold p10. change (10 # 1)%Q with (inject_Z 10). symmetry; apply Zpower_Qpower; auto. Qed.
Lemma p10_0 : (p10 0 == 1)%Q.
Proof. reflexivity. Qed.

(** m * 10^e in units of 10^F. *)
Lemma scaleZ m e F : F <= e -> (inject_Z m * p10 e == inject_Z (m * 10 ^ (e - F)) * p10 F)%Q.
Proof.
  intros H. replace e with ((e - F) + F) at 1 by lia.
  rewrite p10_add, p10_Z by lia. rewrite inject_Z_mult. ring.
Qed.
Lemma p10_scale e F : F <= e -> (p10 e == inject_Z (10 ^ (e - F)) * p10 F)%Q.
Proof. intros H. rewrite <- (Qmult_1_l (p10 e)). change 1%Q with (inject_Z 1). rewrite (scaleZ 1 e F H), Z.mul_1_l. reflexivity. Qed.

Lemma sc_le a b F : (inject_Z a * p10 F <= inject_Z b * p10 F)%Q <-> a <= b.
Proof.
  rewrite Zle_Qle. split; intros H.
  - apply Qmult_lt_0_le_reg_r with (z := p10 F); auto. apply p10_pos.
  - apply Qmult_le_compat_r; auto. apply Qlt_le_weak, p10_pos.
Qed.
Lemma sc_lt a b F : (inject_Z a * p10 F < inject_Z b * p10 F)%Q <-> a < b.
Proof.
  split; intros H.
  - apply Z.nle_gt. intros Hle. apply (sc_le b a F) in Hle. apply Qlt_not_le in H. auto.
  - apply Qnot_le_lt. intros Hle. apply sc_le in Hle. lia.
Qed.
Lemma sc_eq a b F : (inject_Z a * p10 F == inject_Z b * p10 F)%Q <-> a = b.
Proof.
  split; intros H; [|subst; reflexivity].
  assert (a <= b /\ b <= a); [|lia].
  split; apply (sc_le _ _ F); rewrite H; apply Qle_refl.
Qed.
Lemma sc_abs a F : (Qabs (inject_Z a * p10 F) == inject_Z (Z.abs a) * p10 F)%Q.
Proof.
  rewrite Qabs_Qmult. rewrite (Qabs_pos (p10 F)) by (apply Qlt_le_weak, p10_pos).
  reflexivity.
Qed.
Lemma sc_add a b F : (inject_Z a * p10 F + inject_Z b * p10 F == inject_Z (a + b) * p10 F)%Q.
Proof. rewrite inject_Z_plus. ring. Qed.
Lemma sc_sub a b F : (inject_Z a * p10 F - inject_Z b * p10 F == inject_Z (a - b) * p10 F)%Q.
Proof. unfold Z.sub. rewrite inject_Z_plus, inject_Z_opp. ring. Qed.

Lemma Bpow L k : 0 <= k -> mask L ^ k = 10 ^ (ed L * k).
Proof. intros H. rewrite mask_pow, <- Z.pow_mul_r; auto. pose proof (ed_pos L); lia. Qed.

(** T / 10^j in units of 10^F truncates T. *)
Lemma trunc_units T j : 0 <= T -> 0 <= j ->
  T / 10 ^ j * 10 ^ j <= T < T / 10 ^ j * 10 ^ j + 10 ^ j.
Proof. intros H Hj. pose proof (Z.pow_pos_nonneg 10 j). pose proof (Z.div_mod T (10 ^ j)).
  pose proof (Z.mod_pos_bound T (10 ^ j)). nia. Qed.

(** [z] is [q] truncated towards zero at the last limb of [z]. *)
Lemma sgn_abs b T : 0 <= T -> Z.abs (sgn b * T) = T.
Proof. destruct b; cbn [sgn]; lia. Qed.

Section V.
Variable c : cfg.
Notation L := (c_limb c).
Notation B := (mask L).
Notation V := (limbs_value B).
Notation P n := (B ^ Z.of_nat n).
Notation E := (ebits (c_expo c)).
Notation n := (nel c).

(** Exponent of the last limb of an object with exponent [e]. *)
Definition low (e : Z) : Z := e - edc c * (Z.of_nat n - 1).

Lemma value_low x : length (data x) = n ->
  (value c x == inject_Z (sgn (dneg x) * V (data x)) * p10 (low (dexp x)))%Q.
Proof. intros H. unfold value, number_value, low, edc. rewrite H, <- mask_pow. reflexivity. Qed.
Lemma ulp_low x : length (data x) = n -> (ulp c x == p10 (low (dexp x)))%Q.
Proof. intros H. unfold ulp, low. rewrite H. reflexivity. Qed.

Lemma value_scaled x F : length (data x) = n -> F <= low (dexp x) ->
  (value c x == inject_Z (sgn (dneg x) * V (data x) * 10 ^ (low (dexp x) - F)) * p10 F)%Q.
Proof. intros H HF. rewrite value_low by auto. rewrite (scaleZ _ _ F) by auto. reflexivity. Qed.

Lemma low_sub a b : low a - low b = a - b.
Proof. unfold low. lia. Qed.
Lemma low_le a b : low a <= low b <-> a <= b.
Proof. unfold low. lia. Qed.

(** The generic truncation lemma: mantissa quotient -> truncation in Q. *)
Lemma truncates_intro z q T F s : length (data z) = n -> digits_ok B (data z) ->
  0 <= T -> F <= low (dexp z) -> dneg z = s ->
  V (data z) = T / 10 ^ (low (dexp z) - F) ->
  (q == inject_Z (sgn s * T) * p10 F)%Q -> truncates c z q.
Proof.
  intros Hl Hok HT HF Hs HV Hq. unfold truncates.
  pose proof (trunc_units T (low (dexp z) - F) HT ltac:(lia)) as Ht.
  rewrite Hq, ulp_low by auto. rewrite (value_scaled z F) by auto. rewrite Hs.
  rewrite (p10_scale (low (dexp z)) F) by auto. rewrite !sc_abs, sc_add.
  rewrite (sgn_abs s T HT). rewrite <- !Z.mul_assoc. rewrite sgn_abs.
  2:{ rewrite HV. pose proof (Z.pow_pos_nonneg 10 (low (dexp z) - F)).
      pose proof (Z.div_pos T (10 ^ (low (dexp z) - F))). nia. }
  rewrite HV. split; [|split].
  - set (W := T / 10 ^ (low (dexp z) - F)). set (u := 10 ^ (low (dexp z) - F)).
    assert (0 <= W) by (apply Z.div_pos; [auto|apply Z.pow_pos_nonneg; lia]).
    assert (0 < u) by (apply Z.pow_pos_nonneg; lia).
    setoid_replace (inject_Z (sgn s * T) * p10 F * (inject_Z (sgn s * (W * u)) * p10 F))%Q
      with (inject_Z (T * (W * u)) * (p10 F * p10 F))%Q.
    + apply Qmult_le_0_compat; [change 0%Q with (inject_Z 0); rewrite <- Zle_Qle; nia|].
      apply Qmult_le_0_compat; apply Qlt_le_weak, p10_pos.
    + destruct s; cbn [sgn]; rewrite ?inject_Z_mult; change (inject_Z (-1)) with (-(1))%Q;
        change (inject_Z 1) with 1%Q; ring.
  - apply sc_le. lia.
  - apply sc_lt. lia.
Qed.

End V.
