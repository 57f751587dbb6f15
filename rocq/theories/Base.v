(** Base.v - lemmas about limb lists, casts and lists (no model content). *)
From Verif Require Export Spec Model_Config.
From Coq Require Export ZifyBool Zquot.
Local Open Scope Z_scope.

Lemma limbs_value_app B a b :
  limbs_value B (a ++ b) = limbs_value B a * B ^ Z.of_nat (length b) + limbs_value B b.
Proof.
  induction a as [|x a IH]; cbn [app limbs_value]; [lia|].
  rewrite IH, app_length, Nat2Z.inj_add, Z.pow_add_r by lia. ring.
Qed.

Lemma limbs_value_repeat0 B k : limbs_value B (repeat 0 k) = 0.
Proof. induction k; cbn [repeat limbs_value]; lia. Qed.

Lemma limbs_value_single B x : limbs_value B [x] = x.
Proof. cbn. lia. Qed.

Lemma pow_pos_nat B n : 0 < B -> 0 < B ^ Z.of_nat n.
Proof. intros; apply Z.pow_pos_nonneg; lia. Qed.

Lemma pow_succ_nat B n : B ^ Z.of_nat (S n) = B * B ^ Z.of_nat n.
Proof. rewrite Nat2Z.inj_succ, Z.pow_succ_r by lia; ring. Qed.

Lemma limbs_value_bound B l : 0 < B -> digits_ok B l ->
  0 <= limbs_value B l < B ^ Z.of_nat (length l).
Proof.
  intros HB H; induction H as [|x l Hx Hl IH]; cbn [limbs_value length]; [cbn; lia|].
  rewrite pow_succ_nat. pose proof (pow_pos_nat B (length l) HB). nia.
Qed.

Lemma digits_ok_app B a b : digits_ok B (a ++ b) <-> digits_ok B a /\ digits_ok B b.
Proof. apply Forall_app. Qed.

Lemma digits_ok_cons B x l : digits_ok B (x :: l) <-> 0 <= x < B /\ digits_ok B l.
Proof. split; [inversion 1; auto | intros [? ?]; constructor; auto]. Qed.

Lemma digits_ok_repeat0 B k : 0 < B -> digits_ok B (repeat 0 k).
Proof. intros; induction k; cbn; constructor; auto; lia. Qed.

Lemma digits_ok_firstn B k l : digits_ok B l -> digits_ok B (firstn k l).
Proof.
  revert k; induction l as [|x l IH]; intros [|k] H; cbn [firstn]; auto; try constructor;
  apply digits_ok_cons in H; try tauto. apply IH; tauto.
Qed.

Lemma digits_ok_skipn B k l : digits_ok B l -> digits_ok B (skipn k l).
Proof.
  revert k; induction l as [|x l IH]; intros [|k] H; cbn [skipn]; auto.
  apply digits_ok_cons in H. apply IH; tauto.
Qed.

Lemma digits_ok_rev B l : digits_ok B l -> digits_ok B (rev l).
Proof. apply Forall_rev. Qed.

Lemma digits_ok_nth_error B l i x : digits_ok B l -> nth_error l i = Some x -> 0 <= x < B.
Proof. intros H E. apply nth_error_In in E. eapply Forall_forall in H; eauto. Qed.

Lemma limbs_value_inj B a b : 0 < B -> length a = length b -> digits_ok B a -> digits_ok B b ->
  limbs_value B a = limbs_value B b -> a = b.
Proof.
  intros HB; revert b; induction a as [|x a IH]; intros [|y b]; cbn [length limbs_value];
    intros Hl Ha Hb E; try discriminate; auto.
  apply digits_ok_cons in Ha, Hb. injection Hl as Hl.
  pose proof (limbs_value_bound B a HB (proj2 Ha)) as B1.
  pose proof (limbs_value_bound B b HB (proj2 Hb)) as B2.
  rewrite Hl in *. assert (x = y) by nia. subst. f_equal. apply IH; try tauto. nia.
Qed.

(** Casts are the identity on in-range values. *)
Lemma ucast_id w x : 0 <= x < 2 ^ w -> ucast w x = x.
Proof. intros; unfold ucast; apply Z.mod_small; auto. Qed.

Lemma scast_id w x : 1 <= w -> - 2 ^ (w - 1) <= x < 2 ^ (w - 1) -> scast w x = x.
Proof.
  intros Hw H; unfold scast.
  assert (E : 2 ^ w = 2 * 2 ^ (w - 1)) by (rewrite <- Z.pow_succ_r by lia; f_equal; lia).
  rewrite Z.mod_small by lia. lia.
Qed.

Lemma scast_ucast w x : 1 <= w -> - 2 ^ (w - 1) <= x < 2 ^ (w - 1) -> scast w (ucast w x) = x.
Proof.
  intros Hw H; unfold scast, ucast.
  assert (E : 2 ^ w = 2 * 2 ^ (w - 1)) by (rewrite <- Z.pow_succ_r by lia; f_equal; lia).
  assert (0 < 2 ^ w) by (apply Z.pow_pos_nonneg; lia).
  rewrite Zplus_mod_idemp_l. rewrite Z.mod_small by lia. lia.
Qed.

Lemma mask_pow L : mask L = 10 ^ ed L.
Proof. destruct L; reflexivity. Qed.
Lemma mask_pos L : 0 < mask L.
Proof. destruct L; cbn; lia. Qed.
Lemma ed_pos L : 2 <= ed L <= 8.
Proof. destruct L; cbn; lia. Qed.
Lemma mask_fits L : 2 * mask L <= 2 ^ lbits L.
Proof. destruct L; cbn; lia. Qed.
Lemma mask_fits_half L : mask L <= 2 ^ (lbits L - 1).
Proof. destruct L; cbn; lia. Qed.
Lemma lbits_ge L : 8 <= lbits L.
Proof. destruct L; cbn; lia. Qed.
Lemma lbits_dbits L : dbits L = 2 * lbits L.
Proof. destruct L; reflexivity. Qed.

(** List plumbing. *)
Lemma firstn_app_exact {A} (a b : list A) n : length a = n -> firstn n (a ++ b) = a.
Proof. intros <-. rewrite firstn_app, firstn_all, Nat.sub_diag. cbn. apply app_nil_r. Qed.
Lemma skipn_app_exact {A} (a b : list A) n : length a = n -> skipn n (a ++ b) = b.
Proof. intros <-. rewrite skipn_app, skipn_all, Nat.sub_diag. reflexivity. Qed.

Lemma split3 {A} (l : list A) i k : (i + k <= length l)%nat ->
  exists p w s, l = p ++ w ++ s /\ length p = i /\ length w = k /\ length s = (length l - i - k)%nat.
Proof.
  intros H. exists (firstn i l), (firstn k (skipn i l)), (skipn k (skipn i l)).
  rewrite !firstn_skipn. split; auto.
  rewrite !firstn_length, !skipn_length. lia.
Qed.

Lemma Zmod_unique_range a b m : 0 <= a < m -> 0 <= b < m -> a mod m = b mod m -> a = b.
Proof. intros Ha Hb E. rewrite !Z.mod_small in E; auto. Qed.
