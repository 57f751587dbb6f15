(** Uwrap_proofs.v - the sign-magnitude exponent arithmetic is exact. *)
From Verif Require Export Base Model_Dec.
Local Open Scope Z_scope.

(** The integer an unsigned_wrap denotes. *)
Definition uw_value (a : uwrap) : Z := if uw_neg a then - uw_val a else uw_val a.
Definition uw_ok (w : Z) (a : uwrap) : Prop :=
  0 <= uw_val a < 2 ^ w /\ (uw_neg a = true -> uw_val a <> 0).

Lemma ucast_neg w x : 0 < x < 2 ^ w -> ucast w (- x) = 2 ^ w - x.
Proof.
  intros H. unfold ucast. rewrite Z_mod_nz_opp_full; rewrite Z.mod_small; lia.
Qed.

Lemma uw_make_spec w n : 1 <= w -> - 2 ^ (w - 1) <= n < 2 ^ (w - 1) ->
  uw_value (uw_make w n) = n /\ uw_ok w (uw_make w n).
Proof.
  intros Hw Hn.
  assert (E : 2 ^ w = 2 * 2 ^ (w - 1)) by (rewrite <- Z.pow_succ_r by lia; f_equal; lia).
  unfold uw_make, uw_value, uw_ok. destruct (n <? 0) eqn:Hlt; cbn [uw_neg uw_val].
  - assert (E1 : ucast w n = 2 ^ w + n).
    { unfold ucast. replace n with (- (- n)) at 1 by lia. fold (ucast w (- - n)).
      rewrite ucast_neg by lia. lia. }
    rewrite E1. rewrite ucast_neg by lia. split; [lia|]. split; [lia|]. intros _; lia.
  - rewrite ucast_id by lia. split; [lia|]. split; [lia|]. discriminate.
Qed.

Lemma ucast_diff w a b : 0 <= b <= a -> a < 2 ^ w -> ucast w (a + ucast w (- b)) = a - b.
Proof.
  intros H1 H2. unfold ucast. rewrite Zplus_mod_idemp_r. rewrite Z.mod_small; lia.
Qed.

Lemma uw_add_spec w a b : uw_ok w a -> uw_ok w b -> Z.abs (uw_value a + uw_value b) < 2 ^ w ->
  uw_value (uw_add w a b) = uw_value a + uw_value b /\ uw_ok w (uw_add w a b).
Proof.
  unfold uw_ok, uw_value, uw_add. destruct a as [na va], b as [nb vb]; cbn [uw_neg uw_val].
  intros [Ha Hna] [Hb Hnb] Hs.
  destruct na, nb; cbn [eqb negb uw_neg uw_val].
  - assert (va <> 0) by auto. assert (vb <> 0) by auto.
    rewrite ucast_id by lia. split; [lia|split; [lia|intros _; lia]].
  - destruct (va >? vb) eqn:E; cbn [uw_neg uw_val]; rewrite ucast_diff by lia.
    + split; [lia|split; [lia|intros _; lia]].
    + split; [lia|split; [lia|discriminate]].
  - destruct (va >? vb) eqn:E; cbn [uw_neg uw_val]; rewrite ucast_diff by lia.
    + split; [lia|split; [lia|discriminate]].
    + destruct (vb - va =? 0) eqn:E2; cbn [negb].
      * split; [lia|split; [lia|discriminate]].
      * split; [lia|split; [lia|intros _; lia]].
  - rewrite ucast_id by lia. split; [lia|split; [lia|discriminate]].
Qed.

Lemma uw_sub_spec w a b : uw_ok w a -> uw_ok w b -> Z.abs (uw_value a - uw_value b) < 2 ^ w ->
  uw_value (uw_sub w a b) = uw_value a - uw_value b /\ uw_ok w (uw_sub w a b).
Proof.
  intros Ha Hb Hs. unfold uw_sub.
  destruct (uw_val a =? 0) eqn:Ea.
  - destruct (uw_val b =? 0) eqn:Eb; cbn [negb].
    + split; [|exact Ha]. unfold uw_value. destruct (uw_neg a), (uw_neg b); lia.
    + destruct Hb as [Hb Hb']. unfold uw_value, uw_ok in *. cbn [uw_neg uw_val].
      destruct (uw_neg a), (uw_neg b); cbn [negb]; (split; [lia|split; [lia|intros; try lia; discriminate]]).
  - assert (Hv : uw_value (mkUW (negb (uw_neg a)) (uw_val a)) = - uw_value a)
      by (unfold uw_value; cbn [uw_neg uw_val]; destruct (uw_neg a); cbn [negb]; lia).
    assert (Hok : uw_ok w (mkUW (negb (uw_neg a)) (uw_val a))).
    { destruct Ha as [Ha _]. split; cbn [uw_neg uw_val]; [exact Ha|intros _; lia]. }
    destruct (uw_add_spec w _ b Hok Hb) as [E1 E2]; [rewrite Hv; lia|].
    rewrite Hv in E1. set (r := uw_add w _ b) in *. destruct E2 as [E2 E3].
    unfold uw_value at 1, uw_ok. cbn [uw_neg uw_val]. unfold uw_value at 1 in E1.
    destruct (uw_val r =? 0) eqn:Er; cbn [negb]; destruct (uw_neg r) eqn:En; cbn [negb];
      (split; [lia|split; [lia|intros; try lia; try discriminate]]).
Qed.
