(** Estimate_proofs.v - accuracy of the floating-point first estimate of a reciprocal. *)
From Verif Require Export Newton3_proofs Float_proofs.
From Coq Require Import Lqa Setoid Morphisms.
Local Open Scope Z_scope.

Lemma rep_floor P q : 2 <= P -> rep P q -> (0 <= q)%Q -> rep P (inject_Z (Qfloor q)).
Proof.
  intros HP R Hq. destruct R as (m & e & Hm & Eq). destruct (Z_le_gt_dec 0 e) as [C|C].
  - assert (E1 : (q == inject_Z (m * 2 ^ e))%Q) by (rewrite Eq, p2_Z, inject_Z_mult by auto; reflexivity).
    assert (E2 : Qfloor q = m * 2 ^ e) by (rewrite E1; apply Qfloor_Z).
    exists m, e. split; auto. rewrite E2, inject_Z_mult, p2_Z by auto. reflexivity.
  - apply rep_Z. split.
    + change 0 with (Qfloor (inject_Z 0)). apply Qfloor_resp_le. exact Hq.
    + apply Z.le_lt_trans with m; [|lia]. rewrite <- (Qfloor_Z m). apply Qfloor_resp_le. rewrite Eq.
      rewrite <- (Qmult_1_r (inject_Z m)) at 2. apply Qmult_le_compat_nonneg; split; try lra.
      * change 0%Q with (inject_Z 0). rewrite <- Zle_Qle. lia.
      * apply Qlt_le_weak, p2_pos.
      * rewrite <- p2_0. apply p2_le. lia.
Qed.

Section EST.
Variable P : Z.
Hypothesis HP : 24 <= P.
Let HP2 : 2 <= P. Proof. lia. Qed.
Definition uu : Q := p2 (- P).
Definition ww : Q := (p2 (- P) * (1001 # 1000))%Q.
(** [a] approximates [b] with relative error at most [k] rounding units. *)
Definition near (k : Z) (a b : Q) : Prop := (Qabs (a - b) <= inject_Z k * ww * b)%Q.

Global Instance near_proper : Proper (eq ==> Qeq ==> Qeq ==> iff) near.
Proof. intros k k' <- a a' Ha b b' Hb. unfold near. rewrite Ha, Hb. reflexivity. Qed.

Lemma uu_small : (0 < uu /\ uu <= 1 # 16777216)%Q.
Proof. split; [apply p2_pos|]. change (1 # 16777216)%Q with (p2 (-24)). apply p2_le. lia. Qed.
Lemma ww_small : (0 < ww /\ ww <= 1 # 10000000 /\ uu <= ww)%Q.
Proof. pose proof uu_small. unfold ww. fold uu. split; [|split]; lra. Qed.
Lemma kw k : 0 <= k <= 100 -> (0 <= inject_Z k * ww /\ inject_Z k * ww <= 1 # 100000)%Q.
Proof.
  intros [H1 H2]. rewrite Zle_Qle in H1, H2. change (inject_Z 0) with 0%Q in H1. pose proof ww_small as (W1 & W2 & _).
  split; [apply Qmult_le_0_compat; lra|]. apply Qle_trans with (inject_Z 100 * (1 # 10000000))%Q; [|discriminate].
  apply Qmult_le_compat_nonneg; split; lra.
Qed.

Lemma near_pos k a b : 0 <= k <= 100 -> (0 <= b)%Q -> near k a b -> (0 <= a /\ b * (99999 # 100000) <= a /\ a <= b * (100001 # 100000))%Q.
Proof.
  intros Hk Hb H. apply Qabs_Qle_condition in H. destruct (kw k Hk) as [K1 K2].
  assert (U : (inject_Z k * ww * b <= (1 # 100000) * b)%Q) by (apply Qmult_le_compat_r; auto). lra.
Qed.

Lemma near_refl a : near 0 a a.
Proof. unfold near. setoid_replace (a - a)%Q with 0%Q by ring. change (Qabs 0) with 0%Q. change (inject_Z 0) with 0%Q. lra. Qed.

Lemma near_mono j k a b : j <= k -> (0 <= b)%Q -> near j a b -> near k a b.
Proof.
  unfold near. intros H Hb Hn. eapply Qle_trans; [exact Hn|]. apply Qmult_le_compat_r; auto. pose proof ww_small as (W & _).
  apply Qmult_le_compat_r; [rewrite <- Zle_Qle; auto|lra].
Qed.

Lemma near_fl k a b : 0 <= k <= 99 -> (0 <= b)%Q -> near k a b -> near (k + 1) (fl P a) b.
Proof.
  intros Hk Hb Hn. destruct (near_pos k a b ltac:(lia) Hb Hn) as (A1 & A2 & A3).
  pose proof (fl_err P HP2 a A1) as E1. fold uu in E1. unfold near in *. rewrite inject_Z_plus. change (inject_Z 1) with 1%Q.
  apply Qle_trans with (Qabs (fl P a - a) + Qabs (a - b))%Q.
  - setoid_replace (fl P a - b)%Q with ((fl P a - a) + (a - b))%Q by ring. apply Qabs_triangle.
  - assert (U : (uu * a <= uu * (b * (100001 # 100000)))%Q) by (apply Qmult_le_l; auto; apply uu_small).
    assert (U2 : (uu * (b * (100001 # 100000)) <= ww * b)%Q).
    { unfold ww. fold uu. setoid_replace (uu * (b * (100001 # 100000)))%Q with (uu * b * (100001 # 100000))%Q by ring.
      setoid_replace (uu * (1001 # 1000) * b)%Q with (uu * b * (1001 # 1000))%Q by ring.
      assert (0 <= uu * b)%Q by (apply Qmult_le_0_compat; auto; apply Qlt_le_weak, uu_small). lra. }
    lra.
Qed.

Lemma near_scale k a b t : (0 <= t)%Q -> near k a b -> near k (a * t) (b * t).
Proof.
  intros Ht H. unfold near in *. setoid_replace (a * t - b * t)%Q with ((a - b) * t)%Q by ring.
  rewrite Qabs_Qmult, (Qabs_pos t) by auto. rewrite Qmult_assoc. apply Qmult_le_compat_r; auto.
Qed.

Lemma near_add k a b a' b' : near k a b -> near k a' b' -> near k (a + a') (b + b').
Proof.
  unfold near. intros H1 H2. setoid_replace (a + a' - (b + b'))%Q with ((a - b) + (a' - b'))%Q by ring.
  eapply Qle_trans; [apply Qabs_triangle|]. lra.
Qed.

Lemma near_trans j k a b d : 0 <= j <= 100 -> 0 <= k <= 100 -> (0 <= d)%Q -> near j a b -> near k b d -> near (j + k + 1) a d.
Proof.
  intros Hj Hk Hd H1 H2. destruct (near_pos k b d Hk Hd H2) as (B1 & _ & B3). unfold near in *.
  apply Qle_trans with (Qabs (a - b) + Qabs (b - d))%Q.
  - setoid_replace (a - d)%Q with ((a - b) + (b - d))%Q by ring. apply Qabs_triangle.
  - rewrite !inject_Z_plus. change (inject_Z 1) with 1%Q. 
    destruct (kw j Hj) as [K1 K2]. destruct (kw k Hk) as [K3 K4]. pose proof ww_small as (W1 & W2 & _).
    pose proof H2 as H3. apply Qabs_Qle_condition in H3.
    assert (U : (inject_Z j * ww * b <= inject_Z j * ww * (d + inject_Z k * ww * d))%Q).
    { rewrite !(Qmult_comm (inject_Z j * ww)). apply Qmult_le_compat_r; auto. lra. }
    assert (U2 : (inject_Z j * ww * (inject_Z k * ww * d) <= ww * d)%Q).
    { setoid_replace (inject_Z j * ww * (inject_Z k * ww * d))%Q with (inject_Z j * (inject_Z k * ww) * (ww * d))%Q by ring.
      setoid_replace (ww * d)%Q with (1 * (ww * d))%Q at 2 by ring.
      apply Qmult_le_compat_r; [|apply Qmult_le_0_compat; lra].
      assert (J0 : (0 <= inject_Z j /\ inject_Z j <= 100)%Q).
      { change 0%Q with (inject_Z 0). change 100%Q with (inject_Z 100). rewrite <- !Zle_Qle. lia. }
      apply Qle_trans with (100 * (1 # 100000))%Q; [apply Qmult_le_compat_nonneg; split; lra|discriminate]. }
    lra.
Qed.

Lemma near_mul j k a b a' b' : 0 <= j <= 100 -> 0 <= k <= 100 -> (0 <= b)%Q -> (0 <= b')%Q ->
  near j a b -> near k a' b' -> near (j + k + 1) (a * a') (b * b').
Proof.
  intros Hj Hk Hb Hb' H1 H2. destruct (near_pos k a' b' Hk Hb' H2) as (A1 & _).
  apply near_trans with (b * a')%Q; auto.
  - apply Qmult_le_0_compat; auto.
  - apply near_scale; auto.
  - rewrite !(Qmult_comm b). apply near_scale; auto.
Qed.

Lemma near_inv k a b : 0 <= k <= 99 -> (0 < b)%Q -> near k a b -> near (k + 1) (1 / a) (1 / b).
Proof.
  intros Hk Hb H. destruct (near_pos k a b ltac:(lia) ltac:(lra) H) as (A1 & A2 & A3).
  assert (Ha : (0 < a)%Q) by lra. unfold near in *.
  setoid_replace (1 / a - 1 / b)%Q with ((b - a) * (/ (a * b)))%Q by (field; split; lra).
  assert (Hab : (0 < a * b)%Q) by (apply Qmult_lt_0_compat; auto).
  assert (Hi : (0 < / (a * b))%Q) by (apply Qinv_lt_0_compat; auto).
  rewrite Qabs_Qmult, (Qabs_pos (/ (a * b))) by lra.
  rewrite Qabs_Qminus in H. rewrite inject_Z_plus. change (inject_Z 1) with 1%Q.
  apply Qle_trans with (inject_Z k * ww * b * / (a * b))%Q; [apply Qmult_le_compat_r; lra|].
  setoid_replace (inject_Z k * ww * b * / (a * b))%Q with (inject_Z k * ww * (b * / b) * / a)%Q by (field; split; lra).
  setoid_replace (b * / b)%Q with 1%Q by (field; lra).
  setoid_replace ((inject_Z k + 1) * ww * (1 / b))%Q with ((inject_Z k + 1) * ww * (a * / b) * / a)%Q by (field; split; lra).
  apply Qmult_le_compat_r; [|apply Qlt_le_weak, Qinv_lt_0_compat; auto].
  assert (R : ((99999 # 100000) <= a * / b)%Q) by (apply Qle_shift_div_l; auto; lra).
  destruct (kw k ltac:(lia)) as [K1 K2]. pose proof ww_small as (W1 & W2 & _).
  assert (K0 : (0 <= inject_Z k)%Q) by (change 0%Q with (inject_Z 0); rewrite <- Zle_Qle; lia).
  assert (K9 : (inject_Z k <= 99)%Q) by (change 99%Q with (inject_Z 99); rewrite <- Zle_Qle; lia).
  apply Qle_trans with ((inject_Z k + 1) * ww * (99999 # 100000))%Q.
  - setoid_replace (inject_Z k * ww * 1)%Q with (inject_Z k * ww)%Q by ring.
    setoid_replace ((inject_Z k + 1) * ww * (99999 # 100000))%Q with (ww * ((inject_Z k + 1) * (99999 # 100000)))%Q by ring.
    rewrite (Qmult_comm (inject_Z k)). apply Qmult_le_l; auto. lra.
  - rewrite !(Qmult_comm ((inject_Z k + 1) * ww)). apply Qmult_le_compat_r; auto. apply Qmult_le_0_compat; lra.
Qed.

Lemma rep_pow10 k : 0 <= k <= 8 -> rep P (inject_Z (10 ^ k)).
Proof.
  intros Hk. exists (5 ^ k), k. split.
  - split; [apply Z.pow_nonneg; lia|]. apply Z.le_lt_trans with (5 ^ 8); [apply Z.pow_le_mono_r; lia|].
    apply Z.lt_le_trans with (2 ^ 24); [reflexivity|apply Z.pow_le_mono_r; lia].
  - rewrite p2_Z by lia. rewrite <- inject_Z_mult, <- Z.pow_mul_l. reflexivity.
Qed.
Lemma pow10_nonneg k : 0 <= k -> (0 < inject_Z (10 ^ k))%Q.
Proof. intros. change 0%Q with (inject_Z 0). rewrite <- Zlt_Qlt. apply Z.pow_pos_nonneg; lia. Qed.
Lemma fl_pow10 k : 0 <= k <= 8 -> (fl P (inject_Z (10 ^ k)) == inject_Z (10 ^ k))%Q.
Proof. intros H. apply fl_id; auto; [apply rep_pow10; auto|]. pose proof (pow10_nonneg k ltac:(lia)). lra. Qed.
End EST.
