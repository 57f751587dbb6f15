(** Float_proofs.v - the rounding function of Model_Float: relative error, representability,
    monotonicity against representable numbers. *)
From Verif Require Export Model_Float.
From Coq Require Import Qpower Qfield Lia Lqa.
Local Open Scope Z_scope.

Lemma p2_pos e : (0 < p2 e)%Q.
Proof.
  unfold p2. apply Qpower_0_lt. reflexivity.
Qed.
Lemma p2_nz e : ~ (p2 e == 0)%Q.
Proof. pose proof (p2_pos e). intros H0. rewrite H0 in H. discriminate. Qed.
Lemma p2_add a b : (p2 (a + b) == p2 a * p2 b)%Q.
Proof. unfold p2. apply Qpower_plus. discriminate. Qed.
Lemma p2_Z k : 0 <= k -> (p2 k == inject_Z (2 ^ k))%Q.
Proof. intros. unfold p2. change (2 # 1)%Q with (inject_Z 2). symmetry. apply Zpower_Qpower; auto. Qed.
Lemma p2_0 : (p2 0 == 1)%Q. Proof. reflexivity. Qed.
Lemma p2_neg k : (p2 (- k) * p2 k == 1)%Q.
Proof. rewrite <- p2_add. replace (- k + k) with 0 by lia. reflexivity. Qed.
Lemma p2_succ k : (p2 (k + 1) == 2 * p2 k)%Q.
Proof. rewrite p2_add. change (p2 1) with 2%Q. ring. Qed.
Lemma p2_ge1 k : 0 <= k -> (1 <= p2 k)%Q.
Proof. intros. rewrite p2_Z by auto. change 1%Q with (inject_Z 1). rewrite <- Zle_Qle. pose proof (Z.pow_pos_nonneg 2 k ltac:(lia) ltac:(lia)). lia. Qed.
Lemma p2_le a b : a <= b -> (p2 a <= p2 b)%Q.
Proof.
  intros. replace b with (a + (b - a)) by lia. rewrite p2_add. pose proof (p2_ge1 (b - a) ltac:(lia)). pose proof (p2_pos a).
  setoid_replace (p2 a) with (p2 a * 1)%Q at 1 by ring. apply Qmult_le_l; auto.
Qed.

Lemma num_log q : (0 < q)%Q -> let k := Z.log2 (Qnum q) - Z.log2 (Zpos (Qden q)) in
  (p2 (k - 1) < q)%Q /\ (q < p2 (k + 1))%Q.
Proof.
  intros Hq0 k. destruct q as [a b]. cbn [Qnum Qden] in k. assert (Ha : 0 < a) by (unfold Qlt in Hq0; cbn [Qnum Qden] in Hq0; lia).
  pose proof (Z.log2_spec a Ha) as [A1 A2]. pose proof (Z.log2_spec (Zpos b) ltac:(lia)) as [B1 B2].
  pose proof (Z.log2_nonneg a) as NA. pose proof (Z.log2_nonneg (Zpos b)) as NB.
  set (la := Z.log2 a) in *. set (lb := Z.log2 (Z.pos b)) in *.
  assert (Hq : (a # b == inject_Z a / inject_Z (Zpos b))%Q) by (rewrite Qmake_Qdiv; reflexivity).
  assert (Hb : (0 < inject_Z (Zpos b))%Q) by reflexivity.
  rewrite Z.pow_succ_r in A2, B2 by lia.
  rewrite Zle_Qle in A1, B1. rewrite Zlt_Qlt in A2, B2.
  rewrite inject_Z_mult in A2, B2. rewrite <- !p2_Z in A1, A2, B1, B2 by lia. change (inject_Z 2) with 2%Q in *.
  assert (K1 : (p2 (k - 1) * 2 * p2 lb == p2 la)%Q).
  { change 2%Q with (p2 1). rewrite <- !p2_add. unfold k. replace (la - lb - 1 + 1 + lb) with la by ring. reflexivity. }
  assert (K2 : (p2 (k + 1) * p2 lb == 2 * p2 la)%Q).
  { rewrite <- p2_succ, <- p2_add. unfold k. replace (la - lb + 1 + lb) with (la + 1) by ring. reflexivity. }
  pose proof (p2_pos (k - 1)) as P1. pose proof (p2_pos (k + 1)) as P2.
  rewrite Hq. split.
  - apply Qlt_shift_div_l; auto. apply Qlt_le_trans with (p2 la); auto. rewrite <- K1.
    setoid_replace (p2 (k - 1) * 2 * p2 lb)%Q with (p2 (k - 1) * (2 * p2 lb))%Q by ring. apply Qmult_lt_l; auto.
  - apply Qlt_shift_div_r; auto. apply Qlt_le_trans with (2 * p2 la)%Q; auto. rewrite <- K2. apply Qmult_le_l; auto.
Qed.

Lemma lead2_spec q : (0 < q)%Q -> (p2 (lead2 q) <= q)%Q /\ (q < p2 (lead2 q + 1))%Q.
Proof.
  intros Hq. destruct (num_log q Hq) as [H1 H2]. unfold lead2. cbv zeta in *.
  set (k := Z.log2 (Qnum q) - Z.log2 (Z.pos (Qden q))) in *.
  destruct (Qle_bool (p2 k) q) eqn:E.
  - apply Qle_bool_iff in E. auto.
  - split; [apply Qlt_le_weak; auto|]. replace (k - 1 + 1) with k by ring.
    apply Qnot_le_lt. intros H. apply Qle_bool_iff in H. congruence.
Qed.

Lemma rne_floor q : rne q = Qfloor q \/ rne q = Qfloor q + 1.
Proof. unfold rne. destruct (Qcompare _ _); try destruct (Z.even _); auto. Qed.

Lemma rne_err q : (Qabs (inject_Z (rne q) - q) <= 1 # 2)%Q.
Proof.
  unfold rne. pose proof (Qfloor_le q) as F1. pose proof (Qlt_floor q) as F2. rewrite inject_Z_plus in F2. change (inject_Z 1) with 1%Q in F2.
  set (f := inject_Z (Qfloor q)) in *.
  destruct (Qcompare (q - f) (1 # 2)) eqn:E.
  - apply Qeq_alt in E. destruct (Z.even _); [|rewrite inject_Z_plus; change (inject_Z 1) with 1%Q]; fold f; apply Qabs_Qle_condition; lra.
  - apply Qlt_alt in E. fold f. apply Qabs_Qle_condition; lra.
  - apply Qgt_alt in E. rewrite inject_Z_plus. change (inject_Z 1) with 1%Q. fold f. apply Qabs_Qle_condition; lra.
Qed.

Lemma rne_le q z : (q <= inject_Z z)%Q -> rne q <= z.
Proof.
  intros H. pose proof (rne_err q) as E. apply Qabs_Qle_condition in E. 
  assert (inject_Z (rne q) <= inject_Z z + (1#2))%Q by lra.
  apply Z.nlt_ge. intros C. assert (z + 1 <= rne q) by lia. rewrite Zle_Qle, inject_Z_plus in H1. change (inject_Z 1) with 1%Q in H1. lra.
Qed.
Lemma rne_ge q z : (inject_Z z <= q)%Q -> z <= rne q.
Proof.
  intros H. pose proof (rne_err q) as E. apply Qabs_Qle_condition in E. 
  assert (inject_Z z <= inject_Z (rne q) + (1#2))%Q by lra.
  apply Z.nlt_ge. intros C. assert (rne q + 1 <= z) by lia. rewrite Zle_Qle, inject_Z_plus in H1. change (inject_Z 1) with 1%Q in H1. lra.
Qed.

(** A number with at most [P] significant bits. *)
Definition rep (P : Z) (q : Q) : Prop := exists m e, 0 <= m < 2 ^ P /\ (q == inject_Z m * p2 e)%Q.

Section FL.
Variable P : Z.
Hypothesis HP : 2 <= P.

Lemma fl_pos_core q : (0 < q)%Q -> exists m e, fl_pos P q = (inject_Z m * p2 e)%Q /\ 2 ^ (P - 1) <= m <= 2 ^ P /\
  (Qabs (fl_pos P q - q) <= (1 # 2) * p2 e)%Q /\ (p2 (P - 1) * p2 e <= q)%Q /\ (q < p2 P * p2 e)%Q /\ m = rne (q / p2 e).
Proof.
  intros Hq. destruct (lead2_spec q Hq) as [L1 L2]. unfold fl_pos. set (e := lead2 q - P + 1).
  assert (A1 : (p2 (P - 1) * p2 e <= q)%Q).
  { rewrite <- p2_add. replace (P - 1 + e) with (lead2 q) by (unfold e; ring). auto. }
  assert (A2 : (q < p2 P * p2 e)%Q).
  { rewrite <- p2_add. replace (P + e) with (lead2 q + 1) by (unfold e; ring). auto. }
  pose proof (p2_pos e) as Hp.
  exists (rne (q / p2 e)), e. split; [reflexivity|]. split.
  - split.
    + apply rne_ge. rewrite <- p2_Z by lia. apply Qle_shift_div_l; auto.
    + apply rne_le. rewrite <- p2_Z by lia. apply Qle_shift_div_r; auto. apply Qlt_le_weak; auto.
  - split; [|auto].
    assert (D : (q == q / p2 e * p2 e)%Q) by (field; apply p2_nz).
    set (t := (q / p2 e)%Q) in *. rewrite D.
    setoid_replace (inject_Z (rne t) * p2 e - t * p2 e)%Q with ((inject_Z (rne t) - t) * p2 e)%Q by ring.
    rewrite Qabs_Qmult, (Qabs_pos (p2 e)) by (apply Qlt_le_weak; auto).
    apply Qmult_le_compat_r; [apply rne_err|apply Qlt_le_weak; auto].
Qed.

Lemma fl_pos_eq q : (0 < q)%Q -> (fl P q == fl_pos P q)%Q.
Proof.
  intros Hq. unfold fl. destruct (Qeq_bool q 0) eqn:E0; [apply Qeq_bool_iff in E0; rewrite E0 in Hq; discriminate|].
  destruct (Qle_bool 0 q) eqn:E1; [apply Qred_correct|].
  assert (Qle_bool 0 q = true) by (apply Qle_bool_iff; lra). congruence.
Qed.

Lemma fl_err q : (0 <= q)%Q -> (Qabs (fl P q - q) <= p2 (- P) * q)%Q.
Proof.
  intros Hq. destruct (Qeq_dec q 0) as [H0|H0].
  - unfold fl. rewrite (Qeq_eq_bool _ _ H0). rewrite H0. setoid_replace (0 - 0)%Q with 0%Q by ring. change (Qabs 0) with 0%Q. lra.
  - assert (H : (0 < q)%Q) by lra. rewrite fl_pos_eq by auto.
    destruct (fl_pos_core q H) as (m & e & _ & _ & E & L1 & _).
    eapply Qle_trans; [exact E|]. 
    apply Qle_trans with (p2 (- P) * (p2 (P - 1) * p2 e))%Q; [|apply Qmult_le_l; auto; apply p2_pos].
    rewrite Qmult_assoc, <- p2_add. replace (- P + (P - 1)) with (-1) by ring. change (p2 (-1)) with (1#2)%Q. apply Qle_refl.
Qed.

Lemma fl_rep q : (0 <= q)%Q -> rep P (fl P q).
Proof.
  intros Hq. destruct (Qeq_dec q 0) as [H0|H0].
  - unfold fl. rewrite (Qeq_eq_bool _ _ H0). exists 0, 0. split; [pose proof (Z.pow_pos_nonneg 2 P); lia|reflexivity].
  - assert (H : (0 < q)%Q) by lra.
    destruct (fl_pos_core q H) as (m & e & E & [M1 M2] & _).
    destruct (Z.eq_dec m (2 ^ P)) as [Em|Nm].
    + exists 1, (P + e). split; [split; [lia|]; pose proof (Z.pow_gt_1 2 P); lia|].
      rewrite (fl_pos_eq q H), E, Em, p2_add, <- p2_Z by lia. change (inject_Z 1) with 1%Q. ring.
    + exists m, e. split; [pose proof (Z.pow_pos_nonneg 2 (P - 1)); lia|]. rewrite (fl_pos_eq q H), E. reflexivity.
Qed.

Lemma fl_le_rep q r : (0 <= q)%Q -> rep P r -> (q <= r)%Q -> (fl P q <= r)%Q.
Proof.
  intros Hq (m & e & Hm & Er) Hle. destruct (Qeq_dec q 0) as [H0|H0].
  - unfold fl. rewrite (Qeq_eq_bool _ _ H0). rewrite <- H0. auto.
  - assert (H : (0 < q)%Q) by lra. rewrite (fl_pos_eq q H).
    destruct (fl_pos_core q H) as (m' & e' & E & [M1 M2] & _ & L1 & _ & Em'). rewrite E. pose proof (p2_pos e') as Hp.
    destruct (Z_lt_le_dec e e') as [C|C].
    + exfalso. apply (Qlt_irrefl r). apply Qlt_le_trans with q; auto. apply Qlt_le_trans with (p2 (P - 1) * p2 e')%Q; auto.
      rewrite Er. apply Qlt_le_trans with (p2 P * p2 e)%Q.
      * apply Qmult_lt_r; [apply p2_pos|]. rewrite p2_Z by lia. rewrite <- Zlt_Qlt. lia.
      * rewrite <- !p2_add. apply p2_le. lia.
    + assert (Er' : (r == inject_Z (m * 2 ^ (e - e')) * p2 e')%Q).
      { rewrite Er, inject_Z_mult, <- p2_Z by lia. rewrite <- Qmult_assoc, <- p2_add. replace (e - e' + e') with e by ring. reflexivity. }
      rewrite Er'. apply Qmult_le_compat_r; [|apply Qlt_le_weak; auto]. rewrite <- Zle_Qle. subst m'.
      apply rne_le. apply Qle_shift_div_r; auto. rewrite <- Er'. auto.
Qed.

Lemma fl_ge_rep q r : rep P r -> (0 < q)%Q -> (r <= q)%Q -> (r <= fl P q)%Q.
Proof.
  intros (m & e & Hm & Er) H Hle. rewrite (fl_pos_eq q H).
  destruct (fl_pos_core q H) as (m' & e' & E & [M1 M2] & _ & L1 & _ & Em'). rewrite E. pose proof (p2_pos e') as Hp.
  destruct (Z_lt_le_dec e e') as [C|C].
  - apply Qlt_le_weak. rewrite Er. apply Qlt_le_trans with (p2 P * p2 e)%Q.
    + apply Qmult_lt_r; [apply p2_pos|]. rewrite p2_Z by lia. rewrite <- Zlt_Qlt. lia.
    + apply Qle_trans with (p2 (P - 1) * p2 e')%Q; [rewrite <- !p2_add; apply p2_le; lia|].
      apply Qmult_le_compat_r; [|apply Qlt_le_weak; auto]. rewrite p2_Z by lia. rewrite <- Zle_Qle. lia.
  - assert (Er' : (r == inject_Z (m * 2 ^ (e - e')) * p2 e')%Q).
    { rewrite Er, inject_Z_mult, <- p2_Z by lia. rewrite <- Qmult_assoc, <- p2_add. replace (e - e' + e') with e by ring. reflexivity. }
    rewrite Er'. apply Qmult_le_compat_r; [|apply Qlt_le_weak; auto]. rewrite <- Zle_Qle. subst m'.
    apply rne_ge. apply Qle_shift_div_l; auto. rewrite <- Er'. auto.
Qed.

Lemma fl_id q : rep P q -> (0 <= q)%Q -> (fl P q == q)%Q.
Proof.
  intros R Hq. destruct (Qeq_dec q 0) as [H0|H0].
  - unfold fl. rewrite (Qeq_eq_bool _ _ H0), H0. reflexivity.
  - apply Qle_antisym; [apply fl_le_rep; auto; apply Qle_refl|apply fl_ge_rep; auto; [lra|apply Qle_refl]].
Qed.

Lemma rep_Z m : 0 <= m < 2 ^ P -> rep P (inject_Z m).
Proof. intros. exists m, 0. split; auto. rewrite p2_0. ring. Qed.

(** A representable number below one is at least 2^-P below one. *)
Lemma rep_lt1 q : rep P q -> (q < 1)%Q -> (q <= 1 - p2 (- P))%Q.
Proof.
  intros (m & e & Hm & Eq) Hlt. pose proof (p2_pos e) as He. pose proof (p2_neg e) as Hn. rewrite Eq in *.
  destruct (Z_le_gt_dec 0 e) as [C|C].
  - assert (m = 0).
    { destruct (Z.eq_dec m 0); auto. exfalso. pose proof (p2_ge1 e C). assert (1 <= m) by lia. rewrite Zle_Qle in H0. change (inject_Z 1) with 1%Q in H0.
      assert (1 * 1 <= inject_Z m * p2 e)%Q by (apply Qmult_le_compat_nonneg; split; lra). lra. }
    subst m. change (inject_Z 0) with 0%Q. pose proof (p2_le (- P) 0 ltac:(lia)). rewrite p2_0 in H. lra.
  - destruct (Z_le_gt_dec (- e) P) as [D|D].
    + assert (Hm2 : m < 2 ^ (- e)).
      { apply Z.nle_gt. intros C2. rewrite Zle_Qle, <- p2_Z in C2 by lia. 
        assert (p2 (- e) * p2 e <= inject_Z m * p2 e)%Q by (apply Qmult_le_compat_r; auto; lra). lra. }
      assert (H1 : (inject_Z m + 1 <= p2 (- e))%Q).
      { rewrite p2_Z by lia. change 1%Q with (inject_Z 1). rewrite <- inject_Z_plus, <- Zle_Qle. lia. }
      assert (H2 : ((inject_Z m + 1) * p2 e <= p2 (- e) * p2 e)%Q) by (apply Qmult_le_compat_r; auto; lra).
      pose proof (p2_le (- P) e ltac:(lia)). lra.
    + assert (H1 : (inject_Z m * p2 e <= p2 P * p2 e)%Q).
      { apply Qmult_le_compat_r; [|lra]. rewrite p2_Z by lia. rewrite <- Zle_Qle. lia. }
      rewrite <- p2_add in H1. pose proof (p2_le (P + e) (-1) ltac:(lia)). change (p2 (-1)) with (1#2)%Q in H.
      pose proof (p2_le (- P) (-1) ltac:(lia)). change (p2 (-1)) with (1#2)%Q in H0. lra.
Qed.

(** Removing the integer part keeps a number representable. *)
Lemma rep_frac q : rep P q -> (0 <= q)%Q -> rep P (q - inject_Z (Qfloor q)).
Proof.
  intros (m & e & Hm & Eq) Hq. destruct (Z_le_gt_dec 0 e) as [C|C].
  - assert (E1 : (q == inject_Z (m * 2 ^ e))%Q) by (rewrite Eq, p2_Z, inject_Z_mult by auto; reflexivity).
    assert (E2 : Qfloor q = m * 2 ^ e) by (rewrite E1; apply Qfloor_Z).
    exists 0, 0. split; [lia|]. rewrite E2, E1. change (inject_Z 0) with 0%Q. ring.
  - set (d := 2 ^ (- e)). assert (Hd : 0 < d) by (unfold d; apply Z.pow_pos_nonneg; lia).
    assert (Ed : (inject_Z d * p2 e == 1)%Q) by (unfold d; rewrite <- p2_Z by lia; rewrite <- p2_add; replace (- e + e) with 0 by ring; reflexivity).
    pose proof (p2_pos e) as He.
    assert (F : Qfloor q = m / d).
    { assert (G1 : (inject_Z (m / d) <= q)%Q).
      { rewrite Eq. apply Qle_trans with (inject_Z (m / d) * (inject_Z d * p2 e))%Q; [rewrite Ed; lra|].
        rewrite Qmult_assoc, <- inject_Z_mult. apply Qmult_le_compat_r; [|lra]. rewrite <- Zle_Qle. pose proof (Z.mul_div_le m d Hd). lia. }
      assert (G2 : (q < inject_Z (m / d + 1))%Q).
      { rewrite Eq. apply Qlt_le_trans with (inject_Z (m / d + 1) * (inject_Z d * p2 e))%Q; [|rewrite Ed; lra].
        rewrite Qmult_assoc, <- inject_Z_mult. apply Qmult_lt_r; auto. rewrite <- Zlt_Qlt. pose proof (Z.mul_succ_div_gt m d Hd). lia. }
      apply Z.le_antisymm.
      - apply Z.lt_succ_r. rewrite Zlt_Qlt. apply Qle_lt_trans with q; [apply Qfloor_le|auto].
      - rewrite <- (Qfloor_Z (m / d)). apply Qfloor_resp_le. auto. }
    exists (m mod d), e. split.
    + pose proof (Z.mod_pos_bound m d Hd). pose proof (Z.mod_le m d ltac:(lia) Hd). lia.
    + rewrite F, Eq. rewrite (Z.mod_eq m d) by lia. unfold Z.sub. rewrite inject_Z_plus, inject_Z_opp, inject_Z_mult.
      setoid_replace (inject_Z (m / d)) with (inject_Z (m / d) * (inject_Z d * p2 e))%Q at 1 by (rewrite Ed; ring). ring.
Qed.

Lemma fl_bounds q : (0 <= q)%Q -> (q * (1 - p2 (- P)) <= fl P q)%Q /\ (fl P q <= q * (1 + p2 (- P)))%Q.
Proof. intros H. pose proof (fl_err q H) as E. apply Qabs_Qle_condition in E. lra. Qed.

Lemma fl_nonneg q : (0 <= q)%Q -> (0 <= fl P q)%Q.
Proof.
  intros H. destruct (fl_bounds q H) as [B _]. pose proof (p2_le (- P) 0 ltac:(lia)) as L. rewrite p2_0 in L.
  assert (0 <= q * (1 - p2 (- P)))%Q by (apply Qmult_le_0_compat; lra). lra.
Qed.
Lemma fl_0 q : (q == 0)%Q -> (fl P q == 0)%Q.
Proof. intros H. unfold fl. rewrite (Qeq_eq_bool _ _ H). reflexivity. Qed.
End FL.

Lemma rep_compat P q r : (q == r)%Q -> rep P q -> rep P r.
Proof. intros E (m & e & H & Hq). exists m, e. split; auto. rewrite <- E. auto. Qed.
