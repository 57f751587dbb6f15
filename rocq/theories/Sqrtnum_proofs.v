(** Sqrtnum_proofs.v - error propagation of one pass of the coupled square-root iteration (rational
    inequalities only). *)
From Coq Require Import QArith Qabs Lqa Psatz.
Local Open Scope Q_scope.

Lemma pm_mul x y a b : Qabs x <= a -> Qabs y <= b -> Qabs (x * y) <= a * b.
Proof.
  intros H1 H2. rewrite Qabs_Qmult. pose proof (Qabs_nonneg x). pose proof (Qabs_nonneg y).
  apply Qmult_le_compat_nonneg; split; auto.
Qed.
Lemma pm_add x y a b : Qabs x <= a -> Qabs y <= b -> Qabs (x + y) <= a + b.
Proof. intros H1 H2. eapply Qle_trans; [apply Qabs_triangle|]. lra. Qed.
Lemma pm_opp x a : Qabs x <= a -> Qabs (- x) <= a.
Proof. rewrite Qabs_opp. auto. Qed.
Lemma pm_bnd x a : Qabs x <= a <-> - a <= x /\ x <= a.
Proof. apply Qabs_Qle_condition. Qed.
Lemma pm_le x a b : Qabs x <= a -> a <= b -> Qabs x <= b.
Proof. intros. eapply Qle_trans; eauto. Qed.
Lemma abs_sq x : Qabs x * Qabs x == x * x.
Proof. rewrite <- Qabs_Qmult. apply Qabs_pos. destruct (Qlt_le_dec x 0).
  - setoid_replace (x * x) with ((- x) * (- x)) by ring. apply Qmult_le_0_compat; lra.
  - apply Qmult_le_0_compat; lra.
Qed.
Lemma small_mul x h k : 0 <= h -> 0 <= x -> x <= k -> x * h <= k * h.
Proof. intros. apply Qmult_le_compat_r; auto. Qed.

(** From the errors of the single operations to the combined ones. *)
Lemma step_t (a b t t1 dl q2 q SW h : Q) : 0 <= h -> h <= 1 # 1000 -> Qabs b <= 1 # 1000 ->
  2 * SW == 1 - b -> q == SW * (1 + t1) -> Qabs t1 <= 3 * h -> Qabs (q2 - 2 * q) <= 2 * h -> Qabs (t - (1 - q2)) <= 2 * h ->
  Qabs (t - b) <= (701 # 100) * h.
Proof.
  intros H0 H1 Hb E1 E2 T1 T2 T3.
  assert (K : Qabs ((1 - b) * t1) <= (1001 # 1000) * (3 * h)).
  { apply pm_mul; auto. apply pm_bnd in Hb. apply pm_bnd. lra. }
  assert (E3 : 2 * q == (1 - b) * (1 + t1)) by (rewrite E2, <- E1; ring).
  apply pm_bnd in T2, T3, K. apply pm_bnd. lra.
Qed.

Lemma step_w (b t t4 e5 h : Q) : 0 <= h -> h <= 1 # 1000 -> Qabs b <= 1 # 1000 -> Qabs (t - b) <= (701 # 100) * h ->
  Qabs t4 <= 3 * h -> Qabs e5 <= 2 * h -> Qabs (t * (1 + t4) + e5 - b) <= (91 # 10) * h.
Proof.
  intros H0 H1 Hb T T4 E5.
  assert (Kt : Qabs t <= 82 # 10000) by (apply pm_bnd in Hb, T; apply pm_bnd; lra).
  pose proof (pm_mul t t4 _ _ Kt T4) as K. apply pm_bnd in K, T, E5. apply pm_bnd. lra.
Qed.

Lemma step_d (a t6 dl h : Q) : 0 <= h -> h <= 1 # 1000 -> Qabs a <= 1 # 1000 -> Qabs t6 <= 3 * h -> Qabs dl <= (205 # 100) * h ->
  Qabs (dl - (1 - a) * t6) <= (51 # 10) * h.
Proof.
  intros H0 H1 Ha T6 D.
  assert (K : Qabs ((1 - a) * t6) <= (1001 # 1000) * (3 * h)).
  { apply pm_mul; auto. apply pm_bnd in Ha. apply pm_bnd. lra. }
  apply pm_bnd in D, K. apply pm_bnd. lra.
Qed.

Lemma step_num (a b e2 e3 t8 e9 g h : Q) : 0 <= h -> h <= 1 # 1000 -> Qabs a <= 1 # 1000 -> Qabs b <= 1 # 1000 ->
  Qabs e2 <= (91 # 10) * h -> Qabs e3 <= (51 # 10) * h -> Qabs t8 <= 3 * h -> Qabs e9 <= 2 * h ->
  2 * (1 - a) * (g - e9) == (1 - b) * (1 + b + e2) * ((a + e3) * (1 + t8)) ->
  Qabs g <= (51 # 100) * Qabs a + 5 * h /\
  Qabs (1 - (1 - a) * ((1 + g) * (1 + g))) <= Qabs a * (b * b) + (26 # 100) * (a * a) + 10 * h /\
  Qabs (1 - (1 - b) * (1 + b + e2) * (1 + g)) <= b * b + (52 # 100) * Qabs a + 15 * h.
Proof.
  intros H0 H1 Ha Hb E2 E3 T8 E9 EQ.
  pose proof (Qabs_nonneg a) as Aa.
  assert (Bb : Qabs (b * b) <= (1 # 1000) * (1 # 1000)) by (apply pm_mul; auto).
  assert (Bb0 : 0 <= b * b) by (rewrite <- abs_sq; apply Qmult_le_0_compat; apply Qabs_nonneg).
  (* K = 1 - b^2 + k *)
  set (k := (1 - b) * e2).
  assert (Hk : Qabs k <= (92 # 10) * h).
  { apply pm_le with ((1001 # 1000) * ((91 # 10) * h)); [|lra]. apply pm_mul; auto. apply pm_bnd in Hb. apply pm_bnd. lra. }
  assert (EK : (1 - b) * (1 + b + e2) == 1 - b * b + k) by (unfold k; ring).
  set (e6 := e3 + (a + e3) * t8).
  assert (H6 : Qabs e6 <= (52 # 10) * h).
  { assert (T : Qabs ((a + e3) * t8) <= (7 # 1000) * (3 * h)).
    { apply pm_mul; auto. apply pm_bnd in Ha, E3. apply pm_bnd. lra. }
    unfold e6. apply pm_bnd in T, E3. apply pm_bnd. lra. }
  assert (Ea : (a + e3) * (1 + t8) == a + e6) by (unfold e6; ring).
  set (e7 := - (b * b * e6) + e6 + k * (a + e6) + 2 * (1 - a) * e9).
  assert (H7 : Qabs e7 <= (95 # 10) * h).
  { assert (T1 : Qabs (b * b * e6) <= (1 # 1000) * (1 # 1000) * ((52 # 10) * h)) by (apply pm_mul; auto).
    assert (T2 : Qabs (k * (a + e6)) <= (92 # 10) * h * (7 # 1000)).
    { apply pm_mul; auto. apply pm_bnd in Ha, H6. apply pm_bnd. lra. }
    assert (T3 : Qabs (2 * (1 - a) * e9) <= (2002 # 1000) * (2 * h)).
    { apply pm_mul; auto. apply pm_bnd in Ha. apply pm_bnd. lra. }
    unfold e7. apply pm_bnd in T1, T2, T3, H6. apply pm_bnd. lra. }
  set (y := 2 * (1 - a) * g).
  assert (Ey : y == a - a * (b * b) + e7).
  { unfold y. setoid_replace (2 * (1 - a) * g) with (2 * (1 - a) * (g - e9) + 2 * (1 - a) * e9) by ring. rewrite EQ, EK, Ea. unfold e7. ring. }
  assert (Hab : Qabs (a * (b * b)) <= Qabs a * ((1 # 1000) * (1 # 1000))) by (apply pm_mul; auto; apply Qle_refl).
  assert (Hy : Qabs y <= (1001 # 1000) * Qabs a + (95 # 10) * h).
  { rewrite Ey. pose proof (proj1 (pm_bnd a (Qabs a)) (Qle_refl _)) as Sa. apply pm_bnd in Hab, H7. apply pm_bnd. lra. }
  (* g = y / (2 (1 - a)) *)
  set (i := / (2 * (1 - a))).
  assert (Hi : Qabs i <= 5006 # 10000).
  { assert (0 < 2 * (1 - a)) by (apply pm_bnd in Ha; lra). unfold i. rewrite Qabs_pos by (apply Qlt_le_weak, Qinv_lt_0_compat; auto).
    setoid_replace (/ (2 * (1 - a))) with (1 / (2 * (1 - a))) by (unfold Qdiv; ring). apply Qle_shift_div_r; auto. apply pm_bnd in Ha. lra. }
  assert (Eg : g == y * i) by (unfold y, i; field; apply pm_bnd in Ha; lra).
  assert (Hg0 : Qabs g <= ((1001 # 1000) * Qabs a + (95 # 10) * h) * (5006 # 10000)) by (rewrite Eg; apply pm_mul; auto).
  assert (Hg : Qabs g <= (51 # 100) * Qabs a + 5 * h) by (eapply pm_le; [exact Hg0|lra]).
  split; [exact Hg|]. split.
  - setoid_replace (1 - (1 - a) * ((1 + g) * (1 + g))) with (a - y - (1 - a) * (g * g)) by (unfold y; ring).
    rewrite Ey. setoid_replace ((1 - a) * (g * g)) with (y * y * (i * (1 # 2))).
    2:{ rewrite Eg. unfold i. field. apply pm_bnd in Ha. lra. }
    assert (Hi2 : Qabs (i * (1 # 2)) <= 25031 # 100000).
    { eapply pm_le; [apply (pm_mul i (1 # 2) _ (1 # 2) Hi); discriminate|discriminate]. }
    assert (Hyy : Qabs (y * y) <= (102 # 100) * (a * a) + (12 # 100) * h).
    { eapply pm_le; [apply (pm_mul y y _ _ Hy Hy)|].
      assert (Q1 : Qabs a * h <= (1 # 1000) * h) by (apply Qmult_le_compat_r; auto).
      assert (Q2 : h * h <= (1 # 1000) * h) by (apply Qmult_le_compat_r; auto).
      pose proof (abs_sq a) as Q3.
      assert (Q4 : 0 <= a * a) by (rewrite <- Q3; apply Qmult_le_0_compat; auto).
      setoid_replace (((1001 # 1000) * Qabs a + (95 # 10) * h) * ((1001 # 1000) * Qabs a + (95 # 10) * h))
        with ((1002001 # 1000000) * (Qabs a * Qabs a) + (19019 # 1000) * (Qabs a * h) + (9025 # 100) * (h * h)) by ring.
      rewrite Q3. lra. }
    pose proof (pm_mul _ _ _ _ Hyy Hi2) as HH.
    assert (Hab2 : Qabs (a * (b * b)) <= Qabs a * (b * b)) by (apply pm_mul; [apply Qle_refl|rewrite Qabs_pos; lra]).
    assert (Q4 : 0 <= a * a) by (rewrite <- abs_sq; apply Qmult_le_0_compat; auto).
    apply pm_bnd in HH, Hab2, H7. apply pm_bnd. lra.
  - rewrite EK. setoid_replace (1 - (1 - b * b + k) * (1 + g)) with (b * b - k - (1 - b * b + k) * g) by ring.
    assert (HK : Qabs ((1 - b * b + k) * g) <= (1011 # 1000) * (((1001 # 1000) * Qabs a + (95 # 10) * h) * (5006 # 10000))).
    { apply pm_mul; auto. apply pm_bnd in Bb, Hk. apply pm_bnd. lra. }
    apply pm_bnd in HK, Hk. apply pm_bnd. lra.
Qed.
