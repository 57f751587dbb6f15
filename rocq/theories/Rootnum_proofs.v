(** Rootnum_proofs.v - the arithmetic of the p-th root iteration. *)
From Verif Require Export Sqrtnum_proofs.
From Coq Require Import QArith Qabs Qpower ZArith Lia Lqa.
Local Open Scope Q_scope.

Fixpoint qp (q : Q) (k : nat) : Q := match k with O => 1 | S k => qp q k * q end.

Lemma qp_power q k : ~ q == 0 -> qp q k == q ^ Z.of_nat k.
Proof.
  intros H. induction k as [|k IH]; [reflexivity|]. cbn [qp]. rewrite Nat2Z.inj_succ. unfold Z.succ. rewrite Qpower_plus by auto. rewrite IH. reflexivity.
Qed.
Lemma qp_compat q r k : q == r -> qp q k == qp r k.
Proof. intros H. induction k as [|k IH]; [reflexivity|]. cbn [qp]. rewrite IH, H. reflexivity. Qed.
Lemma qp_pos q k : 0 < q -> 0 < qp q k.
Proof. intros H. induction k as [|k IH]; [reflexivity|]. cbn [qp]. apply Qmult_lt_0_compat; auto. Qed.
Lemma qp_mult q r k : qp (q * r) k == qp q k * qp r k.
Proof. induction k as [|k IH]; [reflexivity|]. cbn [qp]. rewrite IH. ring. Qed.
Lemma qp_add q j k : qp q (j + k) == qp q j * qp q k.
Proof. induction k as [|k IH]; [rewrite Nat.add_0_r; cbn [qp]; ring|]. rewrite Nat.add_succ_r. cbn [qp]. rewrite IH. ring. Qed.
Lemma qp_one k : qp 1 k == 1.
Proof. induction k as [|k IH]; [reflexivity|]. cbn [qp]. rewrite IH. reflexivity. Qed.
Lemma qp_le q r k : 0 <= q -> q <= r -> qp q k <= qp r k.
Proof.
  intros H1 H2. induction k as [|k IH]; [cbn; lra|]. cbn [qp]. assert (0 <= qp q k). { clear - H1. induction k as [|k IH]; [discriminate|]. cbn [qp]. apply Qmult_le_0_compat; auto. }
  apply Qmult_le_compat_nonneg; split; auto.
Qed.

Definition iN (k : nat) : Q := inject_Z (Z.of_nat k).
Lemma iN_S k : iN (S k) == iN k + 1.
Proof. unfold iN. rewrite Nat2Z.inj_succ. unfold Z.succ. rewrite inject_Z_plus. reflexivity. Qed.
Lemma iN_pos k : 0 <= iN k.
Proof. unfold iN. change 0 with (inject_Z 0). rewrite <- Zle_Qle. lia. Qed.

(** Upper and lower bound of (1+g)^k to second order. *)
Lemma pow_up g k : Qabs (iN k * g) <= 1 # 100 -> qp (1 + g) k <= 1 + iN k * g + (51 # 100) * (iN k * g * (iN k * g)).
Proof.
  induction k as [|k IH]; intros H; [cbn [qp]; change (iN 0) with 0; lra|].
  cbn [qp]. rewrite iN_S in *. pose proof (iN_pos k) as Hk. set (m := iN k) in *.
  apply pm_bnd in H. 
  assert (G : - (1 # 100) <= g /\ g <= 1 # 100).
  { destruct (Qlt_le_dec g 0) as [C|C].
    - assert (m * (- g) >= 0) by (apply Qmult_le_0_compat; lra). lra.
    - assert (m * g >= 0) by (apply Qmult_le_0_compat; lra). lra. }
  assert (H' : Qabs (m * g) <= 1 # 100).
  { apply pm_bnd. destruct (Qlt_le_dec g 0) as [C|C].
    - assert (m * (- g) >= 0) by (apply Qmult_le_0_compat; lra). lra.
    - assert (m * g >= 0) by (apply Qmult_le_0_compat; lra). lra. }
  specialize (IH H'). apply pm_bnd in H'.
  apply Qle_trans with ((1 + m * g + (51 # 100) * (m * g * (m * g))) * (1 + g)); [apply Qmult_le_compat_r; lra|].
  assert (GG : 0 <= g * g) by (rewrite <- abs_sq; apply Qmult_le_0_compat; apply Qabs_nonneg).
  assert (MG : 0 <= m * (g * g)) by (apply Qmult_le_0_compat; auto).
  assert (K : m * g * (m * (g * g)) <= (1 # 100) * (m * (g * g))) by (apply Qmult_le_compat_r; lra).
  setoid_replace ((1 + m * g + (51 # 100) * (m * g * (m * g))) * (1 + g))
    with (1 + m * g + g + m * (g * g) + (51 # 100) * (m * m * (g * g)) + (51 # 100) * (m * g * (m * (g * g)))) by ring.
  setoid_replace (1 + (m + 1) * g + (51 # 100) * ((m + 1) * g * ((m + 1) * g)))
    with (1 + m * g + g + (51 # 100) * (m * m * (g * g)) + (102 # 100) * (m * (g * g)) + (51 # 100) * (g * g)) by ring.
  lra.
Qed.

Lemma pow_lo g k : Qabs (iN k * g) <= 1 # 100 -> 1 + iN k * g + (99 # 200) * (iN k * (iN k - 1) * (g * g)) <= qp (1 + g) k.
Proof.
  induction k as [|k IH]; intros H; [cbn [qp]; change (iN 0) with 0; lra|].
  cbn [qp]. rewrite iN_S in *. pose proof (iN_pos k) as Hk. set (m := iN k) in *.
  apply pm_bnd in H.
  assert (G : - (1 # 100) <= g /\ g <= 1 # 100 /\ Qabs (m * g) <= 1 # 100).
  { destruct (Qlt_le_dec g 0) as [C|C].
    - assert (m * (- g) >= 0) by (apply Qmult_le_0_compat; lra). repeat split; [lra|lra|apply pm_bnd; lra].
    - assert (m * g >= 0) by (apply Qmult_le_0_compat; lra). repeat split; [lra|lra|apply pm_bnd; lra]. }
  destruct G as (G1 & G2 & H'). specialize (IH H'). apply pm_bnd in H'.
  apply Qle_trans with ((1 + m * g + (99 # 200) * (m * (m - 1) * (g * g))) * (1 + g)); [|apply Qmult_le_compat_r; lra].
  assert (GG : 0 <= g * g) by (rewrite <- abs_sq; apply Qmult_le_0_compat; apply Qabs_nonneg).
  assert (MG : 0 <= m * (g * g)) by (apply Qmult_le_0_compat; auto).
  assert (K : - (2 # 100) * (m * (g * g)) <= (m * g - g) * (m * (g * g))) by (apply Qmult_le_compat_r; lra).
  setoid_replace ((1 + m * g + (99 # 200) * (m * (m - 1) * (g * g))) * (1 + g))
    with (1 + m * g + g + m * (g * g) + (99 # 200) * (m * (m - 1) * (g * g)) + (99 # 200) * ((m * g - g) * (m * (g * g)))) by ring.
  setoid_replace (1 + (m + 1) * g + (99 # 200) * ((m + 1) * (m + 1 - 1) * (g * g)))
    with (1 + m * g + g + (99 # 200) * (m * (m - 1) * (g * g)) + (198 # 200) * (m * (g * g))) by ring.
  lra.
Qed.

(** One exact pass: from residual a to .68 a^2, up to the error e of the factor. *)
Lemma residual (p : nat) (a e g dl : Q) : (3 <= p)%nat -> Qabs a <= 1 # 1000 -> dl <= 1 # 1000 -> Qabs (iN p * e) <= dl -> iN p * g == a + iN p * e ->
  Qabs (1 - (1 - a) * qp (1 + g) p) <= (68 # 100) * (a * a) + (102 # 100) * dl.
Proof.
  intros Hp Ha Hd He Hg. pose proof (proj1 (pm_bnd _ _) Ha) as Ha'. pose proof (proj1 (pm_bnd _ _) He) as He'.
  pose proof (Qabs_nonneg (iN p * e)) as D0.
  set (d := iN p * e) in *.
  assert (Hb : Qabs (iN p * g) <= 1 # 100) by (rewrite Hg; apply pm_bnd; lra).
  pose proof (pow_up g p Hb) as U. pose proof (pow_lo g p Hb) as W.
  assert (P3 : 3 <= iN p) by (unfold iN; change 3 with (inject_Z 3); rewrite <- Zle_Qle; lia).
  assert (GG : 0 <= g * g) by (rewrite <- abs_sq; apply Qmult_le_0_compat; apply Qabs_nonneg).
  assert (W2 : 1 + iN p * g + (33 # 100) * (iN p * g * (iN p * g)) <= qp (1 + g) p).
  { eapply Qle_trans; [|exact W].
    setoid_replace (iN p * g * (iN p * g)) with (iN p * iN p * (g * g)) by ring.
    assert (K : ((66 # 99) * (iN p * iN p)) * (g * g) <= iN p * (iN p - 1) * (g * g)).
    { apply Qmult_le_compat_r; auto.
      assert (0 <= (iN p - 3) * iN p) by (apply Qmult_le_0_compat; lra). lra. }
    lra. }
  clear W. rewrite Hg in U, W2. set (t := qp (1 + g) p) in *.
  assert (A0 : 0 <= a * a) by (rewrite <- abs_sq; apply Qmult_le_0_compat; apply Qabs_nonneg).
  assert (DD : 0 <= d * d) by (rewrite <- abs_sq; apply Qmult_le_0_compat; apply Qabs_nonneg).
  assert (AD : Qabs (a * d) <= (1 # 1000) * dl) by (apply pm_mul; auto). apply pm_bnd in AD.
  assert (DD2 : d * d <= dl * dl) by (rewrite <- abs_sq; apply Qmult_le_compat_nonneg; split; auto).
  assert (DD3 : dl * dl <= (1 # 1000) * dl) by (apply Qmult_le_compat_r; lra).
  setoid_replace ((a + d) * (a + d)) with (a * a + 2 * (a * d) + d * d) in U by ring.
  setoid_replace ((a + d) * (a + d)) with (a * a + 2 * (a * d) + d * d) in W2 by ring.
  assert (K1 : (1 - a) * (1 + (a + d) + (33 # 100) * (a * a + 2 * (a * d) + d * d)) <= (1 - a) * t).
  { rewrite !(Qmult_comm (1 - a)). apply Qmult_le_compat_r; lra. }
  assert (K2 : (1 - a) * t <= (1 - a) * (1 + (a + d) + (51 # 100) * (a * a + 2 * (a * d) + d * d))).
  { rewrite !(Qmult_comm (1 - a)). apply Qmult_le_compat_r; lra. }
  set (s := a * a + 2 * (a * d) + d * d) in *.
  assert (S1 : 0 <= s).
  { unfold s. setoid_replace (a * a + 2 * (a * d) + d * d) with ((a + d) * (a + d)) by ring. rewrite <- abs_sq. apply Qmult_le_0_compat; apply Qabs_nonneg. }
  assert (AS : Qabs (a * s) <= (1 # 1000) * s) by (apply pm_mul; auto; rewrite Qabs_pos; lra). apply pm_bnd in AS.
  setoid_replace ((1 - a) * (1 + (a + d) + (33 # 100) * s)) with (1 - a * a + d - a * d + (33 # 100) * (s - a * s)) in K1 by ring.
  setoid_replace ((1 - a) * (1 + (a + d) + (51 # 100) * s)) with (1 - a * a + d - a * d + (51 # 100) * (s - a * s)) in K2 by ring.
  assert (SE : s == a * a + 2 * (a * d) + d * d) by reflexivity.
  apply pm_bnd. lra.
Qed.
