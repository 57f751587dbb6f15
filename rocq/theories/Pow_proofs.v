(** Pow_proofs.v - integer powers by the square-and-multiply ladder. *)
From Verif Require Export Div_proofs Exact_proofs Refute_arith.
From Coq Require Import Lqa.
Local Open Scope Z_scope.

Section GEN.
Variable c : cfg.
Variable mem : memory.
Variable b : dec.
Variable p : Z.
Variable R : Z -> dec -> Prop.
Hypothesis R0 : R 0 (from_small_unsigned c 1).
Hypothesis R1 : R 1 b.
Hypothesis Rmul : forall i k j x y, 0 <= k -> 1 <= j -> k + j <= p -> R k x -> R j y ->
  exists z, mulm c mem i x y = Some z /\ R (k + j) z.

Lemma ladder_gen f : forall i q m s r y, 1 <= q < 2 ^ Z.of_nat f -> 0 <= m -> 1 <= s -> m + s * q = p -> R m r -> R s y ->
  exists z, pow_ladder c f mem i q r y = Some z /\ R p z.
Proof.
  induction f as [|f IH]; intros i q m s r y Hq Hm Hs Hinv Rm Rs; [change (2 ^ Z.of_nat 0) with 1 in Hq; lia|].
  cbn [pow_ladder].
  pose proof (Z.div_mod q 2 ltac:(lia)) as Dq.
  assert (Od : q mod 2 = if Z.odd q then 1 else 0) by (rewrite Zmod_odd; reflexivity).
  assert (Hq2 : 0 <= q / 2 < 2 ^ Z.of_nat f).
  { split; [apply Z.div_pos; lia|]. apply Z.div_lt_upper_bound; [lia|]. rewrite <- Z.pow_succ_r by lia. rewrite <- Nat2Z.inj_succ. lia. }
  assert (S2 : s * q = 2 * (s * (q / 2)) + s * (q mod 2)) by (rewrite Dq at 1; ring).
  assert (P2 : 0 <= s * (q / 2)) by (apply Z.mul_nonneg_nonneg; lia).
  assert (Step : exists r', (if Z.odd q then mulm c mem i r y else Some r) = Some r' /\ R (m + s * (q mod 2)) r').
  { rewrite Od in *. destruct (Z.odd q).
    - rewrite Z.mul_1_r in *. apply Rmul; auto. lia.
    - rewrite Z.mul_0_r, Z.add_0_r. eauto. }
  destruct Step as (r' & -> & Rr'). destruct (q / 2 =? 0) eqn:C.
  - assert (C' : q / 2 = 0) by lia. exists r'. split; auto. rewrite C' in *.
    assert (m + s * (q mod 2) = p) by (rewrite <- Hinv, S2; ring). rewrite <- H. auto.
  - assert (s * 1 <= s * (q / 2)) by (apply Z.mul_le_mono_nonneg_l; lia).
    assert (0 <= s * (q mod 2)) by (rewrite Od; destruct (Z.odd q); lia).
    destruct (Rmul (i + 1)%nat s s y y) as (y' & -> & Ry'); auto; try lia.
    apply (IH _ _ (m + s * (q mod 2)) (s + s)); auto; try lia.
Qed.

Lemma pow_gen : 0 <= p < 2 ^ 63 -> exists z, pow_nonneg c mem b p = Some z /\ R p z.
Proof.
  intros Hp. unfold pow_nonneg.
  destruct (p =? 0) eqn:C0; [assert (p = 0) by lia; subst; eauto|].
  destruct (p =? 1) eqn:C1; [assert (p = 1) by lia; subst; eauto|].
  destruct (p =? 2) eqn:C2; [assert (p = 2) by lia; subst; apply (Rmul 0 1 1); auto; lia|].
  destruct (p =? 3) eqn:C3.
  { assert (p = 3) by lia; subst. destruct (Rmul 0%nat 1 1 b b) as (r & -> & Hr); auto; try lia. apply (Rmul 1 2 1); auto; lia. }
  destruct (p =? 4) eqn:C4.
  { assert (p = 4) by lia; subst. destruct (Rmul 0%nat 1 1 b b) as (r & -> & Hr); auto; try lia. apply (Rmul 1 2 2); auto; lia. }
  apply (ladder_gen 64 0 p 0 1); auto; try lia.
Qed.
End GEN.

(** Rational facts. *)
Lemma compound (e z1 z2 z q1 q2 a1 a2 : Q) : (0 <= e -> 0 <= a1 -> 0 <= a2 ->
  Qabs (z1 - q1) <= a1 * Qabs q1 -> Qabs (z2 - q2) <= a2 * Qabs q2 -> Qabs (z - z1 * z2) <= Qabs (z1 * z2) * e ->
  Qabs (z - q1 * q2) <= ((1 + a1) * (1 + a2) * (1 + e) - 1) * Qabs (q1 * q2))%Q.
Proof.
  intros He A1 A2 H1 H2 H3. rewrite Qabs_Qmult in H3. rewrite Qabs_Qmult.
  set (m1 := Qabs q1) in *. set (m2 := Qabs q2) in *.
  assert (M1 : (0 <= m1)%Q) by apply Qabs_nonneg. assert (M2 : (0 <= m2)%Q) by apply Qabs_nonneg.
  assert (Z1 : (Qabs z1 <= (1 + a1) * m1)%Q).
  { setoid_replace z1 with ((z1 - q1) + q1)%Q by ring. eapply Qle_trans; [apply Qabs_triangle|]. fold m1. lra. }
  assert (Z2 : (Qabs z2 <= (1 + a2) * m2)%Q).
  { setoid_replace z2 with ((z2 - q2) + q2)%Q by ring. eapply Qle_trans; [apply Qabs_triangle|]. fold m2. lra. }
  pose proof (Qabs_nonneg z1) as N1. pose proof (Qabs_nonneg z2) as N2.
  assert (Z12 : (Qabs z1 * Qabs z2 <= (1 + a1) * m1 * ((1 + a2) * m2))%Q) by (apply Qmult_le_compat_nonneg; split; auto).
  setoid_replace (z - q1 * q2)%Q with ((z - z1 * z2) + (z1 * (z2 - q2) + (z1 - q1) * q2))%Q by ring.
  eapply Qle_trans; [apply Qabs_triangle|].
  assert (T : (Qabs (z1 * (z2 - q2) + (z1 - q1) * q2) <= ((1 + a1) * m1) * (a2 * m2) + (a1 * m1) * m2)%Q).
  { eapply Qle_trans; [apply Qabs_triangle|]. rewrite !Qabs_Qmult. fold m2. apply Qplus_le_compat.
    - apply Qmult_le_compat_nonneg; split; auto. apply Qabs_nonneg.
    - apply Qmult_le_compat_r; auto. }
  assert (T2 : (Qabs z1 * Qabs z2 * e <= (1 + a1) * m1 * ((1 + a2) * m2) * e)%Q) by (apply Qmult_le_compat_r; auto).
  lra.
Qed.

(** (1+e)^k <= 1 + 2ke while 2ke <= 1. *)
Lemma power_linear (e : Q) (k : nat) : (0 <= e)%Q -> (inject_Z (2 * Z.of_nat k) * e <= 1)%Q ->
  (1 <= (1 + e) ^ Z.of_nat k /\ (1 + e) ^ Z.of_nat k <= 1 + inject_Z (2 * Z.of_nat k) * e)%Q.
Proof.
  intros He. induction k as [|k IH]; intros Hk; [cbn; change (inject_Z 0) with 0%Q; lra|].
  assert (S1 : (inject_Z (2 * Z.of_nat (S k)) == inject_Z (2 * Z.of_nat k) + 2)%Q).
  { rewrite Nat2Z.inj_succ. replace (2 * Z.succ (Z.of_nat k)) with (2 * Z.of_nat k + 2) by lia. rewrite inject_Z_plus. reflexivity. }
  rewrite S1 in *. set (K := inject_Z (2 * Z.of_nat k)) in *.
  destruct IH as [I1 I2]; [lra|].
  assert (P1 : ((1 + e) ^ Z.of_nat (S k) == (1 + e) ^ Z.of_nat k * (1 + e))%Q).
  { rewrite Nat2Z.inj_succ, <- Z.add_1_r, Qpower_plus by lra. reflexivity. }
  rewrite P1. set (w := ((1 + e) ^ Z.of_nat k)%Q) in *.
  assert (K0 : (0 <= K)%Q) by (unfold K; change 0%Q with (inject_Z 0); rewrite <- Zle_Qle; lia).
  assert (T1 : (w * (1 + e) <= (1 + K * e) * (1 + e))%Q) by (apply Qmult_le_compat_r; lra).
  assert (T2 : (1 * (1 + e) <= w * (1 + e))%Q) by (apply Qmult_le_compat_r; lra).
  assert (T3 : (K * e * e <= 1 * e)%Q) by (apply Qmult_le_compat_r; lra).
  split; lra.
Qed.

Lemma Qpower_nz (q : Q) i : ~ (q == 0)%Q -> ~ (q ^ i == 0)%Q.
Proof. intros H. apply Qpower_not_0; auto. Qed.

(** Powers lie between 1 and the last one. *)
Lemma power_between (q : Q) i j : (0 < q)%Q -> 0 <= i <= j -> 
  ((1 <= q -> 1 <= q ^ i /\ q ^ i <= q ^ j) /\ (q <= 1 -> q ^ i <= 1 /\ q ^ j <= q ^ i))%Q.
Proof.
  intros Hq Hij.
  assert (Pos : forall k, (0 < q ^ k)%Q) by (intros; apply Qpower_0_lt; auto).
  assert (U : forall k, 0 <= k -> ((1 <= q -> 1 <= q ^ k) /\ (q <= 1 -> q ^ k <= 1))%Q).
  { intros k Hk. rewrite <- (Z2Nat.id k Hk). generalize (Z.to_nat k) as m. induction m as [|m IH]; [cbn; split; lra|].
    rewrite Nat2Z.inj_succ, <- Z.add_1_r, Qpower_plus by lra. pose proof (Pos (Z.of_nat m)). change (q ^ 1)%Q with q. split; intros K.
    - apply (proj1 IH) in K as K1. assert (1 * q <= q ^ Z.of_nat m * q)%Q by (apply Qmult_le_compat_r; lra). lra.
    - apply (proj2 IH) in K as K1. assert (q ^ Z.of_nat m * q <= 1 * q)%Q by (apply Qmult_le_compat_r; lra). lra. }
  assert (S : (q ^ j == q ^ i * q ^ (j - i))%Q) by (rewrite <- Qpower_plus by lra; replace (i + (j - i)) with j by lia; reflexivity).
  pose proof (Pos i) as Pi. destruct (U i ltac:(lia)) as [U1 U2]. destruct (U (j - i) ltac:(lia)) as [U3 U4].
  split; intros K; split; auto; rewrite S.
  - assert (q ^ i * 1 <= q ^ i * q ^ (j - i))%Q by (apply Qmult_le_l; auto). lra.
  - assert (q ^ i * q ^ (j - i) <= q ^ i * 1)%Q by (apply Qmult_le_l; auto). lra.
Qed.

Lemma Qabs_inv_gen (q : Q) : (Qabs (/ q) == / Qabs q)%Q.
Proof. destruct q as [[|m|m] d]; reflexivity. Qed.

Lemma Qabs_power (q : Q) i : (Qabs (q ^ i) == Qabs q ^ i)%Q.
Proof.
  assert (N : forall k : nat, (Qabs (q ^ Z.of_nat k) == Qabs q ^ Z.of_nat k)%Q).
  { induction k as [|k IH]; [reflexivity|]. destruct (Qeq_dec q 0) as [Z|Z].
    - rewrite Z. rewrite Nat2Z.inj_succ. rewrite !Qpower_0 by lia. reflexivity.
    - assert (~ (Qabs q == 0)%Q) by (intros K; apply Z; destruct (Qlt_le_dec q 0); [rewrite Qabs_neg in K by lra|rewrite Qabs_pos in K by lra]; lra).
      rewrite Nat2Z.inj_succ, <- Z.add_1_r, !Qpower_plus by auto. rewrite Qabs_Qmult, IH. reflexivity. }
  destruct (Z_le_gt_dec 0 i) as [H|H].
  - rewrite <- (Z2Nat.id i) by auto. apply N.
  - replace i with (- Z.of_nat (Z.to_nat (- i))) by lia. rewrite !Qpower_opp. rewrite Qabs_inv_gen. rewrite N. reflexivity.
Qed.

Section PE.
Variable c : cfg.
Notation L := (c_limb c).
Notation B := (mask L).
Notation V := (limbs_value B).
Notation ok := (digits_ok B).
Notation P n := (B ^ Z.of_nat n).
Notation E := (ebits (c_expo c)).
Notation n := (nel c).
Notation M := (max_exp10_of (c_expo c)).
Hypothesis Hc : cfg_ok c.
Hypothesis Hk : newton_ok c.
Let HB : 0 < B := mask_pos L.

Lemma small_one : from_small_unsigned c 1 = one c.
Proof.
  unfold from_small_unsigned, one, from_lst. pose proof (B_gt9 c). pose proof (nel_ge4 c Hc).
  replace (1 <? B) with true by lia. cbn [length]. replace (1 <? n)%nat with true by (symmetry; apply Nat.ltb_lt; lia).
  reflexivity.
Qed.

Lemma isone_one : isone_sign_neutral c (one c) = true /\ iszero (one c) = false.
Proof.
  pose proof (nel_ge4 c Hc). assert (Z1 : iszero (one c) = false).
  { unfold iszero, one, from_lst. cbn [length]. replace (1 <? n)%nat with true by (symmetry; apply Nat.ltb_lt; lia). reflexivity. }
  split; auto. apply isone_iff; auto; [apply one_normal; auto|]. left. unfold is_one.
  destruct (max_min_values c Hc) as (_ & _ & _ & Hv & _). rewrite Hv. reflexivity.
Qed.

Lemma one_times mem i y : normal c y -> iszero y = false -> mulm c mem i (from_small_unsigned c 1) y = Some y.
Proof.
  intros Hy Zy. rewrite small_one. unfold mulm, mul. destruct isone_one as [O Z1]. rewrite Z1, Zy. cbn [orb].
  change (isone_sign_neutral c (set_neg (one c) false)) with (isone_sign_neutral c (one c)). rewrite O.
  change (dneg (one c)) with false. rewrite Bool.xorb_false_l. rewrite set_neg_same. reflexivity.
Qed.

Lemma mulm_normal mem i x y : normal c x -> mulm c mem i x y =
  mul c (fst (mem i (Nat.min (dprec x) (dprec y)))) (snd (mem i (Nat.min (dprec x) (dprec y)))) x y.
Proof.
  intros Hx. unfold mulm. replace (dprec (if iszero x || iszero y then zero c else x)) with (dprec x); [reflexivity|].
  destruct (normal_facts c Hc x Hx) as (_ & _ & Px & _). rewrite Px. destruct (iszero x || iszero y); auto.
Qed.

Lemma mulm_pool mem i x y : memory_ok mem -> normal c x -> normal c y ->
  pool_ok c (fst (mem i (Nat.min (dprec x) (dprec y)))) (snd (mem i (Nat.min (dprec x) (dprec y)))).
Proof.
  intros Hm Hx Hy. destruct (normal_facts c Hc x Hx) as (_ & _ & Px & _). destruct (normal_facts c Hc y Hy) as (_ & _ & Py & _).
  rewrite Px, Py, Nat.min_id. apply memory_pool; auto.
Qed.

Variable mem : memory.
Hypothesis Hmem : memory_ok mem.
Variable b : dec.
Hypothesis Hb : normal c b.
Hypothesis Zb : iszero b = false.
Variable p : Z.
Hypothesis Hp : 0 <= p < 2 ^ 63.
Notation eps := (p10 (- (c_digits10 c + 2 * edc c))).
Hypothesis Hsmall : (inject_Z (4 * p) * eps <= 1)%Q.
Let beta := value c b.
Hypothesis Hlow : (p10 (- M + 2 * edc c + 2) <= Qabs (beta ^ p))%Q.
Hypothesis Hhigh : (Qabs (beta ^ p) <= p10 (M - 1))%Q.

Lemma beta_nz : ~ (beta == 0)%Q.
Proof. unfold beta. intros K. apply (value_zero_iff c Hc b Hb) in K. congruence. Qed.

Lemma between_bounds i : 0 <= i <= p -> (p10 (- M + 2 * edc c + 2) <= Qabs (beta ^ i) /\ Qabs (beta ^ i) <= p10 (M - 1))%Q.
Proof.
  intros Hi. pose proof beta_nz as Nz. rewrite Qabs_power in *. set (q := Qabs beta) in *.
  assert (Q0 : (0 < q)%Q). { unfold q. destruct (Qlt_le_dec beta 0); [rewrite Qabs_neg by lra; lra|]. rewrite Qabs_pos by lra.
    destruct (Qeq_dec beta 0); [contradiction|lra]. }
  destruct (power_between q i p Q0 Hi) as [U1 U2].
  pose proof (max_exp10_bounds c) as (HM & _). pose proof (edc_pos c) as He.
  assert (L1 : (p10 (- M + 2 * edc c + 2) <= 1)%Q) by (rewrite <- p10_0; apply p10_le; lia).
  assert (L2 : (1 <= p10 (M - 1))%Q) by (rewrite <- p10_0; apply p10_le; lia).
  destruct (Qlt_le_dec q 1) as [C|C].
  - destruct (U2 (Qlt_le_weak _ _ C)). split; lra.
  - destruct (U1 C). split; lra.
Qed.

Definition okpow (i : Z) (z : dec) : Prop :=
  i = 0 /\ z = from_small_unsigned c 1 \/
  1 <= i /\ normal c z /\ iszero z = false /\ (Qabs (value c z - beta ^ i) <= ((1 + eps) ^ (i - 1) - 1) * Qabs (beta ^ i))%Q.

Lemma eps0 : (0 < eps)%Q.
Proof. apply p10_pos. Qed.

Lemma growth i : 0 <= i <= p -> (1 <= (1 + eps) ^ i /\ (1 + eps) ^ i <= 3 # 2)%Q.
Proof.
  intros Hi. pose proof eps0 as E0.
  assert (K : (inject_Z (2 * i) * eps <= 1 # 2)%Q).
  { assert (inject_Z (2 * (2 * i)) * eps <= inject_Z (4 * p) * eps)%Q by (apply Qmult_le_compat_r; [rewrite <- Zle_Qle; lia|lra]).
    rewrite (inject_Z_mult 2 (2 * i)) in H. change (inject_Z 2) with 2%Q in H. lra. }
  destruct (power_linear eps (Z.to_nat i)) as [A1 A2]; [lra|rewrite Z2Nat.id by lia; lra|].
  rewrite Z2Nat.id in * by lia. split; [auto|lra].
Qed.

Lemma okpow_mul i k j x y : 0 <= k -> 1 <= j -> k + j <= p -> okpow k x -> okpow j y ->
  exists z, mulm c mem i x y = Some z /\ okpow (k + j) z.
Proof.
  intros Hk0 Hj Hkj Rx Ry. destruct Ry as [(K & _)|(_ & Ny & Zy & Ey)]; [lia|].
  destruct Rx as [(-> & ->)|(Hk1 & Nx & Zx & Ex)].
  - exists y. split; [apply one_times; auto|]. right. rewrite Z.add_0_l. auto.
  - pose proof eps0 as E0. pose proof beta_nz as Nz.
    assert (S : (beta ^ (k + j) == beta ^ k * beta ^ j)%Q) by (apply Qpower_plus; auto).
    destruct (between_bounds (k + j) ltac:(lia)) as [Lo Hi]. rewrite S, Qabs_Qmult in Lo, Hi.
    assert (G1 := growth (k - 1) ltac:(lia)). assert (G2 := growth (j - 1) ltac:(lia)).
    assert (G12 : ((1 + eps) ^ (k - 1) * (1 + eps) ^ (j - 1) <= 3 # 2)%Q).
    { rewrite <- Qpower_plus by lra. apply growth. lia. }
    set (a1 := ((1 + eps) ^ (k - 1))%Q) in *. set (a2 := ((1 + eps) ^ (j - 1))%Q) in *.
    set (m1 := Qabs (beta ^ k)) in *. set (m2 := Qabs (beta ^ j)) in *.
    assert (M1 : (0 <= m1)%Q) by apply Qabs_nonneg. assert (M2 : (0 <= m2)%Q) by apply Qabs_nonneg.
    apply Qabs_Qle_condition in Ex as Ex'. apply Qabs_Qle_condition in Ey as Ey'.
    assert (X2 : (Qabs (value c x) <= a1 * m1 /\ (1 # 2) * m1 <= Qabs (value c x))%Q).
    { assert (T : ((a1 - 1) * m1 <= (1 # 2) * m1)%Q) by (apply Qmult_le_compat_r; lra).
      split.
      - setoid_replace (value c x) with ((value c x - beta ^ k) + beta ^ k)%Q by ring. eapply Qle_trans; [apply Qabs_triangle|]. fold m1. lra.
      - assert (m1 <= Qabs (value c x) + Qabs (value c x - beta ^ k))%Q; [|lra].
        unfold m1. setoid_replace (beta ^ k)%Q with (value c x + - (value c x - beta ^ k))%Q at 1 by ring.
        eapply Qle_trans; [apply Qabs_triangle|]. rewrite Qabs_opp. lra. }
    assert (Y2 : (Qabs (value c y) <= a2 * m2 /\ (1 # 2) * m2 <= Qabs (value c y))%Q).
    { assert (T : ((a2 - 1) * m2 <= (1 # 2) * m2)%Q) by (apply Qmult_le_compat_r; lra).
      split.
      - setoid_replace (value c y) with ((value c y - beta ^ j) + beta ^ j)%Q by ring. eapply Qle_trans; [apply Qabs_triangle|]. fold m2. lra.
      - assert (m2 <= Qabs (value c y) + Qabs (value c y - beta ^ j))%Q; [|lra].
        unfold m2. setoid_replace (beta ^ j)%Q with (value c y + - (value c y - beta ^ j))%Q at 1 by ring.
        eapply Qle_trans; [apply Qabs_triangle|]. rewrite Qabs_opp. lra. }
    destruct (value_bracket c Hc x Nx Zx) as [B1 B2]. destruct (value_bracket c Hc y Ny Zy) as [B3 B4].
    assert (Mag : (Qabs (value c x) * Qabs (value c y) <= (3 # 2) * p10 (M - 1))%Q).
    { apply Qle_trans with ((a1 * m1) * (a2 * m2))%Q; [apply Qmult_le_compat_nonneg; split; try apply Qabs_nonneg; tauto|].
      apply Qle_trans with ((a1 * a2) * (m1 * m2))%Q; [lra|]. 
      apply Qmult_le_compat_nonneg; split; auto; apply Qmult_le_0_compat; lra. }
    assert (Mag2 : ((1 # 4) * p10 (- M + 2 * edc c + 2) <= Qabs (value c x) * Qabs (value c y))%Q).
    { apply Qle_trans with (((1 # 2) * m1) * ((1 # 2) * m2))%Q; [lra|].
      apply Qmult_le_compat_nonneg; split; try tauto; lra. }
    assert (Hexp : - M < dexp x + dexp y < M).
    { split.
      - assert (T : (p10 (- M + 2 * edc c) < p10 (dexp x + edc c + (dexp y + edc c)))%Q).
        { rewrite (p10_add (dexp x + edc c) (dexp y + edc c)). apply Qlt_le_trans with ((1 # 4) * p10 (- M + 2 * edc c + 2))%Q.
          - rewrite (p10_add (- M + 2 * edc c) 2). change (p10 2) with 100%Q. pose proof (p10_pos (- M + 2 * edc c)). lra.
          - eapply Qle_trans; [exact Mag2|]. apply Qmult_le_compat_nonneg; split; try apply Qabs_nonneg; lra. }
        apply (proj1 (p10_lt _ _)) in T. lia.
      - assert (T : (p10 (dexp x + dexp y) < p10 M)%Q).
        { rewrite p10_add. eapply Qle_lt_trans; [apply Qmult_le_compat_nonneg; split; [apply Qlt_le_weak, p10_pos|exact B1|apply Qlt_le_weak, p10_pos|exact B3]|].
          eapply Qle_lt_trans; [exact Mag|]. replace M with (M - 1 + 1) at 2 by lia. rewrite (p10_add (M - 1) 1). change (p10 1) with 10%Q.
          pose proof (p10_pos (M - 1)). lra. }
        apply (proj1 (p10_lt _ _)) in T. lia. }
    destruct (mul_rel c Hc (fst (mem i (Nat.min (dprec x) (dprec y)))) (snd (mem i (Nat.min (dprec x) (dprec y)))) x y)
      as (z & E1 & Nz' & Zz & _ & Err); auto; [apply newton_mul_ok; auto|apply mulm_pool; auto|].
    exists z. split; [rewrite mulm_normal; auto|]. right. split; [lia|]. split; [auto|]. split; [auto|].
    rewrite S. pose proof (compound eps (value c x) (value c y) (value c z) (beta ^ k) (beta ^ j) (a1 - 1) (a2 - 1)) as C.
    eapply Qle_trans; [apply C; [lra|lra|lra|exact Ex|exact Ey|apply Qlt_le_weak; exact Err]|]. apply Qmult_le_compat_r; [|apply Qabs_nonneg].
    replace (k + j - 1) with ((k - 1) + (j - 1) + 1) by lia. rewrite !Qpower_plus by lra. fold a1 a2. change ((1 + eps) ^ 1)%Q with (1 + eps)%Q. lra.
Qed.

Lemma pow_accurate : 1 <= p -> exists z, pow_nonneg c mem b p = Some z /\ normal c z /\ iszero z = false /\
  (Qabs (value c z - beta ^ p) <= inject_Z (2 * (p - 1)) * eps * Qabs (beta ^ p))%Q.
Proof.
  intros H1. destruct (pow_gen c mem b p okpow) as (z & E1 & R); auto.
  - left. auto.
  - right. split; [lia|]. split; [auto|]. split; [auto|]. change (beta ^ 1)%Q with beta. fold beta.
    setoid_replace (beta - beta)%Q with 0%Q by ring. change (Qabs 0) with 0%Q. change ((1 + eps) ^ (1 - 1))%Q with 1%Q. lra.
  - intros. apply okpow_mul; auto.
  - exists z. split; auto. destruct R as [(K & _)|(_ & Nz & Zz & Err)]; [lia|]. split; [auto|]. split; [auto|].
    eapply Qle_trans; [exact Err|]. apply Qmult_le_compat_r; [|apply Qabs_nonneg].
    pose proof eps0 as E0. destruct (power_linear eps (Z.to_nat (p - 1))) as [A1 A2]; [lra| |].
    + rewrite Z2Nat.id by lia. apply Qle_trans with (inject_Z (4 * p) * eps)%Q; auto. apply Qmult_le_compat_r; [rewrite <- Zle_Qle; lia|lra].
    + rewrite Z2Nat.id in * by lia. lra.
Qed.
End PE.

Section PX.
Variable c : cfg.
Notation M := (max_exp10_of (c_expo c)).
Hypothesis Hc : cfg_ok c.
Hypothesis Hm : mul_ok c.
Variable mem : memory.
Hypothesis Hmem : memory_ok mem.
Variable b : dec.
Hypothesis Hb : normal c b.

Lemma mulm_pool2 i x y : normal c x -> normal c y ->
  pool_ok c (fst (mem i (Nat.min (dprec x) (dprec y)))) (snd (mem i (Nat.min (dprec x) (dprec y)))).
Proof.
  intros Hx Hy. destruct (normal_facts c Hc x Hx) as (_ & _ & Px & _). destruct (normal_facts c Hc y Hy) as (_ & _ & Py & _).
  rewrite Px, Py, Nat.min_id. apply memory_pool; auto.
Qed.

Lemma pow_exact p k : iszero b = false -> 0 <= p < 2 ^ 63 -> (value c b == inject_Z k)%Q ->
  Z.abs (k ^ p) < 10 ^ int_digits c ->
  exists z, pow_nonneg c mem b p = Some z /\ normal c z /\ (value c z == inject_Z (k ^ p))%Q.
Proof.
  intros Zb Hp Vb Hfit. destruct (int_exp c Hc b k Hb Zb Vb) as (_ & K1 & _).
  set (R := fun (i : Z) (z : dec) => i = 0 /\ z = from_small_unsigned c 1 \/
     1 <= i /\ normal c z /\ iszero z = false /\ (value c z == inject_Z (k ^ i))%Q).
  destruct (pow_gen c mem b p R) as (z & E1 & Rz); auto.
  - left. auto.
  - right. split; [lia|]. split; [auto|]. split; [auto|]. rewrite Z.pow_1_r. auto.
  - intros i a j x y Ha Hj Haj Rx Ry. destruct Ry as [(K & _)|(_ & Ny & Zy & Ey)]; [lia|].
    destruct Rx as [(-> & ->)|(Ha1 & Nx & Zx & Ex)].
    + exists y. split; [apply one_times; auto|]. right. rewrite Z.add_0_l. auto.
    + destruct (mul_int_exact c Hc (fst (mem i (Nat.min (dprec x) (dprec y)))) (snd (mem i (Nat.min (dprec x) (dprec y)))) x y (k ^ a) (k ^ j))
        as (z & E1 & Nz & Zz & Ez); auto; [apply mulm_pool2; auto| |].
      * rewrite <- Z.pow_add_r by lia. eapply Z.le_lt_trans; [|exact Hfit].
        rewrite !Z.abs_pow. apply Z.pow_le_mono_r; lia.
      * exists z. split; [rewrite mulm_normal; auto|]. right. split; [lia|]. split; [auto|]. split; [auto|]. rewrite Z.pow_add_r by lia. auto.
  - exists z. split; auto. destruct Rz as [(-> & ->)|(_ & Nz & _ & Ez)]; [|auto].
    rewrite (small_one c Hc). split; [apply one_normal; auto|]. apply (max_min_values c Hc).
Qed.

Lemma pow_zero_base p : iszero b = true -> - M < dexp b < M -> 1 <= p < 2 ^ 63 ->
  exists z, pow_nonneg c mem b p = Some z /\ normal c z /\ (value c z == 0)%Q.
Proof.
  intros Zb Rb Hp.
  set (R := fun (i : Z) (z : dec) => i = 0 /\ z = from_small_unsigned c 1 \/
     1 <= i /\ normal c z /\ iszero z = true /\ - M < dexp z < M).
  pose proof (max_exp10_bounds c) as (HM & _).
  destruct (pow_gen c mem b p R) as (z & E1 & Rz); auto; try lia.
  - left. auto.
  - right. split; [lia|]. auto.
  - intros i a j x y Ha Hj Haj Rx Ry. destruct Ry as [(K & _)|(_ & Ny & Zy & Ey)]; [lia|].
    assert (Nx : normal c x).
    { destruct Rx as [(_ & ->)|(_ & Nx & _)]; auto. rewrite (small_one c Hc). apply one_normal; auto. }
    destruct (mul_zero_full c (fst (mem i (Nat.min (dprec x) (dprec y)))) (snd (mem i (Nat.min (dprec x) (dprec y)))) x y)
      as (z & E1 & Nz & Zz & Ez); auto; [apply mulm_pool2; auto|].
    exists z. split; [rewrite mulm_normal; auto|]. right. split; [lia|]. split; [auto|]. split; [auto|]. lia.
  - exists z. split; auto. destruct Rz as [(K & _)|(_ & Nz & Zz & _)]; [lia|]. split; auto. apply (value_zero c Hc z Nz Zz).
Qed.
End PX.

(** Negative exponents: the reciprocal of the positive power. *)
Section PN.
Variable c : cfg.
Variable F : ftype.
Notation M := (max_exp10_of (c_expo c)).
Notation eps := (p10 (- (c_digits10 c + 2 * edc c))).
Hypothesis Hc : cfg_ok c.
Hypothesis HF : float_fits c F.
Hypothesis HJ : (digit_loops c F <= nel c)%nat.
Hypothesis Hk : newton_ok c.

Lemma recip_chain (z w g d : Q) : (0 < g -> 0 <= d -> d <= 1 # 2 -> ~ w == 0 -> Qabs (1 - z * w) <= g -> forall t, Qabs (w - t) <= d * Qabs t ->
  Qabs (1 - z * t) <= g + 2 * d * (1 + g))%Q.
Proof.
  intros G0 D0 D1 W H1 t Ht.
  assert (Tw : (Qabs t <= 2 * Qabs w)%Q).
  { assert (Qabs t <= Qabs w + Qabs (w - t))%Q.
    { setoid_replace t with (w + - (w - t))%Q at 1 by ring. eapply Qle_trans; [apply Qabs_triangle|]. rewrite Qabs_opp. lra. }
    assert (d * Qabs t <= (1 # 2) * Qabs t)%Q by (apply Qmult_le_compat_r; [lra|apply Qabs_nonneg]). lra. }
  assert (Zw : (Qabs z * Qabs w <= 1 + g)%Q).
  { rewrite <- Qabs_Qmult. setoid_replace (z * w)%Q with (1 + - (1 - z * w))%Q by ring. eapply Qle_trans; [apply Qabs_triangle|].
    rewrite Qabs_opp. change (Qabs 1) with 1%Q. lra. }
  setoid_replace (1 - z * t)%Q with ((1 - z * w) + z * (w - t))%Q by ring.
  eapply Qle_trans; [apply Qabs_triangle|]. rewrite Qabs_Qmult.
  assert (T1 : (Qabs z * Qabs (w - t) <= Qabs z * (d * (2 * Qabs w)))%Q).
  { rewrite !(Qmult_comm (Qabs z)). apply Qmult_le_compat_r; [|apply Qabs_nonneg]. eapply Qle_trans; [exact Ht|].
    rewrite !(Qmult_comm d). apply Qmult_le_compat_r; auto. }
  assert (T2 : (2 * d * (Qabs z * Qabs w) <= 2 * d * (1 + g))%Q).
  { rewrite !(Qmult_comm (2 * d)). apply Qmult_le_compat_r; lra. }
  lra.
Qed.

Theorem pow_neg_accurate mem b p : memory_ok mem -> normal c b -> iszero b = false -> - 2 ^ 63 < p < 0 ->
  (inject_Z (4 * - p) * eps <= 1)%Q ->
  (p10 (- M + 2 * edc c + 2) <= Qabs (value c b ^ (- p)))%Q -> (Qabs (value c b ^ (- p)) <= p10 (M - 4 * edc c - 1))%Q ->
  exists z, pow_int c F mem b p = Some z /\ wk c z /\
    (Qabs (value c z - value c b ^ p) <= inject_Z (7 - 5 * p) * eps * Qabs (value c b ^ p))%Q.
Proof.
  intros Hmem Hb Zb Hp Hs Hlo Hhi. unfold pow_int. replace (p <? 0) with true by lia.
  assert (Hn : neg_sll p = Some (- p)) by (unfold neg_sll; replace (p =? - 2 ^ 63) with false by lia; reflexivity).
  rewrite Hn.
  pose proof (edc_pos c) as He. pose proof (max_exp10_bounds c) as (HM & _).
  destruct (pow_accurate c Hc Hk mem Hmem b Hb Zb (- p)) as (r & E1 & Nr & Zr & Err); auto; try lia.
  { eapply Qle_trans; [exact Hhi|]. apply p10_le. lia. }
  rewrite E1.
  set (t := (value c b ^ (- p))%Q) in *. set (q := - p) in *.
  pose proof (p10_pos (- (c_digits10 c + 2 * edc c))) as E0. destruct (eps_small c Hc) as [_ E10].
  set (d := (inject_Z (2 * (q - 1)) * eps)%Q) in *.
  assert (D0 : (0 <= d)%Q).
  { unfold d. apply Qmult_le_0_compat; [|lra]. change 0%Q with (inject_Z 0). rewrite <- Zle_Qle. lia. }
  assert (D1 : (d <= 1 # 2)%Q).
  { assert (2 * d <= inject_Z (4 * q) * eps)%Q; [|lra]. unfold d. rewrite Qmult_assoc. apply Qmult_le_compat_r; [|lra].
    change 2%Q with (inject_Z 2). rewrite <- inject_Z_mult, <- Zle_Qle. lia. }
  assert (Mg : ((1 # 2) * Qabs t <= Qabs (value c r) /\ Qabs (value c r) <= (3 # 2) * Qabs t)%Q).
  { assert (DT : (d * Qabs t <= (1 # 2) * Qabs t)%Q) by (apply Qmult_le_compat_r; [lra|apply Qabs_nonneg]).
    assert (T1 : (Qabs t <= Qabs (value c r) + Qabs (value c r - t))%Q).
    { setoid_replace t with (value c r + - (value c r - t))%Q at 1 by ring. eapply Qle_trans; [apply Qabs_triangle|]. rewrite Qabs_opp. lra. }
    assert (T2 : (Qabs (value c r) <= Qabs (value c r - t) + Qabs t)%Q).
    { setoid_replace (value c r) with ((value c r - t) + t)%Q at 1 by ring. apply Qabs_triangle. }
    split; lra. }
  destruct (value_bracket c Hc r Nr Zr) as [B1 B2].
  assert (R1 : - M < dexp r).
  { assert (T : (p10 (- M + 2 * edc c) < p10 (dexp r + edc c))%Q); [|apply (proj1 (p10_lt _ _)) in T; lia].
    rewrite (p10_add (- M + 2 * edc c) 2) in Hlo. change (p10 2) with 100%Q in Hlo. pose proof (p10_pos (- M + 2 * edc c)). lra. }
  assert (R2 : dexp r < M - 3 * edc c).
  { assert (T : (p10 (dexp r) < p10 (M - 4 * edc c))%Q); [|apply (proj1 (p10_lt _ _)) in T; lia].
    replace (M - 4 * edc c) with (M - 4 * edc c - 1 + 1) by lia. rewrite (p10_add (M - 4 * edc c - 1) 1). change (p10 1) with 10%Q.
    pose proof (p10_pos (M - 4 * edc c - 1)). lra. }
  assert (Hl : memory_ok (later mem 200)) by (intros i w; apply Hmem).
  destruct (inv_spec c F Hc HF HJ Hk (later mem 200) r Hl Nr Zr ltac:(lia)) as (z & E2 & _ & Wz & _ & Acc & _).
  exists z. split; [auto|]. split; [auto|].
  assert (Acc' : (Qabs (1 - value c z * value c r) <= 7 * eps)%Q).
  { eapply Qle_trans; [exact Acc|]. pose proof (eta_n_eps c Hc). lra. }
  assert (Rn : ~ (value c r == 0)%Q) by (apply value_nonzero; auto).
  assert (C := recip_chain (value c z) (value c r) (7 * eps) d ltac:(lra) D0 D1 Rn Acc' t Err).
  assert (Tn : ~ (t == 0)%Q).
  { intros K. rewrite K in Mg. change (Qabs 0) with 0%Q in Mg. apply Rn. apply Qabs_Qle_condition in Mg as Mg' || idtac.
    pose proof (p10_pos (dexp r)). lra. }
  assert (Bp : (value c b ^ p == / t)%Q) by (unfold t, q; rewrite Qpower_opp, Qinv_involutive; reflexivity).
  rewrite Bp. assert (Sp : (value c z - / t == - ((1 - value c z * t) * / t))%Q) by (field; auto).
  rewrite Sp, Qabs_opp, Qabs_Qmult. apply Qmult_le_compat_r; [|apply Qabs_nonneg].
  eapply Qle_trans; [exact C|]. replace (7 - 5 * p) with (7 + 5 * q) by (unfold q; lia).
  rewrite inject_Z_plus, inject_Z_mult. change (inject_Z 7) with 7%Q. change (inject_Z 5) with 5%Q.
  assert (Dd : (d == (2 * inject_Z q - 2) * eps)%Q).
  { unfold d. rewrite inject_Z_mult. change (q - 1) with (q + - 1). rewrite inject_Z_plus. change (inject_Z 2) with 2%Q. change (inject_Z (- 1)) with (-(1))%Q. ring. }
  assert (Q1 : (1 <= inject_Z q)%Q) by (change 1%Q with (inject_Z 1); rewrite <- Zle_Qle; lia).
  assert (Qe : (0 <= inject_Z q * eps)%Q) by (apply Qmult_le_0_compat; lra).
  assert (T : (14 * eps * d <= (14 # 10000) * d)%Q) by (apply Qmult_le_compat_r; lra).
  rewrite Dd in *. lra.
Qed.
End PN.
