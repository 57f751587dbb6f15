(** Exp2_proofs.v - the series of exp: it stops, and computes the partial sums. *)
From Verif Require Export Exp_proofs.
From Verif Require Import Print_proofs Floor_proofs Mul_proofs.
From Coq Require Import Lqa.
Local Open Scope Z_scope.

(** Terms and partial sums of the exponential series. *)
Fixpoint qterm (X : Q) (m : nat) : Q :=
  match m with O => 1%Q | S k => (qterm X k * X / inject_Z (Z.of_nat (S k)))%Q end.
Fixpoint qsum (X : Q) (m : nat) : Q :=
  match m with O => 1%Q | S k => (qsum X k + qterm X (S k))%Q end.

Lemma Qabs_div_Z a u : 0 < u -> (Qabs (a / inject_Z u) == Qabs a / inject_Z u)%Q.
Proof.
  intros H. assert (0 < inject_Z u)%Q by (change 0%Q with (inject_Z 0); rewrite <- Zlt_Qlt; auto).
  unfold Qdiv. rewrite Qabs_Qmult. rewrite (Qabs_pos (/ inject_Z u)); [reflexivity|]. apply Qinv_le_0_compat. lra.
Qed.

Lemma qterm_S X m : (Qabs (qterm X (S m)) == Qabs (qterm X m) * Qabs X / inject_Z (Z.of_nat (S m)))%Q.
Proof. cbn [qterm]. rewrite Qabs_div_Z by lia. rewrite Qabs_Qmult. reflexivity. Qed.

Lemma div_le_self a u : (0 <= a)%Q -> 1 <= u -> (a / inject_Z u <= a)%Q.
Proof.
  intros H1 H2. assert (1 <= inject_Z u)%Q by (change 1%Q with (inject_Z 1); rewrite <- Zle_Qle; auto).
  apply Qle_shift_div_r; [lra|]. rewrite <- (Qmult_1_r a) at 1. rewrite !(Qmult_comm a). apply Qmult_le_compat_r; auto.
Qed.

Lemma qterm_shrink X m : (Qabs (qterm X (S m)) <= Qabs (qterm X m) * Qabs X)%Q.
Proof. rewrite qterm_S. apply div_le_self; [|lia]. apply Qmult_le_0_compat; apply Qabs_nonneg. Qed.

Lemma qterm_bound X m : (Qabs X <= 1 # 1000)%Q -> (Qabs (qterm X m) <= p10 (- (3 * Z.of_nat m)))%Q.
Proof.
  intros H. induction m.
  - cbn. change (p10 0) with 1%Q. lra.
  - eapply Qle_trans; [apply qterm_shrink|].
    replace (- (3 * Z.of_nat (S m))) with (- (3 * Z.of_nat m) + -3) by lia. rewrite p10_add. change (p10 (-3)) with (1 # 1000)%Q.
    pose proof (Qabs_nonneg X). pose proof (p10_pos (- (3 * Z.of_nat m))).
    apply Qle_trans with (p10 (- (3 * Z.of_nat m)) * Qabs X)%Q; [apply Qmult_le_compat_r; auto|].
    rewrite !(Qmult_comm (p10 _)). apply Qmult_le_compat_r; lra.
Qed.

Lemma qterm_X X m : (Qabs X <= 1 # 1000)%Q -> (1 <= m)%nat -> (Qabs (qterm X m) <= Qabs X)%Q.
Proof.
  intros H Hm. destruct m; [lia|]. eapply Qle_trans; [apply qterm_shrink|]. pose proof (qterm_bound X m H) as B.
  assert (p10 (- (3 * Z.of_nat m)) <= 1)%Q by (change 1%Q with (p10 0); apply p10_le; lia). pose proof (Qabs_nonneg X).
  rewrite <- (Qmult_1_l (Qabs X)) at 2. apply Qmult_le_compat_r; lra.
Qed.

Lemma qsum_bound X m : (Qabs X <= 1 # 1000)%Q -> (Qabs (qsum X m - 1) <= inject_Z (Z.of_nat m) * Qabs X)%Q.
Proof.
  intros H. induction m.
  - cbn [qsum]. change (Qabs (1 - 1)) with 0%Q. change (inject_Z (Z.of_nat 0)) with 0%Q. pose proof (Qabs_nonneg X). lra.
  - cbn [qsum]. setoid_replace (qsum X m + qterm X (S m) - 1)%Q with ((qsum X m - 1) + qterm X (S m))%Q by ring.
    eapply Qle_trans; [apply Qabs_triangle|]. pose proof (qterm_X X (S m) H ltac:(lia)) as T.
    replace (Z.of_nat (S m)) with (Z.of_nat m + 1) by lia. rewrite inject_Z_plus. change (inject_Z 1) with 1%Q. lra.
Qed.

Section SER.
Variable c : cfg.
Variable F : ftype.
Variable W : Z.
Notation L := (c_limb c).
Notation n := (nel c).
Notation M := (max_exp10_of (c_expo c)).
Notation E := (ebits (c_expo c)).
Notation D := (c_digits10 c).
Notation eps := (p10 (- (c_digits10 c + 2 * edc c))).
Notation dl := (p10 (- c_digits10 c)).
Hypothesis Hc : cfg_ok c.
Hypothesis Hk : newton_ok c.
Hypothesis HF : float_fits c F.
Hypothesis HJ : (digit_loops c F <= n)%nat.
Hypothesis HD : 16 <= D <= 2000.
Hypothesis HW : edc c * elem_number c <= W.
Hypothesis HM : 6 * W + 300 <= M.

Lemma W_big : D + 2 * edc c <= edc c * (Z.of_nat n - 1) /\ D + 3 * edc c <= W /\ 22 <= W /\ edc c * elem_number c + 200 <= M.
Proof using Hc HD HW HM. clear - Hc HD HW HM.
  pose proof (dg_small c Hc) as H. rewrite (nel_Z c Hc) in H. rewrite (nel_Z c Hc). pose proof (edc_pos c). clear - H H0 HW HM HD. nia.
Qed.

Lemma M_E : 2 * M <= 2 ^ (E - 1) /\ 2 ^ (E - 1) <= 2 ^ 63.
Proof using. clear HJ. pose proof (max_exp10_bounds c). lia. Qed.

Lemma goal_value x : normal c x -> exp_goal c x = Some (D - 1).
Proof.
  intros Nx. pose proof W_big as (W1 & W2 & W3 & W4). pose proof (M_E) as (M1 & M2). pose proof (E_ge8 c) as HE. pose proof (edc_pos c) as He.
  destruct (eps_digits c Hc) as (H1 & H2 & H3 & H4).
  assert (Hil : ilogb c (nl_epsilon c) = 1 - D).
  { unfold nl_epsilon, ilogb, value_eps. rewrite (scast_id E (- digits10_for_epsilon c)) by lia.
    set (k := 1 + digits10_for_epsilon c - c_digits10 c) in *. assert (Hk1 : 1 <= k <= edc c) by lia.
    rewrite pow10_maker_spec by lia. rewrite Z2Nat.id by lia.
    assert (Hp : 0 < 10 ^ k) by (apply Z.pow_pos_nonneg; lia).
    assert (Hle : 10 ^ k <= 10 ^ edc c) by (apply Z.pow_le_mono_r; lia).
    assert (Hle8 : 10 ^ k <= 10 ^ 8) by (apply Z.pow_le_mono_r; lia). change (10 ^ 8) with 100000000 in Hle8.
    assert (Hfit : 10 ^ k < 2 ^ lbits L). { unfold edc in Hle at 1. rewrite <- mask_pow in Hle. pose proof (mask_fits L). lia. }
    rewrite ucast_id by lia.
    assert (N0 : forall l e, nth 0 (data (from_lst c [l] e)) 0 = l).
    { intros l e. unfold from_lst. pose proof (nel_ge4 c Hc). destruct n as [|n'] eqn:En; [lia|]. cbn [length].
      destruct (1 <? S n')%nat; reflexivity. }
    rewrite N0.
    assert (D0 : forall l e, dexp (from_lst c [l] e) = e) by (intros; unfold from_lst; destruct (length [l] <? n)%nat; reflexivity).
    rewrite D0. destruct (order_spec (10 ^ k)) as [O1 O2]; [change (2 ^ 64) with 18446744073709551616; lia|].
    set (o := order_of_builtin_integer (10 ^ k)) in *.
    assert (Ho : o = k + 1). { destruct O2 as [O2 O3]. apply Z.pow_le_mono_r_iff in O2; [|lia|lia]. apply Z.pow_lt_mono_r_iff in O3; lia. }
    rewrite (scast_id E o) by lia. rewrite (scast_id E (o - 1)) by lia. rewrite scast_id by lia. unfold k in *. lia. }
  unfold exp_goal, neg_exp. rewrite Hil. replace (1 - D =? - 2 ^ (E - 1)) with false by lia. cbn [andb].
  rewrite scast_id by lia. unfold get_precision. assert (Px : dprec x = n) by apply Nx. rewrite Px. change (ed L) with (edc c).
  rewrite (nel_Z c Hc) in *. clear - W1 W2 W3 W4 M1 M2 HE He HD.
  rewrite scast_id by lia. f_equal. lia.
Qed.

(** The stopping test. *)
Lemma stop_test t : normal c t -> iszero t = false -> (Qabs (value c t) <= 1)%Q -> (p10 (- (5 * W + 40)) <= Qabs (value c t))%Q ->
  exists d, neg_exp c (ilogb c t) = Some d /\
    ((Z.max 0 d >? D - 1) = true -> (Qabs (value c t) < p10 (1 - D))%Q) /\
    ((Z.max 0 d >? D - 1) = false -> (p10 (1 - D) <= Qabs (value c t))%Q).
Proof.
  intros Nt Zt T1 T2. pose proof W_big as (W1 & W2 & W3 & W4). pose proof (M_E) as (M1 & M2). pose proof (E_ge8 c) as HE. pose proof (edc_pos c) as He.
  change 1%Q with (p10 0) in T1. pose proof (exp_le_of_value c Hc t 0 Nt Zt T1) as X1. pose proof (exp_gt_of_value c Hc t _ Nt Zt T2) as X2.
  destruct (ilogb_spec c Hc t Nt Zt ltac:(lia)) as [I1 I2]. set (g := ilogb c t) in *.
  assert (G1 : g <= 0). { apply p10_le. lra. }
  assert (G2 : - (5 * W + 40) < g + 1). { apply (proj1 (p10_lt (- (5 * W + 40)) (g + 1))). lra. }
  exists (- g). split.
  - unfold neg_exp. replace (g =? - 2 ^ (E - 1)) with false by lia. cbn [andb]. rewrite scast_id by lia. reflexivity.
  - split; intros H.
    + eapply Qlt_le_trans; [exact I2|]. apply p10_le. lia.
    + eapply Qle_trans; [|exact I1]. apply p10_le. lia.
Qed.

Lemma dl_tiny : (0 < dl /\ dl <= 1 # 10000000000000000 /\ 0 < eps /\ eps <= (1 # 10000) * dl)%Q.
Proof using Hc HD. clear - Hc HD.
  destruct (eps_dl c Hc) as (E0 & D0 & E1 & _). split; [exact D0|]. split; [|split; [exact E0|exact E1]].
  change (1 # 10000000000000000)%Q with (p10 (-16)). apply p10_le. lia.
Qed.

Lemma Zq k : 0 <= k -> (0 <= inject_Z k)%Q.
Proof using. intros H. change 0%Q with (inject_Z 0). rewrite <- Zle_Qle. auto. Qed.

Lemma m_dl m : 0 <= m <= 3000 -> (0 <= inject_Z m * dl /\ inject_Z m * dl <= 1 # 10000000000)%Q.
Proof using Hc HD. clear - Hc HD.
  intros Hm. destruct dl_tiny as (D0 & D1 & _). pose proof (Zq m ltac:(lia)) as M0.
  assert (M1 : (inject_Z m <= 3000)%Q) by (change 3000%Q with (inject_Z 3000); rewrite <- Zle_Qle; lia).
  split; [apply Qmult_le_0_compat; lra|]. apply Qle_trans with (3000 * dl)%Q; [apply Qmult_le_compat_r; lra|lra].
Qed.

Variable xh : dec.
Notation X := (value c xh).
Hypothesis Nxh : normal c xh.
Hypothesis X1 : (Qabs X <= 1 # 1000)%Q.
Hypothesis X2 : (p10 (- (W + 4)) <= Qabs X)%Q.

Lemma Zxh : iszero xh = false.
Proof.
  destruct (iszero xh) eqn:Z0; [|reflexivity]. exfalso. rewrite (value_zero c Hc xh Nxh Z0) in X2. change (Qabs 0) with 0%Q in X2.
  pose proof (p10_pos (- (W + 4))). lra.
Qed.

(** One step of the series. *)
Lemma exp_step mem1 mem2 m t : memory_ok mem1 -> memory_ok mem2 -> (1 <= m)%nat -> 3 * Z.of_nat m <= D ->
  normal c t -> near (inject_Z (3 * (Z.of_nat m - 1)) * dl) (value c t) (qterm X m) -> (p10 (- (4 * W + 28)) <= Qabs (qterm X m))%Q ->
  exists t1 t2, mulm c mem1 0 t xh = Some t1 /\ div_unsigned c F mem2 t1 (Z.of_nat m + 1) = Some t2 /\ normal c t2 /\
    near (inject_Z (3 * Z.of_nat m) * dl) (value c t2) (qterm X (S m)) /\
    (Qabs (qterm X m) * p10 (- (W + 7)) <= Qabs (qterm X (S m)))%Q /\ (p10 (- (5 * W + 36)) <= Qabs (value c t2))%Q.
Proof.
  intros Hm1 Hm2 M1 M3 Nt At Lt. pose proof W_big as (W1 & W2 & W3 & W4). pose proof (edc_pos c) as He.
  destruct dl_tiny as (D0 & D1 & E0 & E1). destruct (m_dl (3 * (Z.of_nat m - 1)) ltac:(lia)) as [A0 A1]. destruct (m_dl (3 * Z.of_nat m) ltac:(lia)) as [B0 B1].
  assert (A2 : (inject_Z (3 * Z.of_nat m) * dl == inject_Z (3 * (Z.of_nat m - 1)) * dl + 3 * dl)%Q).
  { replace (3 * Z.of_nat m) with (3 * (Z.of_nat m - 1) + 3) by lia. rewrite inject_Z_plus. change (inject_Z 3) with 3%Q. ring. }
  set (e1 := (inject_Z (3 * (Z.of_nat m - 1)) * dl)%Q) in *. set (e2 := (inject_Z (3 * Z.of_nat m) * dl)%Q) in *.
  pose proof (qterm_bound X m X1) as U. assert (U1 : (p10 (- (3 * Z.of_nat m)) <= 1 # 1000)%Q) by (change (1 # 1000)%Q with (p10 (-3)); apply p10_le; lia).
  set (q := qterm X m) in *. destruct (near_abs _ _ _ At) as [T1 T2]. pose proof (Qabs_nonneg q) as Q0.
  assert (T3 : ((1 - e1) * Qabs q >= (9 # 10) * Qabs q)%Q) by (apply Qmult_le_compat_r; lra).
  assert (T4 : ((1 + e1) * Qabs q <= (11 # 10) * Qabs q)%Q) by (apply Qmult_le_compat_r; lra).
  assert (P21 : (p10 (- (4 * W + 29)) == (1 # 10) * p10 (- (4 * W + 28)))%Q).
  { replace (- (4 * W + 29)) with (-1 + - (4 * W + 28)) by ring. rewrite p10_add. reflexivity. }
  pose proof (p10_pos (- (4 * W + 28))) as P20.
  assert (Lt' : (p10 (- (4 * W + 29)) <= Qabs (value c t))%Q) by lra.
  assert (Zt : iszero t = false).
  { destruct (iszero t) eqn:K; [|reflexivity]. exfalso. rewrite (value_zero c Hc t Nt K) in Lt'. change (Qabs 0) with 0%Q in Lt'. pose proof (p10_pos (- (4 * W + 29))). lra. }
  pose proof (exp_gt_of_value c Hc t _ Nt Zt Lt') as Gt. pose proof (exp_gt_of_value c Hc xh _ Nxh Zxh X2) as Gx.
  assert (Lt1 : dexp t <= 0). { apply (exp_le_of_value c Hc t 0 Nt Zt). change (p10 0) with 1%Q. lra. }
  assert (Lx1 : dexp xh <= 0). { apply (exp_le_of_value c Hc xh 0 Nxh Zxh). change (p10 0) with 1%Q. lra. }
  destruct (mul_step c Hc Hk mem1 0 t xh Hm1 Nt Nxh Zt Zxh) as (t1 & Y1 & Nt1 & Zt1 & At1); [lia|].
  set (T := value c t) in *.
  assert (TX : (Qabs (T * X) == Qabs T * Qabs X)%Q) by apply Qabs_Qmult.
  pose proof (Qabs_nonneg X) as X0. pose proof (Qabs_nonneg T) as T0.
  destruct (near_abs _ _ _ At1) as [V1 V2]. pose proof (Qabs_nonneg (T * X)) as TX0.
  assert (V3 : ((1 - eps) * Qabs (T * X) >= (9 # 10) * Qabs (T * X))%Q) by (apply Qmult_le_compat_r; lra).
  assert (V4 : ((1 + eps) * Qabs (T * X) <= (11 # 10) * Qabs (T * X))%Q) by (apply Qmult_le_compat_r; lra).
  assert (TXl : (p10 (- (4 * W + 29)) * p10 (- (W + 4)) <= Qabs (T * X))%Q).
  { rewrite TX. pose proof (p10_pos (- (W + 4))). pose proof (p10_pos (- (4 * W + 29))). apply Qmult_le_compat_nonneg; split; lra. }
  rewrite <- p10_add in TXl. replace (- (4 * W + 29) + - (W + 4)) with (1 + - (5 * W + 34)) in TXl by ring. rewrite p10_add in TXl. change (p10 1) with 10%Q in TXl.
  pose proof (p10_pos (- (5 * W + 34))) as P26.
  assert (TXu : (Qabs (T * X) <= 1 # 100)%Q).
  { rewrite TX. apply Qle_trans with ((1 # 10) * (1 # 10))%Q; [|lra]. apply Qmult_le_compat_nonneg; split; lra. }
  assert (Gt1 : - (5 * W + 34) - edc c < dexp t1). { apply (exp_gt_of_value c Hc t1 _ Nt1 Zt1). lra. }
  assert (Ut1 : dexp t1 <= 0). { apply (exp_le_of_value c Hc t1 0 Nt1 Zt1). change (p10 0) with 1%Q. lra. }
  assert (Hi : 2 <= Z.of_nat m + 1 <= 700) by lia.
  destruct (div_step c F Hc Hk HF HJ mem2 t1 (Z.of_nat m + 1) Hm2 Nt1 Zt1) as (t2 & Y2 & Nt2 & At2).
  { change (10 ^ 6) with 1000000. lia. } { right. lra. } { lia. }
  exists t1, t2. split; [exact Y1|]. split; [exact Y2|]. split; [exact Nt2|].
  assert (Q' : (qterm X (S m) == q * X / inject_Z (Z.of_nat m + 1))%Q).
  { cbn [qterm]. fold q. replace (Z.of_nat (S m)) with (Z.of_nat m + 1) by lia. reflexivity. }
  assert (Acc : near e2 (value c t2) (qterm X (S m))).
  { apply (near_compat e2 _ (q * X / inject_Z (Z.of_nat m + 1))%Q _ _ (Qeq_refl _) (Qeq_sym _ _ Q')).
    pose proof (near_div _ _ _ (inject_Z (Z.of_nat m + 1)) At1) as S1.
    pose proof (near_div _ _ _ (inject_Z (Z.of_nat m + 1)) (near_mult _ _ _ X At)) as S2.
    assert (D2 : (0 <= 2 * dl)%Q) by lra.
    pose proof (near_trans _ _ _ _ _ D2 At2 S1) as S3.
    assert (F1 : (2 * dl * eps <= 2 * dl * (1 # 10))%Q) by (rewrite !(Qmult_comm (2 * dl)); apply Qmult_le_compat_r; lra).
    assert (F0 : (0 <= 2 * dl * eps)%Q) by (apply Qmult_le_0_compat; lra).
    assert (D3 : (0 <= 2 * dl + eps + 2 * dl * eps)%Q) by lra.
    pose proof (near_trans _ _ _ _ _ D3 S3 S2) as S4. eapply near_le; [|exact S4].
    assert (F2 : ((2 * dl + eps + 2 * dl * eps) * e1 <= (3 * dl) * (1 # 10))%Q) by (apply Qmult_le_compat_nonneg; split; lra).
    lra. }
  split; [exact Acc|].
  assert (Low : (Qabs q * p10 (- (W + 7)) <= Qabs (qterm X (S m)))%Q).
  { unfold q. rewrite qterm_S. fold q. apply Qle_shift_div_l.
    - change 0%Q with (inject_Z 0). rewrite <- Zlt_Qlt. lia.
    - replace (- (W + 7)) with (-3 + - (W + 4)) by ring. rewrite p10_add. change (p10 (-3)) with (1 # 1000)%Q.
      assert (I1 : (inject_Z (Z.of_nat (S m)) <= 1000)%Q) by (change 1000%Q with (inject_Z 1000); rewrite <- Zle_Qle; lia).
      pose proof (Zq (Z.of_nat (S m)) ltac:(lia)) as I0. pose proof (p10_pos (- (W + 4))) as P4.
      apply Qle_trans with (Qabs q * p10 (- (W + 4)))%Q; [|rewrite !(Qmult_comm (Qabs q)); apply Qmult_le_compat_r; auto].
      setoid_replace (Qabs q * ((1 # 1000) * p10 (- (W + 4))) * inject_Z (Z.of_nat (S m)))%Q
        with ((1 # 1000) * inject_Z (Z.of_nat (S m)) * (Qabs q * p10 (- (W + 4))))%Q by ring.
      rewrite <- (Qmult_1_l (Qabs q * p10 (- (W + 4)))) at 2. apply Qmult_le_compat_r; [lra|]. apply Qmult_le_0_compat; lra. }
  split; [exact Low|].
  destruct (near_abs _ _ _ Acc) as [Z1 _]. pose proof (Qabs_nonneg (qterm X (S m))) as Q1.
  assert (Z2 : ((1 - e2) * Qabs (qterm X (S m)) >= (9 # 10) * Qabs (qterm X (S m)))%Q) by (apply Qmult_le_compat_r; lra).
  pose proof (p10_pos (- (W + 7))) as P7.
  assert (Z3 : (p10 (- (4 * W + 28)) * p10 (- (W + 7)) <= Qabs q * p10 (- (W + 7)))%Q) by (apply Qmult_le_compat_r; lra).
  rewrite <- p10_add in Z3. replace (- (4 * W + 28) + - (W + 7)) with (1 + - (5 * W + 36)) in Z3 by ring. rewrite p10_add in Z3. change (p10 1) with 10%Q in Z3.
  pose proof (p10_pos (- (5 * W + 36))). lra.
Qed.

Notation ste := ((3 # 10000) * dl)%Q.

Lemma h_facts h m : 3 * Z.of_nat m <= D -> normal c h -> (Qabs (value c h - qsum X m) <= inject_Z (Z.of_nat m) * ste)%Q ->
  (Qabs (value c h) <= 2)%Q /\ iszero h = false /\ -10 < dexp h <= 1.
Proof.
  intros M3 Nh Ah. pose proof (edc_pos c) as He.
  pose proof (qsum_bound X m X1) as Sb. pose proof (Qabs_triangle (value c h - qsum X m) ((qsum X m - 1) + 1)) as Tr.
  pose proof (Qabs_triangle (qsum X m - 1) 1) as Tr2. change (Qabs 1) with 1%Q in Tr2.
  setoid_replace (value c h - qsum X m + (qsum X m - 1 + 1))%Q with (value c h) in Tr by ring.
  destruct (m_dl (Z.of_nat m) ltac:(lia)) as [C0 C1]. pose proof (Zq (Z.of_nat m) ltac:(lia)) as Z0.
  assert (Z1 : (inject_Z (Z.of_nat m) <= 700)%Q) by (change 700%Q with (inject_Z 700); rewrite <- Zle_Qle; lia).
  assert (Z2 : (inject_Z (Z.of_nat m) * Qabs X <= 700 * (1 # 1000))%Q) by (apply Qmult_le_compat_nonneg; split; try lra; apply Qabs_nonneg).
  assert (U : (Qabs (value c h) <= 2)%Q) by lra.
  pose proof (Qabs_triangle (value c h) ((qsum X m - value c h) + (1 - qsum X m))) as Tr3. pose proof (Qabs_triangle (qsum X m - value c h) (1 - qsum X m)) as Tr4.
  setoid_replace (value c h + (qsum X m - value c h + (1 - qsum X m)))%Q with 1%Q in Tr3 by ring. change (Qabs 1) with 1%Q in Tr3.
  rewrite (Qabs_Qminus 1 (qsum X m)), (Qabs_Qminus (qsum X m) (value c h)) in Tr4.
  assert (Lw : (p10 (-1) <= Qabs (value c h))%Q) by (change (p10 (-1)) with (1 # 10)%Q; lra).
  assert (Zh : iszero h = false).
  { destruct (iszero h) eqn:K; [|reflexivity]. exfalso. rewrite (value_zero c Hc h Nh K) in Lw. change (Qabs 0) with 0%Q in Lw. change (p10 (-1)) with (1 # 10)%Q in Lw. lra. }
  split; [exact U|]. split; [exact Zh|]. pose proof (exp_gt_of_value c Hc h _ Nh Zh Lw). split; [lia|].
  apply (exp_le_of_value c Hc h 1 Nh Zh). change (p10 1) with 10%Q. lra.
Qed.

(** The loop: it stops, the result is a partial sum up to a small error, the first neglected term is small. *)
Lemma exp_loop_spec mems : (forall j, memory_ok (mems j)) -> forall k m t h, (1 <= m)%nat -> 3 * Z.of_nat m <= D -> (700 - m <= k)%nat ->
  normal c t -> near (inject_Z (3 * (Z.of_nat m - 1)) * dl) (value c t) (qterm X m) ->
  ((m <= 4)%nat -> (p10 (- (Z.of_nat m * (W + 7))) <= Qabs (qterm X m))%Q) ->
  ((4 < m)%nat -> (p10 (1 - D) <= Qabs (value c t))%Q) ->
  normal c h -> (Qabs (value c h - qsum X m) <= inject_Z (Z.of_nat m) * ste)%Q ->
  exists h' m', exp_loop c F k mems (Z.of_nat m + 1) (D - 1) xh t h = Some h' /\ normal c h' /\ 3 * Z.of_nat m' <= D /\
    (Qabs (value c h' - qsum X m') <= inject_Z (Z.of_nat m') * ste)%Q /\
    (Qabs (qterm X (S m')) <= (1001 # 100) * dl)%Q.
Proof.
  intros Hmem. pose proof W_big as (W1 & W2 & W3 & W4). pose proof (edc_pos c) as He. destruct dl_tiny as (D0 & D1 & E0 & E1).
  assert (P1D : (p10 (1 - D) == 10 * dl)%Q) by (unfold Z.sub; rewrite p10_add; reflexivity).
  induction k; intros m t h M1 M3 Hk' Nt At Lo Hi Nh Ah; [lia|].
  assert (Lq : (p10 (- (4 * W + 28)) <= Qabs (qterm X m))%Q).
  { destruct (le_lt_dec m 4) as [K|K].
    - eapply Qle_trans; [|apply Lo; exact K]. apply p10_le. clear - K W3. nia.
    - specialize (Hi K). destruct (near_abs _ _ _ At) as [_ T]. destruct (m_dl (3 * (Z.of_nat m - 1)) ltac:(lia)) as [A0 A1].
      assert (T4 : ((1 + inject_Z (3 * (Z.of_nat m - 1)) * dl) * Qabs (qterm X m) <= 10 * Qabs (qterm X m))%Q) by (apply Qmult_le_compat_r; [lra|apply Qabs_nonneg]).
      apply Qle_trans with dl; [apply p10_le; lia|]. lra. }
  destruct (exp_step (mems (2 * (Z.of_nat m + 1))) (mems (2 * (Z.of_nat m + 1) + 1)) m t) as (t1 & t2 & Y1 & Y2 & Nt2 & At2 & Low & Lt2); auto.
  cbn [exp_loop]. rewrite Y1, Y2.
  destruct (m_dl (3 * Z.of_nat m) ltac:(lia)) as [B0 B1]. destruct (near_abs _ _ _ At2) as [T1 T2].
  pose proof (Qabs_nonneg (qterm X (S m))) as Q0. pose proof (qterm_bound X (S m) X1) as QB.
  assert (QB1 : (p10 (- (3 * Z.of_nat (S m))) <= 1 # 1000)%Q) by (change (1 # 1000)%Q with (p10 (-3)); apply p10_le; lia).
  set (e2 := (inject_Z (3 * Z.of_nat m) * dl)%Q) in *. set (q := qterm X (S m)) in *.
  assert (T3 : ((1 - e2) * Qabs q >= (9999 # 10000) * Qabs q)%Q) by (apply Qmult_le_compat_r; lra).
  assert (T4 : ((1 + e2) * Qabs q <= (11 # 10) * Qabs q)%Q) by (apply Qmult_le_compat_r; lra).
  assert (Zt2 : iszero t2 = false).
  { destruct (iszero t2) eqn:K; [|reflexivity]. exfalso. rewrite (value_zero c Hc t2 Nt2 K) in Lt2. change (Qabs 0) with 0%Q in Lt2. pose proof (p10_pos (- (5 * W + 36))). lra. }
  destruct (stop_test t2 Nt2 Zt2) as (d & Hd & S1 & S2); [lra| |].
  { eapply Qle_trans; [|exact Lt2]. apply p10_le. lia. }
  (* the step when it goes on *)
  assert (GO : ((4 < S m)%nat -> (p10 (1 - D) <= Qabs (value c t2))%Q) ->
    exists h' m', exp_loop c F k mems (Z.of_nat m + 1 + 1) (D - 1) xh t2 (add c h t2) = Some h' /\ normal c h' /\ 3 * Z.of_nat m' <= D /\
    (Qabs (value c h' - qsum X m') <= inject_Z (Z.of_nat m') * ste)%Q /\ (Qabs (qterm X (S m')) <= (1001 # 100) * dl)%Q).
  { intros Hi'. replace (Z.of_nat m + 1) with (Z.of_nat (S m)) by lia.
    assert (M3' : 3 * Z.of_nat (S m) <= D).
    { destruct (le_lt_dec (S m) 4) as [K|K]; [lia|]. specialize (Hi' K).
      assert (X9 : (p10 (1 - D) < p10 (1 + - (3 * Z.of_nat (S m))))%Q).
      { rewrite (p10_add 1 (- (3 * Z.of_nat (S m)))). change (p10 1) with 10%Q. pose proof (p10_pos (- (3 * Z.of_nat (S m)))). lra. }
      apply (proj1 (p10_lt _ _)) in X9. lia. }
    destruct (h_facts h m M3 Nh Ah) as (Hh & Zh & Uh).
    assert (Ut2 : dexp t2 <= 0). { apply (exp_le_of_value c Hc t2 0 Nt2 Zt2). change (p10 0) with 1%Q. lra. }
    assert (Sf : exp_safe c (Z.max (dexp h) (dexp t2))) by (apply (safe_of c W4); lia).
    pose proof (add_abs c Hc h t2 Nh Nt2 (fun _ _ => Sf)) as AA. pose proof (add_normal c Hc h t2 Nh Nt2) as Na.
    apply IHk; auto; try lia.
    - replace (Z.of_nat (S m) - 1) with (Z.of_nat m) by lia. exact At2.
    - intros K. fold q. apply Qle_trans with (p10 (- (Z.of_nat m * (W + 7))) * p10 (- (W + 7)))%Q.
      2:{ eapply Qle_trans; [|exact Low]. apply Qmult_le_compat_r; [apply Lo; lia|apply Qlt_le_weak, p10_pos]. }
      rewrite <- p10_add. apply p10_le. rewrite Nat2Z.inj_succ. lia.
    - cbn [qsum]. fold q. replace (Z.of_nat (S m)) with (Z.of_nat m + 1) by lia. rewrite inject_Z_plus. change (inject_Z 1) with 1%Q.
      setoid_replace (value c (add c h t2) - (qsum X m + q))%Q
        with ((value c (add c h t2) - (value c h + value c t2)) + ((value c h - qsum X m) + (value c t2 - q)))%Q by ring.
      pose proof (Qabs_triangle (value c (add c h t2) - (value c h + value c t2)) ((value c h - qsum X m) + (value c t2 - q))) as R1.
      pose proof (Qabs_triangle (value c h - qsum X m) (value c t2 - q)) as R2.
      assert (R3 : (eps * (Qabs (value c h) + Qabs (value c t2)) <= ((1 # 10000) * dl) * (21 # 10))%Q).
      { apply Qmult_le_compat_nonneg; split; try lra. pose proof (Qabs_nonneg (value c h)). pose proof (Qabs_nonneg (value c t2)). lra. }
      unfold near in At2.
      assert (R4 : (e2 * Qabs q <= 3 * dl * (1 # 1000000))%Q).
      { assert (Q1 : (inject_Z (Z.of_nat (S m)) * Qabs q == Qabs (qterm X m) * Qabs X)%Q).
        { unfold q. rewrite qterm_S. field. assert (0 < inject_Z (Z.of_nat (S m)))%Q by (change 0%Q with (inject_Z 0); rewrite <- Zlt_Qlt; lia). lra. }
        pose proof (qterm_X X m X1 M1) as Q2. pose proof (Qabs_nonneg X) as X0. pose proof (Qabs_nonneg (qterm X m)) as Qm0.
        assert (Q3 : (Qabs (qterm X m) * Qabs X <= (1 # 1000) * (1 # 1000))%Q) by (apply Qmult_le_compat_nonneg; split; lra).
        assert (Q4 : (inject_Z (Z.of_nat m) * Qabs q <= inject_Z (Z.of_nat (S m)) * Qabs q)%Q) by (apply Qmult_le_compat_r; [rewrite <- Zle_Qle; lia|auto]).
        unfold e2. rewrite inject_Z_mult. change (inject_Z 3) with 3%Q.
        setoid_replace (3 * inject_Z (Z.of_nat m) * dl * Qabs q)%Q with ((inject_Z (Z.of_nat m) * Qabs q) * (3 * dl))%Q by ring.
        rewrite (Qmult_comm (3 * dl)). apply Qmult_le_compat_r; lra. }
      lra. }
  destruct (Z.of_nat m + 1 >? 4) eqn:G4.
  - rewrite Hd. destruct (Z.max 0 d >? D - 1) eqn:St.
    + exists h, m. split; [reflexivity|]. split; [exact Nh|]. split; [exact M3|]. split; [exact Ah|]. specialize (S1 eq_refl). fold q. lra.
    + apply GO. intros _. apply S2. reflexivity.
  - apply GO. intros K. lia.
Qed.
End SER.
