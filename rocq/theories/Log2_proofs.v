(** Log2_proofs.v - the series of log: it stops, and computes the partial sums. *)
From Verif Require Export Exp3_proofs.
From Verif Require Import Frexp_proofs Floor_proofs Mul_proofs Value_proofs Cmp_proofs.
From Coq Require Import Lqa.
Local Open Scope Z_scope.
Notation near := Exp_proofs.near.

(** Powers and partial sums of the logarithmic series. *)
Fixpoint qpw (y : Q) (m : nat) : Q := match m with O => 1%Q | S k => (qpw y k * y)%Q end.
Fixpoint lsum (y : Q) (m : nat) : Q :=
  match m with O => 0%Q | S k => (if Nat.even k then lsum y k + qpw y m / inject_Z (Z.of_nat m) else lsum y k - qpw y m / inject_Z (Z.of_nat m))%Q end.

Notation aa := (821 # 1000)%Q.

Lemma qpw_abs y m : (Qabs y <= aa)%Q -> (0 <= qpw aa m /\ Qabs (qpw y m) <= qpw aa m)%Q.
Proof.
  intros H. induction m as [|m [I0 I1]]; [cbn; split; lra|]. cbn [qpw]. split; [apply Qmult_le_0_compat; lra|].
  rewrite Qabs_Qmult. apply Qmult_le_compat_nonneg; split; auto; apply Qabs_nonneg.
Qed.

Lemma aa_pow12 k : (qpw aa (12 * k) <= p10 (- Z.of_nat k))%Q.
Proof.
  induction k as [|k IH]; [cbn; lra|]. replace (12 * S k)%nat with (12 + 12 * k)%nat by lia.
  assert (A : forall j m, (qpw aa (j + m) == qpw aa j * qpw aa m)%Q). { induction j as [|j IJ]; intros m; cbn [qpw Nat.add]; [ring|]. rewrite IJ. ring. }
  rewrite A. replace (- Z.of_nat (S k)) with (-1 + - Z.of_nat k) by lia. rewrite p10_add. change (p10 (-1)) with (1 # 10)%Q.
  assert (B : (qpw aa 12 <= 1 # 10)%Q) by (apply Qle_bool_imp_le; vm_compute; reflexivity).
  destruct (qpw_abs 0 (12 * k) ltac:(change (Qabs 0) with 0%Q; lra)) as [P _]. destruct (qpw_abs 0 12 ltac:(change (Qabs 0) with 0%Q; lra)) as [P2 _].
  set (t := qpw aa 12) in *. clearbody t. apply Qmult_le_compat_nonneg; split; auto.
Qed.

Lemma aa_mono j m : (qpw aa (j + m) <= qpw aa m)%Q.
Proof.
  induction j as [|j IJ]; [apply Qle_refl|]. cbn [qpw Nat.add]. destruct (qpw_abs 0 (j + m) ltac:(change (Qabs 0) with 0%Q; lra)) as [P _]. lra.
Qed.

Lemma aa_small m : (p10 (-58) <= qpw aa m)%Q -> (m <= 707)%nat.
Proof.
  intros H. destruct (le_lt_dec m 707) as [K|K]; [exact K|]. exfalso.
  pose proof (aa_pow12 59) as P. pose proof (aa_mono (m - 12 * 59) (12 * 59)) as Q. replace (m - 12 * 59 + 12 * 59)%nat with m in Q by lia.
  assert (p10 (- Z.of_nat 59) < p10 (-58))%Q by (apply p10_lt; lia). lra.
Qed.

Lemma lterm_bound y m : (Qabs y <= aa)%Q -> (2 <= m)%nat -> (Qabs (qpw y m / inject_Z (Z.of_nat m)) <= (1 # 2) * qpw aa m)%Q.
Proof.
  intros H Hm. destruct (qpw_abs y m H) as [P0 P1]. rewrite Qabs_div_Z by lia.
  assert (2 <= inject_Z (Z.of_nat m))%Q by (change 2%Q with (inject_Z 2); rewrite <- Zle_Qle; lia).
  apply Qle_shift_div_r; [lra|]. apply Qle_trans with (qpw aa m); [exact P1|].
  apply Qle_trans with ((1 # 2) * qpw aa m * 2)%Q; [lra|]. rewrite !(Qmult_comm ((1 # 2) * qpw aa m)). apply Qmult_le_compat_r; lra.
Qed.

Lemma lsum_bound y m : (Qabs y <= aa)%Q -> (Qabs (lsum y m) <= (1000 # 179) * (aa - qpw aa (S m)))%Q.
Proof.
  intros H. induction m as [|m IH].
  - cbn. lra.
  - cbn [lsum]. assert (T : (Qabs (qpw y (S m) / inject_Z (Z.of_nat (S m))) <= qpw aa (S m))%Q).
    { destruct (qpw_abs y (S m) H) as [P0 P1]. eapply Qle_trans; [|exact P1]. rewrite Qabs_div_Z by lia. apply div_le_self; [apply Qabs_nonneg|lia]. }
    set (t := (qpw y (S m) / inject_Z (Z.of_nat (S m)))%Q) in *. clearbody t.
    assert (G : (qpw aa (S (S m)) == qpw aa (S m) * aa)%Q) by reflexivity. rewrite G.
    destruct (Nat.even m).
    + eapply Qle_trans; [apply Qabs_triangle|]. lra.
    + unfold Qminus. eapply Qle_trans; [apply Qabs_triangle|]. rewrite Qabs_opp. lra.
Qed.

Section SER.
Variable c : cfg.
Variable F : ftype.
Notation W := 100.
Notation L := (c_limb c).
Notation n := (nel c).
Notation M := (max_exp10_of (c_expo c)).
Notation E := (ebits (c_expo c)).
Notation D := (c_digits10 c).
Notation eps := (p10 (- (c_digits10 c + 2 * edc c))).
Notation dl := (p10 (- c_digits10 c)).
Hypothesis Hc : cfg_ok c.
Hypothesis Hk : newton_ok c.
Hypothesis HF : float_fits c F.
Hypothesis HJ : (digit_loops c F <= n)%nat.
Hypothesis HD : 16 <= D <= 51.
Hypothesis HM : 900 <= M.

Lemma HW' : edc c * elem_number c <= 100.
Proof using Hc HD. clear - Hc HD.
  unfold elem_number, edc. destruct (c_limb c); cbn [ed]; match goal with |- context [c_digits10 c mod ?k] =>
    pose proof (Z.div_mod (c_digits10 c) k ltac:(lia)); pose proof (Z.mod_pos_bound (c_digits10 c) k ltac:(lia)); destruct (c_digits10 c mod k =? 0); lia end.
Qed.
Lemma HD2 : 16 <= D <= 2000. Proof using HD. clear - HD. lia. Qed.
Lemma HM2 : 6 * 100 + 300 <= M. Proof using HM. clear - HM. lia. Qed.

(** The stopping test. *)
Lemma log_stop t : normal c t -> iszero t = false -> (Qabs (value c t) <= 1)%Q -> (p10 (- (5 * W + 40)) <= Qabs (value c t))%Q ->
  exists d, neg_exp c (ilogb c t) = Some d /\
    ((Z.max 0 (scast 32 d) >? D + 5) = true -> (Qabs (value c t) < p10 (- (D + 5)))%Q) /\
    ((Z.max 0 (scast 32 d) >? D + 5) = false -> (p10 (- (D + 5)) <= Qabs (value c t))%Q).
Proof.
  intros Nt Zt T1 T2. pose proof (M_E c) as (M1 & M2). pose proof (E_ge8 c) as HE. pose proof (edc_pos c) as He.
  change 1%Q with (p10 0) in T1. pose proof (exp_le_of_value c Hc t 0 Nt Zt T1) as X1. pose proof (exp_gt_of_value c Hc t _ Nt Zt T2) as X2.
  destruct (ilogb_spec c Hc t Nt Zt ltac:(lia)) as [I1 I2]. set (g := ilogb c t) in *.
  assert (G1 : g <= 0). { apply p10_le. lra. }
  assert (G2 : - (5 * W + 40) < g + 1). { apply (proj1 (p10_lt (- (5 * W + 40)) (g + 1))). lra. }
  exists (- g). split.
  - unfold neg_exp. replace (g =? - 2 ^ (E - 1)) with false by lia. cbn [andb]. rewrite scast_id by lia. reflexivity.
  - rewrite (scast_id 32) by (change (2 ^ (32 - 1)) with 2147483648; lia). split; intros H.
    + eapply Qlt_le_trans; [exact I2|]. apply p10_le. lia.
    + eapply Qle_trans; [|exact I1]. apply p10_le. lia.
Qed.

Variable yd : dec.
Notation Y := (value c yd).
Hypothesis Nyd : normal c yd.
Hypothesis Y1 : (Qabs Y <= aa)%Q.
Hypothesis Y2 : (p10 (- (W + 4)) <= Qabs Y)%Q.

Lemma Zyd : iszero yd = false.
Proof using Hc Nyd Y2.
  destruct (iszero yd) eqn:Z0; [|reflexivity]. exfalso. rewrite (value_zero c Hc yd Nyd Z0) in Y2. change (Qabs 0) with 0%Q in Y2.
  pose proof (p10_pos (- (W + 4))). lra.
Qed.

Lemma m_eps m : 0 <= m <= 3000 -> (0 <= inject_Z m * eps /\ inject_Z m * eps <= (3 # 10) * dl)%Q.
Proof using Hc HD.
  intros Hm. destruct (dl_tiny c Hc HD2) as (D0 & D1 & E0 & E1). pose proof (Zq m ltac:(clear - Hm; lia)) as M0.
  assert (M1 : (inject_Z m <= 3000)%Q) by (change 3000%Q with (inject_Z 3000); rewrite <- Zle_Qle; clear - Hm; lia).
  split; [apply Qmult_le_0_compat; lra|]. apply Qle_trans with (3000 * eps)%Q; [apply Qmult_le_compat_r; lra|lra].
Qed.

(** One step: the next power and the next term. *)
Lemma log_step mem1 mem2 m t : memory_ok mem1 -> memory_ok mem2 -> (1 <= m <= 707)%nat ->
  normal c t -> near (inject_Z (2 * (Z.of_nat m - 1)) * eps) (value c t) (qpw Y m) -> (p10 (- (4 * W + 28)) <= Qabs (qpw Y m))%Q ->
  exists t1 t2, mulm c mem1 0 t yd = Some t1 /\ div_unsigned c F mem2 t1 (Z.of_nat m + 1) = Some t2 /\ normal c t1 /\ normal c t2 /\
    near (inject_Z (2 * Z.of_nat m) * eps) (value c t1) (qpw Y (S m)) /\ iszero t1 = false /\ iszero t2 = false /\
    near ((23 # 10) * dl) (value c t2) (qpw Y (S m) / inject_Z (Z.of_nat (S m))) /\
    (p10 (- (5 * W + 36)) <= Qabs (value c t1))%Q /\ (Qabs (value c t1) <= 1)%Q /\ -600 < dexp t2 <= 0.
Proof.
  intros Hm1 Hm2 M1 Nt At Lt. pose proof (edc_pos c) as He.
  destruct (dl_tiny c Hc HD2) as (D0 & D1 & E0 & E1). destruct (m_eps (2 * (Z.of_nat m - 1)) ltac:(clear - M1; lia)) as [A0 A1]. destruct (m_eps (2 * Z.of_nat m) ltac:(clear - M1; lia)) as [B0 B1].
  assert (A2 : (inject_Z (2 * Z.of_nat m) * eps == inject_Z (2 * (Z.of_nat m - 1)) * eps + 2 * eps)%Q).
  { replace (2 * Z.of_nat m) with (2 * (Z.of_nat m - 1) + 2) by lia. rewrite inject_Z_plus. change (inject_Z 2) with 2%Q. ring. }
  assert (B2 : (inject_Z (2 * Z.of_nat m) * eps <= (2 # 10) * dl)%Q).
  { pose proof (p10_pos (- (D + 2 * edc c))). apply Qle_trans with (1414 * eps)%Q; [|lra]. apply Qmult_le_compat_r; [|lra]. change 1414%Q with (inject_Z 1414). rewrite <- Zle_Qle. clear - M1. lia. }
  set (e1 := (inject_Z (2 * (Z.of_nat m - 1)) * eps)%Q) in *. set (e2 := (inject_Z (2 * Z.of_nat m) * eps)%Q) in *. clearbody e1 e2.
  destruct (qpw_abs Y m Y1) as [G0 G1]. assert (G2 : (qpw aa m <= aa)%Q).
  { destruct m as [|m']; [lia|]. pose proof (aa_mono m' 1) as Q. replace (m' + 1)%nat with (S m') in Q by lia. cbn [qpw] in Q |- *. lra. }
  assert (G3 : (qpw Y (S m) == qpw Y m * Y)%Q) by reflexivity. set (q := qpw Y m) in *.
  destruct (near_abs _ _ _ At) as [T1 T2]. pose proof (Qabs_nonneg q) as Q0.
  assert (T3 : ((1 - e1) * Qabs q >= (9 # 10) * Qabs q)%Q) by (apply Qmult_le_compat_r; lra).
  assert (T4 : ((1 + e1) * Qabs q <= (1001 # 1000) * Qabs q)%Q) by (apply Qmult_le_compat_r; lra).
  assert (P21 : (p10 (- (4 * W + 29)) == (1 # 10) * p10 (- (4 * W + 28)))%Q).
  { replace (- (4 * W + 29)) with (-1 + - (4 * W + 28)) by ring. rewrite p10_add. reflexivity. }
  pose proof (p10_pos (- (4 * W + 28))) as P20.
  assert (Lt' : (p10 (- (4 * W + 29)) <= Qabs (value c t))%Q) by lra.
  assert (Zt : iszero t = false).
  { destruct (iszero t) eqn:K; [|reflexivity]. exfalso. rewrite (value_zero c Hc t Nt K) in Lt'. change (Qabs 0) with 0%Q in Lt'. pose proof (p10_pos (- (4 * W + 29))). lra. }
  pose proof (exp_gt_of_value c Hc t _ Nt Zt Lt') as Gt. pose proof (exp_gt_of_value c Hc yd _ Nyd Zyd Y2) as Gx.
  assert (Lt1 : dexp t <= 0). { apply (exp_le_of_value c Hc t 0 Nt Zt). change (p10 0) with 1%Q. lra. }
  assert (Lx1 : dexp yd <= 0). { apply (exp_le_of_value c Hc yd 0 Nyd Zyd). change (p10 0) with 1%Q. lra. }
  destruct (mul_step c Hc Hk mem1 0 t yd Hm1 Nt Nyd Zt Zyd) as (t1 & X1 & Nt1 & Zt1 & At1); [clear - Gt Gx Lt1 Lx1 He HM; lia|].
  set (T := value c t) in *. pose proof (Qabs_Qmult T Y) as TX. pose proof (Qabs_nonneg Y) as X0. pose proof (Qabs_nonneg T) as T0.
  destruct (near_abs _ _ _ At1) as [V1 V2]. pose proof (Qabs_nonneg (T * Y)) as TX0.
  assert (V3 : ((1 - eps) * Qabs (T * Y) >= (9 # 10) * Qabs (T * Y))%Q) by (apply Qmult_le_compat_r; lra).
  assert (V4 : ((1 + eps) * Qabs (T * Y) <= (1001 # 1000) * Qabs (T * Y))%Q) by (apply Qmult_le_compat_r; lra).
  assert (TXl : (p10 (- (4 * W + 29)) * p10 (- (W + 4)) <= Qabs (T * Y))%Q).
  { rewrite TX. pose proof (p10_pos (- (W + 4))). pose proof (p10_pos (- (4 * W + 29))). apply Qmult_le_compat_nonneg; split; lra. }
  rewrite <- p10_add in TXl. replace (- (4 * W + 29) + - (W + 4)) with (1 + - (5 * W + 34)) in TXl by ring. rewrite p10_add in TXl. change (p10 1) with 10%Q in TXl.
  pose proof (p10_pos (- (5 * W + 34))) as P26.
  assert (TXu : (Qabs (T * Y) <= 68 # 100)%Q).
  { rewrite TX. apply Qle_trans with ((822 # 1000) * aa)%Q; [|lra]. apply Qmult_le_compat_nonneg; split; lra. }
  assert (Gt1 : - (5 * W + 34) - edc c < dexp t1). { apply (exp_gt_of_value c Hc t1 _ Nt1 Zt1). lra. }
  assert (Ut1 : dexp t1 <= 0). { apply (exp_le_of_value c Hc t1 0 Nt1 Zt1). change (p10 0) with 1%Q. lra. }
  destruct (div_step c F Hc Hk HF HJ mem2 t1 (Z.of_nat m + 1) Hm2 Nt1 Zt1) as (t2 & X2 & Nt2 & At2).
  { change (10 ^ 6) with 1000000. clear - M1. lia. } { right. lra. } { clear - Gt1 Ut1 He HM. lia. }
  (* the power *)
  assert (Acc1 : near e2 (value c t1) (qpw Y (S m))).
  { change (qpw Y (S m)) with (q * Y)%Q. pose proof (near_mult _ _ _ Y At) as S2. assert (E0' : (0 <= eps)%Q) by lra. pose proof (Exp_proofs.near_trans _ _ _ _ _ E0' At1 S2) as S3. eapply Exp_proofs.near_le; [|exact S3].
    assert (eps * e1 <= eps * 1)%Q by (rewrite !(Qmult_comm eps); apply Qmult_le_compat_r; lra). lra. }
  (* the term *)
  set (u := inject_Z (Z.of_nat (S m))). assert (Zu : inject_Z (Z.of_nat m + 1) = u) by (unfold u; f_equal; lia). rewrite Zu in At2.
  assert (Acc2 : near ((23 # 10) * dl) (value c t2) (qpw Y (S m) / u)).
  { pose proof (near_div _ _ _ u Acc1) as S1. assert (D2 : (0 <= 2 * dl)%Q) by lra. pose proof (Exp_proofs.near_trans _ _ _ _ _ D2 At2 S1) as S3. eapply Exp_proofs.near_le; [|exact S3].
    assert (2 * dl * e2 <= 2 * dl * (1 # 1000))%Q by (rewrite !(Qmult_comm (2 * dl)); apply Qmult_le_compat_r; lra).
    lra. }
  assert (U1 : (1 <= u)%Q) by (change 1%Q with (inject_Z 1); unfold u; rewrite <- Zle_Qle; clear; lia).
  assert (U2 : (u <= 1000)%Q) by (change 1000%Q with (inject_Z 1000); unfold u; rewrite <- Zle_Qle; clear - M1; lia).
  assert (P27 : (p10 (- (5 * W + 34)) == 100 * p10 (- (5 * W + 36)))%Q).
  { replace (- (5 * W + 34)) with (2 + - (5 * W + 36)) by ring. rewrite p10_add. reflexivity. }
  assert (P28 : (p10 (- (5 * W + 34)) == 10000 * p10 (- (5 * W + 38)))%Q).
  { replace (- (5 * W + 34)) with (4 + - (5 * W + 38)) by ring. rewrite p10_add. reflexivity. }
  pose proof (p10_pos (- (5 * W + 36))) as P29.
  set (v1 := value c t1) in *.
  assert (W1 : (p10 (- (5 * W + 36)) <= Qabs v1)%Q) by lra. assert (W2 : (Qabs v1 <= 1)%Q) by lra.
  exists t1, t2. split; [exact X1|]. split; [exact X2|]. split; [exact Nt1|]. split; [exact Nt2|]. split; [exact Acc1|]. split; [exact Zt1|].
  destruct (near_abs _ _ _ At2) as [R1 R2].
  assert (R0 : (Qabs (v1 / u) == Qabs v1 / u)%Q) by (unfold u; apply Qabs_div_Z; clear; lia).
  assert (R3 : (p10 (- (5 * W + 38)) * 90 <= Qabs v1 / u)%Q) by (apply Qle_shift_div_l; [lra|]; apply Qle_trans with (p10 (- (5 * W + 38)) * 90 * 1000)%Q; [rewrite !(Qmult_comm (p10 (- (5 * W + 38)) * 90)); apply Qmult_le_compat_r; lra|lra]).
  assert (R4 : (Qabs v1 / u <= Qabs v1)%Q) by (apply Qle_shift_div_r; [lra|]; rewrite <- (Qmult_1_r (Qabs v1)) at 1; rewrite !(Qmult_comm (Qabs v1)); apply Qmult_le_compat_r; lra).
  assert (R5 : ((1 - 2 * dl) * Qabs (v1 / u) >= (9 # 10) * Qabs (v1 / u))%Q) by (apply Qmult_le_compat_r; [lra|apply Qabs_nonneg]).
  assert (R6 : ((1 + 2 * dl) * Qabs (v1 / u) <= (1001 # 1000) * Qabs (v1 / u))%Q) by (apply Qmult_le_compat_r; [lra|apply Qabs_nonneg]).
  assert (V5 : (Qabs v1 <= 7 # 10)%Q) by lra.
  assert (R7 : (p10 (- (5 * W + 38)) <= Qabs (value c t2))%Q) by lra. assert (R8 : (Qabs (value c t2) <= 1)%Q) by lra.
  assert (Zt2 : iszero t2 = false).
  { destruct (iszero t2) eqn:K; [|reflexivity]. exfalso. rewrite (value_zero c Hc t2 Nt2 K) in R7. change (Qabs 0) with 0%Q in R7. pose proof (p10_pos (- (5 * W + 38))). lra. }
  split; [exact Zt2|]. split; [exact Acc2|]. split; [exact W1|]. split; [exact W2|].
  pose proof (exp_gt_of_value c Hc t2 _ Nt2 Zt2 R7) as G9. change 1%Q with (p10 0) in R8. pose proof (exp_le_of_value c Hc t2 0 Nt2 Zt2 R8) as G8.
  assert (E9 : edc c <= 9) by (unfold edc; destruct (c_limb c); cbn; lia).
  clear - G9 G8 He E9. lia.
Qed.

Definition lerr (m : nat) : Q := ((115 # 100) * dl * ((1000 # 179) * (aa * aa - qpw aa (S m))) + inject_Z (Z.of_nat m) * (8 * eps))%Q.

Lemma lerr_bound m : (m <= 707)%nat -> (lerr m <= 5 * dl)%Q.
Proof using Hc HD.
  intros Hm. unfold lerr. destruct (dl_tiny c Hc HD2) as (D0 & D1 & E0 & E1).
  destruct (qpw_abs 0 (S m) ltac:(change (Qabs 0) with 0%Q; lra)) as [P _].
  assert (A : ((115 # 100) * dl * ((1000 # 179) * (aa * aa - qpw aa (S m))) <= (115 # 100) * dl * ((1000 # 179) * (aa * aa)))%Q).
  { rewrite !(Qmult_comm ((115 # 100) * dl)). apply Qmult_le_compat_r; lra. }
  assert (B : (inject_Z (Z.of_nat m) * (8 * eps) <= 707 * (8 * eps))%Q).
  { apply Qmult_le_compat_r; [|lra]. change 707%Q with (inject_Z 707). rewrite <- Zle_Qle. clear - Hm. lia. }
  lra.
Qed.

Lemma sum_size m s : (m <= 707)%nat -> normal c s -> (Qabs (value c s - lsum Y m) <= lerr m)%Q -> (Qabs (value c s) <= 5)%Q /\ (iszero s = false -> dexp s <= 1).
Proof using Hc HD Y1.
  intros Hm Ns As. destruct (dl_tiny c Hc HD2) as (D0 & D1 & E0 & E1). pose proof (lerr_bound m Hm) as LB. pose proof (lsum_bound Y m Y1) as SB.
  destruct (qpw_abs 0 (S m) ltac:(change (Qabs 0) with 0%Q; lra)) as [P _].
  assert (A : (Qabs (value c s) <= 5)%Q).
  { pose proof (Qabs_triangle (value c s - lsum Y m) (lsum Y m)) as T. setoid_replace (value c s - lsum Y m + lsum Y m)%Q with (value c s) in T by ring. lra. }
  split; [exact A|]. intros Zs. apply (exp_le_of_value c Hc s 1 Ns Zs). change (p10 1) with 10%Q. lra.
Qed.

Lemma log_loop_spec mems : (forall j, memory_ok (mems j)) -> forall k m t s, (1 <= m <= 707)%nat -> (800 - m <= k)%nat ->
  normal c t -> near (inject_Z (2 * (Z.of_nat m - 1)) * eps) (value c t) (qpw Y m) ->
  ((m <= 4)%nat -> (p10 (- (Z.of_nat m * (W + 4))) <= Qabs (qpw Y m))%Q) ->
  ((4 < m)%nat -> (p10 (- (D + 5)) <= Qabs (value c t))%Q) ->
  normal c s -> (Qabs (value c s - lsum Y m) <= lerr m)%Q ->
  exists s' m', log_loop c F k mems (Z.of_nat m + 1) (D + 5) yd t s (Nat.odd m) = Some s' /\ normal c s' /\ (1 <= m' <= 707)%nat /\
    (Qabs (value c s' - lsum Y m') <= lerr m')%Q /\
    (Qabs (qpw Y (S m')) <= (101 # 100) * p10 (- (D + 5)))%Q.
Proof.
  intros Hmem. pose proof (edc_pos c) as He. destruct (dl_tiny c Hc HD2) as (D0 & D1 & E0 & E1). pose proof (M_E c) as (ME1 & ME2).
  assert (W4 : edc c * elem_number c + 200 <= M). { pose proof HW' as HW0. clear - HW0 HM. lia. }
  induction k; intros m t s M1 Hk' Nt At Lo Hi Ns As; [lia|].
  assert (Lq : (p10 (- (4 * W + 28)) <= Qabs (qpw Y m))%Q).
  { destruct (le_lt_dec m 4) as [K|K].
    - eapply Qle_trans; [|apply Lo; exact K]. apply p10_le. clear - K. lia.
    - specialize (Hi K). destruct (near_abs _ _ _ At) as [_ T]. destruct (m_eps (2 * (Z.of_nat m - 1)) ltac:(clear - M1; lia)) as [A0 A1].
      assert (T4 : ((1 + inject_Z (2 * (Z.of_nat m - 1)) * eps) * Qabs (qpw Y m) <= 10 * Qabs (qpw Y m))%Q) by (apply Qmult_le_compat_r; [lra|apply Qabs_nonneg]).
      assert (P : (p10 (- (D + 5)) == 10 * p10 (- (D + 6)))%Q). { replace (- (D + 5)) with (1 + - (D + 6)) by ring. rewrite p10_add. reflexivity. }
      apply Qle_trans with (p10 (- (D + 6))); [apply p10_le; clear - HD; lia|]. lra. }
  destruct (log_step (mems (2 * (Z.of_nat m + 1))) (mems (2 * (Z.of_nat m + 1) + 1)) m t) as (t1 & t2 & X1 & X2 & Nt1 & Nt2 & At1 & Zt1 & Zt2 & At2 & Lt1 & Ut1 & Et2); auto.
  cbn [log_loop]. rewrite X1, X2. rewrite Zt1. cbn [orb].
  destruct (m_eps (2 * Z.of_nat m) ltac:(clear - M1; lia)) as [B0 B1]. destruct (near_abs _ _ _ At1) as [T1 T2].
  destruct (qpw_abs Y (S m) Y1) as [G0 G1].
  pose proof (Qabs_nonneg (qpw Y (S m))) as Q0.
  set (e2 := (inject_Z (2 * Z.of_nat m) * eps)%Q) in *. set (q := qpw Y (S m)) in *.
  assert (T3 : ((1 - e2) * Qabs q >= (9999 # 10000) * Qabs q)%Q) by (apply Qmult_le_compat_r; lra).
  assert (T4 : ((1 + e2) * Qabs q <= (11 # 10) * Qabs q)%Q) by (apply Qmult_le_compat_r; lra).
  destruct (log_stop t1 Nt1 Zt1 Ut1) as (d & Hd & S1 & S2).
  { eapply Qle_trans; [|exact Lt1]. apply p10_le. clear. lia. }
  assert (GO : ((4 < S m)%nat -> (p10 (- (D + 5)) <= Qabs (value c t1))%Q) ->
    exists s' m', log_loop c F k mems (Z.of_nat m + 1 + 1) (D + 5) yd t1 (if Nat.odd m then sub c s t2 else add c s t2) (negb (Nat.odd m)) = Some s' /\ normal c s' /\ (1 <= m' <= 707)%nat /\
    (Qabs (value c s' - lsum Y m') <= lerr m')%Q /\ (Qabs (qpw Y (S m')) <= (101 # 100) * p10 (- (D + 5)))%Q).
  { intros Hi'. replace (Z.of_nat m + 1) with (Z.of_nat (S m)) by (clear; lia).
    assert (M3' : (S m <= 707)%nat).
    { destruct (le_lt_dec (S m) 4) as [K|K]; [clear - K; lia|]. specialize (Hi' K). apply aa_small.
      assert (P : (p10 (- (D + 5)) >= p10 (-56))%Q) by (apply p10_le; clear - HD; lia).
      change (p10 (-56)) with (p10 (2 + -58)) in P. rewrite p10_add in P. change (p10 2) with 100%Q in P. pose proof (p10_pos (-58)). lra. }
    replace (negb (Nat.odd m)) with (Nat.odd (S m)) by (rewrite Nat.odd_succ; unfold Nat.odd; rewrite Bool.negb_involutive; reflexivity).
    destruct (sum_size m s ltac:(clear - M1; lia) Ns As) as [SS1 SS2].
    assert (Sf : iszero s = false -> iszero t2 = false -> exp_safe c (Z.max (dexp s) (dexp t2))).
    { intros Zs _. specialize (SS2 Zs). apply (safe_of c W4); clear - SS2 Et2 HM; lia. }
    pose proof (add_abs c Hc s t2 Ns Nt2 Sf) as AA. pose proof (add_normal c Hc s t2 Ns Nt2) as Na.
    pose proof (sub_abs c Hc s t2 Ns Nt2 Sf) as AS. pose proof (sub_normal c Hc s t2 Ns Nt2) as Nsb.
    assert (Cneg : Nat.even m = negb (Nat.odd m)) by (unfold Nat.odd; rewrite Bool.negb_involutive; reflexivity).
    assert (U : (Qabs (q / inject_Z (Z.of_nat (S m))) <= (1 # 2) * qpw aa (S m))%Q) by (apply lterm_bound; [exact Y1|clear - M1; lia]).
    assert (GA : (qpw aa (S m) <= aa)%Q).
    { pose proof (aa_mono m 1) as Q. replace (m + 1)%nat with (S m) in Q by (clear; lia). cbn [qpw] in Q |- *. lra. }
    destruct (near_abs _ _ _ At2) as [_ N2]. unfold Exp_proofs.near in At2.
    set (w := (q / inject_Z (Z.of_nat (S m)))%Q) in *. pose proof (Qabs_nonneg w) as W0.
    assert (N3 : ((1 + (23 # 10) * dl) * Qabs w <= 2 * Qabs w)%Q) by (apply Qmult_le_compat_r; lra).
    assert (N4 : ((23 # 10) * dl * Qabs w <= (23 # 10) * dl * ((1 # 2) * qpw aa (S m)))%Q) by (rewrite !(Qmult_comm ((23 # 10) * dl)); apply Qmult_le_compat_r; lra).
    assert (R3 : (eps * (Qabs (value c s) + Qabs (value c t2)) <= eps * 8)%Q).
    { rewrite !(Qmult_comm eps). apply Qmult_le_compat_r; lra. }
    assert (LE : (lerr (S m) == lerr m + (115 # 100) * dl * qpw aa (S m) + 8 * eps)%Q).
    { unfold lerr. replace (Z.of_nat (S m)) with (Z.of_nat m + 1) by (clear; lia). rewrite inject_Z_plus. change (inject_Z 1) with 1%Q.
      change (qpw aa (S (S m))) with (qpw aa (S m) * aa)%Q. ring. }
    assert (HM' : (1 <= S m <= 707)%nat) by (clear - M3'; lia). assert (HK' : (800 - S m <= k)%nat) by (clear - Hk'; lia).
    assert (LO' : (S m <= 4)%nat -> (p10 (- (Z.of_nat (S m) * (W + 4))) <= Qabs q)%Q).
    { intros K. unfold q. cbn [qpw]. rewrite Qabs_Qmult. apply Qle_trans with (p10 (- (Z.of_nat m * (W + 4))) * p10 (- (W + 4)))%Q.
      - rewrite <- p10_add. apply p10_le. clear. lia.
      - pose proof (p10_pos (- (Z.of_nat m * (W + 4)))). pose proof (p10_pos (- (W + 4))). specialize (Lo ltac:(clear - K; lia)). apply Qmult_le_compat_nonneg; split; lra. }
    apply IHk; auto.
    - replace (Z.of_nat (S m) - 1) with (Z.of_nat m) by (clear; lia). exact At1.
    - destruct (Nat.odd m); auto.
    - cbn [lsum]. rewrite Cneg. fold q. fold w. rewrite LE. destruct (Nat.odd m); cbn [negb].
      + setoid_replace (value c (sub c s t2) - (lsum Y m - w))%Q
          with ((value c (sub c s t2) - (value c s - value c t2)) + ((value c s - lsum Y m) + - (value c t2 - w)))%Q by ring.
        pose proof (Qabs_triangle (value c (sub c s t2) - (value c s - value c t2)) ((value c s - lsum Y m) + - (value c t2 - w))) as R1.
        pose proof (Qabs_triangle (value c s - lsum Y m) (- (value c t2 - w))) as R2. rewrite Qabs_opp in R2. lra.
      + setoid_replace (value c (add c s t2) - (lsum Y m + w))%Q
          with ((value c (add c s t2) - (value c s + value c t2)) + ((value c s - lsum Y m) + (value c t2 - w)))%Q by ring.
        pose proof (Qabs_triangle (value c (add c s t2) - (value c s + value c t2)) ((value c s - lsum Y m) + (value c t2 - w))) as R1.
        pose proof (Qabs_triangle (value c s - lsum Y m) (value c t2 - w)) as R2. lra. }
  destruct (Z.of_nat m + 1 >? 4) eqn:G4.
  - rewrite Hd. destruct (Z.max 0 (scast 32 d) >? D + 5) eqn:St.
    + exists s, m. split; [reflexivity|]. split; [exact Ns|]. split; [exact M1|]. split; [exact As|]. specialize (S1 eq_refl). fold q. lra.
    + apply GO. intros _. apply S2. reflexivity.
  - apply GO. intros K. exfalso. clear - G4 K. lia.
Qed.
End SER.
