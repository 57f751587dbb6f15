(** Fmod3_proofs.v - fmod of arbitrary operands: congruent to the dividend and below the divisor, up to rounding. *)
From Verif Require Export Fmod_proofs Exp_proofs.
From Coq Require Import Lqa Lia.
Local Open Scope Z_scope.

Section FMG.
Variable c : cfg.
Variable F : ftype.
Notation M := (max_exp10_of (c_expo c)).
Notation D := (c_digits10 c).
Notation eps := (p10 (- (c_digits10 c + 2 * edc c))).
Notation dl := (p10 (- c_digits10 c)).
Hypothesis Hc : cfg_ok c.
Hypothesis Hk : newton_ok c.
Hypothesis HF : float_fits c F.
Hypothesis HJ : (digit_loops c F <= nel c)%nat.

Lemma Qceil_bounds r : (r <= inject_Z (Qceiling r) /\ inject_Z (Qceiling r) < r + 1)%Q.
Proof using. split; [apply Qle_ceiling|]. pose proof (Qceiling_lt r) as H. unfold Z.sub in H. rewrite inject_Z_plus in H. change (inject_Z (- (1))) with (-(1))%Q in H. lra. Qed.
Lemma Qfloor_bounds r : (inject_Z (Qfloor r) <= r /\ r < inject_Z (Qfloor r) + 1)%Q.
Proof using. split; [apply Qfloor_le|]. pose proof (Qlt_floor r) as H. rewrite inject_Z_plus in H. exact H. Qed.

(** The rational arithmetic of the conclusion. *)
Lemma rem_bound (x v q r N z m d e : Q) (neg : bool) :
  (0 < Qabs v -> q * v == x -> Qabs (r - q) <= d * Qabs q -> 0 <= d -> d <= 1 # 10 ->
  (if neg then r <= N /\ N < r + 1 else N <= r /\ r < N + 1) ->
  0 <= e -> e <= 1 # 100 ->
  Qabs (m - N * v) <= e * Qabs (N * v) -> Qabs (z - (x - m)) <= e * (Qabs x + Qabs m) ->
  Qabs (z - (x - N * v)) <= 5 * e * (Qabs x + Qabs v) /\
  Qabs (x - N * v) <= Qabs v + d * Qabs x /\
  (0 < v -> if neg then x - N * v <= d * Qabs x else - (d * Qabs x) <= x - N * v))%Q.
Proof using.
  intros V0 QV Hr Hd Hd1 HN He He1 Hm Hz.
  assert (QA : (Qabs q * Qabs v == Qabs x)%Q) by (rewrite <- Qabs_Qmult, QV; reflexivity).
  assert (XN : (x - N * v == (q - N) * v)%Q) by (rewrite <- QV; ring).
  pose proof (Qabs_nonneg q) as Q0. pose proof (Qabs_nonneg x) as X0.
  assert (DQ : (0 <= d * Qabs q)%Q) by (apply Qmult_le_0_compat; assumption).
  apply Qabs_Qle_condition in Hr.
  assert (B : (- (1 + d * Qabs q) <= q - N /\ q - N <= 1 + d * Qabs q)%Q) by (destruct neg; lra).
  assert (BN : (Qabs N <= (1 + d) * Qabs q + 1)%Q).
  { apply Qabs_Qle_condition. pose proof (Qle_Qabs q). pose proof (Qle_Qabs (- q)) as K. rewrite Qabs_opp in K. destruct neg; lra. }
  assert (NV : (Qabs (N * v) <= (11 # 10) * Qabs x + Qabs v)%Q).
  { rewrite Qabs_Qmult. apply Qle_trans with (((1 + d) * Qabs q + 1) * Qabs v)%Q; [apply Qmult_le_compat_r; lra|].
    setoid_replace (((1 + d) * Qabs q + 1) * Qabs v)%Q with ((1 + d) * (Qabs q * Qabs v) + Qabs v)%Q by ring. rewrite QA.
    assert ((1 + d) * Qabs x <= (11 # 10) * Qabs x)%Q by (apply Qmult_le_compat_r; lra). lra. }
  split; [|split].
  - assert (Em : (Qabs m <= (101 # 100) * Qabs (N * v))%Q).
    { setoid_replace m with ((m - N * v) + N * v)%Q at 1 by ring. eapply Qle_trans; [apply Qabs_triangle|].
      assert (e * Qabs (N * v) <= (1 # 100) * Qabs (N * v))%Q by (apply Qmult_le_compat_r; [lra|apply Qabs_nonneg]). lra. }
    setoid_replace (z - (x - N * v))%Q with ((z - (x - m)) + - (m - N * v))%Q by ring. eapply Qle_trans; [apply Qabs_triangle|]. rewrite Qabs_opp.
    set (w := Qabs (N * v)) in *. clearbody w.
    apply Qle_trans with (e * (Qabs x + Qabs m) + e * w)%Q; [lra|].
    setoid_replace (e * (Qabs x + Qabs m) + e * w)%Q with ((Qabs x + Qabs m + w) * e)%Q by ring. setoid_replace (5 * e * (Qabs x + Qabs v))%Q with ((5 * (Qabs x + Qabs v)) * e)%Q by ring.
    apply Qmult_le_compat_r; [|exact He]. lra.
  - rewrite XN, Qabs_Qmult. apply Qle_trans with ((1 + d * Qabs q) * Qabs v)%Q.
    + apply Qmult_le_compat_r; [|lra]. apply Qabs_Qle_condition. lra.
    + setoid_replace ((1 + d * Qabs q) * Qabs v)%Q with (Qabs v + d * (Qabs q * Qabs v))%Q by ring. rewrite QA. lra.
  - intros Vp. assert (AV : (Qabs v == v)%Q) by (apply Qabs_pos; lra). rewrite AV in *.
    assert (E : (d * Qabs x == (d * Qabs q) * v)%Q) by (rewrite <- QA; ring).
    destruct neg; rewrite E, XN.
    + apply Qmult_le_compat_r; lra.
    + setoid_replace (- (d * Qabs q * v))%Q with ((- (d * Qabs q)) * v)%Q by ring. apply Qmult_le_compat_r; lra.
Qed.

Theorem fmod_general mem x v : memory_ok mem -> normal c x -> normal c v -> iszero x = false -> iszero v = false ->
  edc c <= D + 4 -> (Qabs (value c x) <= (p10 (D - 1) - 3) * Qabs (value c v))%Q ->
  (~ is_one c x /\ ~ is_nines c x) \/ ~ (Qabs (value c v) == p10 (dexp v))%Q ->
  - M < dexp v < M - 3 * edc c -> - M + 2 * edc c < dexp x - dexp v < M -> dexp x < M - 3 * edc c -> exp_safe c (dexp x) ->
  exists z N, fmod c F mem x v = Some z /\
    (Qabs (value c z - (value c x - inject_Z N * value c v)) <= 5 * eps * (Qabs (value c x) + Qabs (value c v)))%Q /\
    (Qabs (value c x - inject_Z N * value c v) <= Qabs (value c v) + dl * Qabs (value c x))%Q /\
    (0 < value c v -> if dneg x then value c x - inject_Z N * value c v <= dl * Qabs (value c x)
                      else - (dl * Qabs (value c x)) <= value c x - inject_Z N * value c v)%Q.
Proof using Hc Hk HF HJ.
  intros Hm Nx Nv Zx Zv Hed Hq Hp Rv Rxv Rx Sx. pose proof (edc_pos c) as He. pose proof (max_exp10_bounds c) as (HM & HM2 & _). pose proof Hc as [Hd _].
  assert (VN : ~ (value c v == 0)%Q) by (apply (value_nonzero c Hc); auto).
  assert (V0 : (0 < Qabs (value c v))%Q).
  { clear - VN. apply Qabs_case; intros K; destruct (Qlt_le_dec 0 (value c v)), (Qlt_le_dec (value c v) 0); try lra; exfalso; apply VN; lra. }
  assert (XN : ~ (value c x == 0)%Q) by (apply (value_nonzero c Hc); auto).
  set (qq := (value c x / value c v)%Q). assert (QV : (qq * value c v == value c x)%Q) by (unfold qq; field; exact VN).
  assert (QA : (Qabs qq * Qabs (value c v) == Qabs (value c x))%Q) by (rewrite <- Qabs_Qmult, QV; reflexivity).
  assert (Q0 : (0 < Qabs qq)%Q).
  { pose proof (Qabs_nonneg qq). destruct (Qlt_le_dec 0 (Qabs qq)); auto. exfalso. assert (K : (Qabs qq == 0)%Q) by lra. rewrite K in QA.
    apply XN. destruct (Qabs_Qle_condition (value c x) 0) as [QQ _]. assert (Qabs (value c x) <= 0)%Q by lra. specialize (QQ H0). lra. }
  assert (QB : (Qabs qq <= p10 (D - 1) - 3)%Q).
  { apply (Qmult_le_l _ _ (Qabs (value c v)) V0). rewrite Qmult_comm, QA. rewrite (Qmult_comm (Qabs (value c v))). exact Hq. }
  destruct (div_accurate c F mem x v Hc Hk HF HJ Hm Nx Nv Zx Zv Rv Rxv) as (q & Q1 & Sq & Aq & Nq). specialize (Nq Hp). fold qq in Aq.
  assert (E0 : (0 < eps)%Q) by apply Value_proofs.p10_pos. assert (D0 : (0 < dl)%Q) by apply Value_proofs.p10_pos.
  assert (E4 : (eps <= (1 # 10000) * dl)%Q).
  { change (1 # 10000)%Q with (p10 (-4)). rewrite <- Value_proofs.p10_add. apply (proj2 (Mul_proofs.p10_le _ _)). lia. }
  assert (D1 : (dl <= 1 # 10)%Q) by (change (1 # 10)%Q with (p10 (-1)); apply (proj2 (Mul_proofs.p10_le _ _)); lia).
  assert (QS : (9 * eps * Qabs qq <= (9 # 10000) * dl * Qabs qq)%Q) by (apply Qmult_le_compat_r; lra).
  assert (QS2 : ((9 # 10000) * dl * Qabs qq <= 1 # 1000)%Q).
  { assert (K : (dl * Qabs qq <= dl * p10 (D - 1))%Q) by (rewrite !(Qmult_comm dl); apply Qmult_le_compat_r; lra).
    rewrite <- Value_proofs.p10_add in K. replace (- D + (D - 1)) with (-1) in K by ring. change (p10 (-1)) with (1 # 10)%Q in K. lra. }
  assert (QS3 : ((9 # 10000) * dl * Qabs qq <= (1 # 10000) * Qabs qq)%Q) by (apply Qmult_le_compat_r; lra).
  assert (TQ : (Qabs (value c q) <= Qabs (value c q - qq) + Qabs qq)%Q).
  { setoid_replace (value c q) with ((value c q - qq) + qq)%Q at 1 by ring. apply Qabs_triangle. }
  assert (TQ2 : (Qabs qq <= Qabs (value c q - qq) + Qabs (value c q))%Q).
  { rewrite <- (Qabs_opp (value c q - qq)). setoid_replace qq with (- (value c q - qq) + value c q)%Q at 1 by ring. apply Qabs_triangle. }
  assert (Zq : iszero q = false).
  { destruct (iszero q) eqn:C; auto. exfalso. pose proof (value_zero c Hc q Nq C) as K. rewrite K in TQ2. change (Qabs 0) with 0%Q in TQ2. rewrite K in Aq. lra. }
  assert (Bq : (Qabs (value c q) <= p10 (D - 1) - 2)%Q) by lra.
  destruct (floor_ceil_spec c Hc q Nq Zq Hed Bq) as (r & Rn & (zf & F1 & F2 & F3) & (zc & G1 & G2 & G3)).
  assert (Rr : (Qabs (r - qq) <= dl * Qabs qq)%Q).
  { destruct Rn as (k & [L1 L2] & L3 & _).
    assert (K : (p10 (k - (D + 3)) <= (1 # 1000) * dl * Qabs (value c q))%Q).
    { replace (k - (D + 3)) with (-3 + - D + k) by ring. rewrite !Value_proofs.p10_add. change (p10 (-3)) with (1 # 1000)%Q.
      rewrite !(Qmult_comm ((1 # 1000) * dl)). apply Qmult_le_compat_r; lra. }
    setoid_replace (r - qq)%Q with ((r - value c q) + (value c q - qq))%Q by ring. eapply Qle_trans; [apply Qabs_triangle|].
    assert (K2 : ((1 # 1000) * dl * Qabs (value c q) <= (1 # 1000) * dl * (2 * Qabs qq))%Q) by (rewrite !(Qmult_comm ((1 # 1000) * dl)); apply Qmult_le_compat_r; lra). lra. }
  set (N := if dneg x then Qceiling r else Qfloor r).
  assert (NV : exists nv, (if dneg x then dceil c q else dfloor c q) = Some nv /\ normal c nv /\ (value c nv == inject_Z N)%Q).
  { unfold N. destruct (dneg x); [exists zc|exists zf]; auto. }
  assert (HN : (if dneg x then r <= inject_Z N /\ inject_Z N < r + 1 else inject_Z N <= r /\ r < inject_Z N + 1)%Q).
  { unfold N. destruct (dneg x); [apply Qceil_bounds|apply Qfloor_bounds]. }
  destruct NV as (nv & W1 & W2 & W3).
  assert (Hn : forall i, memory_ok (later mem i)) by (intros i; intros j p; apply Hm).
  (* the size of N v *)
  assert (BN : (Qabs (inject_Z N) <= 2 * Qabs qq + 1)%Q).
  { apply Qabs_Qle_condition in Rr. apply Qabs_Qle_condition. assert (dl * Qabs qq <= (1 # 10) * Qabs qq)%Q by (apply Qmult_le_compat_r; lra).
    pose proof (Qle_Qabs qq). pose proof (Qle_Qabs (- qq)) as K. rewrite Qabs_opp in K. clear - HN Rr H H0 K. destruct (dneg x); lra. }
  assert (BV : (Qabs (inject_Z N) * Qabs (value c v) <= 2 * Qabs (value c x) + Qabs (value c v))%Q).
  { eapply Qle_trans; [apply Qmult_le_compat_r; [exact BN|lra]|]. rewrite <- QA. lra. }
  assert (MU : exists m', mulm c (later mem 2000) 0 nv v = Some m' /\ normal c m' /\ (iszero m' = false -> dexp m' < M) /\
     (Qabs (value c m' - inject_Z N * value c v) <= eps * Qabs (inject_Z N * value c v))%Q).
  { rewrite mulm_normal by auto. set (pl := later mem 2000 0%nat (Nat.min (dprec nv) (dprec v))).
    assert (HP : pool_ok c (fst pl) (snd pl)) by (apply mulm_pool; auto).
    destruct (iszero nv) eqn:Zn.
    - destruct (mul_zero_full c (fst pl) (snd pl) nv v Hc (newton_mul_ok c Hc Hk) HP W2 Nv (or_introl Zn) ltac:(lia)) as (m' & U1 & U2 & U3 & _).
      exists m'. split; [exact U1|]. split; [exact U2|]. split; [congruence|].
      pose proof (value_zero c Hc nv W2 Zn) as K. rewrite W3 in K.
      assert (ZZ : (value c m' - inject_Z N * value c v == 0)%Q) by (rewrite (value_zero c Hc m' U2 U3), K; ring).
      rewrite ZZ. change (Qabs 0) with 0%Q. apply Qmult_le_0_compat; [lra|apply Qabs_nonneg].
    - destruct (int_exp c Hc nv N W2 Zn W3) as (In0 & _ & _).
      destruct (value_bracket c Hc nv W2 Zn) as [Bn1 _]. rewrite W3 in Bn1.
      destruct (value_bracket c Hc v Nv Zv) as [Bv1 Bv2]. destruct (value_bracket c Hc x Nx Zx) as [_ Bx2].
      pose proof (Value_proofs.p10_pos (dexp nv)) as P1. pose proof (Value_proofs.p10_pos (dexp v)) as P2.
      assert (PX : (p10 (dexp nv + dexp v) < p10 (M - 2 * edc c + 1))%Q).
      { rewrite Value_proofs.p10_add. eapply Qle_lt_trans; [apply Qmult_le_compat_nonneg; split; [lra|exact Bn1|lra|exact Bv1]|].
        eapply Qle_lt_trans; [exact BV|]. rewrite (Value_proofs.p10_add (M - 2 * edc c) 1). change (p10 1) with 10%Q.
        assert (p10 (dexp x + edc c) <= p10 (M - 2 * edc c))%Q by (apply (proj2 (Mul_proofs.p10_le _ _)); lia).
        assert (p10 (dexp v + edc c) <= p10 (M - 2 * edc c))%Q by (apply (proj2 (Mul_proofs.p10_le _ _)); lia). lra. }
      apply (proj1 (Mul_proofs.p10_lt _ _)) in PX.
      destruct (mul_rel c Hc (fst pl) (snd pl) nv v (newton_mul_ok c Hc Hk) HP W2 Nv Zn Zv ltac:(lia)) as (m' & U1 & U2 & U3 & _ & U4).
      exists m'. split; [exact U1|]. split; [exact U2|]. rewrite W3 in U4. apply Qlt_le_weak in U4. rewrite (Qmult_comm (Qabs (inject_Z N * value c v))) in U4. split; [|exact U4].
      intros _. assert (KK : dexp m' <= M - 2 * edc c + 1); [|lia]. apply (exp_le_of_value c Hc m' _ U2 U3).
      assert (T : (Qabs (value c m') <= Qabs (value c m' - inject_Z N * value c v) + Qabs (inject_Z N * value c v))%Q).
      { setoid_replace (value c m') with ((value c m' - inject_Z N * value c v) + inject_Z N * value c v)%Q at 1 by ring. apply Qabs_triangle. }
      assert (E5 : (eps * Qabs (inject_Z N * value c v) <= (1 # 10) * Qabs (inject_Z N * value c v))%Q) by (apply Qmult_le_compat_r; [lra|apply Qabs_nonneg]).
      assert (BV' : (Qabs (inject_Z N * value c v) <= 2 * Qabs (value c x) + Qabs (value c v))%Q) by (rewrite Qabs_Qmult; exact BV).
      rewrite (Value_proofs.p10_add (M - 2 * edc c) 1). change (p10 1) with 10%Q.
      assert (p10 (dexp x + edc c) <= p10 (M - 2 * edc c))%Q by (apply (proj2 (Mul_proofs.p10_le _ _)); lia).
      assert (p10 (dexp v + edc c) <= p10 (M - 2 * edc c))%Q by (apply (proj2 (Mul_proofs.p10_le _ _)); lia). lra. }
  destruct MU as (m' & U1 & U2 & U3 & U4).
  exists (sub c x m'), N. split.
  { unfold fmod. rewrite Q1. cbn beta iota. rewrite W1. cbn beta iota. rewrite U1. reflexivity. }
  apply (rem_bound _ _ qq r (inject_Z N) _ (value c m')); auto; try lra.
  apply (sub_abs c Hc); auto. intros _ Zm. specialize (U3 Zm). destruct Sx as [S1 S2]. split; [lia|].
  assert (E9 : edc c < 2 ^ (ebits (c_expo c) - 1) - M).
  { lia. }
  lia.
Qed.
End FMG.
