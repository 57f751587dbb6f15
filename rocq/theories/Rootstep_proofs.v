(** Rootstep_proofs.v - one pass of the root iteration. *)
From Verif Require Export Rootpow_proofs Model_Log.
From Coq Require Import Lqa.
Local Open Scope Z_scope.

Lemma step_root_num (P a t t2 e1 t3 e4 t5 sd ss tm h dl : Q) : (3 <= P -> 0 < h -> P * h <= 1 # 10000 -> 0 <= dl -> dl <= 1 # 100 -> Qabs a <= 1 # 1000 ->
  Qabs t <= (101 # 100) * ((P - 1) * (3 * h)) -> Qabs t2 <= 3 * h -> Qabs e1 <= 2 * h -> sd == 1 - (1 - a) * (1 + t) * (1 + t2) + e1 ->
  Qabs t3 <= dl -> ss == sd / P * (1 + t3) -> Qabs e4 <= 2 * h -> tm == 1 + ss + e4 -> Qabs t5 <= 3 * h ->
  exists e, P * (tm * (1 + t5) - 1) == a + P * e /\ Qabs (P * e) <= (88 # 10) * (P * h) + Qabs a * dl)%Q.
Proof.
  intros HP h0 Hh d0 Hd Ha Ht Ht2 He1 Esd Ht3 Ess He4 Etm Ht5.
  assert (h1 : (3 * h <= P * h)%Q) by (apply Qmult_le_compat_r; lra).
  pose proof (pm_mul t t2 (1 # 1000) (3 * h) ltac:(eapply Qle_trans; [exact Ht|]; lra) Ht2) as K1.
  assert (K2 : (Qabs (t + t2 + t * t2) <= (3032 # 1000) * (P * h))%Q).
  { apply pm_bnd in K1, Ht, Ht2. apply pm_bnd. lra. }
  assert (A1 : (Qabs (1 - a) <= 1001 # 1000)%Q) by (apply pm_bnd in Ha; apply pm_bnd; lra).
  pose proof (pm_mul (1 - a) (t + t2 + t * t2) _ _ A1 K2) as K3.
  set (e2 := (sd - a)%Q).
  assert (E2 : (e2 == e1 - (1 - a) * (t + t2 + t * t2))%Q) by (unfold e2; rewrite Esd; ring).
  assert (B2 : (Qabs e2 <= (371 # 100) * (P * h))%Q) by (rewrite E2; apply pm_bnd in K3, He1; apply pm_bnd; lra).
  assert (Esd2 : (sd == a + e2)%Q) by (unfold e2; ring).
  assert (PS : (P * ss == (a + e2) * (1 + t3))%Q) by (rewrite Ess, Esd2; field; lra).
  pose proof (pm_mul a t3 (Qabs a) dl (Qle_refl _) Ht3) as K4.
  pose proof (pm_mul e2 t3 _ (1 # 100) B2 ltac:(lra)) as K5.
  assert (Bps : (Qabs (P * ss) <= 2 # 1000)%Q).
  { rewrite PS. setoid_replace ((a + e2) * (1 + t3))%Q with (a + e2 + a * t3 + e2 * t3)%Q by ring.
    pose proof (pm_mul a t3 (1 # 1000) (1 # 100) Ha ltac:(lra)) as K4'.
    apply pm_bnd in K4', K5, B2, Ha. apply pm_bnd. lra. }
  assert (Bs : (Qabs ss <= 2 # 3000)%Q).
  { rewrite Qabs_Qmult, (Qabs_pos P) in Bps by lra. pose proof (Qabs_nonneg ss).
    assert (3 * Qabs ss <= P * Qabs ss)%Q by (apply Qmult_le_compat_r; auto). lra. }
  assert (Bt : (Qabs (1 + ss + e4) <= 101 # 100)%Q) by (apply pm_bnd in Bs, He4; apply pm_bnd; lra).
  pose proof (pm_mul t5 (1 + ss + e4) _ _ Ht5 Bt) as K6.
  assert (P0 : (Qabs P <= P)%Q) by (rewrite Qabs_pos; lra).
  pose proof (pm_mul P (t5 * (1 + ss + e4)) _ _ P0 K6) as K7. pose proof (pm_mul P e4 _ _ P0 He4) as K8.
  exists ((e2 + a * t3 + e2 * t3) / P + e4 + t5 * (1 + ss + e4))%Q. split.
  - rewrite Etm. setoid_replace (P * ((1 + ss + e4) * (1 + t5) - 1))%Q with (P * ss + P * e4 + P * (t5 * (1 + ss + e4)))%Q by ring. rewrite PS. field. lra.
  - setoid_replace (P * ((e2 + a * t3 + e2 * t3) / P + e4 + t5 * (1 + ss + e4)))%Q with (e2 + a * t3 + e2 * t3 + P * e4 + P * (t5 * (1 + ss + e4)))%Q by (field; lra).
    apply pm_bnd in K4, K5, K7, K8, B2. apply pm_bnd. lra.
Qed.

Lemma qp_between q k m : (k <= m)%nat -> (0 < q)%Q -> ((1 <= qp q k /\ qp q k <= qp q m) \/ (qp q m <= qp q k /\ qp q k <= 1))%Q.
Proof.
  intros H q0. assert (A : (qp q m == qp q k * qp q (m - k))%Q) by (rewrite <- qp_add; replace (k + (m - k))%nat with m by lia; reflexivity).
  pose proof (qp_pos q k q0) as k0. pose proof (qp_pos q (m - k) q0) as m0. rewrite A.
  destruct (Qlt_le_dec q 1) as [C|C].
  - right. pose proof (qp_le q 1 k ltac:(lra) ltac:(lra)) as U1. pose proof (qp_le q 1 (m - k) ltac:(lra) ltac:(lra)) as U2. rewrite qp_one in U1, U2.
    split; auto. assert (qp q k * qp q (m - k) <= qp q k * 1)%Q by (apply Qmult_le_l; auto). lra.
  - left. pose proof (qp_le 1 q k ltac:(lra) ltac:(lra)) as U1. pose proof (qp_le 1 q (m - k) ltac:(lra) ltac:(lra)) as U2. rewrite qp_one in U1, U2.
    split; auto. assert (qp q k * 1 <= qp q k * qp q (m - k))%Q by (apply Qmult_le_l; auto). lra.
Qed.

Section RS.
Variable c : cfg.
Variable F : ftype.
Notation L := (c_limb c).
Notation B := (mask L).
Notation E := (ebits (c_expo c)).
Notation n := (nel c).
Notation M := (max_exp10_of (c_expo c)).
Notation mag := (mag c).
Notation eta := (eta c).
Notation nz := (nz c).
Notation zl := (zl c).
Notation sv := (sv c).
Hypothesis Hc : cfg_ok c.
Hypothesis Hk : newton_ok c.

Definition root_step (ma mb : memory) (pw np : Z) (r x : dec) : option dec :=
  do w <- pow_nonneg c ma r pw;
  do q <- mulm c ma 150 (negate w) x;
  do s <- div_signed c F mb (add c q (one c)) pw;
  let term := precision c (add c s (one c)) np in
  mulm c ma 199 r term.

(** Quotient of a possibly zero term. *)
Lemma div_any mb d u p : (zl d \/ nz d) -> (3 <= p)%nat -> (nz d -> (p <= dprec d <= n)%nat) -> 1 < u < B ->
  (nz d -> - M + edc c <= dexp d < M) ->
  exists s t, div_signed c F mb d u = Some s /\ (iszero s = true \/ nz s /\ (p <= dprec s <= n)%nat /\ dexp d - edc c <= dexp s <= dexp d) /\
    (sv s == sv d / inject_Z u * (1 + t))%Q /\ (Qabs t <= dloss c p u)%Q.
Proof.
  intros [Zd|Nd] Hp Hpd Hu Rd; unfold div_signed.
  - assert (HB32 : B < 2 ^ 32) by (destruct L; reflexivity).
    destruct (div_zl c (fun y k => divide c F mb y (from_ull c k)) d u (proj1 Zd)) as (s & E1 & Z1); [change (2 ^ 64) with (2 ^ 32 * 2 ^ 32); lia|].
    exists s, 0%Q. split; auto. split; auto. split.
    + rewrite (sv_zl c d Zd). unfold Addp_proofs.sv. rewrite Z1. unfold Qdiv. ring.
    + change (Qabs 0) with 0%Q. unfold dloss. apply Qmult_le_0_compat; [change 0%Q with (inject_Z 0); rewrite <- Zle_Qle; lia|]. apply Qlt_le_weak, p10_pos.
  - specialize (Hpd Nd). specialize (Rd Nd).
    destruct (div_nz c Hc (fun y k => divide c F mb y (from_ull c k)) d u (dprec d) Nd eq_refl ltac:(lia) Hu Rd) as (s & t & E1 & N1 & S1 & P1 & D1 & V1 & T1).
    exists s, t. split; auto. split; [right; rewrite P1; auto|]. split.
    + rewrite (sv_nz c s N1), (sv_nz c d Nd), S1. destruct (dneg d); rewrite V1; unfold Qdiv; ring.
    + eapply Qle_trans; [exact T1|]. unfold dloss. rewrite !(Qmult_comm (inject_Z _)). apply Qmult_le_compat_r; [|change 0%Q with (inject_Z 0); rewrite <- Zle_Qle; lia].
      apply (proj2 (p10_le _ _)). pose proof (edc_pos c). assert (edc c * (Z.of_nat p - 2) <= edc c * (Z.of_nat (dprec d) - 2)) by (apply Z.mul_le_mono_nonneg_l; lia). lia.
Qed.

Lemma root_step_spec ma mb x r p pw np a : memory_ok ma -> nz x -> nz r -> dneg x = false -> dneg r = false ->
  dprec x = p -> dprec r = p -> (3 <= p <= n)%nat -> (3 <= pw)%nat -> Z.of_nat pw < B -> (forall z, dprec (precision c z np) = p) ->
  - M + edc c * (Z.of_nat n + 8) < dexp x < M - edc c * (Z.of_nat n + 8) ->
  (qp (mag r) pw * mag x == 1 - a)%Q -> (Qabs a <= 1 # 1000)%Q -> (iN pw * eta p <= 1 # 10000)%Q -> (dloss c p (Z.of_nat pw) <= 1 # 100)%Q ->
  exists r' a', root_step ma mb (Z.of_nat pw) np r x = Some r' /\ nz r' /\ dneg r' = false /\ dprec r' = p /\
    (qp (mag r') pw * mag x == 1 - a')%Q /\
    (Qabs a' <= (68 # 100) * (a * a) + (9 # 1) * (iN pw * eta p) + (102 # 100) * (Qabs a * dloss c p (Z.of_nat pw)))%Q /\
    (exists g, mag r' == mag r * (1 + g) /\ Qabs g <= 1 # 100)%Q.
Proof.
  intros Hm Nx Nr Sx Sr Px Pr Hp Hpw HpB Hprc Rx HR Ha Hh Hd.
  pose proof (edc_pos c) as He. pose proof (eta_small c p ltac:(lia)) as [E0 _].
  pose proof (max_exp10_bounds c) as (HM & HM2 & HM3).
  assert (HB32 : B < 2 ^ 32) by (destruct L; reflexivity).
  assert (Hpw3 : (3 <= iN pw)%Q) by (unfold iN; change 3%Q with (inject_Z 3); rewrite <- Zle_Qle; lia).
  assert (Kp : 0 <= edc c * Z.of_nat n) by (apply Z.mul_nonneg_nonneg; lia).
  replace (edc c * (Z.of_nat n + 8)) with (edc c * Z.of_nat n + 8 * edc c) in Rx by ring.
  pose proof (mag_pos c Hc x (proj1 Nx)) as Mx. pose proof (mag_pos c Hc r (proj1 Nr)) as Mr.
  destruct (mag_bracket c Hc x (proj1 Nx)) as [Bx1 _]. pose proof (mag_bracket_lt c Hc x (proj1 Nx) (proj2 Nx)) as Bx2.
  pose proof (proj1 (pm_bnd _ _) Ha) as Ha'.
  set (h := eta p) in *. set (X := mag x) in *. set (Pw := iN pw) in *.
  (* range of the powers *)
  assert (Q1 : (qp (mag r) pw == (1 - a) / X)%Q) by (rewrite <- HR; field; lra).
  assert (T10 : forall e, (10 * p10 e == p10 (e + 1))%Q) by (intros e; rewrite p10_add; change (p10 1) with 10%Q; ring).
  assert (Inv : forall e, (p10 (- e) * p10 e == 1)%Q) by (intros e; rewrite <- p10_add; replace (- e + e) with 0 by ring; reflexivity).
  assert (Qhi : (qp (mag r) pw <= p10 (1 - dexp x))%Q).
  { rewrite Q1. apply Qle_shift_div_r; auto. apply Qle_trans with (p10 (1 - dexp x) * p10 (dexp x))%Q; [|rewrite !(Qmult_comm (p10 (1 - dexp x))); apply Qmult_le_compat_r; [auto|apply Qlt_le_weak, p10_pos]].
    rewrite <- p10_add. replace (1 - dexp x + dexp x) with 1 by ring. change (p10 1) with 10%Q. lra. }
  assert (Qlo : (p10 (- dexp x - edc c - 1) <= qp (mag r) pw)%Q).
  { rewrite Q1. apply Qle_shift_div_l; auto. apply Qle_trans with (p10 (- dexp x - edc c - 1) * p10 (dexp x + edc c))%Q.
    - rewrite !(Qmult_comm (p10 (- dexp x - edc c - 1))). apply Qmult_le_compat_r; [lra|apply Qlt_le_weak, p10_pos].
    - rewrite <- p10_add. replace (- dexp x - edc c - 1 + (dexp x + edc c)) with (-1) by ring. change (p10 (-1)) with (1 # 10)%Q. lra. }
  set (lo := Z.min 0 (- dexp x - edc c - 1)). set (hi := Z.max 0 (1 - dexp x)).
  assert (Hrange : forall k, (k <= pw)%nat -> (p10 lo <= qp (mag r) k /\ qp (mag r) k <= p10 hi)%Q).
  { intros k Hkp. assert (L1 : (p10 lo <= 1)%Q) by (rewrite <- p10_0; apply (proj2 (p10_le _ _)); unfold lo; lia).
    assert (L2 : (p10 lo <= p10 (- dexp x - edc c - 1))%Q) by (apply (proj2 (p10_le _ _)); unfold lo; lia).
    assert (U1 : (1 <= p10 hi)%Q) by (rewrite <- p10_0; apply (proj2 (p10_le _ _)); unfold hi; lia).
    assert (U2 : (p10 (1 - dexp x) <= p10 hi)%Q) by (apply (proj2 (p10_le _ _)); unfold hi; lia).
    destruct (qp_between (mag r) k pw Hkp Mr) as [[? ?]|[? ?]]; lra. }
  unfold root_step.
  (* w = r^pw *)
  destruct (pow_nz c Hc Hk ma Hm r p pw lo hi Nr Sr ltac:(lia) ltac:(lia)) as (w & t & Ew & Nw & Sw & Pw1 & Xw & Vw & Tw).
  { split; [lia|]. apply Z.lt_trans with (2 ^ 32); [lia|reflexivity]. }
  { setoid_replace (iN pw * (3 * Newton_proofs.eta c p))%Q with (3 * (Pw * h))%Q by (unfold Pw, h; ring). lra. }
  { exact Hrange. }
  { unfold lo. lia. } { unfold hi. lia. }
  rewrite Ew. fold h in Tw.
  assert (iNp : (iN (pw - 1) == Pw - 1)%Q).
  { unfold Pw. pose proof (iN_S (pw - 1)) as K. replace (S (pw - 1)) with pw in K by lia. rewrite K. ring. }
  rewrite iNp in Tw.
  assert (Tw' : (Qabs t <= 4 # 10000)%Q) by (eapply Qle_trans; [exact Tw|]; lra). pose proof (proj1 (pm_bnd _ _) Tw') as Tw2.
  pose proof (mag_pos c Hc w (proj1 Nw)) as Mw.
  (* q = -w x *)
  assert (Vwx : (mag w * X == (1 - a) * (1 + t))%Q) by (rewrite Vw, <- HR; fold X; ring).
  pose proof (pm_mul a t (1 # 1000) (4 # 10000) Ha Tw') as Kat. apply pm_bnd in Kat.
  assert (Bwx : ((998 # 1000) <= mag w * X)%Q /\ (mag w * X <= 1002 # 1000)%Q) by (rewrite Vwx; setoid_replace ((1 - a) * (1 + t))%Q with (1 - a + t - a * t)%Q by ring; lra).
  destruct (mag_bracket c Hc w (proj1 Nw)) as [Bw1 _]. pose proof (mag_bracket_lt c Hc w (proj1 Nw) (proj2 Nw)) as Bw2.
  pose proof (p10_pos (dexp w)) as pw0. pose proof (p10_pos (dexp x)) as px0. fold X in Bx1, Bx2.
  assert (S1 : dexp w + dexp x < 1).
  { apply p10_lt_pow with (mag w * X)%Q; [rewrite p10_add; apply Qmult_le_compat_nonneg; lra|]. change (p10 1) with 10%Q. lra. }
  assert (S2 : -1 < dexp w + edc c + (dexp x + edc c)).
  { apply p10_lt_pow with (mag w * X)%Q; [change (p10 (-1)) with (1 # 10)%Q; lra|].
    rewrite p10_add. apply Qle_lt_trans with (p10 (dexp w + edc c) * X)%Q; [apply Qmult_le_compat_r; lra|]. apply Qmult_lt_l; lra. }
  unfold negate. rewrite (wk_iszero c w (proj1 Nw)), Sw. cbn [negb].
  set (nw := mkDec (data w) (dexp w) true (dprec w)).
  destruct (mulm_nz c Hc Hk ma 150 nw x p Hm Nw Nx) as (q & t2 & Eq & Nq & Dq & Pq & Xq & Vq & Tq).
  { change (dprec nw) with (dprec w). rewrite Px. apply Nat.min_r. lia. } { lia. }
  { change (dexp nw) with (dexp w). unfold lo, hi in Xw. clear - Xw Rx HM HM2 He Kp. lia. }
  { clear - Rx HM HM2 He Kp; lia. }
  { change (dexp nw) with (dexp w). clear - S1 S2 Rx He Kp. lia. }
  rewrite Eq. change (dneg nw) with true in Dq. rewrite Sx in Dq. cbn [xorb] in Dq. change (mag nw) with (mag w) in Vq. change (dprec nw) with (dprec w) in Pq.
  change (dexp nw) with (dexp w) in Xq. fold X h in Vq, Tq.
  rewrite Vwx in Vq. pose proof (proj1 (pm_bnd _ _) Tq) as Tq'.
  assert (h3 : (3 * h <= Pw * h)%Q) by (apply Qmult_le_compat_r; lra).
  assert (Bq : ((98 # 100) <= mag q)%Q /\ (mag q <= 102 # 100)%Q).
  { rewrite <- Vwx in Vq. pose proof (pm_mul (mag w * X) t2 (1002 # 1000) (3 * h) ltac:(apply pm_bnd; lra) Tq) as K0. apply pm_bnd in K0. rewrite Vq.
    setoid_replace (mag w * X * (1 + t2))%Q with (mag w * X + mag w * X * t2)%Q by ring. lra. }
  assert (Pq' : (p <= dprec q <= n)%nat) by (destruct Pq as [-> | ->]; lia).
  assert (Xq' : - edc c <= dexp q <= 0).
  { destruct (mag_bracket c Hc q (proj1 Nq)) as [Bq1 _]. pose proof (mag_bracket_lt c Hc q (proj1 Nq) (proj2 Nq)) as Bq2.
    assert (A1 : dexp q < 1) by (apply p10_lt_pow with (mag q); auto; change (p10 1) with 10%Q; lra).
    assert (A2 : -1 < dexp q + edc c) by (apply p10_lt_pow with (mag q); auto; change (p10 (-1)) with (1 # 10)%Q; lra). clear - A1 A2; lia. }
  (* d = 1 - w x *)
  destruct (one_nz c Hc) as (N1 & V1 & P1). assert (X1 : dexp (one c) = 0) by reflexivity.
  assert (Kq : Z.of_nat (dprec q) * edc c <= edc c * Z.of_nat n) by (rewrite Z.mul_comm; apply Z.mul_le_mono_nonneg_l; lia).
  assert (Kq0 : 0 <= Z.of_nat (dprec q) * edc c) by (apply Z.mul_nonneg_nonneg; lia).
  destruct (add_near c Hc q (one c) (dprec q) Nq N1 Dq eq_refl ltac:(lia)) as (Nd & Vd & Xd).
  { rewrite P1. apply Nat.min_l. lia. } { lia. } { lia. }
  { clear - Xq' Kq Kq0 Rx HM2 He Kp. lia. } { rewrite X1. clear - Kq Kq0 Rx HM2 He Kp. lia. }
  { rewrite V1. lra. } { rewrite V1. lra. }
  set (d := add c q (one c)) in *.
  replace (Z.max (dexp q) (dexp (one c))) with 0 in * by (rewrite X1; clear - Xq'; lia).
  rewrite p10_0, V1 in Vd. pose proof (eta_mono c p (dprec q) ltac:(lia)) as Em. fold h in Em.
  assert (Vd' : (Qabs (sv d - (1 - mag q)) <= 2 * h)%Q) by (eapply Qle_trans; [exact Vd|lra]).
  replace ((Z.of_nat (dprec q) - 1) * edc c) with (Z.of_nat (dprec q) * edc c - edc c) in Xd by ring.
  (* s = d / pw *)
  destruct (div_any mb d (Z.of_nat pw) p Nd ltac:(lia)) as (s & t3 & Es & Ns & Vs & Ts).
  { intros N0. destruct (Xd N0) as [[-> | ->] _]; lia. } { lia. }
  { intros N0. destruct (Xd N0) as [_ A]. clear - A Kq Kq0 Rx He Kp HM. lia. }
  rewrite Es. fold (iN pw) in Vs. fold Pw in Vs. set (dl := dloss c p (Z.of_nat pw)) in *.
  assert (dl0 : (0 <= dl)%Q) by (eapply Qle_trans; [apply Qabs_nonneg|exact Ts]).
  set (e1 := (sv d - (1 - mag q))%Q) in *.
  assert (Esd : (sv d == 1 - (1 - a) * (1 + t) * (1 + t2) + e1)%Q) by (unfold e1; rewrite Vq; ring).
  (* bound of s *)
  assert (Bd : (Qabs (sv d) <= 22 # 1000)%Q) by (unfold e1 in Vd'; apply pm_bnd in Vd'; apply pm_bnd; lra).
  assert (Bs : (Qabs (sv s) <= 1 # 100)%Q).
  { rewrite Vs. rewrite Qabs_Qmult. unfold Qdiv. rewrite Qabs_Qmult, (Qabs_pos (/ Pw)) by (apply Qlt_le_weak, Qinv_lt_0_compat; lra).
    assert (A1 : (Qabs (1 + t3) <= 102 # 100)%Q) by (apply pm_bnd in Ts; apply pm_bnd; lra).
    assert (A2 : (Qabs (sv d) * / Pw <= 22 # 3000)%Q) by (apply Qle_shift_div_r; lra).
    assert (A3 : (0 <= Qabs (sv d) * / Pw)%Q) by (apply Qmult_le_0_compat; [apply Qabs_nonneg|apply Qlt_le_weak, Qinv_lt_0_compat; lra]).
    apply Qle_trans with ((22 # 3000) * (102 # 100))%Q; [|discriminate]. apply Qmult_le_compat_nonneg; split; auto. apply Qabs_nonneg. }
  assert (Zd : zl d -> dexp d = 0) by (intros (_ & _ & _ & D0 & _); auto).
  assert (Rd : - (edc c * Z.of_nat n) <= dexp d <= 0).
  { destruct Nd as [N0|N0]; [rewrite (Zd N0); clear - Kp; lia|]. destruct (Xd N0) as [_ A]. clear - A Kq Kq0 He; lia. }
  destruct (add_one c Hc s p) as (e4 & Nt & St & Pt & Xt & Vt & Te).
  { destruct Ns as [Z0|(N0 & _)]; auto. } { lia. }
  { intros N0. destruct Ns as [Z0|(_ & A & _)]; auto. rewrite (wk_iszero c s (proj1 N0)) in Z0. discriminate. }
  { intros N0. destruct Ns as [Z0|(_ & _ & A)]; [rewrite (wk_iszero c s (proj1 N0)) in Z0; discriminate|]. clear - A Rd Rx HM2 He Kp. lia. }
  { clear - Rx HM2 He Kp. lia. } { exact Bs. }
  set (tm0 := add c s (one c)) in *. fold h in Te.
  set (tm := precision c tm0 np).
  assert (Ptm : dprec tm = p) by apply Hprc.
  assert (Ntm : nz tm) by exact Nt.
  destruct (Hrange 1%nat ltac:(lia)) as [Rr1 Rr2]. cbn [qp] in Rr1, Rr2. rewrite Qmult_1_l in Rr1, Rr2.
  destruct (mag_bracket c Hc r (proj1 Nr)) as [Br1 _]. pose proof (mag_bracket_lt c Hc r (proj1 Nr) (proj2 Nr)) as Br2.
  assert (Xr1 : dexp r < hi + 1) by (apply p10_lt_pow with (mag r); auto; rewrite <- T10; pose proof (p10_pos hi); lra).
  assert (Xr2 : lo - 1 < dexp r + edc c).
  { apply p10_lt_pow with (mag r); auto. pose proof (T10 (lo - 1)) as T. replace (lo - 1 + 1) with lo in T by ring. pose proof (p10_pos (lo - 1)). lra. }
  change (dexp tm0) with (dexp tm) in Xt.
  destruct (mulm_nz c Hc Hk ma 199 r tm p Hm Nr Ntm) as (r' & t5 & Er & Nr' & Dr & Pr' & Xr' & Vr & Tr).
  { rewrite Pr, Ptm. apply Nat.min_id. } { lia. }
  { unfold lo, hi in *. clear - Xr1 Xr2 Rx HM HM2 He Kp. lia. }
  { clear - Xt HM2 HM He Rx Kp. lia. }
  { unfold lo, hi in *. clear - Xr1 Xr2 Xt Rx HM HM2 He Kp. lia. }
  change (mag tm) with (mag tm0) in Vr. change (dneg tm) with (dneg tm0) in Dr. rewrite St, Sr in Dr. cbn [xorb] in Dr.
  destruct (step_root_num Pw a t t2 e1 t3 e4 t5 (sv d) (sv s) (mag tm0) h dl) as (e & G1 & G2); auto.
  set (g := (mag tm0 * (1 + t5) - 1)%Q) in *.
  pose proof (residual pw a e g ((88 # 10) * (Pw * h) + Qabs a * dl) Hpw Ha) as RS.
  assert (Kad : (Qabs a * dl <= (1 # 1000) * (1 # 100))%Q) by (apply Qmult_le_compat_nonneg; split; auto; apply Qabs_nonneg).
  fold Pw in RS. specialize (RS ltac:(lra) G2 G1).
  exists r', (1 - (1 - a) * qp (1 + g) pw)%Q.
  split; [exact Er|]. split; auto. split; auto. split; [destruct Pr' as [-> | ->]; auto|].
  assert (Vg : (mag r' == mag r * (1 + g))%Q) by (rewrite Vr; unfold g; ring).
  split; [rewrite (qp_compat _ _ pw Vg), qp_mult; rewrite <- Q1 || idtac|].
  { setoid_replace (qp (mag r) pw * qp (1 + g) pw * X)%Q with (qp (mag r) pw * X * qp (1 + g) pw)%Q by ring. rewrite HR. ring. }
  split; [eapply Qle_trans; [exact RS|]; assert (0 <= Pw * h)%Q by (apply Qmult_le_0_compat; lra); lra|].
  exists g. split; auto.
  assert (Gb : (Qabs (Pw * g) <= 3 # 1000)%Q).
  { rewrite G1. apply pm_bnd in G2. apply pm_bnd. lra. }
  rewrite Qabs_Qmult, (Qabs_pos Pw) in Gb by lra. pose proof (Qabs_nonneg g).
  assert (3 * Qabs g <= Pw * Qabs g)%Q by (apply Qmult_le_compat_r; auto). lra.
Qed.
End RS.
