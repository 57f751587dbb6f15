(** Conv2_proofs.v - accuracy and exactness of construction from built-in floating-point types. *)
From Verif Require Export Conv_proofs.
From Coq Require Import Lqa.
Local Open Scope Z_scope.

Section SC.
Variable c : cfg.
Notation L := (c_limb c).
Notation B := (mask L).
Notation n := (nel c).
Notation M := (max_exp10_of (c_expo c)).
Notation eps := (p10 (- (c_digits10 c + 2 * edc c))).
Hypothesis Hc : cfg_ok c.
Hypothesis Hk : newton_ok c.

Lemma pos_facts h : normal c h -> (0 < value c h)%Q -> iszero h = false /\ dneg h = false.
Proof.
  intros N P. assert (Z : iszero h = false).
  { destruct (iszero h) eqn:Z; auto. rewrite (value_zero c Hc h N Z) in P. lra. }
  split; auto. pose proof (value_sign c Hc h N Z) as S. destruct (dneg h); auto. lra.
Qed.

Lemma prod_exps x h lo : normal c x -> normal c h -> (0 < value c x)%Q -> (0 < value c h)%Q ->
  (p10 (lo + 2 * edc c) <= value c x * value c h)%Q -> (value c x * value c h < p10 M)%Q -> lo < dexp x + dexp h < M.
Proof.
  intros Nx Nh Px Ph H1 H2. destruct (pos_facts x Nx Px) as [Zx _]. destruct (pos_facts h Nh Ph) as [Zh _].
  destruct (value_bracket c Hc x Nx Zx) as [X1 X2]. destruct (value_bracket c Hc h Nh Zh) as [Y1 Y2].
  rewrite (Qabs_pos (value c x)) in X1, X2 by lra. rewrite (Qabs_pos (value c h)) in Y1, Y2 by lra.
  pose proof (p10_pos (dexp x)) as P1. pose proof (p10_pos (dexp h)) as P2.
  split.
  - assert (K : (value c x * value c h < p10 (dexp x + edc c) * p10 (dexp h + edc c))%Q).
    { apply Qle_lt_trans with (value c x * p10 (dexp h + edc c))%Q.
      - rewrite !(Qmult_comm (value c x)). apply Qmult_le_compat_r; lra.
      - apply Qmult_lt_compat_r; [apply p10_pos|auto]. }
    rewrite <- p10_add in K.
    assert (T : (p10 (lo + 2 * edc c) < p10 (dexp x + edc c + (dexp h + edc c)))%Q) by lra.
    apply (proj1 (p10_lt _ _)) in T. lia.
  - apply (proj1 (p10_lt _ _)). rewrite p10_add. apply Qle_lt_trans with (value c x * value c h)%Q; auto.
    apply Qmult_le_compat_nonneg; split; lra.
Qed.

(** A positive integer times an integer power of a positive number. *)
Lemma scale_acc FI mem x mu b beta k : memory_ok mem -> normal c x -> (value c x == inject_Z mu)%Q -> 1 <= mu ->
  normal c b -> (value c b == beta)%Q -> (0 < beta)%Q -> 1 <= k < 2 ^ 63 -> (inject_Z (4 * k) * eps <= 1)%Q ->
  (p10 (- M + 2 * edc c + 2) <= beta ^ k)%Q -> (inject_Z mu * beta ^ k <= p10 (M - 1))%Q ->
  exists h z, pow_int c FI (later mem 1) b k = Some h /\ mulm c mem 0 x h = Some z /\ normal c z /\ (0 < value c z)%Q /\
    (Qabs (value c z - inject_Z mu * beta ^ k) <= inject_Z (2 * k) * eps * (inject_Z mu * beta ^ k))%Q.
Proof.
  intros Hm Nx Vx Mu Nb Vb Pb Kk K4 Hlo Hhi. destruct (eps_bound c Hc) as [E0 E1].
  set (w := (beta ^ k)%Q) in *. assert (W0 : (0 < w)%Q) by (apply Qpower_0_lt; auto).
  assert (Mq : (1 <= inject_Z mu)%Q) by (change 1%Q with (inject_Z 1); rewrite <- Zle_Qle; auto).
  assert (MW : (w <= inject_Z mu * w)%Q) by (setoid_replace w with (1 * w)%Q at 1 by ring; apply Qmult_le_compat_r; lra).
  assert (Vw : (value c b ^ k == w)%Q) by (unfold w; rewrite Vb; reflexivity).
  assert (Aw : (Qabs (value c b ^ k) == w)%Q) by (rewrite Vw; apply Qabs_pos; lra).
  assert (Zb : iszero b = false) by (apply (pos_facts b Nb); rewrite Vb; auto).
  destruct (pow_pos_accurate c FI (later mem 1) b k Hc Hk (later_ok mem 1 Hm) Nb Zb Kk K4) as (h & H1 & Nh & Ha).
  { rewrite Aw. exact Hlo. }
  { rewrite Aw. eapply Qle_trans; [exact MW|exact Hhi]. }
  rewrite Aw, Vw in Ha. set (dl := (inject_Z (2 * (k - 1)) * eps)%Q) in *.
  assert (K2 : (inject_Z (4 * k) == 4 + 2 * inject_Z (2 * (k - 1)))%Q).
  { replace (4 * k) with (4 + 2 * (2 * (k - 1))) by ring. rewrite inject_Z_plus, (inject_Z_mult 2 (2 * (k - 1))). reflexivity. }
  assert (D0 : (0 <= dl)%Q).
  { unfold dl. apply Qmult_le_0_compat; [|lra]. change 0%Q with (inject_Z 0). rewrite <- Zle_Qle. lia. }
  assert (D1 : (2 * dl + 4 * eps <= 1)%Q) by (rewrite K2 in K4; unfold dl; lra).
  assert (DW : (dl * w <= (1 # 2) * w)%Q) by (apply Qmult_le_compat_r; lra).
  assert (Hb : ((1 # 2) * w <= value c h /\ value c h <= (3 # 2) * w)%Q) by (apply Qabs_Qle_condition in Ha; lra).
  destruct Hb as [Hb1 Hb2]. assert (Ph : (0 < value c h)%Q) by lra.
  assert (Px : (0 < value c x)%Q) by (rewrite Vx; lra).
  destruct (pos_facts x Nx Px) as [Zx Sx]. destruct (pos_facts h Nh Ph) as [Zh Sh].
  assert (XH1 : (inject_Z mu * ((1 # 2) * w) <= value c x * value c h)%Q) by (rewrite Vx, !(Qmult_comm (inject_Z mu)); apply Qmult_le_compat_r; lra).
  assert (XH2 : (value c x * value c h <= inject_Z mu * ((3 # 2) * w))%Q) by (rewrite Vx, !(Qmult_comm (inject_Z mu)); apply Qmult_le_compat_r; lra).
  destruct (prod_exps x h (- M) Nx Nh Px Ph) as [X1 X2].
  { assert (K : (p10 (- M + 2 * edc c + 2) == 100 * p10 (- M + 2 * edc c))%Q) by (rewrite p10_add; change (p10 2) with 100%Q; ring).
    pose proof (p10_pos (- M + 2 * edc c)). lra. }
  { assert (K : (p10 M == 10 * p10 (M - 1))%Q) by (replace M with (M - 1 + 1) at 1 by ring; rewrite p10_add; change (p10 1) with 10%Q; ring).
    pose proof (p10_pos (M - 1)). lra. }
  destruct (mul_rel c Hc (fst (mem 0%nat (Nat.min (dprec x) (dprec h)))) (snd (mem 0%nat (Nat.min (dprec x) (dprec h)))) x h) as (z & Z1 & Nz & Zz & Sz & Za); auto.
  { apply (newton_mul_ok c Hc Hk). } { apply (mulm_pool c Hc); auto. }
  exists h, z. split; [exact H1|]. split.
  { unfold mulm. rewrite Zx, Zh. cbn [orb]. exact Z1. }
  split; [exact Nz|]. split.
  { pose proof (value_sign c Hc z Nz Zz) as V. rewrite Sz, Sx, Sh in V. exact V. }
  pose proof (compound eps (value c x) (value c h) (value c z) (inject_Z mu) w 0 dl) as C.
  assert (A1 : (Qabs (inject_Z mu * w) == inject_Z mu * w)%Q) by (apply Qabs_pos; lra). rewrite A1 in C.
  eapply Qle_trans; [apply C|].
  - lra.
  - lra.
  - exact D0.
  - rewrite Vx. setoid_replace (inject_Z mu - inject_Z mu)%Q with 0%Q by ring. change (Qabs 0) with 0%Q. lra.
  - rewrite (Qabs_pos w) by lra. exact Ha.
  - apply Qlt_le_weak. exact Za.
  - apply Qmult_le_compat_r; [|lra].
    assert (De : (dl * eps <= (1 # 2) * eps)%Q) by (apply Qmult_le_compat_r; lra).
    assert (K3 : (inject_Z (2 * k) == inject_Z (2 * (k - 1)) + 2)%Q).
    { replace (2 * k) with (2 * (k - 1) + 2) by ring. rewrite inject_Z_plus. reflexivity. }
    rewrite K3. unfold dl in *. lra.
Qed.

Lemma not_nines_int y i : (value c y == inject_Z i)%Q -> ~ is_nines c y.
Proof.
  intros Hy Hn. unfold is_nines in Hn. rewrite Hy in Hn.
  assert (A : (Qabs (inject_Z i) == inject_Z (Z.abs i))%Q) by (destruct i; reflexivity). rewrite A in Hn.
  pose proof (p10_pos (- (edc c * elem_number c))) as P1.
  assert (P2 : (p10 (- (edc c * elem_number c)) < p10 0)%Q).
  { apply p10_lt. pose proof (edc_pos c). pose proof (elem_number_ge4 c Hc). nia. }
  rewrite p10_0 in P2.
  assert (L1 : (inject_Z 0 < inject_Z (Z.abs i))%Q) by (rewrite Hn; change (inject_Z 0) with 0%Q; lra).
  assert (L2 : (inject_Z (Z.abs i) < inject_Z 1)%Q) by (rewrite Hn; change (inject_Z 1) with 1%Q; lra).
  rewrite <- Zlt_Qlt in L1, L2. lia.
Qed.
Lemma not_nines_small y : (0 <= value c y)%Q -> (value c y <= 1 # 2)%Q -> ~ is_nines c y.
Proof.
  intros H0 H1 Hn. unfold is_nines in Hn. rewrite Qabs_pos in Hn by auto.
  assert (P2 : (p10 (- (edc c * elem_number c)) < p10 (-1))%Q).
  { apply p10_lt. pose proof (edc_pos c). pose proof (elem_number_ge4 c Hc). nia. }
  change (p10 (-1)) with (1 # 10)%Q in P2. lra.
Qed.

(** Products with few digits are exact. *)
Lemma mul_dec mem i x v K j : memory_ok mem -> normal c x -> normal c v -> (0 < value c x)%Q -> (0 < value c v)%Q ->
  ~ is_one c x -> ~ is_nines c x -> ~ is_one c v -> ~ is_nines c v -> - M < dexp x + dexp v < M ->
  (value c x * value c v == inject_Z K * p10 (- j))%Q -> Z.abs K < 10 ^ (edc c * (elem_number c - 1) + 1) ->
  exists z, mulm c mem i x v = Some z /\ normal c z /\ (value c z == value c x * value c v)%Q.
Proof.
  intros Hm Nx Nv Px Pv O1 O2 O3 O4 He HK Hb. destruct (pos_facts x Nx Px) as [Zx Sx]. destruct (pos_facts v Nv Pv) as [Zv Sv].
  assert (Hp : pool_ok c (fst (mem i (Nat.min (dprec x) (dprec v)))) (snd (mem i (Nat.min (dprec x) (dprec v))))) by (apply (mulm_pool c Hc); auto).
  destruct (mul_trunc_all c Hc _ _ x v (newton_mul_ok c Hc Hk) Hp Nx Nv Zx Zv O1 O2 O3 O4 He) as (z & Z1 & Nz & T & _).
  destruct (mul_rel c Hc _ _ x v (newton_mul_ok c Hc Hk) Hp Nx Nv Zx Zv He) as (z' & Z1' & _ & Zz & _).
  rewrite Z1 in Z1'. injection Z1' as <-.
  exists z. split; [unfold mulm; rewrite Zx, Zv; exact Z1|]. split; [exact Nz|].
  apply (trunc_dec c Hc z K j); auto.
Qed.
End SC.
