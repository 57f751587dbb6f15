(** Fmod_proofs.v - fmod of integers. *)
From Verif Require Export Model_Rem Func_proofs Refute_round.
From Coq Require Import Lqa.
Local Open Scope Z_scope.

(** A quotient of integers, perturbed by little, rounded at the unit 1/N and enlarged by less than one unit, keeps its integer part. *)
Lemma near_floor (N A b m : Z) (z w : Q) : 0 < N -> 0 <= A -> 0 < b -> 4 * b <= N ->
  (Qabs (z - inject_Z A / inject_Z b) <= (1 # 100) * (1 / inject_Z N))%Q ->
  (inject_Z m * (1 / inject_Z N) - (1 / inject_Z N) / 2 <= z)%Q -> (z < inject_Z m * (1 / inject_Z N) + (1 / inject_Z N) / 2)%Q ->
  (inject_Z m * (1 / inject_Z N) <= w)%Q -> (w < inject_Z m * (1 / inject_Z N) + 1 / inject_Z N)%Q ->
  Qfloor w = A / b.
Proof.
  intros HN HA Hb H4 H1 H2 H3 H5 H6.
  assert (N0 : (0 < inject_Z N)%Q) by (change 0%Q with (inject_Z 0); rewrite <- Zlt_Qlt; lia).
  assert (B0 : (0 < inject_Z b)%Q) by (change 0%Q with (inject_Z 0); rewrite <- Zlt_Qlt; lia).
  set (u := (1 / inject_Z N)%Q) in *. assert (U0 : (0 < u)%Q) by (unfold u; apply Qlt_shift_div_l; lra).
  assert (UH : (u / 2 == (1 # 2) * u)%Q) by field. rewrite UH in H2, H3.
  assert (UN : (u * inject_Z N == 1)%Q) by (unfold u; field; lra).
  set (q := (inject_Z A / inject_Z b)%Q) in *. assert (QB : (q * inject_Z b == inject_Z A)%Q) by (unfold q; field; lra).
  set (f := A / b). pose proof (Z.div_mod A b ltac:(lia)) as DM. pose proof (Z.mod_pos_bound A b ltac:(lia)) as MB. fold f in DM.
  apply Qabs_Qle_condition in H1. destruct H1 as [Q1 Q2].
  set (v := (1 / inject_Z b)%Q). assert (V0 : (0 < v)%Q) by (unfold v; apply Qlt_shift_div_l; lra).
  assert (VB : (v * inject_Z b == 1)%Q) by (unfold v; field; lra).
  assert (UV : (4 * u <= v)%Q).
  { unfold v. apply Qle_shift_div_l; [lra|]. setoid_replace (4 * u * inject_Z b)%Q with (u * inject_Z (4 * b))%Q by (rewrite inject_Z_mult; change (inject_Z 4) with 4%Q; ring).
    rewrite <- UN. rewrite !(Qmult_comm u). apply Qmult_le_compat_r; [rewrite <- Zle_Qle; lia|lra]. }
  assert (QV : (q == inject_Z f + inject_Z (A mod b) * v)%Q).
  { unfold q, v. rewrite DM at 1. rewrite inject_Z_plus, inject_Z_mult. field. lra. }
  apply Qfloor_unique.
  - destruct (Z.eq_dec (A mod b) 0) as [D|D].
    + rewrite D in QV. change (inject_Z 0) with 0%Q in QV.
      assert (K : f * N <= m).
      { destruct (Z_le_gt_dec (f * N) m) as [|K]; [assumption|exfalso].
        assert (K1 : (inject_Z (m + 1) <= inject_Z (f * N))%Q) by (rewrite <- Zle_Qle; lia).
        rewrite inject_Z_plus, inject_Z_mult in K1. change (inject_Z 1) with 1%Q in K1.
        assert (K2 : ((inject_Z m + 1) * u <= inject_Z f * inject_Z N * u)%Q) by (apply Qmult_le_compat_r; lra).
        assert (K3 : (inject_Z f * inject_Z N * u == inject_Z f)%Q) by (rewrite <- (Qmult_1_r (inject_Z f)) at 2; rewrite <- UN; ring). lra. }
      assert (K1 : (inject_Z (f * N) <= inject_Z m)%Q) by (rewrite <- Zle_Qle; lia). rewrite inject_Z_mult in K1.
      assert (K2 : (inject_Z f * inject_Z N * u <= inject_Z m * u)%Q) by (apply Qmult_le_compat_r; lra).
      assert (K3 : (inject_Z f * inject_Z N * u == inject_Z f)%Q) by (rewrite <- (Qmult_1_r (inject_Z f)) at 2; rewrite <- UN; ring). lra.
    + assert (K : (1 * v <= inject_Z (A mod b) * v)%Q).
      { apply Qmult_le_compat_r; [|lra]. change 1%Q with (inject_Z 1). rewrite <- Zle_Qle. lia. } lra.
  - assert (K : (inject_Z (A mod b) * v <= (inject_Z b - 1) * v)%Q).
    { apply Qmult_le_compat_r; [|lra]. setoid_replace (inject_Z b - 1)%Q with (inject_Z (b - 1)) by (unfold Z.sub; rewrite inject_Z_plus; reflexivity). rewrite <- Zle_Qle. lia. }
    rewrite inject_Z_plus. change (inject_Z 1) with 1%Q. assert (VB2 : ((inject_Z b - 1) * v == 1 - v)%Q) by (setoid_replace ((inject_Z b - 1) * v)%Q with (v * inject_Z b - v)%Q by ring; rewrite VB; reflexivity). lra.
Qed.

Section FM.
Variable c : cfg.
Variable F : ftype.
Notation M := (max_exp10_of (c_expo c)).
Notation eps := (p10 (- (c_digits10 c + 2 * edc c))).
Hypothesis Hc : cfg_ok c.
Hypothesis Hk : newton_ok c.
Hypothesis HF : float_fits c F.
Hypothesis HJ : (digit_loops c F <= nel c)%nat.

(** The quotient of two integers: accurate and in normal form. *)
Lemma int_quotient mem x v a b : memory_ok mem -> normal c x -> normal c v -> (value c x == inject_Z a)%Q -> (value c v == inject_Z b)%Q ->
  a <> 0 -> 0 < b -> dexp x < M - 3 * edc c -> dexp v < M - 3 * edc c -> 1 < Z.abs a \/ b = 1 \/ ~ (value c v == p10 (dexp v))%Q ->
  exists z, divide c F mem x v = Some z /\ normal c z /\ iszero z = false /\ dneg z = dneg x /\
    (Qabs (value c z - inject_Z a / inject_Z b) <= 9 * eps * Qabs (inject_Z a / inject_Z b))%Q.
Proof.
  intros Hm Nx Nv Vx Vv Ha Hb Ex Ev Hp. pose proof (edc_pos c) as He. pose proof (max_exp10_bounds c) as (HM & _).
  assert (B0 : (0 < inject_Z b)%Q) by (change 0%Q with (inject_Z 0); rewrite <- Zlt_Qlt; lia).
  assert (Zx : iszero x = false).
  { destruct (iszero x) eqn:C; auto. exfalso. pose proof (value_zero c Hc x Nx C) as V0. rewrite Vx in V0. apply Ha.
    change 0%Q with (inject_Z 0) in V0. apply (proj1 (inject_Z_injective a 0)) in V0. exact V0. }
  assert (Zv : iszero v = false).
  { destruct (iszero v) eqn:C; auto. exfalso. pose proof (value_zero c Hc v Nv C) as V0. rewrite Vv in V0. lra. }
  destruct (int_exp c Hc x a Nx Zx Vx) as (X0 & X1 & _). destruct (int_exp c Hc v b Nv Zv Vv) as (V0 & _ & _).
  assert (Sv : dneg v = false).
  { pose proof (value_sign c Hc v Nv Zv) as S. destruct (dneg v); auto. rewrite Vv in S. lra. }
  assert (NZ : ~ (inject_Z a / inject_Z b == 0)%Q).
  { intros C. assert (K : (inject_Z a == 0)%Q) by (setoid_replace (inject_Z a) with (inject_Z a / inject_Z b * inject_Z b)%Q by (field; lra); rewrite C; ring).
    change 0%Q with (inject_Z 0) in K. apply (proj1 (inject_Z_injective a 0)) in K. auto. }
  set (q := (inject_Z a / inject_Z b)%Q) in *.
  assert (E1 : (0 < eps)%Q /\ (eps <= 1 # 100)%Q).
  { split; [apply p10_pos|]. change (1 # 100)%Q with (p10 (-2)). apply p10_le. pose proof Hc as [Hd _]. lia. }
  assert (core : forall z, normal c z -> (Qabs (value c z - q) <= 9 * eps * Qabs q)%Q -> iszero z = false /\ dneg z = dneg x).
  { intros z Nz Az.
    assert (Zz : iszero z = false).
    { destruct (iszero z) eqn:C; auto. exfalso. pose proof (value_zero c Hc z Nz C) as K. rewrite K in Az.
      setoid_replace (0 - q)%Q with (- q)%Q in Az by ring. rewrite Qabs_opp in Az.
      assert (Q0 : (0 < Qabs q)%Q) by (clear - NZ; apply Qabs_case; intros K; destruct (Qlt_le_dec 0 q), (Qlt_le_dec q 0); try lra; exfalso; apply NZ; lra).
      assert (K2 : (9 * eps * Qabs q <= (9 # 100) * Qabs q)%Q) by (apply Qmult_le_compat_r; lra). lra. }
    split; [exact Zz|].
    assert (K2 : (9 * eps * Qabs q <= (9 # 100) * Qabs q)%Q) by (apply Qmult_le_compat_r; [lra|apply Qabs_nonneg]).
    assert (QX : (q * inject_Z b == value c x)%Q) by (rewrite Vx; unfold q; field; lra).
    pose proof (value_sign c Hc z Nz Zz) as Sz. pose proof (value_sign c Hc x Nx Zx) as Sx.
    apply Qabs_Qle_condition in Az. destruct Az as [A1 A2].
    destruct (dneg x).
    - assert (Q0 : (q < 0)%Q).
      { destruct (Qlt_le_dec q 0) as [|C]; auto. exfalso. assert (0 <= q * inject_Z b)%Q by (apply Qmult_le_0_compat; lra). lra. }
      rewrite (Qabs_neg q) in * by lra. destruct (dneg z); auto. lra.
    - assert (Q0 : (0 < q)%Q).
      { destruct (Qlt_le_dec 0 q) as [|C]; auto. exfalso. assert (0 <= (- q) * inject_Z b)%Q by (apply Qmult_le_0_compat; lra). lra. }
      rewrite (Qabs_pos q) in * by lra. destruct (dneg z); auto. lra. }
  assert (NI : ~ is_nines c x).
  { intros C. unfold is_nines in C. rewrite Vx in C. pose proof (p10_pos (- (edc c * elem_number c))) as P0.
    assert (A : (Qabs (inject_Z a) == inject_Z (Z.abs a))%Q) by (destruct a; reflexivity). rewrite A in C.
    assert (A1 : (inject_Z 1 <= inject_Z (Z.abs a))%Q) by (rewrite <- Zle_Qle; exact X1). change (inject_Z 1) with 1%Q in A1. lra. }
  assert (Hp' : b = 1 \/ ((~ is_one c x /\ ~ is_nines c x) \/ ~ (Qabs (value c v) == p10 (dexp v))%Q)).
  { destruct Hp as [Hp|[Hp|Hp]]; [right; left|left; exact Hp|right; right].
    - split; [|exact NI]. intros C. unfold is_one in C. rewrite Vx in C.
      assert (A : (Qabs (inject_Z a) == inject_Z (Z.abs a))%Q) by (destruct a; reflexivity). rewrite A in C.
      change 1%Q with (inject_Z 1) in C. apply (proj1 (inject_Z_injective _ _)) in C. lia.
    - intros C. apply Hp. rewrite Qabs_pos in C by (rewrite Vv; lra). exact C. }
  clear Hp. destruct Hp' as [H1|Hp].
  - destruct (div_by_one c F Hc mem x v) as (z & Z1 & Nz & Vz); auto.
    + unfold is_one. rewrite Vv, H1. reflexivity.
    + assert (Az : (Qabs (value c z - q) <= 9 * eps * Qabs q)%Q).
      { rewrite Vz, Vx, Vv. fold q. setoid_replace (q - q)%Q with 0%Q by ring. change (Qabs 0) with 0%Q.
        apply Qmult_le_0_compat; [lra|apply Qabs_nonneg]. }
      destruct (core z Nz Az) as [C1 C2]. exists z. auto.
  - destruct (div_accurate c F mem x v Hc Hk HF HJ Hm Nx Nv Zx Zv ltac:(lia) ltac:(lia)) as (z & Z1 & Sz & Az & Nz).
    rewrite Vx, Vv in Az. fold q in Az.
    assert (Nz' : normal c z).
    { apply Nz. exact Hp. }
    destruct (core z Nz' Az) as [C1 C2]. exists z. auto.
Qed.

Lemma lead_pos q k : leading_exponent q k -> (0 < Qabs q)%Q.
Proof. intros [H _]. pose proof (p10_pos k). lra. Qed.

(** fmod of integers with a positive divisor is the remainder with the sign of the dividend. *)
Theorem fmod_int mem x v a b : memory_ok mem -> normal c x -> normal c v -> (value c x == inject_Z a)%Q -> (value c v == inject_Z b)%Q ->
  a <> 0 -> 0 < b -> 4 <= edc c -> edc c <= c_digits10 c + 4 ->
  Z.abs a <= 10 ^ (c_digits10 c - 1) - 3 -> Z.abs a < 10 ^ int_digits c ->
  dexp x < M - 3 * edc c -> dexp v < M - 3 * edc c -> 1 < Z.abs a \/ b = 1 \/ ~ (value c v == p10 (dexp v))%Q ->
  exists z, fmod c F mem x v = Some z /\ (value c z == inject_Z (Z.rem a b))%Q.
Proof.
  intros Hm Nx Nv Vx Vv Ha Hb He4 Hed Had Hai Ex Ev Hp.
  destruct (int_quotient mem x v a b Hm Nx Nv Vx Vv Ha Hb Ex Ev Hp) as (q & Q1 & Nq & Zq & Sq & Aq).
  pose proof (edc_pos c) as He. pose proof (max_exp10_bounds c) as (HM & _). pose proof Hc as [Hd _].
  assert (B0 : (0 < inject_Z b)%Q) by (change 0%Q with (inject_Z 0); rewrite <- Zlt_Qlt; lia).
  assert (B1 : (1 <= inject_Z b)%Q) by (change 1%Q with (inject_Z 1); rewrite <- Zle_Qle; lia).
  set (A := Z.abs a) in *. assert (HA : 1 <= A) by (unfold A; lia).
  set (t := (inject_Z A / inject_Z b)%Q).
  assert (T0 : (Qabs (inject_Z a / inject_Z b) == t)%Q).
  { unfold Qdiv, t, A. rewrite Qabs_Qmult. rewrite (Qabs_pos (/ inject_Z b)) by (apply Qlt_le_weak, Qinv_lt_0_compat; lra). destruct a; reflexivity. }
  assert (Tb : (t * inject_Z b == inject_Z A)%Q) by (unfold t; field; lra).
  assert (TA : (t <= inject_Z A)%Q).
  { unfold t. apply Qle_shift_div_r; [lra|]. setoid_replace (inject_Z A) with (inject_Z A * 1)%Q at 1 by ring.
    rewrite !(Qmult_comm (inject_Z A)). apply Qmult_le_compat_r; [lra|]. change 0%Q with (inject_Z 0). rewrite <- Zle_Qle. lia. }
  assert (Tp : (0 < t)%Q) by (unfold t; apply Qlt_shift_div_l; [lra|]; rewrite Qmult_0_l; change 0%Q with (inject_Z 0); rewrite <- Zlt_Qlt; lia).
  rewrite T0 in Aq.
  (* |value q| close to t *)
  assert (Qt : (Qabs (Qabs (value c q) - t) <= 9 * eps * t)%Q).
  { apply Qabs_Qle_condition. pose proof (Qabs_triangle_reverse (value c q) (inject_Z a / inject_Z b)) as R1.
    pose proof (Qabs_triangle_reverse (inject_Z a / inject_Z b) (value c q)) as R2. rewrite (Qabs_Qminus (inject_Z a / inject_Z b)) in R2.
    rewrite T0 in R1, R2. split; lra. }
  assert (E0 : (0 < eps)%Q) by apply p10_pos.
  assert (E8 : (eps <= p10 (- (c_digits10 c + 8)))%Q) by (apply p10_le; lia).
  assert (P8 : (p10 (- (c_digits10 c + 8)) <= p10 (-8))%Q) by (apply p10_le; lia).
  change (p10 (-8)) with (1 # 100000000)%Q in P8.
  assert (PD : (inject_Z A <= p10 (c_digits10 c - 1) - 3)%Q).
  { assert (K : (inject_Z A <= inject_Z (10 ^ (c_digits10 c - 1) - 3))%Q) by (rewrite <- Zle_Qle; exact Had).
    unfold Z.sub in K. rewrite inject_Z_plus in K. rewrite <- p10_Z in K by lia. unfold Z.sub. change (inject_Z (- (3))) with (-(3))%Q in K. lra. }
  assert (PA : (9 * eps * t <= 1)%Q).
  { apply Qle_trans with (9 * p10 (- (c_digits10 c + 8)) * p10 (c_digits10 c - 1))%Q.
    - apply Qle_trans with (9 * eps * p10 (c_digits10 c - 1))%Q.
      + rewrite !(Qmult_comm (9 * eps)). apply Qmult_le_compat_r; lra.
      + apply Qmult_le_compat_r; [lra|apply Qlt_le_weak, p10_pos].
    - rewrite <- Qmult_assoc, <- p10_add. replace (- (c_digits10 c + 8) + (c_digits10 c - 1)) with (-9) by ring. vm_compute. discriminate. }
  apply Qabs_Qle_condition in Qt. destruct Qt as [Qt1 Qt2].
  assert (Bq : (Qabs (value c q) <= p10 (c_digits10 c - 1) - 2)%Q) by lra.
  destruct (floor_ceil_round c Hc q Nq Zq Hed Bq) as (y & Y1 & Yn & (zf & F1 & F2 & F3) & (zc & G1 & G2 & G3)).
  assert (Hexp : dexp q + edc c < 2 ^ (ebits (c_expo c) - 1)).
  { assert (K1 : dexp q < c_digits10 c - 1) by (apply (exp_below c Hc); auto; lra). pose proof (dg_small c Hc) as Hs.
    destruct Hc as [_ Hc2]. rewrite <- (nel_Z c Hc) in Hc2. clear - K1 Hs Hc2 He. nia. }
  destruct (half_up_all c q Hc Nq Zq Hed Hexp) as (y' & r & k & Y1' & Ny & LE & RH & Pry & Ry1 & Ry2 & _ & _).
  rewrite Y1 in Y1'. injection Y1' as <-.
  destruct RH as (Pqr & m & M1 & M2 & M3). destruct LE as [L1 L2].
  (* the unit *)
  assert (Kd : k < c_digits10 c - 1) by (apply (proj1 (p10_lt _ _)); lra).
  set (N := 10 ^ (c_digits10 c + 3 - k)).
  assert (UN : (p10 (k - (c_digits10 c + 3)) == 1 / inject_Z N)%Q).
  { unfold N. rewrite <- p10_Z by lia. replace (k - (c_digits10 c + 3)) with (- (c_digits10 c + 3 - k)) by ring.
    assert (P : (p10 (- (c_digits10 c + 3 - k)) * p10 (c_digits10 c + 3 - k) == 1)%Q) by (rewrite <- p10_add, Z.add_opp_diag_l; reflexivity).
    pose proof (p10_pos (c_digits10 c + 3 - k)) as P0. rewrite <- P. field. lra. }
  assert (N0 : 0 < N) by (apply Z.pow_pos_nonneg; lia).
  assert (NQ : (0 < inject_Z N)%Q) by (change 0%Q with (inject_Z 0); rewrite <- Zlt_Qlt; lia).
  (* 4 b <= N *)
  assert (T2 : (Qabs (value c q) <= 2 * t)%Q).
  { assert (9 * eps * t <= (9 # 100000000) * t)%Q by (apply Qmult_le_compat_r; lra). lra. }
  assert (NB : 4 * b <= N).
  { assert (K1 : (p10 k * inject_Z b <= 2 * inject_Z A)%Q).
    { apply Qle_trans with (2 * t * inject_Z b)%Q; [apply Qmult_le_compat_r; lra|]. rewrite <- Qmult_assoc, Tb. lra. }
    assert (K2 : (p10 k * inject_Z b <= 2 * p10 (c_digits10 c - 1))%Q) by lra.
    assert (K3 : (inject_Z b <= 2 * p10 (c_digits10 c - 1 - k))%Q).
    { apply (Qmult_le_l _ _ (p10 k)); [apply p10_pos|].
      setoid_replace (p10 k * (2 * p10 (c_digits10 c - 1 - k)))%Q with (2 * (p10 k * p10 (c_digits10 c - 1 - k)))%Q by ring.
      rewrite <- p10_add. replace (k + (c_digits10 c - 1 - k)) with (c_digits10 c - 1) by ring. exact K2. }
    assert (K4 : (inject_Z (4 * b) <= inject_Z N)%Q); [|rewrite <- Zle_Qle in K4; exact K4].
    unfold N. rewrite <- p10_Z by lia. replace (c_digits10 c + 3 - k) with (4 + (c_digits10 c - 1 - k)) by ring. rewrite p10_add. change (p10 4) with 10000%Q.
    rewrite inject_Z_mult. change (inject_Z 4) with 4%Q. pose proof (p10_pos (c_digits10 c - 1 - k)). lra. }
  set (f := A / b).
  assert (FL : Qfloor (Qabs (value c y)) = f).
  { unfold f. apply (near_floor N A b m (Qabs (value c q))); auto; try lia.
    - fold t. apply Qle_trans with (9 * eps * t)%Q; [apply Qabs_Qle_condition; split; lra|].
      rewrite <- UN. assert (T3 : (t <= 2 * p10 (k + 1))%Q)
        by (assert (9 * eps * t <= (9 # 100000000) * t)%Q by (apply Qmult_le_compat_r; lra); lra).
      apply Qle_trans with (9 * p10 (- (c_digits10 c + 8)) * (2 * p10 (k + 1)))%Q.
      + apply Qle_trans with (9 * eps * (2 * p10 (k + 1)))%Q; [rewrite !(Qmult_comm (9 * eps)); apply Qmult_le_compat_r; lra|].
        apply Qmult_le_compat_r; [lra|]. pose proof (p10_pos (k + 1)). lra.
      + setoid_replace (9 * p10 (- (c_digits10 c + 8)) * (2 * p10 (k + 1)))%Q with (18 * (p10 (- (c_digits10 c + 8)) * p10 (k + 1)))%Q by ring.
        rewrite <- p10_add. replace (- (c_digits10 c + 8) + (k + 1)) with (-4 + (k - (c_digits10 c + 3))) by ring. rewrite p10_add.
        change (p10 (-4)) with (1 # 10000)%Q. pose proof (p10_pos (k - (c_digits10 c + 3))). lra.
    - rewrite <- UN. exact M2.
    - rewrite <- UN. exact M3.
    - rewrite <- UN. rewrite <- M1. exact Ry1.
    - rewrite <- UN. rewrite <- M1. exact Ry2. }
  (* the truncated quotient *)
  assert (F0 : 0 <= f) by (unfold f; apply Z.div_pos; lia).
  set (s := if dneg x then -1 else 1).
  assert (NV : exists nv, (if dneg x then dceil c q else dfloor c q) = Some nv /\ normal c nv /\ (value c nv == inject_Z (s * f))%Q).
  { destruct Yn as (kk & [Y2 _] & Y3 & _).
    assert (Y4 : (2 * p10 (kk - (c_digits10 c + 3)) <= p10 kk)%Q).
    { replace kk with (3 + (kk - 3)) at 2 by ring. rewrite p10_add. change (p10 3) with 1000%Q.
      assert (p10 (kk - (c_digits10 c + 3)) <= p10 (kk - 3))%Q by (apply p10_le; lia). pose proof (p10_pos (kk - 3)). lra. }
    pose proof (value_sign c Hc q Nq Zq) as Sv. rewrite Sq in Sv.
    assert (Y5 : (Qabs (value c y - value c q) < Qabs (value c q))%Q) by lra. apply Qabs_Qlt_condition in Y5. destruct Y5 as [Y5 Y6].
    unfold s. destruct (dneg x).
    - rewrite (Qabs_neg (value c q)) in Y5, Y6 by lra. exists zc. split; [exact G1|]. split; [exact G2|]. rewrite G3. unfold Qceiling.
      assert (K : Qfloor (- value c y) = f). { rewrite <- FL. apply Qfloor_comp. rewrite Qabs_neg by lra. reflexivity. }
      rewrite K. replace (-1 * f) with (- f) by ring. reflexivity.
    - rewrite (Qabs_pos (value c q)) in Y5, Y6 by lra. exists zf. split; [exact F1|]. split; [exact F2|]. rewrite F3.
      assert (K : Qfloor (value c y) = f). { rewrite <- FL. apply Qfloor_comp. rewrite Qabs_pos by lra. reflexivity. }
      rewrite K. replace (1 * f) with f by ring. reflexivity. }
  destruct NV as (nv & W1 & W2 & W3).
  assert (FB : f * b <= A) by (unfold f; rewrite Z.mul_comm; apply Z.mul_div_le; lia).
  assert (Zx : iszero x = false).
  { destruct (iszero x) eqn:C; auto. exfalso. pose proof (value_zero c Hc x Nx C) as V0. rewrite Vx in V0. apply Ha.
    change 0%Q with (inject_Z 0) in V0. apply (proj1 (inject_Z_injective a 0)) in V0. exact V0. }
  assert (Zv : iszero v = false).
  { destruct (iszero v) eqn:C; auto. exfalso. pose proof (value_zero c Hc v Nv C) as V0. rewrite Vv in V0. lra. }
  assert (SA : a = s * A).
  { pose proof (value_sign c Hc x Nx Zx) as Sv. unfold s, A. destruct (dneg x); rewrite Vx in Sv; change 0%Q with (inject_Z 0) in Sv; rewrite <- Zlt_Qlt in Sv; lia. }
  assert (S1 : s = 1 \/ s = -1) by (unfold s; destruct (dneg x); auto).
  destruct (cap_pos c Hc) as (C0 & C1 & C2).
  assert (Hn : forall i, memory_ok (later mem i)) by (intros i; intros j p; apply Hm).
  destruct (int_exp c Hc v b Nv Zv Vv) as (Ev0 & _ & _).
  assert (FBa : Z.abs (s * f * b) = f * b).
  { assert (0 <= f * b) by (apply Z.mul_nonneg_nonneg; lia). destruct S1 as [-> | ->]; lia. }
  assert (MU : exists m', mulm c (later mem 2000) 0 nv v = Some m' /\ normal c m' /\ (value c m' == inject_Z (s * f * b))%Q).
  { rewrite mulm_normal by auto. set (pl := later mem 2000 0%nat (Nat.min (dprec nv) (dprec v))).
    assert (HP : pool_ok c (fst pl) (snd pl)) by (apply mulm_pool; auto).
    destruct (iszero nv) eqn:Zn.
    - destruct (mul_zero_full c (fst pl) (snd pl) nv v Hc (newton_mul_ok c Hc Hk) HP W2 Nv (or_introl Zn) ltac:(lia)) as (m' & U1 & U2 & U3 & _).
      exists m'. split; [exact U1|]. split; [exact U2|]. rewrite (value_zero c Hc m' U2 U3).
      pose proof (value_zero c Hc nv W2 Zn) as V0. rewrite W3 in V0. rewrite inject_Z_mult, V0. ring.
    - destruct (mul_int_exact c Hc (fst pl) (snd pl) nv v (s * f) b (newton_mul_ok c Hc Hk) HP W2 Nv Zn Zv W3 Vv) as (m' & U1 & U2 & _ & U3); [lia|].
      exists m'. auto. }
  destruct MU as (m' & U1 & U2 & U3).
  exists (sub c x m'). split.
  { unfold fmod. rewrite Q1. cbn beta iota. rewrite W1. cbn beta iota. rewrite U1. reflexivity. }
  assert (P1 : 10 ^ int_digits c <= 10 ^ (elem_number c * edc c)) by (apply Z.pow_le_mono_r; [reflexivity|exact C1]).
  assert (DM : A = b * f + A mod b) by (apply Z.div_mod; clear - Hb; lia).
  pose proof (Z.mod_pos_bound A b Hb) as MB.
  assert (RM : a - s * f * b = Z.rem a b).
  { clear - SA S1 DM MB HA Hb. clearbody s f A. destruct S1 as [S1|S1]; rewrite S1 in *.
    - replace a with A by lia. rewrite Z.rem_mod_nonneg by lia. lia.
    - replace a with (- A) by lia. rewrite Z.rem_opp_l by lia. rewrite Z.rem_mod_nonneg by lia. lia. }
  assert (RA : Z.abs (a - s * f * b) <= A).
  { assert (0 <= b * f) by (apply Z.mul_nonneg_nonneg; [clear - Hb; lia|exact F0]).
    clear - SA S1 DM MB HA Hb H. clearbody s f A. destruct S1 as [S1|S1]; rewrite S1 in *; lia. }
  rewrite <- RM. clearbody A f s. apply (sub_int_exact c Hc x m' a (s * f * b) Nx U2 Vx U3).
  - clear - SA S1 Hai P1 HA. destruct S1 as [S1|S1]; rewrite S1 in *; lia.
  - rewrite FBa. clear - FB Hai P1. lia.
  - clear - RA Hai P1. lia.
Qed.
End FM.
