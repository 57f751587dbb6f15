(** Rootn2_proofs.v - the root functions for every index; a built-in root meeting the assumption; a case. *)
From Verif Require Export Rootn_proofs Model_Root Sqrt4_proofs.
From Coq Require Import Lqa.
Local Open Scope Z_scope.

Section FP.
Variable q : Q.
Variable p K : Z.
Let T : Q := inject_Z (2 ^ (K * p)).
Let test (m : Z) : Prop := (q * inject_Z (m ^ p) <= T)%Q.

Lemma root_bits_spec k : forall m, 0 <= m -> test m -> ~ test (m + 2 ^ Z.of_nat k) ->
  let r := root_bits q p K k m in 0 <= r /\ test r /\ ~ test (r + 1).
Proof.
  induction k as [|k IH]; intros m m0 H1 H2; cbn [root_bits].
  - change (2 ^ Z.of_nat 0) with 1 in H2. auto.
  - destruct (Qle_bool (q * inject_Z ((m + 2 ^ Z.of_nat k) ^ p)) (inject_Z (2 ^ (K * p)))) eqn:E.
    + apply Qle_bool_iff in E. apply IH; auto; [pose proof (Z.pow_pos_nonneg 2 (Z.of_nat k)); lia|].
      intros X. apply H2. rewrite Nat2Z.inj_succ, Z.pow_succ_r by lia. replace (m + 2 * 2 ^ Z.of_nat k) with (m + 2 ^ Z.of_nat k + 2 ^ Z.of_nat k) by ring. exact X.
    + apply IH; auto. intros X. unfold test in X. apply Qle_bool_iff in X. unfold T in X. rewrite E in X. discriminate.
Qed.
End FP.

Lemma inject_pow m k : (inject_Z (m ^ Z.of_nat k) == qp (inject_Z m) k)%Q.
Proof.
  induction k as [|k IH]; [reflexivity|]. cbn [qp]. rewrite Nat2Z.inj_succ, Z.pow_succ_r, inject_Z_mult, IH by lia. ring.
Qed.

Lemma fpow_ieee_ok P p : 24 <= P -> (3 <= p <= 37)%nat -> fpow_ok P (fpow_ieee P) p.
Proof.
  intros HP Hp q Rq Q1 Q2. unfold fpow_ieee. assert (HP2 : 2 <= P) by lia.
  set (K := P + 16). set (m := root_bits q (Z.of_nat p) K (Z.to_nat (P + 21)) 0).
  pose proof (p10_pos (- Z.of_nat p)) as Pp. assert (q0 : (0 < q)%Q) by lra.
  set (H := inject_Z (2 ^ K)).
  assert (HH : (0 < H)%Q) by (unfold H; change 0%Q with (inject_Z 0); rewrite <- Zlt_Qlt; apply Z.pow_pos_nonneg; lia).
  assert (ET : (inject_Z (2 ^ (K * Z.of_nat p)) == qp H p)%Q) by (rewrite Z.pow_mul_r by lia; apply inject_pow).
  assert (HT : (0 < qp H p)%Q) by (apply qp_pos; auto).
  destruct (root_bits_spec q (Z.of_nat p) K (Z.to_nat (P + 21)) 0 ltac:(lia)) as (m0 & M1 & M2).
  { rewrite Z.pow_0_l, ET by lia. change (inject_Z 0) with 0%Q. lra. }
  { rewrite ET, inject_pow, Z.add_0_l, Z2Nat.id by lia. intros X.
    replace (P + 21) with (5 + K) in X by (unfold K; ring). rewrite Z.pow_add_r, inject_Z_mult in X by lia. fold H in X. rewrite qp_mult in X. change (inject_Z (2 ^ 5)) with 32%Q in X.
    assert (E32 : (qp 32 p == qp 10 p * qp (32 # 10) p)%Q) by (rewrite <- qp_mult; apply qp_compat; reflexivity).
    assert (E10 : (qp 10 p * p10 (- Z.of_nat p) == 1)%Q).
    { change 10%Q with (p10 1). rewrite qp_p10, Z.mul_1_r, <- p10_add, Z.add_opp_diag_r. reflexivity. }
    assert (G : (32 # 10 <= qp (32 # 10) p)%Q).
    { destruct (qp_between (32 # 10) 1 p ltac:(lia) eq_refl) as [[_ U]|[_ U]]; [|exfalso; revert U; cbn; lra]. eapply Qle_trans; [|exact U]. cbn [qp]. lra. }
    assert (T10 : (0 < qp 10 p)%Q) by (apply qp_pos; lra).
    assert (X1 : ((1 # 2) * p10 (- Z.of_nat p) * (qp 32 p * qp H p) <= q * (qp 32 p * qp H p))%Q).
    { apply Qmult_le_compat_r; auto. rewrite E32. apply Qmult_le_0_compat; [|lra]. apply Qmult_le_0_compat; lra. }
    rewrite E32 in X1 at 1.
    setoid_replace ((1 # 2) * p10 (- Z.of_nat p) * (qp 10 p * qp (32 # 10) p * qp H p))%Q with ((1 # 2) * (qp 10 p * p10 (- Z.of_nat p)) * (qp (32 # 10) p * qp H p))%Q in X1 by ring.
    rewrite E10 in X1. assert (X2 : ((32 # 10) * qp H p <= qp (32 # 10) p * qp H p)%Q) by (apply Qmult_le_compat_r; lra). lra. }
  fold m in m0, M1, M2. rewrite ET, inject_pow in M1. rewrite ET, inject_pow in M2. apply Qnot_le_lt in M2.
  set (a := inject_Z m) in *. rewrite inject_Z_plus in M2. fold a in M2. change (inject_Z 1) with 1%Q in M2.
  assert (a0 : (0 <= a)%Q) by (unfold a; change 0%Q with (inject_Z 0); rewrite <- Zle_Qle; auto).
  assert (H40 : (1099511627776 <= H)%Q).
  { unfold H. change 1099511627776%Q with (inject_Z (2 ^ 40)). rewrite <- Zle_Qle. apply Z.pow_le_mono_r; unfold K; lia. }
  (* (a + 1) / H is at least 1/2 *)
  assert (L1 : ((1 # 2) * H < a + 1)%Q).
  { apply qp_lt_inv with p; [lra|]. rewrite qp_mult.
    assert (G : (qp (1 # 2) p <= 1 # 8)%Q).
    { destruct (qp_between (1 # 2) 3 p ltac:(lia) eq_refl) as [[U _]|[U _]]; [exfalso; revert U; cbn; lra|]. eapply Qle_trans; [exact U|]. cbn [qp]. lra. }
    assert (G2 : (qp (1 # 2) p * qp H p <= (1 # 8) * qp H p)%Q) by (apply Qmult_le_compat_r; lra).
    assert (G3 : (0 < qp (a + 1) p)%Q) by (apply qp_pos; lra).
    assert (G4 : (q * qp (a + 1) p <= 2 * qp (a + 1) p)%Q) by (apply Qmult_le_compat_r; lra). lra. }
  assert (ap : (0 < a)%Q) by lra.
  set (y := (a / H)%Q). assert (y0 : (0 < y)%Q) by (apply Qlt_shift_div_l; lra).
  assert (Ey : (a == y * H)%Q) by (unfold y; field; lra).
  assert (Y1 : (q * qp y p <= 1)%Q).
  { rewrite (qp_compat _ _ p Ey), qp_mult in M1. apply Qmult_le_r with (qp H p); auto. rewrite Qmult_1_l, <- Qmult_assoc. exact M1. }
  (* p2 (-P) and H *)
  assert (EH : (H == p2 P * 65536)%Q).
  { unfold H, K. rewrite Z.pow_add_r, inject_Z_mult by lia. unfold p2. rewrite Zpower_Qpower by lia. reflexivity. }
  set (u := p2 (- P)) in *.
  assert (Eu : (u * p2 P == 1)%Q).
  { unfold u, p2. rewrite <- Qpower_plus by discriminate. replace (- P + P) with 0 by ring. reflexivity. }
  destruct (uu_small P HP) as [u0 u1]. unfold uu in u0, u1. fold u in u0, u1.
  assert (HU : (u * H == 65536)%Q) by (rewrite EH, Qmult_assoc, Eu; reflexivity).
  (* y (1 + u/1000)^p q >= 1 *)
  assert (Y2 : (1 <= q * qp (y * (1 + u)) p)%Q).
  { assert (Y3 : (a + 1 <= y * (1 + u) * H)%Q).
    { setoid_replace (y * (1 + u) * H)%Q with (y * H + y * (u * H))%Q by ring. rewrite HU, <- Ey.
      assert ((1 # 4) <= y)%Q by (unfold y; apply Qle_shift_div_l; lra). lra. }
    assert (Y4 : (qp (a + 1) p <= qp (y * (1 + u) * H) p)%Q) by (apply qp_le; lra). rewrite qp_mult in Y4.
    assert (Y5 : (q * qp (a + 1) p <= q * (qp (y * (1 + u)) p * qp H p))%Q) by (apply Qmult_le_l; auto).
    apply Qmult_le_r with (qp H p); auto. lra. }
  exists (fl P y). split; [reflexivity|].
  destruct (fl_bounds P HP2 y ltac:(lra)) as [B1 B2]. fold u in B1, B2.
  assert (f0 : (0 < fl P y)%Q).
  { apply Qlt_le_trans with (y * (1 - u))%Q; auto. apply Qmult_lt_0_compat; lra. }
  split; [apply fl_rep; auto; lra|]. split; auto.
  split.
  - apply Qle_trans with (q * qp (y * (1 - u)) p)%Q.
    + apply Qle_trans with (q * (qp (y * (1 + u)) p * qp (1 - 5 * u) p))%Q.
      * rewrite Qmult_assoc. assert (Z1 : (1 * qp (1 - 5 * u) p <= q * qp (y * (1 + u)) p * qp (1 - 5 * u) p)%Q).
        { apply Qmult_le_compat_r; auto. apply Qlt_le_weak, qp_pos. lra. } lra.
      * apply Qmult_le_l; auto. rewrite <- qp_mult. apply qp_le.
        { apply Qmult_le_0_compat; [|lra]. apply Qmult_le_0_compat; lra. }
        rewrite <- Qmult_assoc, !(Qmult_comm y). apply Qmult_le_compat_r; [|lra].
        assert (0 <= u * u)%Q by (apply Qmult_le_0_compat; lra). lra.
    + rewrite (Qmult_comm _ q). apply Qmult_le_l; auto. apply qp_le; auto. apply Qmult_le_0_compat; lra.
  - apply Qle_trans with (q * qp (y * (1 + u)) p)%Q.
    + rewrite (Qmult_comm _ q). apply Qmult_le_l; auto. apply qp_le; auto. lra.
    + rewrite qp_mult, Qmult_assoc. assert (Z0 : (0 < qp (1 + u) p)%Q) by (apply qp_pos; lra).
      assert (Z1 : (q * qp y p * qp (1 + u) p <= 1 * qp (1 + u) p)%Q) by (apply Qmult_le_compat_r; lra).
      assert (Z2 : (qp (1 + u) p <= qp (1 + 5 * u) p)%Q) by (apply qp_le; lra). lra.
Qed.

Section R2.
Variable c : cfg.
Variable F : ftype.
Variable fsqrt : Q -> Q.
Variable fpow : Q -> Z -> xfloat.
Notation M := (max_exp10_of (c_expo c)).
Notation eps := (p10 (- (c_digits10 c + 2 * edc c))).
Notation n := (nel c).
Hypothesis Hc : cfg_ok c.
Hypothesis Hk : newton_ok c.
Hypothesis HF : float_fits c F.
Hypothesis HJ : (digit_loops c F <= n)%nat.

Lemma lt_zero v : normal c v -> iszero v = false -> op_lt v (zero c) = dneg v.
Proof using Hc.
  intros Nv Zv. destruct (ops_spec c Hc v (zero c) Nv (zero_normal c)) as [OL _].
  assert (V0 : (value c (zero c) == 0)%Q) by (apply value_zero_c; auto). rewrite V0 in OL.
  pose proof (value_sign c Hc v Nv Zv) as SG.
  destruct (dneg v) eqn:En; [apply OL; auto|]. apply Bool.not_true_is_false. intros K. apply OL in K. lra.
Qed.

Lemma rootn_reduces fuel mem v p : 3 <= p -> normal c v -> iszero v = false -> (dneg v = false \/ p = 3) ->
  rootn_nonneg c F fsqrt fpow fuel mem v p = rootn_ge3 c F fpow fuel mem v p.
Proof using Hc.
  clear - Hc. intros Hp Nv Zv Sv. unfold rootn_nonneg. rewrite (lt_zero v Nv Zv). replace (p =? 0) with false by lia. replace (p =? 1) with false by lia. replace (p =? 2) with false by lia.
  cbn [orb]. destruct Sv as [Q1|Q1]; rewrite Q1; [reflexivity|]. change (3 =? 3) with true. cbn [negb]. rewrite Bool.andb_false_r. reflexivity.
Qed.

Variable pw : nat.
Hypothesis Hpw : (3 <= pw <= 37)%nat.
Hypothesis Hfp : fpow_ok (f_bits F) fpow pw.
Hypothesis Hen : root_enough c F pw.

Theorem rootn_full mem v fuel : (64 <= fuel)%nat -> memory_ok mem -> normal c v -> iszero v = false -> (dneg v = false \/ pw = 3%nat) ->
  - M + edc c * (elem_number c + 8) < dexp v < M - edc c * (elem_number c + 8) ->
  root_clear c pw (p10 (- kept0 F pw)) (Qabs (value c v)) ->
  exists y, rootn c F fsqrt fpow fuel mem v (Z.of_nat pw) = Ret y /\ normal c y /\ dneg y = dneg v /\ iszero y = false /\
    (Qabs (qp (value c y) pw - value c v) <= 20 * (iN pw * eps) * Qabs (value c v))%Q.
Proof using Hc Hk HF HJ Hpw Hfp Hen.
  intros Hfu Hm Nv Zv Sv Rv Hcl. unfold rootn. replace (Z.of_nat pw <? 0) with false by (clear; lia).
  rewrite rootn_reduces; auto; [|clear - Hpw; lia|destruct Sv as [Q1|Q1]; [left; auto|right; rewrite Q1; reflexivity]].
  apply (rootn_spec c F fpow); auto.
Qed.

Lemma neg_errors (x y z P e : Q) (k : nat) : P = iN k -> (0 < x -> 0 < y -> 3 <= P -> P <= 37 -> 0 < e -> P * e <= 4 # 10000 ->
  Qabs (qp y k - x) <= 20 * (P * e) * x -> Qabs (z - 1 / y) <= 9 * e * Qabs (1 / y) -> Qabs (x * qp z k - 1) <= 30 * (P * e))%Q.
Proof.
  intros EP x0 y0 P3 P37 e0 es Hy Hz.
  assert (i0 : (0 < 1 / y)%Q) by (apply Qlt_shift_div_l; lra).
  rewrite (Qabs_pos (1 / y)) in Hz by lra. apply pm_bnd in Hz. apply pm_bnd in Hy.
  assert (h1 : (e <= 2 # 10000)%Q) by (assert (3 * e <= P * e)%Q by (apply Qmult_le_compat_r; lra); lra).
  set (i := (1 / y)%Q) in *. set (g := (z * y)%Q).
  assert (Ei : (i * y == 1)%Q) by (unfold i; field; lra).
  assert (g1 : (1 - 9 * e <= g)%Q).
  { unfold g. assert (T : ((i * (1 - 9 * e)) * y <= z * y)%Q) by (apply Qmult_le_compat_r; lra).
    setoid_replace (i * (1 - 9 * e) * y)%Q with ((1 - 9 * e) * (i * y))%Q in T by ring. rewrite Ei in T. lra. }
  assert (g2 : (g <= 1 + 9 * e)%Q).
  { unfold g. assert (T : (z * y <= (i * (1 + 9 * e)) * y)%Q) by (apply Qmult_le_compat_r; lra).
    setoid_replace (i * (1 + 9 * e) * y)%Q with ((1 + 9 * e) * (i * y))%Q in T by ring. rewrite Ei in T. lra. }
  subst P. destruct (small_pow (9 * e) k k (le_n k) ltac:(lra)) as [S1 S2]; [lra|].
  assert (G1 : (qp (1 - 9 * e) k <= qp g k)%Q) by (apply qp_le; lra).
  assert (G2 : (qp g k <= qp (1 + 9 * e) k)%Q) by (apply qp_le; lra).
  set (t := (iN k * e)%Q) in *. assert (t0 : (0 < t)%Q) by (apply Qmult_lt_0_compat; lra).
  assert (Eg : (qp z k * qp y k == qp g k)%Q) by (rewrite <- qp_mult; apply qp_compat; reflexivity).
  set (G := qp g k) in *.
  assert (G3 : (1 - 9 * t <= G)%Q) by (unfold t; lra). assert (G4 : (G <= 1 + (909 # 100) * t)%Q) by (unfold t; lra).
  pose proof (qp_pos y k y0) as Yk. set (Y := qp y k) in *. set (Z := qp z k) in *. clearbody G Y Z.
  assert (Z0 : (0 < Z)%Q).
  { destruct (Qlt_le_dec 0 Z) as [C|C]; auto. exfalso. assert (Z * Y <= 0 * Y)%Q by (apply Qmult_le_compat_r; lra). lra. }
  assert (K1 : (Z * (x * (1 - 20 * t)) <= Z * Y)%Q) by (apply Qmult_le_l; lra).
  assert (K2 : (Z * Y <= Z * (x * (1 + 20 * t)))%Q) by (apply Qmult_le_l; lra).
  set (W := (x * Z)%Q). assert (W0 : (0 < W)%Q) by (apply Qmult_lt_0_compat; auto).
  assert (K3 : (W * (1 - 20 * t) <= 1 + (909 # 100) * t)%Q) by (unfold W; lra).
  assert (K4 : (1 - 9 * t <= W * (1 + 20 * t))%Q) by (unfold W; lra). clearbody W.
  assert (tW : (W * t <= W * (4 # 10000))%Q) by (apply Qmult_le_l; lra).
  assert (W1 : (W <= 102 # 100)%Q) by lra.
  assert (W2 : (W * t <= (102 # 100) * t)%Q) by (apply Qmult_le_compat_r; lra).
  apply pm_bnd. lra.
Qed.

(** Negative indices. *)
Theorem rootn_neg mem v fuel : (64 <= fuel)%nat -> memory_ok mem -> normal c v -> iszero v = false -> dneg v = false ->
  - M + edc c * (elem_number c + 8) < dexp v < M - edc c * (elem_number c + 8) ->
  root_clear c pw (p10 (- kept0 F pw)) (Qabs (value c v)) ->
  exists y, rootn c F fsqrt fpow fuel mem v (- Z.of_nat pw) = Ret y /\
    (Qabs (value c v * qp (value c y) pw - 1) <= 30 * (iN pw * eps))%Q.
Proof using Hc Hk HF HJ Hpw Hfp Hen.
  intros Hfu Hm Nv Zv Sv Rv Hcl. unfold rootn. replace (- Z.of_nat pw <? 0) with true by (clear - Hpw; lia).
  replace (- Z.of_nat pw =? - 2 ^ 31) with false by (clear - Hpw; lia). rewrite Z.opp_involutive.
  rewrite rootn_reduces; auto; [|clear - Hpw; lia].
  destruct (rootn_spec c F fpow Hc Hk HF HJ pw Hpw Hfp Hen mem v fuel) as (y & R1 & R2 & R3 & R4 & R5); auto.
  rewrite R1. cbn [obind].
  pose proof (value_sign c Hc v Nv Zv) as V0. rewrite Sv in V0. pose proof (value_sign c Hc y R2 R4) as Y0. rewrite R3, Sv in Y0.
  rewrite (Qabs_pos (value c v)) in R5 by lra.
  pose proof (iNpw pw Hpw) as [I1 I2]. destruct (eps_small c Hc) as [e0 _].
  assert (Hsm : (iN pw * eps <= 4 # 10000)%Q).
  { assert (eps <= 1 # 100000)%Q.
    { change (1 # 100000)%Q with (p10 (-5)). apply (proj2 (p10_le _ _)). pose proof (edc_pos c) as He. destruct Hc as [Hc1 _]. clear - He Hc1. lia. }
    apply Qle_trans with (37 * (1 # 100000))%Q; [apply Qmult_le_compat_nonneg; split; lra|discriminate]. }
  assert (Er : - M + 3 * edc c < dexp y < M - 3 * edc c).
  { pose proof (normal_wk c Hc v Nv Zv) as Wv. pose proof (normal_wk c Hc y R2 R4) as Wy.
    destruct (normal_facts c Hc v Nv) as (Lv & Ov & _). destruct (normal_facts c Hc y R2) as (Ly & Oy & _).
    assert (Mv : (value c v == mag c v)%Q) by (apply mag_value; auto).
    assert (My : (value c y == mag c y)%Q) by (apply mag_value; auto; congruence).
    destruct (mag_bracket c Hc y Wy) as [X1 _]. pose proof (mag_bracket_lt c Hc y Wy Oy) as X2.
    destruct (mag_bracket c Hc v Wv) as [Y1 _]. pose proof (mag_bracket_lt c Hc v Wv Ov) as Y2.
    rewrite <- My in X1, X2. rewrite <- Mv in Y1, Y2.
    pose proof (qp_le _ _ pw (Qlt_le_weak _ _ (p10_pos (dexp y))) X1) as Z1. rewrite qp_p10 in Z1.
    pose proof (qp_le _ _ pw (Qlt_le_weak _ _ Y0) (Qlt_le_weak _ _ X2)) as Z2. rewrite qp_p10 in Z2.
    set (p := Z.of_nat pw) in *. apply pm_bnd in R5.
    assert (R6 : (20 * (iN pw * eps) * value c v <= (1 # 2) * value c v)%Q) by (apply Qmult_le_compat_r; lra).
    assert (G1 : p * dexp y < dexp v + edc c + 1).
    { apply (proj1 (p10_lt _ _)). rewrite (p10_add _ 1). change (p10 1) with 10%Q. lra. }
    assert (G2 : dexp v - 1 < p * (dexp y + edc c)).
    { apply (proj1 (p10_lt _ _)). unfold Z.sub. rewrite (p10_add _ (- (1))). change (p10 (- (1))) with (1 # 10)%Q. pose proof (p10_pos (dexp v)). lra. }
    destruct (max_exp10_bounds c) as (B1 & B2 & _). pose proof (edc_pos c) as He. pose proof (nel_ge4 c Hc) as Hn4. pose proof (nel_Z c Hc) as HnZ.
    assert (K8 : 4 * edc c <= edc c * Z.of_nat n) by (rewrite (Z.mul_comm 4); apply Z.mul_le_mono_nonneg_l; clear - He Hn4; lia).
    rewrite <- HnZ in Rv. replace (edc c * (Z.of_nat n + 8)) with (edc c * Z.of_nat n + 8 * edc c) in Rv by ring.
    assert (Hp : 3 <= p) by (unfold p; clear - Hpw; lia). clear - G1 G2 Rv B1 He K8 Hp.
    split.
    - destruct (Z_lt_le_dec (- M + 3 * edc c) (dexp y)); auto. exfalso.
      assert (p * (dexp y + edc c) <= p * (- M + 4 * edc c)) by (apply Z.mul_le_mono_nonneg_l; lia).
      assert (p * (- M + 4 * edc c) <= 3 * (- M + 4 * edc c)).
      { assert (3 * (M - 4 * edc c) <= p * (M - 4 * edc c)) by (apply Z.mul_le_mono_nonneg_r; lia). lia. }
      lia.
    - destruct (Z_lt_le_dec (dexp y) (M - 3 * edc c)); auto. exfalso.
      assert (3 * dexp y <= p * dexp y) by (apply Z.mul_le_mono_nonneg_r; lia). lia. }
  pose proof (one_value c Hc) as V1. pose proof (edc_pos c) as He.
  destruct (div_accurate c F (later (later (later mem 4000) 4000) 4000) (one c) y Hc Hk HF HJ) as (z & D1 & _ & D3 & _); auto.
  { intros i w. apply Hm. }
  { apply one_normal; auto. }
  { destruct (iszero (one c)) eqn:Q; auto. rewrite (value_zero c Hc _ (one_normal c Hc) Q) in V1. discriminate V1. }
  { clear - Er He. lia. }
  { change (dexp (one c)) with 0. clear - Er He. lia. }
  rewrite D1. cbn [lift]. exists z. split; auto. rewrite V1 in D3.
  apply (neg_errors (value c v) (value c y) (value c z) (iN pw) eps pw eq_refl); auto.
Qed.
End R2.
