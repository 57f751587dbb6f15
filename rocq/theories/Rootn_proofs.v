(** Rootn_proofs.v - accuracy and termination of the cube root and the p-th root. *)
From Verif Require Export Rootstart_proofs Func_proofs.
From Coq Require Import Lqa.
Local Open Scope Z_scope.

(** [X] is no p-th power of a power of ten with exponent a multiple of the limb size, up to the relative
    tolerance [tau]. *)
Definition root_clear (c : cfg) (p : nat) (tau X : Q) : Prop := forall k, (edc c | k) -> (tau < Qabs (X * p10 (Z.of_nat p * k) - 1))%Q.

(** The iteration doubles the digits kept until the digits counted reach the full size; for p > 3 one digit
    fewer is kept than counted. *)
Definition root_enough (c : cfg) (F : ftype) (p : nat) : Prop := p = 3%nat \/
  forall k : nat, Z.of_nat (nel c) * edc c <= (f_digits10 F - 1) * 2 ^ Z.of_nat k -> edc c * (Z.of_nat (nel c) - 1) <= (f_digits10 F - 2) * 2 ^ Z.of_nat k.

Section RN.
Variable c : cfg.
Variable F : ftype.
Variable fpow : Q -> Z -> xfloat.
Notation L := (c_limb c).
Notation B := (mask L).
Notation ok := (digits_ok B).
Notation E := (ebits (c_expo c)).
Notation n := (nel c).
Notation M := (max_exp10_of (c_expo c)).
Notation PF := (f_bits F).
Notation J := (digit_loops c F).
Notation wk := (wk c).
Notation mag := (mag c).
Notation eta := (eta c).
Notation nz := (nz c).
Notation eps := (p10 (- (c_digits10 c + 2 * edc c))).
Hypothesis Hc : cfg_ok c.
Hypothesis Hk : newton_ok c.
Hypothesis HF : float_fits c F.
Hypothesis HJ : (J <= n)%nat.
Variable pw : nat.
Hypothesis Hpw : (3 <= pw <= 37)%nat.
Hypothesis Hfp : fpow_ok PF fpow pw.
Hypothesis Hen : root_enough c F pw.
Notation kept := (kept0 F pw).

Lemma kept_ok : digits_kept pw (f_digits10 F - 1) kept.
Proof using HF.
  clear - HF. unfold digits_kept, kept0. destruct (Nat.eqb_spec pw 3) as [->|N]; destruct HF as [EF|[EF|[EF _]]]; rewrite EF; cbn; lia.
Qed.

Lemma top_value y : wk y -> ~ ok (data y) -> (mag y == p10 (dexp y + edc c))%Q.
Proof using Hc.
  intros Wy NO. pose proof (edc_pos c) as He. pose proof (nel_ge4 c Hc) as Hn4. pose proof Wy as (Ly & [Oy|Oy] & _); [contradiction|].
  unfold Prec_proofs.mag. rewrite Oy, Ly. cbn [limbs_value]. rewrite limbs_value_repeat0, repeat_length, Z.add_0_r, inject_Z_mult, Bp10.
  rewrite mask_pow. change (ed L) with (edc c). rewrite <- p10_Z by (clear - He; lia). rewrite <- !p10_add.
  replace (edc c + edc c * Z.of_nat (n - 1) + low c (dexp y)) with (dexp y + edc c); [reflexivity|].
  unfold low. rewrite Nat2Z.inj_sub by (clear - Hn4; lia). change (Z.of_nat 1) with 1. ring.
Qed.

(** The inverse root. *)
Lemma rootn_inv_spec mem v fuel : (64 <= fuel)%nat -> memory_ok mem -> normal c v -> iszero v = false -> dneg v = false ->
  - M + edc c * (elem_number c + 8) < dexp v < M - edc c * (elem_number c + 8) ->
  root_clear c pw (p10 (- kept)) (value c v) ->
  exists r a, rootn_inv c F fpow fuel mem v (Z.of_nat pw) = Ret r /\ normal c r /\ dneg r = false /\ iszero r = false /\
    - M < dexp r < M - 3 * edc c /\ ~ (Qabs (value c r) == p10 (dexp r))%Q /\ (0 < value c r)%Q /\
    (qp (value c r) pw * value c v == 1 - a)%Q /\ (Qabs a <= 12 * (iN pw * eta n))%Q.
Proof using Hc Hk HF HJ Hpw Hfp Hen.
  intros Hfu Hm Nv Zv Sv Rv Hcl. pose proof (edc_pos c) as He. pose proof (nel_ge4 c Hc) as Hn4. pose proof (nel_Z c Hc) as HnZ.
  pose proof (normal_wk c Hc v Nv Zv) as Wv. destruct (normal_facts c Hc v Nv) as (Lv & Ov & Pv & _).
  destruct (max_exp10_bounds c) as (B1 & B2 & _).
  assert (Mv : (value c v == mag v)%Q) by (apply mag_value; auto).
  pose proof (mag_pos c Hc v Wv) as Mp.
  rewrite <- HnZ in Rv.
  assert (K8 : 4 * edc c <= edc c * Z.of_nat n) by (rewrite (Z.mul_comm 4); apply Z.mul_le_mono_nonneg_l; clear - He Hn4; lia).
  replace (edc c * (Z.of_nat n + 8)) with (edc c * Z.of_nat n + 8 * edc c) in Rv by ring.
  unfold rootn_inv. replace (Z.of_nat pw <? 1) with false by (clear - Hpw; lia). replace (Z.of_nat pw =? 1) with false by (clear - Hpw; lia).
  destruct (root_start c F fpow Hc HF HJ pw Hpw Hfp v fuel Hfu Wv Ov Sv ltac:(clear - Rv He K8; lia)) as (dd & ne & r & a & S1 & S2 & Wr & Sr & HR & Ha).
  destruct (extract_parts c F v) as [dd0 ne0]. cbn [fst snd] in S1. rewrite S1. cbn [obind fst snd]. rewrite S2. cbn [obind].
  pose proof kept_ok as HD.
  assert (Hbig : 4 <= kept) by apply HD.
  assert (T1 : (p10 (- kept) <= 1 # 10000)%Q) by (change (1 # 10000)%Q with (p10 (-4)); apply (proj2 (p10_le _ _)); clear - Hbig; lia).
  pose proof (iNpw pw Hpw) as [I1 I2].
  assert (Nr : nz r).
  { split; auto. pose proof Wr as (Ly & [Oy|Oy] & _ & Dr); auto. exfalso.
    assert (Ey : (mag r == p10 (dexp r + edc c))%Q).
    { apply top_value; auto. intros Q. rewrite Oy in Q. apply digits_ok_cons in Q. clear - Q. lia. }
    assert (Ed : (edc c | dexp r + edc c)) by (apply Z.divide_add_r; [auto|apply Z.divide_refl]).
    pose proof (Hcl _ Ed) as X. rewrite Mv in X. rewrite (qp_compat _ _ pw Ey), qp_p10 in HR.
    rewrite Qmult_comm, HR in X. setoid_replace (1 - a - 1)%Q with (- a)%Q in X by ring. rewrite Qabs_opp in X. lra. }
  pose proof Hk as [Hk1 _]. unfold elems_for_fft in Hk1.
  assert (Hprod : Z.of_nat n * edc c <= 1793 * 8) by (apply Z.mul_le_mono_nonneg; clear - He HnZ Hk1; lia).
  pose proof (digits_n c F Hc HF HJ) as Dn. pose proof (F_digits c F HF) as [F1 F2].
  destruct (eta_small c n ltac:(clear - Hn4; lia)) as [En0 _].
  assert (Hn7 : 7 <= edc c * (Z.of_nat n - 1)) by (clear - Dn F1; lia).
  assert (iE0 : (0 <= iN pw * eta n)%Q) by (apply Qmult_le_0_compat; lra).
  destruct (root_loop_spec c F Hc Hk pw Hpw Hn7 mem 63 Hm 0%nat (f_digits10 F - 1) kept v r a) with (fuel := fuel)
    as (r' & a' & j & L1 & Nr' & Sr' & HR' & Ha' & Hj); auto.
  { split; auto. }
  { clear - Rv. lia. }
  { lra. }
  { change (2 ^ Z.of_nat 63) with 9223372036854775808. clear - F1 Hprod. lia. }
  rewrite Pv, L1. cbn [obind]. 
  set (rr := mkDec (data r') (dexp r') (dneg r') n).
  assert (Wr' : wk rr) by exact (proj1 Nr'). pose proof (mag_pos c Hc r' (proj1 Nr')) as Mr.
  assert (Vr : (value c rr == mag r')%Q) by (rewrite mag_value; [reflexivity|apply Nr'|exact Sr']).
  (* the residual *)
  set (d0 := f_digits10 F - 1) in *.
  assert (Hd0 : d0 < Z.of_nat n * edc c).
  { apply Z.lt_le_trans with (Z.of_nat J * edc c); auto. apply Z.mul_le_mono_nonneg_r; [clear - He; lia|clear - HJ; lia]. }
  assert (P2j : 2 <= 2 ^ Z.of_nat j).
  { destruct j as [|j]; [exfalso; change (2 ^ Z.of_nat 0) with 1 in Hj; clear - Hj Hd0; lia|].
    rewrite Nat2Z.inj_succ, Z.pow_succ_r by (clear; lia). pose proof (Z.pow_pos_nonneg 2 (Z.of_nat j)). clear - H. lia. }
  assert (Kd : (p10 (- (kept * 2 ^ Z.of_nat j)) <= eta n)%Q).
  { unfold Newton_proofs.eta. apply (proj2 (p10_le _ _)). apply Z.opp_le_mono. rewrite !Z.opp_involutive.
    unfold kept0. destruct Hen as [->|He2].
    - cbn [Nat.eqb]. fold d0. clear - Hj He. lia.
    - specialize (He2 j Hj). destruct (Nat.eqb pw 3); auto. eapply Z.le_trans; [exact He2|]. apply Z.mul_le_mono_nonneg_r; [clear - P2j; lia|clear - d0; unfold d0; lia]. }
  assert (A12 : (Qabs a' <= 12 * (iN pw * eta n))%Q).
  { assert (1 * eta n <= iN pw * eta n)%Q by (apply Qmult_le_compat_r; lra). lra. }
  assert (Etiny : (iN pw * eta n <= 37 * (1 # 10000000))%Q).
  { assert (eta n <= 1 # 10000000)%Q by (change (1 # 10000000)%Q with (p10 (-7)); apply (proj2 (p10_le _ _)); clear - Hn7; lia).
    apply Qmult_le_compat_nonneg; split; lra. }
  assert (Asm : (Qabs a' <= p10 (- kept))%Q).
  { eapply Qle_trans; [exact Ha'|].
    assert (Q1 : (p10 (- (kept * 2 ^ Z.of_nat j)) <= (1 # 10000) * p10 (- kept))%Q).
    { change (1 # 10000)%Q with (p10 (-4)). rewrite <- p10_add. apply (proj2 (p10_le _ _)).
      assert (kept * 2 <= kept * 2 ^ Z.of_nat j) by (apply Z.mul_le_mono_nonneg_l; [clear - Hbig; lia|auto]). clear - H Hbig. lia. }
    assert (Q2 : (11 * (iN pw * eta n) <= (41 # 100) * p10 (- kept))%Q).
    { assert (Q3 : (eta n <= (1 # 100) * p10 (- d0))%Q).
      { unfold Newton_proofs.eta. change (1 # 100)%Q with (p10 (-2)). rewrite <- p10_add. apply (proj2 (p10_le _ _)). clear - Dn. lia. }
      pose proof (p10_pos (- d0)) as Pd. assert (Q4 : (iN pw * eta n <= iN pw * ((1 # 100) * p10 (- d0)))%Q) by (rewrite !(Qmult_comm (iN pw)); apply Qmult_le_compat_r; lra).
      assert (Q5 : (iN pw * p10 (- d0) <= (37 # 10) * p10 (- kept))%Q).
      { unfold kept0. fold d0. destruct (Nat.eqb_spec pw 3) as [E3|E3].
        - rewrite E3. change (iN 3) with 3%Q. lra.
        - replace (- (f_digits10 F - 2)) with (1 + - d0) by (unfold d0; ring). rewrite p10_add. change (p10 1) with 10%Q.
          assert (iN pw * p10 (- d0) <= 37 * p10 (- d0))%Q by (apply Qmult_le_compat_r; lra). lra. }
      lra. }
    pose proof (p10_pos (- kept)). lra. }
  apply pm_bnd in A12 as A12'.
  (* exponent of the result *)
  assert (Er : - M < dexp r' < M - 3 * edc c).
  { destruct (mag_bracket c Hc r' (proj1 Nr')) as [X1 _]. pose proof (mag_bracket_lt c Hc r' (proj1 Nr') (proj2 Nr')) as X2.
    destruct (mag_bracket c Hc v Wv) as [Y1 _]. pose proof (mag_bracket_lt c Hc v Wv Ov) as Y2.
    pose proof (qp_le _ _ pw (Qlt_le_weak _ _ (p10_pos (dexp r'))) X1) as Z1. rewrite qp_p10 in Z1.
    pose proof (qp_le _ _ pw (Qlt_le_weak _ _ Mr) (Qlt_le_weak _ _ X2)) as Z2. rewrite qp_p10 in Z2.
    set (p := Z.of_nat pw) in *.
    pose proof (p10_pos (p * dexp r')) as P1. pose proof (p10_pos (p * (dexp r' + edc c))) as P2. pose proof (p10_pos (dexp v)) as P3.
    assert (G1 : p * dexp r' + dexp v < 1).
    { apply (proj1 (p10_lt _ _)). rewrite p10_add. change (p10 1) with 10%Q. apply Qle_lt_trans with (qp (mag r') pw * mag v)%Q; [|rewrite HR'; lra].
      apply Qmult_le_compat_nonneg; split; lra. }
    assert (G2 : -1 < p * (dexp r' + edc c) + (dexp v + edc c)).
    { apply (proj1 (p10_lt _ _)). rewrite p10_add. change (p10 (-1)) with (1 # 10)%Q. apply Qlt_le_trans with (qp (mag r') pw * mag v)%Q; [rewrite HR'; lra|].
      apply Qmult_le_compat_nonneg; split; lra. }
    assert (Hp : 3 <= p) by (unfold p; clear - Hpw; lia). clear - G1 G2 Rv B1 He K8 Hp.
    split.
    - destruct (Z_lt_le_dec (- M) (dexp r')); auto. exfalso.
      assert (p * (dexp r' + edc c) <= p * (- M + edc c)) by (apply Z.mul_le_mono_nonneg_l; lia).
      assert (p * (- M + edc c) <= 3 * (- M + edc c)).
      { assert (3 * (M - edc c) <= p * (M - edc c)) by (apply Z.mul_le_mono_nonneg_r; lia). lia. }
      lia.
    - destruct (Z_lt_le_dec (dexp r') (M - 3 * edc c)); auto. exfalso.
      assert (3 * dexp r' <= p * dexp r') by (apply Z.mul_le_mono_nonneg_r; lia). lia. }
  assert (Nn : normal c rr).
  { destruct Nr' as [(Lr & _ & Zr & Dr) Or]. split; [auto|]. split; [unfold edc; rewrite <- mask_pow; auto|].
    split; [intros K; exfalso; apply Zr; exact K|]. split; [auto|]. split; [change (- 2 ^ (E - 1) <= dexp r' < 2 ^ (E - 1)); clear - Er B1 B2 He; lia|reflexivity]. }
  exists rr, a'. split; auto. split; auto. split; [exact Sr'|]. split; [apply (wk_iszero c r' (proj1 Nr'))|]. split; [exact Er|].
  split.
  { intros Q. rewrite Vr, Qabs_pos in Q by lra. change (dexp rr) with (dexp r') in Q.
    assert (Ed : (edc c | dexp r')) by apply (proj1 Nr').
    pose proof (Hcl _ Ed) as X. rewrite Mv in X. rewrite (qp_compat _ _ pw Q), qp_p10 in HR'.
    rewrite Qmult_comm, HR' in X. setoid_replace (1 - a' - 1)%Q with (- a')%Q in X by ring. rewrite Qabs_opp in X. lra. }
  split; [rewrite Vr; exact Mr|].
  split; auto. rewrite (qp_compat _ _ pw Vr), Mv. exact HR'.
Qed.

(** From the inverse root to the root. *)
Lemma root_from_inv (r x y a P h : Q) (k : nat) : P = iN k -> (0 < r -> 0 < x -> 3 <= P -> P <= 37 -> 0 < h -> P * h <= 4 # 10000 ->
  qp r k * x == 1 - a -> Qabs a <= 12 * (P * h) -> Qabs (y - 1 / r) <= 7 * h * Qabs (1 / r) ->
  0 < y /\ Qabs (qp y k - x) <= 20 * (P * h) * x)%Q.
Proof.
  intros EP r0 x0 P3 P37 h0 hs HR Ha Hy.
  assert (i0 : (0 < 1 / r)%Q) by (apply Qlt_shift_div_l; lra).
  rewrite (Qabs_pos (1 / r)) in Hy by lra. apply pm_bnd in Hy.
  assert (h1 : (h <= 2 # 10000)%Q) by (assert (3 * h <= P * h)%Q by (apply Qmult_le_compat_r; lra); lra).
  set (i := (1 / r)%Q) in *. set (g := (y * r)%Q).
  assert (Eg : (y == g * i)%Q) by (unfold g, i; field; lra).
  assert (Ei : (i * r == 1)%Q) by (unfold i; field; lra).
  assert (g1 : (1 - 7 * h <= g)%Q).
  { unfold g. assert (T : ((i * (1 - 7 * h)) * r <= y * r)%Q) by (apply Qmult_le_compat_r; lra).
    setoid_replace (i * (1 - 7 * h) * r)%Q with ((1 - 7 * h) * (i * r))%Q in T by ring. rewrite Ei in T. lra. }
  assert (g2 : (g <= 1 + 7 * h)%Q).
  { unfold g. assert (T : (y * r <= (i * (1 + 7 * h)) * r)%Q) by (apply Qmult_le_compat_r; lra).
    setoid_replace (i * (1 + 7 * h) * r)%Q with ((1 + 7 * h) * (i * r))%Q in T by ring. rewrite Ei in T. lra. }
  assert (Y0 : (0 < y)%Q) by (rewrite Eg; apply Qmult_lt_0_compat; lra).
  split; auto.
  subst P. destruct (small_pow (7 * h) k k (le_n k) ltac:(lra)) as [S1 S2]; [lra|].
  assert (G1 : (qp (1 - 7 * h) k <= qp g k)%Q) by (apply qp_le; lra).
  assert (G2 : (qp g k <= qp (1 + 7 * h) k)%Q) by (apply qp_le; lra).
  set (t := (iN k * h)%Q) in *. assert (t0 : (0 < t)%Q) by (apply Qmult_lt_0_compat; lra).
  set (G := qp g k) in *.
  assert (G3 : (1 - 7 * t <= G)%Q) by (unfold t; lra). assert (G4 : (G <= 1 + (707 # 100) * t)%Q) by (unfold t; lra).
  pose proof (qp_pos r k r0) as R0.
  assert (Ey : (qp y k * (1 - a) == G * x)%Q).
  { rewrite <- HR. assert (X : (qp y k * qp r k == qp g k)%Q) by (rewrite <- qp_mult; apply qp_compat; reflexivity). fold G in X.
    rewrite Qmult_assoc, X. reflexivity. }
  apply pm_bnd in Ha. pose proof (qp_pos y k Y0) as Yk. set (Y := qp y k) in *. clearbody Y G.
  assert (K1 : (Y * (1 - 12 * t) <= Y * (1 - a))%Q) by (apply Qmult_le_l; lra).
  assert (K2 : (Y * (1 - a) <= Y * (1 + 12 * t))%Q) by (apply Qmult_le_l; lra).
  assert (K3 : (G * x <= (1 + (707 # 100) * t) * x)%Q) by (apply Qmult_le_compat_r; lra).
  assert (K4 : ((1 - 7 * t) * x <= G * x)%Q) by (apply Qmult_le_compat_r; lra).
  assert (tx : (0 < t * x)%Q) by (apply Qmult_lt_0_compat; lra).
  assert (tx1 : (t * x <= (4 # 10000) * x)%Q) by (apply Qmult_le_compat_r; lra).
  assert (tY : (Y * t <= Y * (4 # 10000))%Q) by (apply Qmult_le_l; lra).
  assert (tY0 : (0 < Y * t)%Q) by (apply Qmult_lt_0_compat; lra).
  assert (Y1 : (Y <= (101 # 100) * x)%Q) by lra.
  assert (Y2 : (Y * t <= (101 # 100) * x * t)%Q) by (apply Qmult_le_compat_r; lra).
  apply pm_bnd. lra.
Qed.

(** The root of a positive number. *)
Lemma rootn_pos mem v fuel : (64 <= fuel)%nat -> memory_ok mem -> normal c v -> iszero v = false -> dneg v = false ->
  - M + edc c * (elem_number c + 8) < dexp v < M - edc c * (elem_number c + 8) ->
  root_clear c pw (p10 (- kept)) (value c v) ->
  exists r y, rootn_inv c F fpow fuel mem v (Z.of_nat pw) = Ret r /\ calculate_inv c F (later (later mem 4000) 4000) r = Some y /\
    normal c y /\ dneg y = false /\ (0 < value c y)%Q /\ (Qabs (qp (value c y) pw - value c v) <= 20 * (iN pw * eps) * value c v)%Q.
Proof using Hc Hk HF HJ Hpw Hfp Hen.
  intros Hfu Hm Nv Zv Sv Rv Hcl.
  destruct (rootn_inv_spec mem v fuel Hfu Hm Nv Zv Sv Rv Hcl) as (r & a & R1 & R2 & R3 & R4 & R5 & R6 & R7 & R8 & R9).
  destruct (inv_accurate c F (later (later mem 4000) 4000) r Hc Hk HF HJ) as (y & Y1 & Y2 & Y3 & Y4); auto.
  { intros i w. apply Hm. }
  exists r, y. split; auto. split; auto. split; [auto|]. split; [congruence|].
  assert (V0 : (0 < value c v)%Q).
  { pose proof (normal_wk c Hc v Nv Zv) as Wv. rewrite mag_value; [apply mag_pos; auto|apply Wv|auto]. }
  pose proof (iNpw pw Hpw) as [I1 I2]. pose proof (eta_n_eps c Hc) as Ee. destruct (eps_small c Hc) as [e0 _].
  assert (Hsm : (iN pw * eps <= 4 # 10000)%Q).
  { assert (eps <= 1 # 100000)%Q.
    { change (1 # 100000)%Q with (p10 (-5)). apply (proj2 (p10_le _ _)). pose proof (edc_pos c) as He. destruct Hc as [Hc1 _]. clear - He Hc1. lia. }
    apply Qle_trans with (37 * (1 # 100000))%Q; [apply Qmult_le_compat_nonneg; split; lra|discriminate]. }
  apply (root_from_inv (value c r) (value c v) (value c y) a (iN pw) eps pw eq_refl); auto.
  eapply Qle_trans; [exact R9|]. rewrite !(Qmult_comm 12). apply Qmult_le_compat_r; [|discriminate].
  rewrite !(Qmult_comm (iN pw)). apply Qmult_le_compat_r; [auto|lra].
Qed.

(** The root function; the cube root takes both signs. *)
Theorem rootn_spec mem v fuel : (64 <= fuel)%nat -> memory_ok mem -> normal c v -> iszero v = false -> (dneg v = false \/ pw = 3%nat) ->
  - M + edc c * (elem_number c + 8) < dexp v < M - edc c * (elem_number c + 8) ->
  root_clear c pw (p10 (- kept)) (Qabs (value c v)) ->
  exists y, rootn_ge3 c F fpow fuel mem v (Z.of_nat pw) = Ret y /\ normal c y /\ dneg y = dneg v /\ iszero y = false /\
    (Qabs (qp (value c y) pw - value c v) <= 20 * (iN pw * eps) * Qabs (value c v))%Q.
Proof using Hc Hk HF HJ Hpw Hfp Hen.
  intros Hfu Hm Nv Zv Sv Rv Hcl. unfold rootn_ge3.
  destruct (ops_spec c Hc v (zero c) Nv (zero_normal c)) as [OL _].
  assert (V0 : (value c (zero c) == 0)%Q) by (apply value_zero_c; auto). rewrite V0 in OL.
  pose proof (value_sign c Hc v Nv Zv) as SG.
  assert (Lt : op_lt v (zero c) = dneg v).
  { destruct (dneg v) eqn:En; [apply OL; auto|]. apply Bool.not_true_is_false. intros K. apply OL in K. lra. }
  rewrite Lt.
  set (w := if Z.of_nat pw =? 3 then set_neg v false else v).
  assert (Nw : normal c w) by (unfold w; destruct (Z.of_nat pw =? 3); auto; apply set_neg_normal; auto).
  assert (Zw : iszero w = false) by (unfold w; destruct (Z.of_nat pw =? 3); auto).
  assert (Ew : dexp w = dexp v) by (unfold w; destruct (Z.of_nat pw =? 3); auto).
  assert (Sw : dneg w = false).
  { unfold w. destruct (Z.of_nat pw =? 3) eqn:E3; [reflexivity|]. destruct Sv as [Sv|Sv]; auto. exfalso. subst pw. discriminate E3. }
  assert (Vw : (value c w == Qabs (value c v))%Q).
  { unfold w. destruct (normal_facts c Hc v Nv) as (Lv & _). destruct (Z.of_nat pw =? 3) eqn:E3.
    - destruct (dneg v) eqn:En.
      + assert (X : set_neg v false = negate v) by (unfold set_neg, negate; rewrite Zv, En; reflexivity). rewrite X, value_negate by auto.
        rewrite Qabs_neg by lra. reflexivity.
      + assert (X : set_neg v false = v) by (destruct v; cbn in *; subst; reflexivity). rewrite X, Qabs_pos by lra. reflexivity.
    - unfold w in Sw. rewrite Sw in SG. rewrite Qabs_pos by lra. reflexivity. }
  replace (dneg v && negb (Z.of_nat pw =? 3)) with false.
  2:{ destruct Sv as [Q1|Q1]; rewrite Q1; [reflexivity|]. destruct (dneg v); reflexivity. }
  destruct (rootn_pos mem w fuel Hfu Hm Nw Zw Sw) as (r & y & R1 & R2 & R3 & R4 & R5 & R6).
  { rewrite Ew. exact Rv. }
  { intros k Hkk. rewrite Vw. apply Hcl; auto. }
  rewrite R1. cbn [obind]. rewrite R2. cbn [obind lift].
  assert (Zy : iszero y = false).
  { destruct (iszero y) eqn:Q; auto. rewrite (value_zero c Hc y R3 Q) in R5. lra. }
  rewrite Vw in R6.
  destruct (dneg v) eqn:En; cycle 1.
  - rewrite Bool.andb_false_r. exists y. split; auto. split; auto. split; auto. split; auto.
    rewrite (Qabs_pos (value c v)) in * by lra. exact R6.
  - destruct Sv as [Sv|Sv]; [discriminate|]. rewrite Sv in *. change (Z.of_nat 3 =? 3) with true. cbn [andb].
    exists (negate y). split; auto. split; [apply negate_normal; auto|]. split; [unfold negate; rewrite Zy; cbn [dneg]; rewrite R4; reflexivity|].
    split; [rewrite iszero_negate; auto|].
    rewrite (qp_compat _ _ 3 (value_negate c Hc y R3)).
    rewrite (Qabs_neg (value c v)) in * by lra.
    assert (X : (qp (- value c y) 3 - value c v == - (qp (value c y) 3 - - value c v))%Q) by (cbn [qp]; ring).
    rewrite X, Qabs_opp. exact R6.
Qed.
End RN.
