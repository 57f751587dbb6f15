(** Rootstart_proofs.v - the floating-point starting value of the root iteration. *)
From Verif Require Export Rootloop_proofs Sqrt3_proofs.
From Coq Require Import Lqa.
Local Open Scope Z_scope.

(** What is assumed of the built-in pow(q, -1/p) on the representable numbers between 10^-p / 2 and 2:
    finite, representable, positive, relative error at most 5 * 2^-P. *)
Definition fpow_ok (P : Z) (fpow : Q -> Z -> xfloat) (p : nat) : Prop := forall q, rep P q ->
  ((1 # 2) * p10 (- Z.of_nat p) <= q)%Q -> (q <= 2)%Q ->
  exists y, fpow q (Z.of_nat p) = XFin y /\ rep P y /\ (0 < y)%Q /\
    (qp (1 - 5 * p2 (- P)) p <= qp y p * q)%Q /\ (qp y p * q <= qp (1 + 5 * p2 (- P)) p)%Q.

Lemma qp_lt_inv q r k : (0 <= r -> qp q k < qp r k -> q < r)%Q.
Proof. intros r0 H. destruct (Qlt_le_dec q r) as [C|C]; auto. pose proof (qp_le r q k r0 C). lra. Qed.

Lemma qp_p10 k m : (qp (p10 k) m == p10 (Z.of_nat m * k))%Q.
Proof.
  induction m as [|m IH]; [reflexivity|]. cbn [qp]. rewrite IH, <- p10_add. rewrite Nat2Z.inj_succ.
  replace (Z.succ (Z.of_nat m) * k) with (Z.of_nat m * k + k) by (unfold Z.succ; ring). reflexivity.
Qed.

(** Three relative errors. *)
Lemma three_errors (A Y m d w P k : Q) : (0 < w -> w <= 1 # 10000000 -> 3 <= P -> P <= 37 -> 0 <= k -> k <= 60 -> 0 < m ->
  1 - 14 * (P * w) <= A -> A <= 1 + (1414 # 100) * (P * w) ->
  1 - 5 * (P * w) <= Y * d -> Y * d <= 1 + (505 # 100) * (P * w) -> 0 < Y -> 0 < d ->
  Qabs (d - m) <= k * w * m ->
  Qabs (1 - A * (Y * m)) <= (195 # 10) * (P * w) + (102 # 100) * (k * w))%Q.
Proof.
  intros w0 w1 P0 P1 k0 k1 m0 A1 A2 Y1 Y2 Yp dp Hd.
  set (t := (P * w)%Q) in *. set (e := (k * w)%Q) in *.
  assert (t0 : (0 <= t)%Q) by (apply Qmult_le_0_compat; lra).
  assert (t1 : (t <= 37 * (1 # 10000000))%Q) by (apply Qmult_le_compat_nonneg; split; lra).
  assert (e0 : (0 <= e)%Q) by (apply Qmult_le_0_compat; lra).
  assert (e1 : (e <= 60 * (1 # 10000000))%Q) by (apply Qmult_le_compat_nonneg; split; lra).
  apply pm_bnd in Hd.
  assert (Ym : (0 < Y * m)%Q) by (apply Qmult_lt_0_compat; auto).
  assert (U1 : (Y * (m * (1 - e)) <= Y * d)%Q) by (rewrite !(Qmult_comm Y); apply Qmult_le_compat_r; lra).
  assert (U2 : (Y * d <= Y * (m * (1 + e)))%Q) by (rewrite !(Qmult_comm Y); apply Qmult_le_compat_r; lra).
  set (Z := (Y * m)%Q) in *.
  assert (V1 : (Z * (1 - e) <= 1 + (505 # 100) * t)%Q) by (unfold Z; lra).
  assert (V2 : (1 - 5 * t <= Z * (1 + e))%Q) by (unfold Z; lra).
  clearbody Z.
  assert (Z2 : (Z <= 11 # 10)%Q) by (assert (Z * e <= Z * (1 # 1000))%Q by (rewrite !(Qmult_comm Z); apply Qmult_le_compat_r; lra); lra).
  assert (Ze : (0 <= Z * e)%Q) by (apply Qmult_le_0_compat; lra).
  assert (Z3 : (Z <= 1 + (506 # 100) * t + (101 # 100) * e)%Q).
  { assert (X : (Z * e <= (1 + (506 # 100) * t + (101 # 100) * e) * e)%Q \/ (Z <= 1 + (506 # 100) * t + (101 # 100) * e)%Q).
    { destruct (Qlt_le_dec (1 + (506 # 100) * t + (101 # 100) * e) Z); auto. left. 
      assert (Z * (1 - (1 # 100000)) <= Z * (1 - e))%Q by (rewrite !(Qmult_comm Z); apply Qmult_le_compat_r; lra). 
      exfalso. assert (Zs : (Z <= (100002 # 100000) * (1 + (505 # 100) * t))%Q) by lra.
      assert (Z * e <= (10001 # 10000) * e)%Q by (apply Qmult_le_compat_r; lra). lra. }
    destruct X as [X|X]; auto.
    assert (Z * (1 - (1 # 100000)) <= Z * (1 - e))%Q by (rewrite !(Qmult_comm Z); apply Qmult_le_compat_r; lra). 
    assert (Zs : (Z <= (100002 # 100000) * (1 + (505 # 100) * t))%Q) by lra.
    assert (Z * e <= (10001 # 10000) * e)%Q by (apply Qmult_le_compat_r; lra). lra. }
  assert (Z4 : (1 - 5 * t - (1001 # 1000) * e <= Z)%Q).
  { assert (Zs : (Z <= (100002 # 100000) * (1 + (505 # 100) * t))%Q).
    { assert (Z * (1 - (1 # 100000)) <= Z * (1 - e))%Q by (rewrite !(Qmult_comm Z); apply Qmult_le_compat_r; lra). lra. }
    assert (Z * e <= (10005 # 10000) * e)%Q by (apply Qmult_le_compat_r; lra). lra. }
  assert (TT : (t * t <= (37 # 10000000) * t)%Q) by (apply Qmult_le_compat_r; lra).
  assert (TE : (t * e <= (37 # 10000000) * e)%Q) by (apply Qmult_le_compat_r; lra).
  assert (TT0 : (0 <= t * t)%Q) by (apply Qmult_le_0_compat; lra).
  assert (TE0 : (0 <= t * e)%Q) by (apply Qmult_le_0_compat; lra).
  assert (A0 : (0 <= A)%Q) by lra.
  assert (W1 : (A * Z <= (1 + (1414 # 100) * t) * (1 + (506 # 100) * t + (101 # 100) * e))%Q) by (apply Qmult_le_compat_nonneg; split; lra).
  assert (W2 : ((1 - 14 * t) * (1 - 5 * t - (1001 # 1000) * e) <= A * Z)%Q) by (apply Qmult_le_compat_nonneg; split; lra).
  apply pm_bnd. lra.
Qed.

Section RS.
Variable c : cfg.
Variable F : ftype.
Variable fpow : Q -> Z -> xfloat.
Notation L := (c_limb c).
Notation B := (mask L).
Notation ok := (digits_ok B).
Notation E := (ebits (c_expo c)).
Notation n := (nel c).
Notation M := (max_exp10_of (c_expo c)).
Notation PF := (f_bits F).
Notation J := (digit_loops c F).
Notation wk := (wk c).
Notation mag := (mag c).
Notation eta := (eta c).
Notation nz := (nz c).
Notation nearP := (Estimate_proofs.near PF).
Hypothesis Hc : cfg_ok c.
Hypothesis HF : float_fits c F.
Hypothesis HJ : (J <= n)%nat.
Variable pw : nat.
Hypothesis Hpw : (3 <= pw <= 37)%nat.
Hypothesis Hfp : fpow_ok PF fpow pw.
Let HP : 24 <= PF := f_bits_ge c F HF.
Let HP2 : 2 <= PF. Proof. clear - HP. lia. Qed.

(** Digits of the starting value. *)
Definition kept0 : Z := if Nat.eqb pw 3 then f_digits10 F - 1 else f_digits10 F - 2.

Lemma root_total : (inject_Z (41 * Z.of_nat pw + 14 + 3 * Z.of_nat J) * ww PF <= 2 * p10 (- kept0))%Q.
Proof using HF Hpw.
  clear - HF Hpw. unfold kept0. pose proof (ww_small PF (f_bits_ge c F HF)) as (W0 & _).
  destruct (Nat.eqb pw 3) eqn:E3.
  - apply Nat.eqb_eq in E3. rewrite E3. unfold digit_loops. destruct HF as [EF|[EF|[EF EL]]]; rewrite EF; destruct L; try discriminate EL; vm_compute; discriminate.
  - apply Qle_trans with (inject_Z (41 * 37 + 14 + 3 * Z.of_nat J) * ww PF)%Q.
    + apply Qmult_le_compat_r; [|lra]. rewrite <- Zle_Qle. lia.
    + unfold digit_loops. destruct HF as [EF|[EF|[EF EL]]]; rewrite EF; destruct L; try discriminate EL; vm_compute; discriminate.
Qed.

Lemma adjust_spec p : p = Z.of_nat pw -> forall j fuel dd ne k m h, (j < fuel)%nat -> rep PF dd -> 0 <= k -> k + Z.of_nat j <= 99 -> (0 <= m)%Q -> nearP k dd m ->
  ne + Z.of_nat j = p * h -> - 2 ^ (E - 1) <= ne -> ne + Z.of_nat j < 2 ^ (E - 1) ->
  exists dd' j' h', root_adjust c F fuel p dd ne = Ret (dd', ne + Z.of_nat j') /\ (j' <= j)%nat /\ ne + Z.of_nat j' = p * h' /\ rep PF dd' /\
    nearP (k + Z.of_nat j') dd' (m * p10 (- Z.of_nat j')).
Proof using HF HJ Hpw.
  intros Ep. pose proof (E_ge8 c) as HE8. assert (H8 : 2 ^ 7 <= 2 ^ (E - 1)) by (apply Z.pow_le_mono_r; lia). change (2 ^ 7) with 128 in H8.
  assert (Sp : scast E p = p) by (apply scast_id; lia).
  induction j as [|j IH]; intros fuel dd ne k m h Hf Rd k0 k1 m0 Nd Hh R1 R2; (destruct fuel as [|fuel]; [lia|]); cbn [root_adjust]; rewrite Sp;
    replace (p =? 0) with false by lia; pose proof (Z.quot_rem' ne p) as QR.
  - assert (Z.rem ne p = 0) as -> by (rewrite Z.add_0_r in Hh; rewrite Hh, Z.mul_comm; apply Z.rem_mul; lia).
    rewrite Z.eqb_refl. exists dd, 0%nat, h. change (Z.of_nat 0) with 0 in *. rewrite !Z.add_0_r in *. change (p10 (- 0)) with 1%Q.
    split; auto. split; auto. split; auto. split; auto. unfold Estimate_proofs.near in *. rewrite Qmult_1_r. exact Nd.
  - destruct (Z.eqb_spec (Z.rem ne p) 0) as [Er|Er].
    + exists dd, 0%nat, (Z.quot ne p). change (Z.of_nat 0) with 0 in *. rewrite !Z.add_0_r. change (p10 (- 0)) with 1%Q.
      split; auto. split; [lia|]. split; [lia|]. split; auto. unfold Estimate_proofs.near in *. rewrite Qmult_1_r. exact Nd.
    + rewrite Nat2Z.inj_succ in *. rewrite (scast_id E (ne + 1)) by lia.
      assert (D10 : (dd / 10 == dd * (1 # 10))%Q) by field.
      destruct (near_pos PF HP k dd m ltac:(lia) m0 Nd) as (D0 & _).
      assert (N2 : nearP (k + 1) (fl PF (dd / 10)) (m * (1 # 10))).
      { apply near_fl; auto; [lia|lra|]. apply (near_scale PF _ _ _ (1 # 10)) in Nd; [|discriminate]. unfold Estimate_proofs.near in *. rewrite D10. exact Nd. }
      destruct (IH fuel (fl PF (dd / 10)) (ne + 1) (k + 1) (m * (1 # 10))%Q h) as (dd' & j' & h' & X1 & X2 & X3 & X4 & X5); auto; try lia.
      { apply fl_rep; auto. rewrite D10. lra. } { lra. }
      exists dd', (S j'), h'. rewrite Nat2Z.inj_succ. replace (ne + Z.succ (Z.of_nat j')) with (ne + 1 + Z.of_nat j') by lia.
      split; auto. split; [lia|]. split; auto. split; auto.
      unfold Estimate_proofs.near in *. replace (k + Z.succ (Z.of_nat j')) with (k + 1 + Z.of_nat j') by lia.
      assert (Em : (m * p10 (- Z.succ (Z.of_nat j')) == m * (1 # 10) * p10 (- Z.of_nat j'))%Q).
      { replace (- Z.succ (Z.of_nat j')) with (-1 + - Z.of_nat j') by lia. rewrite p10_add. change (p10 (-1)) with (1 # 10)%Q. ring. }
      rewrite Em. exact X5.
Qed.

Lemma iNpw : (3 <= iN pw /\ iN pw <= 37)%Q.
Proof using Hpw. clear - Hpw. unfold iN. change 3%Q with (inject_Z 3). change 37%Q with (inject_Z 37). rewrite <- !Zle_Qle. lia. Qed.

Lemma root_start x fuel : (64 <= fuel)%nat -> wk x -> ok (data x) -> dneg x = false -> - M + 16 <= dexp x < M - 16 ->
  exists dd ne r a, root_adjust c F fuel (Z.of_nat pw) (fst (extract_parts c F x)) (snd (extract_parts c F x)) = Ret (dd, ne) /\
    from_mantissa_x c F fuel (fpow dd (Z.of_nat pw)) (Z.quot (scast E (- ne)) (Z.of_nat pw)) = Ret r /\ wk r /\ dneg r = false /\
    (qp (mag r) pw * mag x == 1 - a)%Q /\ (Qabs a <= p10 (- kept0))%Q.
Proof using Hc HF HJ Hpw Hfp.
  intros Hfu Hx Ox Nx Rx. pose proof (J_range c F HF) as HJr. pose proof (edc_pos c) as He.
  assert (He8 : edc c <= 8) by (unfold edc; destruct L; cbn; lia).
  destruct (max_exp10_bounds c) as (B1 & B2 & _). pose proof (E_ge8 c) as HE8.
  pose proof (extract_spec c F Hc HF HJ x Hx Ox Nx ltac:(lia)) as H. pose proof (extract_rep c F HF HJ x Ox Nx) as Rd.
  destruct (extract_parts c F x) as [dd0 ne0]. cbn [fst snd] in *.
  destruct H as (N1 & R1 & R2 & R3). pose proof (mag_pos c Hc x Hx) as Mx.
  assert (Hp10 : forall k, (p10 k * p10 (- k) == 1)%Q) by (intros k; rewrite <- p10_add, Z.add_opp_diag_r; reflexivity).
  set (m0 := (mag x * p10 (- ne0))%Q).
  pose proof (p10_pos (- ne0)) as Pn0.
  assert (M01 : ((1 # 10) <= m0)%Q).
  { assert (T : (p10 (ne0 - 1) * p10 (- ne0) <= mag x * p10 (- ne0))%Q) by (apply Qmult_le_compat_r; lra).
    rewrite <- p10_add in T. replace (ne0 - 1 + - ne0) with (-1) in T by lia. change (p10 (-1)) with (1 # 10)%Q in T. exact T. }
  assert (M02 : (m0 <= 1)%Q).
  { assert (T : (mag x * p10 (- ne0) <= p10 ne0 * p10 (- ne0))%Q) by (apply Qmult_le_compat_r; lra). rewrite Hp10 in T. exact T. }
  assert (N2 : nearP (6 + Z.of_nat J) dd0 m0).
  { apply (near_scale PF _ _ _ (p10 (- ne0))) in N1; [|lra]. unfold Estimate_proofs.near in *. fold m0 in N1.
    setoid_replace dd0 with (dd0 * p10 ne0 * p10 (- ne0))%Q; [exact N1|]. rewrite <- Qmult_assoc, Hp10. ring. }
  set (p := Z.of_nat pw) in *.
  assert (Hp : 3 <= p <= 37) by (unfold p; lia).
  pose proof (Z.mod_pos_bound (- ne0) p ltac:(lia)) as Mb. pose proof (Z.div_mod (- ne0) p ltac:(lia)) as Md.
  set (j := Z.to_nat ((- ne0) mod p)). assert (Ej : Z.of_nat j = (- ne0) mod p) by (unfold j; rewrite Z2Nat.id; lia).
  destruct (adjust_spec p eq_refl j fuel dd0 ne0 (6 + Z.of_nat J) m0 (- ((- ne0) / p))) as (dd & j' & h & A1 & A2 & A3 & A4 & A5); auto; try lia; [lra|].
  set (ne := ne0 + Z.of_nat j') in *. set (m := (mag x * p10 (- ne))%Q).
  assert (Em : (m0 * p10 (- Z.of_nat j') == m)%Q).
  { unfold m0, m, ne. rewrite <- Qmult_assoc, <- p10_add. replace (- ne0 + - Z.of_nat j') with (- (ne0 + Z.of_nat j')) by ring. reflexivity. }
  assert (A6 : nearP (6 + Z.of_nat J + Z.of_nat j') dd m) by (unfold Estimate_proofs.near in *; rewrite <- Em; exact A5).
  assert (m2 : (m <= 1)%Q).
  { rewrite <- Em. assert (p10 (- Z.of_nat j') <= 1)%Q by (change 1%Q with (p10 0); apply (proj2 (p10_le _ _)); lia).
    pose proof (p10_pos (- Z.of_nat j')). assert (m0 * p10 (- Z.of_nat j') <= 1 * p10 (- Z.of_nat j'))%Q by (apply Qmult_le_compat_r; lra). lra. }
  assert (m1 : (p10 (- p) <= m)%Q).
  { rewrite <- Em. apply Qle_trans with ((1 # 10) * p10 (- Z.of_nat j'))%Q; [|apply Qmult_le_compat_r; auto; apply Qlt_le_weak, p10_pos].
    change (1 # 10)%Q with (p10 (-1)). rewrite <- p10_add. apply (proj2 (p10_le _ _)). lia. }
  pose proof (p10_pos (- p)) as Pp.
  destruct (near_pos PF HP (6 + Z.of_nat J + Z.of_nat j') dd m ltac:(lia) ltac:(lra) A6) as (D0 & D1 & D2).
  destruct (Hfp dd A4) as (y & Y1 & Y2 & Y3 & Y4 & Y5); [fold p; lra|lra|].
  fold p in Y1. set (u := p2 (- PF)) in *.
  destruct (uu_small PF HP) as [u0 u1]. unfold uu in u0, u1. fold u in u0, u1.
  pose proof (ww_small PF HP) as (w0 & w1 & w2). unfold uu in w2. fold u in w2. set (w := ww PF) in *.
  pose proof iNpw as [I1 I2].
  assert (SW : (iN pw * w <= 37 * (1 # 10000000))%Q) by (apply Qmult_le_compat_nonneg; split; lra).
  assert (SU : (iN pw * u <= iN pw * w)%Q) by (rewrite !(Qmult_comm (iN pw)); apply Qmult_le_compat_r; lra).
  destruct (small_pow (5 * u) pw pw ltac:(lia) ltac:(lra)) as [S1 S2]; [lra|].
  destruct (small_pow (14 * w) pw pw ltac:(lia) ltac:(lra)) as [S3 S4]; [lra|].
  assert (Yl : (1 - 5 * (iN pw * w) <= qp y pw * dd)%Q) by lra.
  assert (Yu : (qp y pw * dd <= 1 + (505 # 100) * (iN pw * w))%Q) by lra.
  pose proof (qp_pos y pw Y3) as Yp.
  assert (dp : (0 < dd)%Q) by lra.
  (* range of the estimate *)
  assert (yl : ((95 # 1000) <= y)%Q).
  { apply Qlt_le_weak. apply qp_lt_inv with pw; [lra|].
    assert (qp y pw * dd <= qp y pw * (10001 # 10000))%Q by (rewrite !(Qmult_comm (qp y pw)); apply Qmult_le_compat_r; lra).
    destruct (qp_between (95 # 1000) 1 pw ltac:(lia) eq_refl) as [[K _]|[K _]]; [exfalso; revert K; cbn; lra|]. 
    apply Qle_lt_trans with (qp (95 # 1000) 1); auto. cbn [qp]. lra. }
  assert (yu : (y <= 11)%Q).
  { apply Qlt_le_weak. apply qp_lt_inv with pw; [lra|].
    assert (E11 : (qp 11 pw == qp 10 pw * qp (11 # 10) pw)%Q) by (rewrite <- qp_mult; apply qp_compat; reflexivity).
    assert (E10 : (qp 10 pw * p10 (- p) == 1)%Q).
    { change 10%Q with (p10 1). rewrite qp_p10, Z.mul_1_r. apply Hp10. }
    assert (G : (11 # 10 <= qp (11 # 10) pw)%Q).
    { destruct (qp_between (11 # 10) 1 pw ltac:(lia) eq_refl) as [[_ K]|[_ K]]; [|exfalso; revert K; cbn; lra]. eapply Qle_trans; [|exact K]. cbn [qp]. lra. }
    assert (T10 : (0 < qp 10 pw)%Q) by (apply qp_pos; lra).
    assert (T1 : (qp y pw * ((99 # 100) * p10 (- p)) <= qp y pw * dd)%Q) by (rewrite !(Qmult_comm (qp y pw)); apply Qmult_le_compat_r; lra).
    assert (T2 : (qp y pw * ((99 # 100) * p10 (- p)) * qp 10 pw <= (1 + (505 # 100) * (iN pw * w)) * qp 10 pw)%Q) by (apply Qmult_le_compat_r; lra).
    setoid_replace (qp y pw * ((99 # 100) * p10 (- p)) * qp 10 pw)%Q with ((99 # 100) * qp y pw * (qp 10 pw * p10 (- p)))%Q in T2 by ring. rewrite E10 in T2.
    assert (T3 : ((1 + (505 # 100) * (iN pw * w)) * qp 10 pw <= (10002 # 10000) * qp 10 pw)%Q) by (apply Qmult_le_compat_r; lra).
    assert (T4 : (qp 10 pw * (11 # 10) <= qp 10 pw * qp (11 # 10) pw)%Q) by (apply Qmult_le_l; auto).
    rewrite E11. lra. }
  assert (Rne : - M <= - h <= M).
  { assert (H1 : p * h <= M + 28) by lia. assert (H2 : - M <= p * h) by lia. clear - H1 H2 Hp B1. split.
    - destruct (Z_le_gt_dec h 0); [lia|]. assert (3 * h <= p * h) by (apply Z.mul_le_mono_nonneg_r; lia). lia.
    - destruct (Z_le_gt_dec 0 h); [lia|]. assert (3 * - h <= p * - h) by (apply Z.mul_le_mono_nonneg_r; lia). lia. }
  assert (Eq2 : Z.quot (scast E (- ne)) p = - h).
  { rewrite scast_id by lia. replace (- ne) with (- h * p) by lia. apply Z.quot_mul. lia. }
  destruct (from_mantissa_near c F HF HJ y (- h) Y2 yl yu Rne) as (r & G1 & G2 & G3 & G4).
  pose proof (mag_pos c Hc r G2) as Mr. pose proof (p10_pos (- h)) as Ph.
  assert (yh : (0 < y * p10 (- h))%Q) by (apply Qmult_lt_0_compat; auto).
  exists dd, ne, r, (1 - qp (mag r) pw * mag x)%Q. split; [exact A1|]. rewrite Y1, Eq2. cbn [from_mantissa_x]. rewrite G1. cbn [lift].
  split; auto. split; auto. split; auto. split; [ring|].
  (* mag r = y 10^-h (1 + error) *)
  set (g := (mag r / (y * p10 (- h)))%Q).
  assert (Eg : (mag r == g * (y * p10 (- h)))%Q) by (unfold g; field; split; lra).
  unfold Estimate_proofs.near in G4. change (inject_Z 14) with 14%Q in G4. fold w in G4. apply pm_bnd in G4.
  assert (g1 : (1 - 14 * w <= g)%Q) by (unfold g; apply Qle_shift_div_l; [auto|lra]).
  assert (g2 : (g <= 1 + 14 * w)%Q) by (unfold g; apply Qle_shift_div_r; [auto|lra]).
  assert (g3 : (qp (1 - 14 * w) pw <= qp g pw)%Q) by (apply qp_le; lra).
  assert (g4 : (qp g pw <= qp (1 + 14 * w) pw)%Q) by (apply qp_le; lra).
  assert (Ev : (qp (mag r) pw * mag x == qp g pw * (qp y pw * m))%Q).
  { rewrite (qp_compat _ _ pw Eg), !qp_mult, qp_p10. fold p. unfold m. replace (p * - h) with (- ne) by lia. ring. }
  rewrite Ev. clear Ev.
  pose proof root_total as RT. fold w in RT.
  eapply Qle_trans; [apply (three_errors (qp g pw) (qp y pw) m dd w (iN pw) (inject_Z (6 + Z.of_nat J + Z.of_nat j'))); auto; try lra|].
  { change 0%Q with (inject_Z 0). rewrite <- Zle_Qle. lia. }
  { change 60%Q with (inject_Z 60). rewrite <- Zle_Qle. lia. }
  assert (K : (inject_Z (6 + Z.of_nat J + Z.of_nat j') <= inject_Z (5 + Z.of_nat J) + iN pw)%Q) by (unfold iN; rewrite <- inject_Z_plus, <- Zle_Qle; lia).
  assert (K2 : (inject_Z (6 + Z.of_nat J + Z.of_nat j') * w <= (inject_Z (5 + Z.of_nat J) + iN pw) * w)%Q) by (apply Qmult_le_compat_r; lra).
  replace (41 * Z.of_nat pw + 14 + 3 * Z.of_nat J) with (41 * Z.of_nat pw + (3 * (5 + Z.of_nat J) + - (1))) in RT by ring.
  rewrite inject_Z_plus, inject_Z_plus, !inject_Z_mult in RT. fold (iN pw) in RT. change (inject_Z 41) with 41%Q in RT. change (inject_Z 3) with 3%Q in RT. change (inject_Z (- (1))) with (- (1))%Q in RT.
  assert (J7 : (7 <= inject_Z (5 + Z.of_nat J))%Q) by (change 7%Q with (inject_Z 7); rewrite <- Zle_Qle; lia).
  set (jj := inject_Z (5 + Z.of_nat J)) in *.
  assert (J7w : (7 * w <= jj * w)%Q) by (apply Qmult_le_compat_r; lra).
  assert (P37w : (iN pw * w <= 37 * w)%Q) by (apply Qmult_le_compat_r; lra).
  assert (P3w : (3 * w <= iN pw * w)%Q) by (apply Qmult_le_compat_r; lra).
  assert (RT2 : (41 * (iN pw * w) + 3 * (jj * w) - w <= 2 * p10 (- kept0))%Q) by lra.
  lra.
Qed.
End RS.
