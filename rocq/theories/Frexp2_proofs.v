(** Frexp2_proofs.v - frexp: the first estimate, the two loops, accuracy. *)
From Verif Require Export Frexp_proofs.
From Coq Require Import Lqa.
Local Open Scope Z_scope.

Lemma ratio_bounds : ((33222 # 10000) <= frexp_ratio * (1 - p2 (- 64)) /\ frexp_ratio * (1 + p2 (- 64)) <= (33223 # 10000))%Q.
Proof. split; vm_compute; discriminate. Qed.

Lemma start_spec c i : 4 * Z.abs i < 2 ^ (ebits (c_expo c) - 1) -> exists t, frexp_start c i = Some t /\
  3322 * Z.abs i <= 1000 * (Z.abs t + 1) /\ 10000 * Z.abs t <= 33223 * Z.abs i /\ (0 <= i -> 0 <= t) /\ (i <= 0 -> t <= 0).
Proof.
  intros Hr. unfold frexp_start. destruct ratio_bounds as [R1 R2]. set (rho := frexp_ratio) in *. clearbody rho.
  pose proof (fl_abs 64 (inject_Z i * rho) ltac:(lia)) as A. change (- (64)) with (-64) in A. set (p := fl 64 (inject_Z i * rho)) in *. clearbody p.
  pose proof (p2_pos (- 64)) as P0. assert (P1 : (p2 (- 64) <= 1 # 100)%Q) by (vm_compute; discriminate). set (u := p2 (- 64)) in *. clearbody u.
  assert (Rp : (0 < rho)%Q) by (destruct (Qlt_le_dec 0 rho); auto; exfalso; assert (rho * (1 - u) <= 0 * (1 - u))%Q by (apply Qmult_le_compat_r; lra); lra).
  assert (Aj : (Qabs (inject_Z i * rho) == inject_Z (Z.abs i) * rho)%Q).
  { rewrite Qabs_Qmult. rewrite (Qabs_pos rho) by lra. destruct i; reflexivity. }
  rewrite Aj in A. set (j := Z.abs i) in *. assert (J0 : (0 <= inject_Z j)%Q) by (change 0%Q with (inject_Z 0); rewrite <- Zle_Qle; unfold j; lia).
  assert (B1 : (inject_Z j * (33222 # 10000) <= inject_Z j * (rho * (1 - u)))%Q) by (rewrite !(Qmult_comm (inject_Z j)); apply Qmult_le_compat_r; lra).
  assert (B2 : (inject_Z j * (rho * (1 + u)) <= inject_Z j * (33223 # 10000))%Q) by (rewrite !(Qmult_comm (inject_Z j)); apply Qmult_le_compat_r; lra).
  apply Qabs_Qle_condition in A.
  set (t := if Qle_bool 0 p then Qfloor p else Qceiling p).
  assert (T : 3322 * j <= 1000 * (Z.abs t + 1) /\ 10000 * Z.abs t <= 33223 * j /\ (0 <= i -> 0 <= t) /\ (i <= 0 -> t <= 0)).
  { destruct (Z.lt_ge_cases i 0) as [In|Ip].
    - assert (Ij : (inject_Z i == - inject_Z j)%Q) by (unfold j; rewrite <- inject_Z_opp, Z.abs_neq, Z.opp_involutive by lia; reflexivity). rewrite Ij in A.
      assert (J1 : (1 <= inject_Z j)%Q) by (change 1%Q with (inject_Z 1); rewrite <- Zle_Qle; unfold j; lia).
      assert (Tt : t = Qceiling p). { unfold t. destruct (Qle_bool 0 p) eqn:C; auto. exfalso. apply Qle_bool_iff in C. lra. }
      clearbody t. subst t. set (t := Qceiling p). pose proof (Qle_ceiling p) as C1. pose proof (Qceiling_lt p) as C2. fold t in C1, C2.
      assert (T0 : t <= 0).
      { assert (X : (inject_Z (t - 1) < inject_Z 0)%Q) by (change (inject_Z 0) with 0%Q; lra). rewrite <- Zlt_Qlt in X. lia. }
      rewrite Z.abs_neq by lia. assert (C2' : (inject_Z t - 1 < p)%Q). { replace (t - 1) with (t + -1) in C2 by ring. rewrite inject_Z_plus in C2. change (inject_Z (-1)) with (-(1))%Q in C2. lra. }
      split.
      + assert (X : (inject_Z (3322 * j) <= inject_Z (1000 * (- t + 1)))%Q).
        { rewrite !inject_Z_mult, inject_Z_plus, inject_Z_opp. change (inject_Z 3322) with 3322%Q. change (inject_Z 1000) with 1000%Q. change (inject_Z 1) with 1%Q. lra. }
        rewrite <- Zle_Qle in X. lia.
      + split; [|lia]. assert (X : (inject_Z (10000 * - t) <= inject_Z (33223 * j))%Q).
        { rewrite !inject_Z_mult, inject_Z_opp. change (inject_Z 33223) with 33223%Q. change (inject_Z 10000) with 10000%Q. lra. }
        rewrite <- Zle_Qle in X. lia.
    - assert (Ij : i = j) by (unfold j; lia). rewrite Ij in A.
      assert (Tt : t = Qfloor p). { unfold t. replace (Qle_bool 0 p) with true; auto. symmetry. apply Qle_bool_iff. lra. }
      clearbody t. subst t. set (t := Qfloor p). pose proof (Qfloor_le p) as C1. pose proof (Qlt_floor p) as C2. fold t in C1, C2.
      rewrite inject_Z_plus in C2. change (inject_Z 1) with 1%Q in C2.
      assert (T0 : 0 <= t).
      { assert (X : (inject_Z 0 < inject_Z (t + 1))%Q) by (rewrite inject_Z_plus; change (inject_Z 0) with 0%Q; change (inject_Z 1) with 1%Q; lra). rewrite <- Zlt_Qlt in X. lia. }
      rewrite Z.abs_eq by lia. split.
      + assert (X : (inject_Z (3322 * j) <= inject_Z (1000 * (t + 1)))%Q).
        { rewrite !inject_Z_mult, inject_Z_plus. change (inject_Z 3322) with 3322%Q. change (inject_Z 1000) with 1000%Q. change (inject_Z 1) with 1%Q. lra. }
        rewrite <- Zle_Qle in X. lia.
      + assert (X : (inject_Z (10000 * t) <= inject_Z (33223 * j))%Q).
        { rewrite !inject_Z_mult. change (inject_Z 33223) with 33223%Q. change (inject_Z 10000) with 10000%Q. lra. }
        rewrite <- Zle_Qle in X. split; [lia|]. split; [lia|]. intros. assert (j = 0) by lia. lia. }
  exists t. cbv zeta. clearbody t. split; [|exact T]. replace (- 2 ^ (ebits (c_expo c) - 1) <=? t) with true by lia.
  replace (t <? 2 ^ (ebits (c_expo c) - 1)) with true by lia. reflexivity.
Qed.

Lemma pow_root a b k : 0 <= b -> 0 < k -> a ^ k <= b ^ k -> a <= b.
Proof. intros Hb Hk H. apply Z.nlt_ge. intros C. pose proof (Z.pow_lt_mono_l b a k Hk ltac:(lia)). lia. Qed.
(** Powers of ten against powers of two. *)
Lemma ten_le_two a b j t : 0 < a -> 0 <= b -> 0 <= j -> 0 <= t -> 10 ^ a <= 2 ^ b -> b * j <= a * t -> 10 ^ j <= 2 ^ t.
Proof.
  intros Ha Hb Hj Ht K H. apply (pow_root _ _ a); [apply Z.pow_nonneg; lia|lia|]. rewrite <- !Z.pow_mul_r by lia.
  rewrite (Z.mul_comm j), Z.pow_mul_r by lia. eapply Z.le_trans; [apply Z.pow_le_mono_l; split; [apply Z.pow_nonneg; lia|exact K]|].
  rewrite <- Z.pow_mul_r by lia. apply Z.pow_le_mono_r; lia.
Qed.
Lemma two_le_ten a b e q j t : 0 < a -> 0 <= b -> 0 <= e -> 0 <= q -> 0 <= j -> 0 <= t -> 2 ^ b <= 10 ^ a * 2 ^ e -> a * t <= b * j -> e * j <= a * q ->
  2 ^ t <= 10 ^ j * 2 ^ q.
Proof.
  intros Ha Hb He Hq Hj Ht K H1 H2. apply (pow_root _ _ a); [apply Z.mul_nonneg_nonneg; apply Z.pow_nonneg; lia|lia|].
  rewrite Z.pow_mul_l. rewrite <- !Z.pow_mul_r by lia.
  apply Z.le_trans with ((2 ^ b) ^ j); [rewrite <- Z.pow_mul_r by lia; apply Z.pow_le_mono_r; lia|].
  eapply Z.le_trans; [apply Z.pow_le_mono_l; split; [apply Z.pow_nonneg; lia|exact K]|].
  rewrite Z.pow_mul_l, <- !Z.pow_mul_r by lia. rewrite (Z.mul_comm j a). apply Z.mul_le_mono_nonneg_l; [apply Z.pow_nonneg; lia|].
  apply Z.pow_le_mono_r; lia.
Qed.
Lemma table1 : 10 ^ 1000 <= 2 ^ 3322.
Proof. apply Z.leb_le. vm_compute. reflexivity. Qed.
Lemma table2_parts : 2 ^ 339 <= 5 ^ 146 /\ 2 ^ 167 <= 5 ^ 72.
Proof. split; apply Z.leb_le; vm_compute; reflexivity. Qed.
Lemma table2_gen a : a = 146 -> 2 ^ ((193 + a) * 68 + 167 + (a * 68 + 72) + 4) <= 10 ^ (a * 68 + 72) * 2 ^ 4.
Proof.
  intros Ha. destruct table2_parts as [P1 P2]. assert (P3 : 2 ^ (193 + a) <= 5 ^ a) by (rewrite Ha; exact P1). clear P1.
  change 10 with (5 * 2). rewrite Z.pow_mul_l. rewrite (Z.pow_add_r 2 _ 4), (Z.pow_add_r 2 _ (a * 68 + 72)), (Z.pow_add_r 2 _ 167), (Z.pow_add_r 5), !(Z.pow_mul_r _ _ 68) by lia.
  apply Z.mul_le_mono_nonneg_r; [apply Z.pow_nonneg; lia|]. apply Z.mul_le_mono_nonneg_r; [apply Z.pow_nonneg; lia|].
  apply Z.mul_le_mono_nonneg; [apply Z.pow_nonneg; apply Z.pow_nonneg; lia| |apply Z.pow_nonneg; lia|exact P2].
  apply Z.pow_le_mono_l. split; [apply Z.pow_nonneg; lia|exact P3].
Qed.
Lemma table2 : 2 ^ 33223 <= 10 ^ 10000 * 2 ^ 4.
Proof. exact (table2_gen 146 eq_refl). Qed.
Lemma ten_two j t : 0 <= j -> 0 <= t -> 3322 * j <= 1000 * (t + 1) -> 10000 * t <= 33223 * j ->
  10 ^ j <= 2 ^ (t + 1) /\ 2 ^ t <= 10 ^ j * 2 ^ (j / 2500 + 1).
Proof.
  intros Hj Ht H1 H2. pose proof (Z.div_mod j 2500 ltac:(lia)) as DM. pose proof (Z.mod_pos_bound j 2500 ltac:(lia)) as MB.
  assert (J : 0 <= j / 2500 + 1) by lia. assert (J2 : 4 * j <= 10000 * (j / 2500 + 1)) by lia. split.
  - apply (ten_le_two 1000 3322); [lia|lia|exact Hj|lia|exact table1|exact H1].
  - apply (two_le_ten 10000 33223 4); [lia|lia|lia|exact J|exact Hj|exact Ht|exact table2|exact H2|exact J2].
Qed.

(** Powers of three halves count the iterations. *)
Fixpoint pw (k : nat) : Q := match k with O => 1%Q | S k => ((3 # 2) * pw k)%Q end.
Lemma pw_pos k : (1 <= pw k)%Q.
Proof. induction k; cbn [pw]; lra. Qed.
Lemma pw_two k : (p2 (Z.of_nat k) <= pw (2 * k))%Q.
Proof.
  induction k; [vm_compute; discriminate|]. replace (2 * S k)%nat with (S (S (2 * k))) by lia. cbn [pw].
  rewrite Nat2Z.inj_succ. unfold Z.succ. rewrite p2_succ. pose proof (pw_pos (2 * k)). lra.
Qed.
Lemma pw_ten k : (pw k <= p10 (Z.of_nat k))%Q.
Proof.
  induction k; [vm_compute; discriminate|]. cbn [pw]. rewrite Nat2Z.inj_succ. unfold Z.succ. rewrite p10_add. change (p10 1) with 10%Q.
  pose proof (pw_pos k). lra.
Qed.

Section FX.
Variable c : cfg.
Variable F : ftype.
Notation n := (nel c).
Notation M := (max_exp10_of (c_expo c)).
Notation E := (ebits (c_expo c)).
Notation eps := (p10 (- (c_digits10 c + 2 * edc c))).
Notation dlt := (p10 (- c_digits10 c)).
Hypothesis Hc : cfg_ok c.
Hypothesis Hk : newton_ok c.

Lemma one_value : (value c (one c) == 1)%Q.
Proof. destruct (max_min_values c Hc) as (_ & _ & _ & H & _); exact H. Qed.

Lemma down_spec : (dlt <= 1 # 1000)%Q -> forall k fuel mem r t X d lo, (k <= fuel)%nat -> memory_ok mem -> normal c r -> (0 < value c r)%Q ->
  (value c r < pw k)%Q -> (0 < lo)%Q -> (lo <= 1 # 3)%Q -> (lo <= value c r)%Q ->
  Z.abs t + Z.of_nat k < 2 ^ (E - 1) -> (0 < X)%Q -> (0 <= d)%Q -> (d + inject_Z (3 * Z.of_nat k) * dlt <= 1 # 10)%Q ->
  (Qabs (value c r * p2 t - X) <= d * X)%Q ->
  exists r' t', frexp_down c F fuel mem r t = Some (r', t') /\ normal c r' /\ (lo <= value c r')%Q /\ (value c r' < 1)%Q /\
    Z.abs t' <= Z.abs t + Z.of_nat k /\ (Qabs (value c r' * p2 t' - X) <= (d + inject_Z (3 * Z.of_nat k) * dlt) * X)%Q.
Proof.
  intros Hd3. pose proof (p10_pos (- c_digits10 c)) as D0. pose proof (max_exp10_bounds c) as (HM & _). pose proof (edc_pos c) as He. pose proof (E_ge8 c) as HE8.
  induction k as [|k IH]; intros fuel mem r t X d lo Hf Hm Nr Pr Hr L0 L1 L2 Ht X0 Hd Hsum Herr.
  - assert (C : cmp r (one c) >=? 0 = false).
    { rewrite (cmp_spec c Hc r (one c) Nr (one_normal c Hc)). cbn [pw] in Hr.
      destruct (Qcompare_spec (value c r) (value c (one c))) as [Q|Q|Q]; try reflexivity; rewrite one_value in Q; lra. }
    exists r, t. split; [destruct fuel; cbn [frexp_down]; rewrite C; reflexivity|]. split; [auto|]. split; [auto|]. cbn [pw] in Hr. split; [auto|]. split; [lia|].
    eapply Qle_trans; [exact Herr|]. apply Qmult_le_compat_r; [|lra]. change (inject_Z (3 * Z.of_nat 0)) with 0%Q. lra.
  - destruct fuel as [|fuel]; [lia|]. cbn [frexp_down].
    assert (SK : (inject_Z (3 * Z.of_nat (S k)) == inject_Z (3 * Z.of_nat k) + 3)%Q).
    { change 3%Q with (inject_Z 3). rewrite <- inject_Z_plus. replace (3 * Z.of_nat k + 3) with (3 * Z.of_nat (S k)) by lia. reflexivity. }
    assert (K0 : (0 <= inject_Z (3 * Z.of_nat k) * dlt)%Q).
    { apply Qmult_le_0_compat; [change 0%Q with (inject_Z 0); rewrite <- Zle_Qle; lia|lra]. }
    rewrite SK in *.
    destruct (cmp r (one c) >=? 0) eqn:C.
    + rewrite (cmp_spec c Hc r (one c) Nr (one_normal c Hc)) in C.
      assert (R1 : (1 <= value c r)%Q).
      { destruct (Qcompare_spec (value c r) (value c (one c))) as [Q|Q|Q]; try discriminate; rewrite one_value in Q; lra. }
      destruct (pos_facts c Hc r Nr Pr) as [Zr Sr].
      assert (Ex : - edc c < dexp r).
      { replace (- edc c) with (0 - edc c) by ring. apply exp_gt_of_value; auto. rewrite p10_0, Qabs_pos by lra. exact R1. }
      destruct (div_ull_rel c Hc (fun y k => divide c F mem y (from_ull c k)) r 2 Nr Zr) as (z & Z1 & Nz & Zz & Az).
      { assert (10 ^ 1 <= 10 ^ edc c) by (apply Z.pow_le_mono_r; lia). change (10 ^ 1) with 10 in *. lia. }
      { lia. }
      assert (DS : div_signed c F mem r 2 = Some z).
      { unfold div_signed, div_sll. cbn [Z.ltb Z.compare negb]. change (ucast 64 2) with 2. rewrite Z1. reflexivity. }
      rewrite DS. cbv beta iota.
      set (w := value c r) in *. set (y := value c z) in *. change (inject_Z 2) with 2%Q in Az. assert (W2 : (w / 2 == (1 # 2) * w)%Q) by field. rewrite W2 in Az.
      assert (Y1 : (Qabs y * dlt <= Qabs y * (1 # 1000))%Q) by (rewrite !(Qmult_comm (Qabs y)); apply Qmult_le_compat_r; [lra|apply Qabs_nonneg]).
      assert (Y2 : (Qabs (y - (1 # 2) * w) <= Qabs y * (1 # 1000))%Q) by lra.
      assert (Yp : (0 < y)%Q).
      { destruct (Qlt_le_dec 0 y) as [|Yn]; auto. exfalso. rewrite (Qabs_neg y) in Y2 by lra. apply Qabs_Qle_condition in Y2. lra. }
      rewrite (Qabs_pos y) in * by lra. pose proof Y2 as Y3. apply Qabs_Qle_condition in Y3.
      assert (Ep : scast E (t + 1) = t + 1) by (apply scast_id; lia). rewrite Ep.
      (* new error *)
      pose proof (p2_pos t) as PT.
      assert (N1 : (Qabs (y * p2 (t + 1) - X) <= (d + 3 * dlt) * X)%Q).
      { rewrite p2_succ. setoid_replace (y * (2 * p2 t) - X)%Q with (2 * p2 t * (y - (1 # 2) * w) + (w * p2 t - X))%Q by ring.
        eapply Qle_trans; [apply Qabs_triangle|]. rewrite Qabs_Qmult, (Qabs_pos (2 * p2 t)) by lra.
        assert (A1 : (Qabs (y - (1 # 2) * w) <= (11 # 20) * w * dlt)%Q).
        { apply Qle_trans with (y * dlt)%Q; [lra|]. apply Qmult_le_compat_r; lra. }
        assert (A2 : (2 * p2 t * Qabs (y - (1 # 2) * w) <= 2 * p2 t * ((11 # 20) * w * dlt))%Q) by (apply Qmult_le_l; lra).
        assert (A3 : (w * p2 t <= (11 # 10) * X)%Q). { apply Qabs_Qle_condition in Herr. assert (d * X <= (1 # 10) * X)%Q by (apply Qmult_le_compat_r; lra). lra. }
        assert (A4 : (w * p2 t * dlt <= (11 # 10) * X * dlt)%Q) by (apply Qmult_le_compat_r; lra).
        assert (A5 : (0 < X * dlt)%Q) by (apply Qmult_lt_0_compat; lra).
        setoid_replace (2 * p2 t * ((11 # 20) * w * dlt))%Q with ((11 # 10) * (w * p2 t * dlt))%Q in A2 by ring. lra. }
      destruct (IH fuel (later mem 1000) z (t + 1) X (d + 3 * dlt)%Q lo) as (r' & t' & G1 & G2 & G3 & G4 & G5 & G6); auto; fold y; try lra; try lia.
      * apply later_ok; auto.
      * cbn [pw] in Hr. lra.
      * exists r', t'. split; [exact G1|]. split; [auto|]. split; [auto|]. split; [auto|]. split; [lia|].
        rewrite SK. eapply Qle_trans; [exact G6|]. apply Qmult_le_compat_r; lra.
    + rewrite (cmp_spec c Hc r (one c) Nr (one_normal c Hc)) in C.
      assert (R1 : (value c r < 1)%Q).
      { destruct (Qcompare_spec (value c r) (value c (one c))) as [Q|Q|Q]; try discriminate; rewrite one_value in Q; lra. }
      exists r, t. split; [reflexivity|]. split; [auto|]. split; [auto|]. split; [auto|]. split; [lia|].
      rewrite SK. eapply Qle_trans; [exact Herr|]. apply Qmult_le_compat_r; lra.
Qed.

Lemma up_spec : (eps <= 1 # 10000)%Q -> forall k fuel mem r t X d, (k <= fuel)%nat -> memory_ok mem -> normal c r -> (0 < value c r)%Q -> (value c r < 1)%Q ->
  ((1 # 2) <= value c r * pw k)%Q -> Z.of_nat k + 20 <= M ->
  Z.abs t + Z.of_nat k < 2 ^ (E - 1) -> (0 < X)%Q -> (0 <= d)%Q -> (d + inject_Z (2 * Z.of_nat k) * eps <= 1 # 10)%Q ->
  (Qabs (value c r * p2 t - X) <= d * X)%Q ->
  exists r' t', frexp_up c fuel mem r t = Some (r', t') /\ normal c r' /\ ((1 # 2) <= value c r')%Q /\ (value c r' < 1)%Q /\
    Z.abs t' <= Z.abs t + Z.of_nat k /\ (Qabs (value c r' * p2 t' - X) <= (d + inject_Z (2 * Z.of_nat k) * eps) * X)%Q.
Proof.
  intros Hd3. pose proof (p10_pos (- (c_digits10 c + 2 * edc c))) as D0. pose proof (max_exp10_bounds c) as (HM & _). pose proof (edc_pos c) as He. pose proof (E_ge8 c) as HE8.
  destruct (half_facts c Hc) as (Nh & Zh & Vh & Sh).
  induction k as [|k IH]; intros fuel mem r t X d Hf Hm Nr Pr Hr1 Hr HkM Ht X0 Hd Hsum Herr.
  - cbn [pw] in Hr. assert (C : cmp r (half c) <? 0 = false).
    { rewrite (cmp_spec c Hc r (half c) Nr Nh). destruct (Qcompare_spec (value c r) (value c (half c))) as [Q|Q|Q]; try reflexivity. rewrite Vh in Q. lra. }
    exists r, t. split; [destruct fuel; cbn [frexp_up]; rewrite C; reflexivity|]. split; [auto|]. split; [lra|]. split; [auto|]. split; [lia|].
    eapply Qle_trans; [exact Herr|]. apply Qmult_le_compat_r; [|lra]. change (inject_Z (2 * Z.of_nat 0)) with 0%Q. lra.
  - destruct fuel as [|fuel]; [lia|]. cbn [frexp_up].
    assert (SK : (inject_Z (2 * Z.of_nat (S k)) == inject_Z (2 * Z.of_nat k) + 2)%Q).
    { change 2%Q with (inject_Z 2). rewrite <- inject_Z_plus. replace (2 * Z.of_nat k + 2) with (2 * Z.of_nat (S k)) by lia. reflexivity. }
    assert (K0 : (0 <= inject_Z (2 * Z.of_nat k) * eps)%Q).
    { apply Qmult_le_0_compat; [change 0%Q with (inject_Z 0); rewrite <- Zle_Qle; lia|lra]. }
    rewrite SK in *.
    destruct (cmp r (half c) <? 0) eqn:C.
    + rewrite (cmp_spec c Hc r (half c) Nr Nh) in C.
      assert (R1 : (value c r < 1 # 2)%Q).
      { destruct (Qcompare_spec (value c r) (value c (half c))) as [Q|Q|Q]; try discriminate. lra. }
      destruct (pos_facts c Hc r Nr Pr) as [Zr Sr].
      assert (Ex : - Z.of_nat (S k) - 1 - edc c < dexp r).
      { apply exp_gt_of_value; auto. rewrite Qabs_pos by lra. 
        replace (- Z.of_nat (S k) - 1) with (- (Z.of_nat (S k)) + -1) by ring. rewrite p10_add. change (p10 (-1)) with (1 # 10)%Q.
        pose proof (pw_ten (S k)) as T. pose proof (pw_pos (S k)) as T1. pose proof (p10_pos (- Z.of_nat (S k))) as T2.
        assert (T3 : (p10 (- Z.of_nat (S k)) * p10 (Z.of_nat (S k)) == 1)%Q) by (rewrite <- p10_add, Z.add_opp_diag_l; reflexivity).
        assert (T4 : (value c r * pw (S k) <= value c r * p10 (Z.of_nat (S k)))%Q) by (rewrite !(Qmult_comm (value c r)); apply Qmult_le_compat_r; lra).
        assert (T5 : ((1 # 2) <= value c r * p10 (Z.of_nat (S k)))%Q) by lra.
        assert (T6 : ((1 # 2) * p10 (- Z.of_nat (S k)) <= value c r * p10 (Z.of_nat (S k)) * p10 (- Z.of_nat (S k)))%Q) by (apply Qmult_le_compat_r; lra).
        setoid_replace (value c r * p10 (Z.of_nat (S k)) * p10 (- Z.of_nat (S k)))%Q with (value c r * (p10 (- Z.of_nat (S k)) * p10 (Z.of_nat (S k))))%Q in T6 by ring.
        rewrite T3 in T6. lra. }
      assert (Ex2 : dexp r <= 0) by (apply (exp_le_of_value c Hc); auto; rewrite p10_0, Qabs_pos by lra; lra).
      destruct (normal_facts c Hc r Nr) as (_ & _ & Prr & _).
      assert (O2 : order_of_builtin_integer 2 = 1) by reflexivity.
      destruct (mul_sll_trunc c Hc (newton_mul_ok c Hc Hk) (fst (mem 0%nat n)) (snd (mem 0%nat n)) r 2 (memory_pool c Hc mem 0 Hm) Nr Zr) as (z & Z1 & Nz & Zz & Tz).
      { lia. } { lia. }
      { change (Z.abs 2) with 2. pose proof (elem_number_ge4 c Hc). assert (10 ^ 1 <= 10 ^ (edc c * elem_number c)) by (apply Z.pow_le_mono_r; nia). change (10 ^ 1) with 10 in *. lia. }
      { lia. } { change (Z.abs 2) with 2. rewrite O2. lia. }
      { left. change (Z.abs 2) with 2. assert (10 ^ 1 <= 10 ^ edc c) by (apply Z.pow_le_mono_r; lia). change (10 ^ 1) with 10 in *. lia. }
      rewrite Prr, Z1. cbv beta iota.
      destruct (normal_ok c Hc z Nz) as (Lz & Oz & Hz). pose proof (truncates_rel c Hc z _ Lz Oz (Hz Zz) Tz) as Rz.
      destruct Tz as (Z2 & Z3 & _). change (inject_Z 2) with 2%Q in *.
      set (w := value c r) in *. set (y := value c z) in *.
      rewrite (Qabs_pos (w * 2)) in * by lra.
      assert (We : (w * 2 * eps <= w * 2 * (1 # 10000))%Q) by (rewrite !(Qmult_comm (w * 2)); apply Qmult_le_compat_r; lra).
      pose proof Rz as Rz'. apply Qlt_le_weak, Qabs_Qle_condition in Rz'.
      assert (Yp : (0 < y)%Q) by lra. rewrite (Qabs_pos y) in Z3 by lra.
      assert (Ep : scast E (t - 1) = t - 1) by (apply scast_id; lia). rewrite Ep.
      pose proof (p2_pos (t - 1)) as PT. assert (PS : (p2 t == 2 * p2 (t - 1))%Q) by (replace t with (t - 1 + 1) at 1 by ring; apply p2_succ).
      assert (N1 : (Qabs (y * p2 (t - 1) - X) <= (d + 2 * eps) * X)%Q).
      { setoid_replace (y * p2 (t - 1) - X)%Q with (p2 (t - 1) * (y - w * 2) + (w * p2 t - X))%Q by (rewrite PS; ring).
        eapply Qle_trans; [apply Qabs_triangle|]. rewrite Qabs_Qmult, (Qabs_pos (p2 (t - 1))) by lra.
        assert (A2 : (p2 (t - 1) * Qabs (y - w * 2) <= p2 (t - 1) * (w * 2 * eps))%Q) by (apply Qmult_le_l; lra).
        assert (A3 : (w * p2 t <= (11 # 10) * X)%Q). { apply Qabs_Qle_condition in Herr. assert (d * X <= (1 # 10) * X)%Q by (apply Qmult_le_compat_r; lra). lra. }
        assert (A4 : (w * p2 t * eps <= (11 # 10) * X * eps)%Q) by (apply Qmult_le_compat_r; lra).
        assert (A5 : (0 < X * eps)%Q) by (apply Qmult_lt_0_compat; lra).
        setoid_replace (p2 (t - 1) * (w * 2 * eps))%Q with (w * p2 t * eps)%Q in A2 by (rewrite PS; ring). lra. }
      destruct (IH fuel (later mem 1) z (t - 1) X (d + 2 * eps)%Q) as (r' & t' & G1 & G2 & G3 & G4 & G5 & G6); auto; fold y; try lra; try lia.
      * apply later_ok; auto.
      * cbn [pw] in Hr. pose proof (pw_pos k) as T1. assert (T2 : ((3 # 2) * w * pw k <= y * pw k)%Q) by (apply Qmult_le_compat_r; lra). lra.
      * exists r', t'. split; [exact G1|]. split; [auto|]. split; [auto|]. split; [auto|]. split; [lia|].
        rewrite SK. eapply Qle_trans; [exact G6|]. apply Qmult_le_compat_r; lra.
    + rewrite (cmp_spec c Hc r (half c) Nr Nh) in C.
      assert (R1 : ((1 # 2) <= value c r)%Q).
      { destruct (Qcompare_spec (value c r) (value c (half c))) as [Q|Q|Q]; try discriminate; rewrite Vh in Q; lra. }
      exists r, t. split; [reflexivity|]. split; [auto|]. split; [auto|]. split; [auto|]. split; [lia|].
      rewrite SK. eapply Qle_trans; [exact Herr|]. apply Qmult_le_compat_r; lra.
Qed.
End FX.
