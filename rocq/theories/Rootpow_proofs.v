(** Rootpow_proofs.v - the integer power at reduced precision. *)
From Verif Require Export Rootop2_proofs.
From Coq Require Import Lqa.
Local Open Scope Z_scope.

Lemma small_pow (h : Q) (j k : nat) : (j <= k)%nat -> (0 <= h)%Q -> (iN k * h <= 1 # 100)%Q ->
  (1 - iN j * h <= qp (1 - h) j /\ qp (1 + h) j <= 1 + (101 # 100) * (iN j * h))%Q.
Proof.
  intros H h0 Hh. pose proof (iN_pos j) as J0.
  assert (Hj : (iN j * h <= iN k * h)%Q) by (apply Qmult_le_compat_r; auto; unfold iN; rewrite <- Zle_Qle; lia).
  assert (J1 : (0 <= iN j * h)%Q) by (apply Qmult_le_0_compat; auto).
  assert (B1 : (Qabs (iN j * h) <= 1 # 100)%Q) by (apply pm_bnd; lra).
  assert (B2 : (Qabs (iN j * - h) <= 1 # 100)%Q) by (apply pm_bnd; lra).
  pose proof (pow_up h j B1) as U. pose proof (pow_lo (- h) j B2) as W. split.
  - rewrite (qp_compat (1 - h) (1 + - h) j) by ring. eapply Qle_trans; [|exact W].
    assert (0 <= iN j * (iN j - 1) * (- h * - h))%Q.
    { apply Qmult_le_0_compat; [|setoid_replace (- h * - h)%Q with (h * h)%Q by ring; apply Qmult_le_0_compat; auto].
      destruct j as [|j]; [cbn; discriminate|]. apply Qmult_le_0_compat; auto. rewrite iN_S. pose proof (iN_pos j). lra. }
    lra.
  - eapply Qle_trans; [exact U|]. assert (iN j * h * (iN j * h) <= (1 # 100) * (iN j * h))%Q by (apply Qmult_le_compat_r; lra). lra.
Qed.

Section RW.
Variable c : cfg.
Notation L := (c_limb c).
Notation E := (ebits (c_expo c)).
Notation n := (nel c).
Notation M := (max_exp10_of (c_expo c)).
Notation mag := (mag c).
Notation eta := (eta c).
Notation nz := (nz c).
Hypothesis Hc : cfg_ok c.
Hypothesis Hk : newton_ok c.
Variable mem : memory.
Hypothesis Hm : memory_ok mem.
Variable b : dec.
Variable p pw : nat.
Variables lo hi : Z.
Notation h := (3 * eta p)%Q.
Notation be := (mag b).
Hypothesis Nb : nz b.
Hypothesis Sb : dneg b = false.
Hypothesis Pb : (p <= dprec b <= n)%nat.
Hypothesis Hp : (2 <= p)%nat.
Hypothesis Hpw : 1 <= Z.of_nat pw < 2 ^ 63.
Hypothesis Hh : (iN pw * h <= 1 # 100)%Q.
Hypothesis Hrange : forall k, (k <= pw)%nat -> (p10 lo <= qp be k /\ qp be k <= p10 hi)%Q.
Hypothesis Hlo : - M + 3 * edc c + 1 <= lo.
Hypothesis Hhi : hi <= M - edc c.

Lemma h_pos : (0 < h)%Q.
Proof. pose proof (eta_small c p ltac:(lia)). lra. Qed.

Definition okp (k : Z) (z : dec) : Prop := k = 0 /\ z = from_small_unsigned c 1 \/
  1 <= k /\ nz z /\ dneg z = false /\ (p <= dprec z <= n)%nat /\
  (qp (1 - h) (Z.to_nat (k - 1)) * qp be (Z.to_nat k) <= mag z)%Q /\ (mag z <= qp (1 + h) (Z.to_nat (k - 1)) * qp be (Z.to_nat k))%Q.

(** Exponents of numbers near powers of b. *)
Lemma near_exp z k : nz z -> (k <= pw)%nat -> ((98 # 100) * qp be k <= mag z)%Q -> (mag z <= (102 # 100) * qp be k)%Q -> lo - 1 - edc c < dexp z <= hi.
Proof.
  intros [Wz Oz] Hk1 H1 H2. destruct (Hrange k Hk1) as [R1 R2]. destruct (mag_bracket c Hc z Wz) as [B1 _]. pose proof (mag_bracket_lt c Hc z Wz Oz) as B2.
  assert (dexp z < hi + 1).
  { apply p10_lt_pow with (mag z); auto. rewrite p10_add. change (p10 1) with 10%Q. pose proof (p10_pos hi). lra. }
  assert (lo - 1 < dexp z + edc c).
  { apply p10_lt_pow with (mag z); auto. pose proof (p10_add (lo - 1) 1) as T. replace (lo - 1 + 1) with lo in T by ring. change (p10 1) with 10%Q in T. pose proof (p10_pos (lo - 1)). lra. }
  lia.
Qed.

Lemma okp_close k z : 1 <= k <= Z.of_nat pw -> okp k z ->
  (1 - iN (Z.to_nat (k - 1)) * h <= qp (1 - h) (Z.to_nat (k - 1)))%Q /\ (qp (1 + h) (Z.to_nat (k - 1)) <= 1 + (101 # 100) * (iN (Z.to_nat (k - 1)) * h))%Q /\
  (iN (Z.to_nat (k - 1)) * h <= 1 # 100)%Q.
Proof.
  intros Hk1 _. pose proof h_pos as h0. destruct (small_pow h (Z.to_nat (k - 1)) pw ltac:(lia) ltac:(lra) Hh) as [A1 A2]. split; auto. split; auto.
  eapply Qle_trans; [|exact Hh]. apply Qmult_le_compat_r; [|lra]. unfold iN. rewrite <- Zle_Qle. lia.
Qed.

Lemma okp_mul i k j x y : 0 <= k -> 1 <= j -> k + j <= Z.of_nat pw -> okp k x -> okp j y -> exists z, mulm c mem i x y = Some z /\ okp (k + j) z.
Proof.
  intros K0 J1 KJ Rx Ry. pose proof h_pos as h0. pose proof (okp_close j y ltac:(lia) Ry) as (Y1 & Y2 & Y3).
  destruct Ry as [(C & _)|(_ & Ny & Sy & Py & Ly & Uy)]; [lia|].
  destruct Rx as [(-> & ->)|Rx].
  { exists y. split; [|right; rewrite Z.add_0_l; auto 10].
    rewrite (small_one c Hc). unfold mulm, mul. destruct (isone_one c Hc) as [O Z1]. rewrite Z1, (wk_iszero c y (proj1 Ny)). cbn [orb].
    change (isone_sign_neutral c (set_neg (one c) false)) with (isone_sign_neutral c (one c)). rewrite O.
    change (dneg (one c)) with false. rewrite Bool.xorb_false_l, Sy. destruct y; cbn in *; subst; reflexivity. }
  assert (K1 : 1 <= k) by (destruct Rx as [K1 _]; auto).
  pose proof (okp_close k x ltac:(lia) (or_intror Rx)) as (X1 & X2 & X3).
  destruct Rx as (_ & Nx & Sx & Px & Lx & Ux).
  set (kx := Z.to_nat k) in *. set (ky := Z.to_nat j) in *.
  replace (Z.to_nat (k - 1)) with (kx - 1)%nat in * by (unfold kx; lia). replace (Z.to_nat (j - 1)) with (ky - 1)%nat in * by (unfold ky; lia).
  assert (Hkk : (1 <= kx /\ 1 <= ky /\ kx + ky <= pw)%nat) by (unfold kx, ky; lia).
  pose proof (mag_pos c Hc b (proj1 Nb)) as b0.
  pose proof (qp_pos be kx b0) as qx0. pose proof (qp_pos be ky b0) as qy0.
  pose proof (iN_pos (kx - 1)) as ix. pose proof (iN_pos (ky - 1)) as iy.
  assert (jx : (0 <= iN (kx - 1) * h)%Q) by (apply Qmult_le_0_compat; lra). assert (jy : (0 <= iN (ky - 1) * h)%Q) by (apply Qmult_le_0_compat; lra).
  assert (Cx : ((99 # 100) * qp be kx <= mag x)%Q /\ (mag x <= (10101 # 10000) * qp be kx)%Q).
  { split; [eapply Qle_trans; [|exact Lx]|eapply Qle_trans; [exact Ux|]]; apply Qmult_le_compat_r; lra. }
  assert (Cy : ((99 # 100) * qp be ky <= mag y)%Q /\ (mag y <= (10101 # 10000) * qp be ky)%Q).
  { split; [eapply Qle_trans; [|exact Ly]|eapply Qle_trans; [exact Uy|]]; apply Qmult_le_compat_r; lra. }
  destruct (near_exp x kx Nx ltac:(lia) ltac:(lra) ltac:(lra)) as [Ex1 Ex2]. destruct (near_exp y ky Ny ltac:(lia) ltac:(lra) ltac:(lra)) as [Ey1 Ey2].
  pose proof (edc_pos c) as He. pose proof (max_exp10_bounds c) as (HM & HM2 & _).
  pose proof (mag_pos c Hc x (proj1 Nx)) as Mx. pose proof (mag_pos c Hc y (proj1 Ny)) as My.
  destruct (Hrange (kx + ky) ltac:(lia)) as [R1 R2]. rewrite qp_add in R1, R2.
  assert (Pxy : (mag x * mag y <= (10101 # 10000) * qp be kx * ((10101 # 10000) * qp be ky))%Q) by (apply Qmult_le_compat_nonneg; lra).
  assert (Lxy : ((99 # 100) * qp be kx * ((99 # 100) * qp be ky) <= mag x * mag y)%Q) by (apply Qmult_le_compat_nonneg; lra).
  assert (qq0 : (0 < qp be kx * qp be ky)%Q) by (apply Qmult_lt_0_compat; auto).
  set (qq := (qp be kx * qp be ky)%Q) in *.
  assert (Pxy' : (mag x * mag y <= (103 # 100) * qq)%Q) by (eapply Qle_trans; [exact Pxy|]; unfold qq in *; setoid_replace ((10101 # 10000) * qp be kx * ((10101 # 10000) * qp be ky))%Q with ((10101 # 10000) * (10101 # 10000) * (qp be kx * qp be ky))%Q by ring; apply Qmult_le_compat_r; lra).
  assert (Lxy' : ((98 # 100) * qq <= mag x * mag y)%Q) by (eapply Qle_trans; [|exact Lxy]; unfold qq in *; setoid_replace ((99 # 100) * qp be kx * ((99 # 100) * qp be ky))%Q with ((99 # 100) * (99 # 100) * (qp be kx * qp be ky))%Q by ring; apply Qmult_le_compat_r; lra).
  destruct (mag_bracket c Hc x (proj1 Nx)) as [Bx1 _]. pose proof (mag_bracket_lt c Hc x (proj1 Nx) (proj2 Nx)) as Bx2.
  destruct (mag_bracket c Hc y (proj1 Ny)) as [By1 _]. pose proof (mag_bracket_lt c Hc y (proj1 Ny) (proj2 Ny)) as By2.
  pose proof (p10_pos (dexp x)) as px0. pose proof (p10_pos (dexp y)) as py0.
  assert (Su : dexp x + dexp y < hi + 1).
  { apply p10_lt_pow with (mag x * mag y)%Q; [rewrite p10_add; apply Qmult_le_compat_nonneg; lra|]. rewrite p10_add. change (p10 1) with 10%Q. pose proof (p10_pos hi). lra. }
  assert (Sl : lo - 1 < dexp x + edc c + (dexp y + edc c)).
  { apply p10_lt_pow with (mag x * mag y)%Q.
    - pose proof (p10_add (lo - 1) 1) as T. replace (lo - 1 + 1) with lo in T by ring. change (p10 1) with 10%Q in T. pose proof (p10_pos (lo - 1)). lra.
    - rewrite p10_add. apply Qle_lt_trans with (p10 (dexp x + edc c) * mag y)%Q; [apply Qmult_le_compat_r; lra|]. apply Qmult_lt_l; lra. }
  set (q := Nat.min (dprec x) (dprec y)).
  assert (Hq : (p <= q <= n)%nat) by (unfold q; lia).
  destruct (mulm_nz c Hc Hk mem i x y q Hm Nx Ny eq_refl ltac:(lia)) as (z & t & E1 & N1 & S1 & P1 & D1 & V1 & T1);
    [clear - Ex1 Ex2 Hlo Hhi HM HM2 He; lia|clear - Ey1 Ey2 Hlo Hhi HM HM2 He; lia|clear - Su Sl Hlo Hhi HM HM2 He; lia|].
  exists z. split; auto. right. split; [lia|]. split; auto. split; [rewrite S1, Sx, Sy; reflexivity|]. split; [lia|].
  pose proof (eta_mono c p q ltac:(lia)) as Em. apply pm_bnd in T1.
  replace (Z.to_nat (k + j - 1)) with ((kx - 1) + S (ky - 1))%nat by (unfold kx, ky; lia). replace (Z.to_nat (k + j)) with (kx + ky)%nat by (unfold kx, ky; lia).
  rewrite !qp_add. cbn [qp]. rewrite V1.
  assert (h1 : (h <= 1 # 100)%Q).
  { assert (1 * h <= iN pw * h)%Q; [|lra]. apply Qmult_le_compat_r; [|lra]. unfold iN. change 1%Q with (inject_Z 1). rewrite <- Zle_Qle. lia. }
  pose proof (qp_pos (1 - h) (kx - 1) ltac:(lra)) as g1. pose proof (qp_pos (1 - h) (ky - 1) ltac:(lra)) as g2.
  pose proof (qp_pos (1 + h) (kx - 1) ltac:(lra)) as g3. pose proof (qp_pos (1 + h) (ky - 1) ltac:(lra)) as g4.
  set (gx := qp (1 - h) (kx - 1)) in *. set (gy := qp (1 - h) (ky - 1)) in *. set (Gx := qp (1 + h) (kx - 1)) in *. set (Gy := qp (1 + h) (ky - 1)) in *.
  split.
  - setoid_replace (gx * (gy * (1 - h)) * (qp be kx * qp be ky))%Q with ((gx * qp be kx) * (gy * qp be ky) * (1 - h))%Q by ring.
    assert (u1 : (0 < gx * qp be kx)%Q) by (apply Qmult_lt_0_compat; auto). assert (u2 : (0 < gy * qp be ky)%Q) by (apply Qmult_lt_0_compat; auto).
    apply Qmult_le_compat_nonneg; split; try lra.
    + apply Qmult_le_0_compat; lra.
    + apply Qmult_le_compat_nonneg; split; lra.
  - setoid_replace (Gx * (Gy * (1 + h)) * (qp be kx * qp be ky))%Q with ((Gx * qp be kx) * (Gy * qp be ky) * (1 + h))%Q by ring.
    apply Qmult_le_compat_nonneg; split; try lra.
    apply Qmult_le_compat_nonneg; split; lra.
Qed.

Lemma pow_nz : exists z t, pow_nonneg c mem b (Z.of_nat pw) = Some z /\ nz z /\ dneg z = false /\ (p <= dprec z <= n)%nat /\
  lo - 1 - edc c < dexp z <= hi /\ (mag z == qp be pw * (1 + t))%Q /\ (Qabs t <= (101 # 100) * (iN (pw - 1) * h))%Q.
Proof.
  pose proof h_pos as h0. pose proof (mag_pos c Hc b (proj1 Nb)) as b0.
  destruct (pow_gen c mem b (Z.of_nat pw) okp) as (z & E1 & R); auto; try lia.
  - left; auto.
  - right. split; [lia|]. split; auto. split; auto. split; auto. change (Z.to_nat (1 - 1)) with 0%nat. change (Z.to_nat 1) with 1%nat. cbn [qp]. lra.
  - intros. apply okp_mul; auto.
  - destruct (okp_close (Z.of_nat pw) z ltac:(lia) R) as (C1 & C2 & C3).
    destruct R as [(C & _)|(_ & Nz & Sz & Pz & Lz & Uz)]; [lia|]. rewrite Nat2Z.id in *.
    replace (Z.to_nat (Z.of_nat pw - 1)) with (pw - 1)%nat in * by lia.
    pose proof (qp_pos be pw b0) as q0. set (qb := qp be pw) in *.
    pose proof (iN_pos (pw - 1)) as i0. assert (j0 : (0 <= iN (pw - 1) * h)%Q) by (apply Qmult_le_0_compat; lra).
    set (g := (iN (pw - 1) * h)%Q) in *.
    assert (A1 : ((1 - g) * qb <= mag z)%Q) by (eapply Qle_trans; [|exact Lz]; apply Qmult_le_compat_r; lra).
    assert (A2 : (mag z <= (1 + (101 # 100) * g) * qb)%Q) by (eapply Qle_trans; [exact Uz|]; apply Qmult_le_compat_r; lra).
    exists z, (mag z / qb - 1)%Q. split; auto. split; auto. split; auto. split; auto. split.
    + apply (near_exp z pw); auto; fold qb; [eapply Qle_trans; [|exact A1]|eapply Qle_trans; [exact A2|]]; apply Qmult_le_compat_r; lra.
    + split; [field; lra|]. 
      assert (B1 : (1 - g <= mag z / qb)%Q) by (apply Qle_shift_div_l; auto).
      assert (B2 : (mag z / qb <= 1 + (101 # 100) * g)%Q) by (apply Qle_shift_div_r; auto).
      apply pm_bnd. split; lra.
Qed.
End RW.
