(** Conv6_proofs.v - ldexp. *)
From Verif Require Export Conv5_proofs.
From Coq Require Import Lqa.
Local Open Scope Z_scope.

Section LD.
Variable c : cfg.
Notation L := (c_limb c).
Notation B := (mask L).
Notation n := (nel c).
Notation M := (max_exp10_of (c_expo c)).
Notation eps := (p10 (- (c_digits10 c + 2 * edc c))).
Notation dlt := (p10 (- c_digits10 c)).
Hypothesis Hc : cfg_ok c.
Hypothesis Hk : newton_ok c.

(** Multiplication by a built-in unsigned integer, relative error. *)
Lemma mul_ull_rel rmem scratch x u : pool_ok c rmem scratch -> normal c x -> iszero x = false -> 0 < u < 2 ^ 64 ->
  u < 10 ^ (edc c * elem_number c) -> - M < dexp x -> dexp x + order_of_builtin_integer u < M ->
  exists z, mul_ull c rmem scratch x u = Some z /\ normal c z /\
    (Qabs (value c z - value c x * inject_Z u) <= eps * Qabs (value c x * inject_Z u))%Q.
Proof.
  intros Hp Nx Zx Hu Hfit Hlo Hhi.
  assert (HmB : 10 ^ edc c = B) by (unfold edc; rewrite mask_pow; auto).
  destruct (Z.lt_ge_cases u (10 ^ edc c)) as [Us|Ub].
  - destruct (mul_ull_trunc c Hc (newton_mul_ok c Hc Hk) rmem scratch x u) as (z & Z1 & Nz & Zz & T); auto.
    exists z. split; [exact Z1|]. split; [exact Nz|]. destruct (normal_ok c Hc z Nz) as (Lz & Oz & Hz).
    pose proof (truncates_rel c Hc z _ Lz Oz (Hz Zz) T) as R. rewrite (Qmult_comm eps). apply Qlt_le_weak. exact R.
  - unfold mul_ull. rewrite (mul_ull_sat c (set_neg x false)) by (try apply set_neg_normal; auto).
    change (iszero (set_neg x false)) with (iszero x). rewrite Zx. replace (u =? 0) with false by lia. cbn [orb].
    change (dexp (set_neg x false)) with (dexp x).
    replace (M <=? dexp x + order_of_builtin_integer u) with false by lia.
    replace (u >=? B) with true by lia.
    replace (set_neg (set_neg x false) (dneg x)) with x by (destruct x; reflexivity).
    destruct (from_ull_exp c Hc u Hu) as [Zf Ef]. pose proof (from_ull_normal c Hc u ltac:(lia)) as Hf.
    destruct (mul_rel c Hc rmem scratch x (from_ull c u)) as (z & Z1 & Nz & _ & _ & R); auto; [apply (newton_mul_ok c Hc Hk)|lia|].
    exists z. split; [exact Z1|]. split; [exact Nz|]. rewrite (from_ull_exact c Hc u ltac:(lia) Hfit) in R. rewrite (Qmult_comm eps). apply Qlt_le_weak. exact R.
Qed.

(** Dividing by an approximation. *)
Lemma div_approx (a h w z d e : Q) : (0 < w -> 0 <= d -> d <= 1 # 2 -> 0 <= e ->
  Qabs (h - w) <= d * w -> Qabs (z - a / h) <= e * Qabs (a / h) -> Qabs (z - a / w) <= (2 * d + e * (1 + 2 * d)) * Qabs (a / w))%Q.
Proof.
  intros W0 D0 D1 E0 Hh Hz. apply Qabs_Qle_condition in Hh.
  assert (DW : (d * w <= (1 # 2) * w)%Q) by (apply Qmult_le_compat_r; lra).
  assert (H0 : (0 < h)%Q) by lra. assert (hw : ((1 # 2) * w <= h)%Q) by lra.
  assert (X : (Qabs (a / h - a / w) <= 2 * d * Qabs (a / w))%Q).
  { assert (K : (a / h - a / w == (a / w) * ((w - h) / h))%Q) by (field; split; lra).
    rewrite K, Qabs_Qmult, Qmult_comm. apply Qmult_le_compat_r; [|apply Qabs_nonneg].
    unfold Qdiv. rewrite Qabs_Qmult. rewrite (Qabs_pos (/ h)) by (apply Qlt_le_weak, Qinv_lt_0_compat; auto).
    apply Qle_shift_div_r; auto. apply Qle_trans with (d * w)%Q; [apply Qabs_Qle_condition; lra|].
    setoid_replace (2 * d * h)%Q with (d * (2 * h))%Q by ring. setoid_replace (d * w)%Q with (w * d)%Q by ring.
    setoid_replace (d * (2 * h))%Q with (2 * h * d)%Q by ring. apply Qmult_le_compat_r; lra. }
  assert (Y : (Qabs (a / h) <= (1 + 2 * d) * Qabs (a / w))%Q).
  { pose proof (Qabs_triangle_reverse (a / h) (a / w)) as R. lra. }
  assert (Z : (e * Qabs (a / h) <= e * ((1 + 2 * d) * Qabs (a / w)))%Q) by (rewrite !(Qmult_comm e); apply Qmult_le_compat_r; auto).
  setoid_replace (z - a / w)%Q with ((z - a / h) + (a / h - a / w))%Q by ring. eapply Qle_trans; [apply Qabs_triangle|].
  assert (Zr : (e * ((1 + 2 * d) * Qabs (a / w)) == e * (1 + 2 * d) * Qabs (a / w))%Q) by ring. rewrite Zr in Z.
  rewrite Qmult_plus_distr_l. lra.
Qed.

Lemma exp_le_of_value x k : normal c x -> iszero x = false -> (Qabs (value c x) <= p10 k)%Q -> dexp x <= k.
Proof. intros N Z H. destruct (value_bracket c Hc x N Z) as [B1 _]. apply (proj1 (p10_le _ _)). lra. Qed.
Lemma exp_gt_of_value x k : normal c x -> iszero x = false -> (p10 k <= Qabs (value c x))%Q -> k - edc c < dexp x.
Proof.
  intros N Z H. destruct (value_bracket c Hc x N Z) as [_ B2].
  assert (X : (p10 k < p10 (dexp x + edc c))%Q) by (eapply Qle_lt_trans; [exact H|exact B2]). apply (proj1 (p10_lt _ _)) in X. lia.
Qed.

Theorem ldexp_accurate FI mem v e : float_fits c FI -> (digit_loops c FI <= n)%nat -> memory_ok mem ->
  2 ^ 63 < 10 ^ (edc c * elem_number c) -> normal c v -> iszero v = false ->
  - 2 ^ 31 < e < 2 ^ 31 -> (inject_Z (4 * Z.abs e) * eps <= 1)%Q ->
  - M + 40 <= dexp v < M -> (p2 (Z.abs e) <= p10 (M - 40))%Q ->
  (p10 (- M + 60) <= Qabs (value c v * p2 e))%Q -> (Qabs (value c v * p2 e) <= p10 (M - 60))%Q ->
  exists z, ldexp c FI mem v e = Some z /\
    (Qabs (value c z - value c v * p2 e) <= (2 * dlt + inject_Z (5 * Z.abs e) * eps) * Qabs (value c v * p2 e))%Q.
Proof.
  intros HF HJ Hm H63 Nv Zv He He4 Rv Hp Hlo Hhi. destruct (eps_bound c Hc) as [E0 E1]. pose proof (edc_pos c) as Hed.
  pose proof (max_exp10_bounds c) as (HM & _).
  assert (DE : (10000 * eps <= dlt)%Q).
  { change 10000%Q with (p10 4). rewrite <- p10_add. apply p10_le. lia. }
  assert (AE : (0 <= inject_Z (5 * Z.abs e))%Q) by (change 0%Q with (inject_Z 0); rewrite <- Zle_Qle; lia).
  assert (T0 : (0 <= inject_Z (5 * Z.abs e) * eps)%Q) by (apply Qmult_le_0_compat; lra).
  unfold ldexp. set (w := Qabs (value c v * p2 e)) in *. assert (W0 : (0 <= w)%Q) by apply Qabs_nonneg.
  destruct (e =? 0) eqn:C0.
  { exists v. split; [reflexivity|]. assert (Pe : (p2 e == 1)%Q) by (replace e with 0 by lia; reflexivity). rewrite Pe.
    setoid_replace (value c v - value c v * 1)%Q with 0%Q by ring. change (Qabs 0) with 0%Q. apply Qmult_le_0_compat; [lra|auto]. }
  destruct (two_facts c Hc) as (Nt & Zt & Vt & St).
  assert (POW : forall k mem', memory_ok mem' -> 1 <= k <= Z.abs e ->
    exists h, pow_int c FI mem' (two c) k = Some h /\ normal c h /\
      (Qabs (value c h - p2 k) <= inject_Z (2 * (k - 1)) * eps * p2 k)%Q).
  { intros k mem' Hm' Hk1. assert (PK : (Qabs (value c (two c) ^ k) == p2 k)%Q) by (rewrite Vt; apply Qabs_pos, Qlt_le_weak, p2_pos).
    assert (PL : (p2 k <= p2 (Z.abs e))%Q) by (apply p2_le; lia).
    destruct (pow_pos_accurate c FI mem' (two c) k Hc Hk Hm' Nt Zt) as (h & G1 & G2 & G3).
    - lia.
    - eapply Qle_trans; [|exact He4]. apply Qmult_le_compat_r; [|lra]. rewrite <- Zle_Qle. lia.
    - rewrite PK. apply Qle_trans with (p10 0); [apply p10_le; lia|]. rewrite p10_0. apply p2_ge1. lia.
    - rewrite PK. eapply Qle_trans; [exact PL|]. eapply Qle_trans; [exact Hp|]. apply p10_le. lia.
    - exists h. split; [exact G1|]. split; [exact G2|]. rewrite PK in G3. rewrite Vt in G3. exact G3. }
  assert (K4 : forall k, 1 <= k <= Z.abs e -> (inject_Z (2 * (k - 1)) * eps <= 1 # 2)%Q /\ (0 <= inject_Z (2 * (k - 1)) * eps)%Q /\
     (5 * inject_Z (2 * (k - 1)) * eps <= 2 * (inject_Z (5 * Z.abs e) * eps))%Q /\ (inject_Z (2 * (k - 1)) * eps + 2 * eps <= (1#2))%Q).
  { intros k Hk1. assert (A1 : (2 * inject_Z (2 * (k - 1)) + 4 <= inject_Z (4 * Z.abs e))%Q).
    { change 2%Q with (inject_Z 2). change 4%Q with (inject_Z 4). rewrite <- inject_Z_mult, <- inject_Z_plus, <- Zle_Qle. lia. }
    assert (A2 : (0 <= inject_Z (2 * (k - 1)))%Q) by (change 0%Q with (inject_Z 0); rewrite <- Zle_Qle; lia).
    assert (A3 : (5 * inject_Z (2 * (k - 1)) <= 2 * inject_Z (5 * Z.abs e))%Q).
    { change 2%Q with (inject_Z 2). change 5%Q with (inject_Z 5). rewrite <- !inject_Z_mult, <- Zle_Qle. lia. }
    assert (A4 : ((2 * inject_Z (2 * (k - 1)) + 4) * eps <= 1)%Q) by (eapply Qle_trans; [|exact He4]; apply Qmult_le_compat_r; lra).
    assert (A5 : (5 * inject_Z (2 * (k - 1)) * eps <= 2 * inject_Z (5 * Z.abs e) * eps)%Q) by (apply Qmult_le_compat_r; lra).
    split; [lra|]. split; [apply Qmult_le_0_compat; lra|]. split; lra. }
  destruct (e <=? -64) eqn:C1.
  { replace (e =? - 2 ^ 31) with false by lia.
    destruct (POW (- e) (later mem 1000) (later_ok mem 1000 Hm) ltac:(lia)) as (h & G1 & Nh & Ah).
    destruct (K4 (- e) ltac:(lia)) as (L1 & L2 & L3 & L4). rewrite G1. cbn beta iota.
    set (d := (inject_Z (2 * (- e - 1)) * eps)%Q) in *. pose proof (p2_pos (- e)) as P0.
    assert (DW : (d * p2 (- e) <= (1 # 2) * p2 (- e))%Q) by (apply Qmult_le_compat_r; lra).
    assert (Hh : ((1 # 2) * p2 (- e) <= value c h /\ value c h <= (3 # 2) * p2 (- e))%Q) by (apply Qabs_Qle_condition in Ah; lra).
    destruct Hh as [Hh1 Hh2]. assert (Ph : (0 < value c h)%Q) by lra. destruct (pos_facts c Hc h Nh Ph) as [Zh Sh].
    assert (VW : (value c v / p2 (- e) == value c v * p2 e)%Q).
    { pose proof (p2_neg (- e)) as K. rewrite Z.opp_involutive in K. setoid_replace (value c v * p2 e)%Q with (value c v * p2 e * (p2 (- e) / p2 (- e)))%Q by (field; lra).
      setoid_replace (value c v * p2 e * (p2 (- e) / p2 (- e)))%Q with (value c v * (p2 e * p2 (- e)) / p2 (- e))%Q by (field; lra). rewrite K. field. lra. }
    assert (AH : (Qabs (value c h) == value c h)%Q) by (apply Qabs_pos; lra).
    assert (He1 : dexp h <= M - 39).
    { apply exp_le_of_value; auto. rewrite AH. replace (M - 39) with (M - 40 + 1) by ring. rewrite (p10_add (M - 40) 1). change (p10 1) with 10%Q.
      rewrite <- (Z.abs_neq e) in Hh2, Hh1 by lia. pose proof (p2_pos (Z.abs e)). lra. }
    assert (He2 : 0 <= dexp h).
    { assert (0 - edc c < dexp h).
      { apply exp_gt_of_value; auto. rewrite AH, p10_0. assert (2 <= p2 (- e))%Q by (change 2%Q with (p2 1); apply p2_le; lia). lra. }
      destruct Nh as (_ & _ & _ & [kk Dk] & _). rewrite Dk in *. assert (0 <= kk) by nia. apply Z.mul_nonneg_nonneg; lia. }
    (* exponent difference *)
    destruct (value_bracket c Hc v Nv Zv) as [V1 V2]. destruct (value_bracket c Hc h Nh Zh) as [Q1 Q2]. rewrite AH in Q1, Q2.
    assert (WE : (w * p2 (- e) == Qabs (value c v))%Q).
    { unfold w. rewrite Qabs_Qmult, (Qabs_pos (p2 e)) by (apply Qlt_le_weak, p2_pos). rewrite <- Qmult_assoc.
      pose proof (p2_neg (- e)) as K. rewrite Z.opp_involutive in K. rewrite K. ring. }
    assert (X1 : - M + 2 * edc c < dexp v - dexp h).
    { assert (T : (p10 (- M + 59) * p10 (dexp h) < p10 (dexp v + edc c))%Q).
      { eapply Qle_lt_trans; [|exact V2]. rewrite <- WE. apply Qle_trans with (p10 (- M + 60) * p2 (- e))%Q.
        - replace (- M + 60) with (- M + 59 + 1) by ring. rewrite (p10_add (- M + 59) 1). change (p10 1) with 10%Q. 
          setoid_replace (p10 (- M + 59) * 10 * p2 (- e))%Q with (p10 (- M + 59) * (10 * p2 (- e)))%Q by ring.
          apply Qmult_le_l; [apply p10_pos|]. lra.
        - apply Qmult_le_compat_r; lra. }
      rewrite <- p10_add in T. apply (proj1 (p10_lt _ _)) in T. lia. }
    assert (X2 : dexp v - dexp h < M).
    { assert (T : (p10 (dexp v) < p10 (M - 59) * p10 (dexp h + edc c))%Q).
      { eapply Qle_lt_trans; [exact V1|]. rewrite <- WE. apply Qle_lt_trans with (p10 (M - 60) * p2 (- e))%Q; [apply Qmult_le_compat_r; lra|].
        replace (M - 59) with (M - 60 + 1) by ring. rewrite (p10_add (M - 60) 1). change (p10 1) with 10%Q.
        setoid_replace (p10 (M - 60) * 10 * p10 (dexp h + edc c))%Q with (p10 (M - 60) * (10 * p10 (dexp h + edc c)))%Q by ring.
        apply Qmult_lt_l; [apply p10_pos|]. lra. }
      rewrite <- p10_add in T. apply (proj1 (p10_lt _ _)) in T. lia. }
    destruct (div_accurate c FI mem v h Hc Hk HF HJ Hm Nv Nh Zv Zh) as (z & Z1 & _ & Az & _); [lia|lia|].
    exists z. split; [exact Z1|].
    pose proof (div_approx (value c v) (value c h) (p2 (- e)) (value c z) d (9 * eps)) as DA.
    rewrite VW in DA. fold w in DA. eapply Qle_trans; [apply DA; auto; lra|]. apply Qmult_le_compat_r; auto.
    assert (NE : (9 * eps * (1 + 2 * d) <= 9 * eps * 2)%Q) by (apply Qmult_le_l; lra).
    assert (D2 : (5 * d <= 2 * (inject_Z (5 * Z.abs e) * eps))%Q) by (unfold d; lra). lra. }
  destruct (e >=? 64) eqn:C2.
  { destruct (POW e (later mem 1) (later_ok mem 1 Hm) ltac:(lia)) as (h & G1 & Nh & Ah).
    destruct (K4 e ltac:(lia)) as (L1 & L2 & L3 & L4). rewrite G1. cbn beta iota.
    set (d := (inject_Z (2 * (e - 1)) * eps)%Q) in *. pose proof (p2_pos e) as P0.
    assert (DW : (d * p2 e <= (1 # 2) * p2 e)%Q) by (apply Qmult_le_compat_r; lra).
    assert (Hh : ((1 # 2) * p2 e <= value c h /\ value c h <= (3 # 2) * p2 e)%Q) by (apply Qabs_Qle_condition in Ah; lra).
    destruct Hh as [Hh1 Hh2]. assert (Ph : (0 < value c h)%Q) by lra. destruct (pos_facts c Hc h Nh Ph) as [Zh Sh].
    destruct (value_bracket c Hc v Nv Zv) as [V1 V2]. destruct (value_bracket c Hc h Nh Zh) as [Q1 Q2]. rewrite (Qabs_pos (value c h)) in Q1, Q2 by lra.
    assert (WE : (w == Qabs (value c v) * p2 e)%Q) by (unfold w; rewrite Qabs_Qmult, (Qabs_pos (p2 e)) by lra; reflexivity).
    assert (VP : (0 <= Qabs (value c v))%Q) by apply Qabs_nonneg.
    assert (X1 : - M < dexp v + dexp h).
    { assert (T : (p10 (- M + 59) < p10 (dexp v + edc c) * p10 (dexp h + edc c))%Q).
      { apply Qlt_le_trans with (p10 (- M + 60) * (1 # 2))%Q.
        - replace (- M + 60) with (- M + 59 + 1) by ring. rewrite (p10_add (- M + 59) 1). change (p10 1) with 10%Q. pose proof (p10_pos (- M + 59)). lra.
        - apply Qle_trans with (Qabs (value c v) * value c h)%Q.
          + apply Qle_trans with (w * (1 # 2))%Q; [apply Qmult_le_compat_r; lra|]. rewrite WE.
            setoid_replace (Qabs (value c v) * p2 e * (1 # 2))%Q with (((1 # 2) * p2 e) * Qabs (value c v))%Q by ring. rewrite (Qmult_comm (Qabs (value c v))).
            apply Qmult_le_compat_r; auto.
          + apply Qmult_le_compat_nonneg; split; lra. }
      rewrite <- p10_add in T. apply (proj1 (p10_lt _ _)) in T. lia. }
    assert (X2 : dexp v + dexp h < M).
    { assert (T : (p10 (dexp v) * p10 (dexp h) <= p10 (M - 59))%Q).
      { apply Qle_trans with (Qabs (value c v) * value c h)%Q; [apply Qmult_le_compat_nonneg; split; try lra; apply Qlt_le_weak, p10_pos|].
        apply Qle_trans with (w * (3 # 2))%Q.
        - rewrite WE. setoid_replace (Qabs (value c v) * p2 e * (3 # 2))%Q with (((3 # 2) * p2 e) * Qabs (value c v))%Q by ring. rewrite (Qmult_comm (Qabs (value c v))).
          apply Qmult_le_compat_r; auto.
        - replace (M - 59) with (M - 60 + 1) by ring. rewrite (p10_add (M - 60) 1). change (p10 1) with 10%Q. pose proof (p10_pos (M - 60)). lra. }
      rewrite <- p10_add in T. apply (proj1 (p10_le _ _)) in T. lia. }
    destruct (mul_rel c Hc (fst (mem 0%nat (Nat.min (dprec v) (dprec h)))) (snd (mem 0%nat (Nat.min (dprec v) (dprec h)))) v h) as (z & Z1 & Nz & Zz & Sz & Za); auto.
    { apply (newton_mul_ok c Hc Hk). } { apply (mulm_pool c Hc); auto. }
    exists z. split; [unfold mulm; rewrite Zv, Zh; exact Z1|].
    pose proof (compound eps (value c v) (value c h) (value c z) (value c v) (p2 e) 0 d) as C. fold w in C.
    eapply Qle_trans; [apply C|].
    - lra.
    - lra.
    - exact L2.
    - setoid_replace (value c v - value c v)%Q with 0%Q by ring. change (Qabs 0) with 0%Q. lra.
    - rewrite (Qabs_pos (p2 e)) by lra. exact Ah.
    - apply Qlt_le_weak. exact Za.
    - apply Qmult_le_compat_r; auto. 
      assert (De : (d * eps <= (1 # 2) * eps)%Q) by (apply Qmult_le_compat_r; lra).
      assert (D2 : (5 * d <= 2 * (inject_Z (5 * Z.abs e) * eps))%Q) by (unfold d; lra). lra. }
  assert (SH : forall k, 0 <= k <= 63 -> 1 <= Z.shiftl 1 k < 2 ^ 64 /\ Z.shiftl 1 k < 10 ^ (edc c * elem_number c) /\ (inject_Z (Z.shiftl 1 k) == p2 k)%Q).
  { intros k Hk1. rewrite Z.shiftl_mul_pow2, Z.mul_1_l by lia. rewrite <- p2_Z by lia.
    pose proof (Z.pow_pos_nonneg 2 k ltac:(lia) ltac:(lia)). assert (2 ^ k <= 2 ^ 63) by (apply Z.pow_le_mono_r; lia).
    change (2 ^ 64) with (2 * 2 ^ 63). split; [lia|]. split; [lia|reflexivity]. }
  destruct (e <? 0) eqn:C3.
  { destruct (SH (- e) ltac:(lia)) as (S1 & S2 & S3).
    destruct (div_int_unsigned c FI mem v (Z.shiftl 1 (- e)) Hc Hk HF HJ Hm Nv Zv S1 S2) as (z & Z1 & Az); [lia|].
    exists z. split; [exact Z1|]. 
    assert (VW : (value c v / inject_Z (Z.shiftl 1 (- e)) == value c v * p2 e)%Q).
    { rewrite S3. pose proof (p2_neg (- e)) as K. rewrite Z.opp_involutive in K. pose proof (p2_pos (- e)).
      assert (IV : (/ p2 (- e) == p2 e)%Q).
      { setoid_replace (p2 e)%Q with (p2 e * p2 (- e) / p2 (- e))%Q by (field; lra). rewrite K. field. lra. }
      unfold Qdiv. rewrite IV. reflexivity. }
    rewrite VW in Az. fold w in Az. eapply Qle_trans; [exact Az|]. apply Qmult_le_compat_r; [lra|auto]. }
  { destruct (SH e ltac:(lia)) as (S1 & S2 & S3). cbv zeta.
    assert (Dv : dprec v = n) by apply Nv.
    destruct (order_spec (Z.shiftl 1 e) ltac:(lia)) as [O1 O2]. set (u := Z.shiftl 1 e) in *.
    destruct (mul_ull_rel (fst (mem 0%nat (dprec v))) (snd (mem 0%nat (dprec v))) v u) as (z & Z1 & Nz & Az); auto; try lia.
    { rewrite Dv. apply (memory_pool c Hc); auto. }
    { destruct (value_bracket c Hc v Nv Zv) as [V1 _].
      assert (T : (p10 (dexp v) * p10 (order_of_builtin_integer u - 1) <= p10 (M - 60))%Q).
      { eapply Qle_trans; [|exact Hhi]. unfold w. rewrite Qabs_Qmult, (Qabs_pos (p2 e)) by (apply Qlt_le_weak, p2_pos).
        apply Qmult_le_compat_nonneg; split; try (apply Qlt_le_weak, p10_pos); [exact V1|].
        rewrite <- S3, p10_Z by lia. rewrite <- Zle_Qle. apply O2. }
      rewrite <- p10_add in T. apply (proj1 (p10_le _ _)) in T. lia. }
    exists z. split; [exact Z1|]. rewrite S3 in Az. fold w in Az. eapply Qle_trans; [exact Az|]. apply Qmult_le_compat_r; [lra|auto]. }
Qed.
End LD.
