(** Frexp_proofs.v - frexp: scaling by a power of two. *)
From Verif Require Export Fmod_proofs Conv6_proofs.
From Coq Require Import Lqa.
Local Open Scope Z_scope.

Section FX.
Variable c : cfg.
Variable F : ftype.
Notation L := (c_limb c).
Notation B := (mask L).
Notation V := (limbs_value B).
Notation P n := (B ^ Z.of_nat n).
Notation n := (nel c).
Notation M := (max_exp10_of (c_expo c)).
Notation wk := (wk c).
Notation mag := (mag c).
Notation eps := (p10 (- (c_digits10 c + 2 * edc c))).
Notation dlt := (p10 (- c_digits10 c)).
Hypothesis Hc : cfg_ok c.
Hypothesis Hk : newton_ok c.
Hypothesis HF : float_fits c F.
Hypothesis HJ : (digit_loops c F <= n)%nat.

(** The product of a number other than one and 0.99..9 by a computed reciprocal. *)
Lemma mul_recip mem i mem' x v : memory_ok mem -> memory_ok mem' -> normal c x -> normal c v -> iszero x = false -> iszero v = false ->
  isone_sign_neutral c x = false -> - M < dexp v < M - 3 * edc c -> - M + 2 * edc c < dexp x - dexp v < M ->
  exists r z, calculate_inv c F mem' v = Some r /\ mulm c mem i x r = Some z /\ normal c z /\ dneg z = xorb (dneg x) (dneg v) /\
    (Qabs (value c z - value c x / value c v) <= 9 * eps * Qabs (value c x / value c v))%Q.
Proof.
  intros Hm Hm' Hx Hv Zx Zv Ox Rv Rq. pose proof (nel_ge4 c Hc) as Hn4. pose proof (edc_pos c) as He.
  pose proof (max_exp10_bounds c) as (HM & HM2 & HM3).
  destruct (normal_facts c Hc x Hx) as (Lx & Okx & Px & _). destruct (normal_facts c Hc v Hv) as (Lv & Okv & Pv & _).
  pose proof (value_nonzero c Hc v Hv Zv) as Nv. pose proof (value_nonzero c Hc x Hx Zx) as Nx.
  destruct (eps_small c Hc) as [Ep1 Ep2].
  destruct (inv_spec c F Hc HF HJ Hk mem' v Hm' Hv Zv Rv) as (r & Er & Sr & Wr & Shp & Acc & Rr).
  pose proof (eta_n_eps c Hc) as Een. destruct (eta_n c Hc) as [En1 En2].
  set (e := p10 (- (c_digits10 c + 2 * edc c))) in *.
  assert (Acc2 : (Qabs (1 - value c r * value c v) <= 7 * e)%Q) by lra.
  destruct (normal_wk c Hc v Hv Zv) as (_ & _ & _ & Dv).
  assert (Wv : wk v) by (apply normal_wk; auto).
  destruct (mag_bracket c Hc r Wr) as [Br1 Br2]. destruct (mag_bracket c Hc v Wv) as [Bx1 Bx2].
  pose proof (mag_pos c Hc r Wr) as Mr. pose proof (mag_pos c Hc v Wv) as Mvp.
  assert (Vr : (value c r * value c v == mag r * mag v)%Q).
  { rewrite !value_low by (auto; apply Wr). unfold Prec_proofs.mag. rewrite Sr.
    rewrite !inject_Z_mult. destruct (dneg v); cbn [sgn]; ring. }
  assert (Acc3 : ((9 # 10) <= mag r * mag v /\ mag r * mag v <= (11 # 10))%Q).
  { rewrite <- Vr. apply Qabs_Qle_condition in Acc2. lra. }
  assert (X1 : dexp r + dexp v < 1).
  { apply (proj1 (p10_lt _ _)). rewrite p10_add. apply Qle_lt_trans with (mag r * mag v)%Q.
    - apply Qmult_le_compat_nonneg; split; auto; apply Qlt_le_weak, p10_pos.
    - rewrite p10_one. lra. }
  assert (X2 : -1 < dexp r + edc c + (dexp v + edc c)).
  { apply (proj1 (p10_lt _ _)). apply Qlt_le_trans with (mag r * mag v)%Q; [rewrite p10_m1; lra|].
    rewrite (p10_add (dexp r + edc c)). apply Qmult_le_compat_nonneg; split; auto; lra. }
  assert (Rs : - M < dexp x + dexp r < M) by lia.
  destruct Wr as (Lr & OAr & Zlr & Ddr).
  assert (Zr : iszero r = false) by (unfold iszero; lia).
  exists r.
  destruct Shp as [Nr|(S1 & S2 & S3 & S4)].
  - destruct (normal_facts c Hc r Nr) as (_ & _ & Pr & _).
    destruct (mul_rel c Hc (fst (mem i n)) (snd (mem i n)) x r (newton_mul_ok c Hc Hk) (memory_pool c Hc mem i Hm) Hx Nr Zx Zr Rs)
      as (z & Ez & Nz & Zz & Sz & Az).
    exists z. split; [exact Er|]. split; [unfold mulm; rewrite Zx, Zr; cbn [orb]; rewrite Px, Pr, Nat.min_id; exact Ez|]. split; [exact Nz|]. rewrite Sz, Sr. split; [reflexivity|].
    apply (quotient_error _ _ (value c r)); auto. apply Qlt_le_weak. exact Az.
  - pose proof (mul_top c Hc Hk mem i x r) as MT. assert (MT2 : mulm c mem i x r = Some (mkDec (data x) (dexp x + dexp r + edc c) (xorb (dneg x) (dneg r)) n)) by (unfold mulm; rewrite Zx, Zr; cbn [orb]; rewrite Px, S2, Nat.min_id; apply MT; auto; lia). clear MT.
    assert (Nz : normal c (mkDec (data x) (dexp x + dexp r + edc c) (xorb (dneg x) (dneg r)) n)).
    { destruct Hx as (N1 & N2 & N3 & N4 & N5 & N6). split; [auto|]. split; [auto|]. split; [auto|].
      split; [repeat apply Z.divide_add_r; auto; apply Z.divide_refl|]. split; [cbn [dexp]; lia|reflexivity]. }
    eexists. split; [exact Er|]. split; [exact MT2|]. split; [exact Nz|]. cbn [dneg]. rewrite Sr in *. split; [reflexivity|].
    apply (quotient_error _ _ (value c r)); auto.
    assert (Ez : (value c (mkDec (data x) (dexp x + dexp r + edc c) (xorb (dneg x) (dneg v)) n) == value c x * value c r)%Q).
    { rewrite !value_low by auto. cbn [data dexp dneg]. rewrite S1, (top_value c Hc), Sr, !inject_Z_mult, (Bp10 c).
      assert (Ep : (p10 (low c (dexp x + dexp r + edc c)) == p10 (low c (dexp x)) * p10 (low c (dexp r)) * p10 (edc c * Z.of_nat n))%Q).
      { rewrite <- !p10_add. replace (low c (dexp x + dexp r + edc c)) with (low c (dexp x) + low c (dexp r) + edc c * Z.of_nat n) by (unfold low; ring). reflexivity. }
      rewrite Ep. destruct (dneg x), (dneg v); cbn [xorb sgn]; change (inject_Z (-1)) with (-(1))%Q; change (inject_Z 1) with 1%Q; ring. }
    rewrite Ez. setoid_replace (value c x * value c r - value c x * value c r)%Q with 0%Q by ring.
    change (Qabs 0) with 0%Q. apply Qmult_le_0_compat; [apply Qabs_nonneg|lra].
Qed.

(** Powers of two, zero included. *)
Lemma pow_two mem p : memory_ok mem -> 0 <= p < 2 ^ 63 -> (inject_Z (4 * p) * eps <= 1)%Q -> (p2 p <= p10 (M - 1))%Q ->
  exists h, pow_nonneg c mem (two c) p = Some h /\ normal c h /\ (Qabs (value c h - p2 p) <= inject_Z (2 * p) * eps * p2 p)%Q.
Proof.
  intros Hm Hp Hs Hhi. destruct (two_facts c Hc) as (Nt & Zt & Vt & St). destruct (eps_bound c Hc) as [E0 E1].
  pose proof (max_exp10_bounds c) as (HM & _). pose proof (edc_pos c) as He. pose proof (p2_pos p) as P0.
  destruct (Z.eq_dec p 0) as [->|Hp0].
  - exists (one c). split; [destruct (pow_zero_one c F mem (two c) Hc (newton_mul_ok c Hc Hk) Hm Nt) as [A _]; exact A|].
    split; [apply one_normal; exact Hc|]. assert (V1 : (value c (one c) == 1)%Q) by (destruct (max_min_values c Hc) as (_ & _ & _ & H & _); exact H).
    rewrite V1. change (p2 0) with 1%Q. change (Qabs (1 - 1)) with 0%Q. change (inject_Z (2 * 0)) with 0%Q. lra.
  - assert (PK : (Qabs (value c (two c) ^ p) == p2 p)%Q) by (rewrite Vt; apply Qabs_pos, Qlt_le_weak, p2_pos).
    destruct (pow_pos_accurate c F mem (two c) p Hc Hk Hm Nt Zt) as (h & G1 & G2 & G3).
    + lia.
    + exact Hs.
    + rewrite PK. apply Qle_trans with (p10 0); [apply p10_le; lia|]. rewrite p10_0. apply p2_ge1. lia.
    + rewrite PK. exact Hhi.
    + exists h. split; [unfold pow_int in G1; replace (p <? 0) with false in G1 by lia; exact G1|]. split; [exact G2|]. rewrite PK, Vt in G3.
      eapply Qle_trans; [exact G3|]. apply Qmult_le_compat_r; [|lra]. apply Qmult_le_compat_r; [|lra]. rewrite <- Zle_Qle. lia.
Qed.

(** The scaling step of frexp. *)
Lemma scale_two mem mem' a t k : memory_ok mem -> memory_ok mem' -> normal c a -> (0 < value c a)%Q ->
  Z.abs t < 2 ^ 63 -> (inject_Z (4 * Z.abs t) * eps <= 1)%Q -> (p2 (Z.abs t) <= p10 (M - 34))%Q -> (0 < t -> (1 < value c a)%Q) ->
  0 <= k -> k + 40 <= M -> (p10 (- k) <= value c a * p2 (- t))%Q -> (value c a * p2 (- t) <= p10 k)%Q ->
  exists h z, pow_int c F mem' (two c) (- t) = Some h /\ mulm c mem 0 a h = Some z /\ normal c z /\
    (Qabs (value c z - value c a * p2 (- t)) <= inject_Z (5 * Z.abs t + 20) * eps * (value c a * p2 (- t)))%Q.
Proof.
  intros Hm Hm' Na Pa Ht Hs Hp Hone Hk0 HkM Hlo Hhi. destruct (eps_bound c Hc) as [E0 E1].
  pose proof (max_exp10_bounds c) as (HM & _). pose proof (edc_pos c) as He.
  destruct (pos_facts c Hc a Na Pa) as [Za Sa]. set (p := Z.abs t) in *. assert (Hp0 : 0 <= p) by (unfold p; lia).
  destruct (pow_two mem' p Hm' ltac:(lia) Hs ltac:(eapply Qle_trans; [exact Hp|]; apply p10_le; lia)) as (h & G1 & Nh & Ah).
  set (d := (inject_Z (2 * p) * eps)%Q) in *. pose proof (p2_pos p) as P0.
  assert (D0 : (0 <= d)%Q) by (unfold d; apply Qmult_le_0_compat; [change 0%Q with (inject_Z 0); rewrite <- Zle_Qle; lia|lra]).
  assert (D1 : (d <= 1 # 2)%Q).
  { unfold d. assert (X : (inject_Z (4 * p) == 2 * inject_Z (2 * p))%Q) by (change 2%Q with (inject_Z 2); rewrite <- inject_Z_mult; replace (4 * p) with (2 * (2 * p)) by ring; reflexivity).
    rewrite X in Hs. lra. }
  assert (DW : (d * p2 p <= (1 # 2) * p2 p)%Q) by (apply Qmult_le_compat_r; lra).
  assert (Hh : ((1 # 2) * p2 p <= value c h /\ value c h <= (3 # 2) * p2 p)%Q) by (apply Qabs_Qle_condition in Ah; lra).
  destruct Hh as [Hh1 Hh2]. assert (Ph : (0 < value c h)%Q) by lra. destruct (pos_facts c Hc h Nh Ph) as [Zh Sh].
  destruct (value_bracket c Hc a Na Za) as [V1 V2]. destruct (value_bracket c Hc h Nh Zh) as [Q1 Q2].
  rewrite (Qabs_pos (value c h)) in Q1, Q2 by lra. rewrite (Qabs_pos (value c a)) in V1, V2 by lra.
  assert (ER : (5 * d + 40 * eps == 2 * (inject_Z (5 * p + 20) * eps))%Q).
  { unfold d. rewrite inject_Z_plus, !inject_Z_mult. change (inject_Z 5) with 5%Q. change (inject_Z 2) with 2%Q. change (inject_Z 20) with 20%Q. ring. }
  pose proof (p2_pos (- t)) as PT. set (w := (value c a * p2 (- t))%Q) in *. assert (W0 : (0 < w)%Q) by (unfold w; apply Qmult_lt_0_compat; lra).
  assert (DE : (d * eps <= (1 # 2) * eps)%Q) by (apply Qmult_le_compat_r; lra).
  destruct (Z.lt_ge_cases 0 t) as [Tp|Tn].
  - assert (Ept : p = t) by (unfold p; lia).
    assert (I1 : isone_sign_neutral c a = false).
    { destruct (isone_sign_neutral c a) eqn:I; auto. exfalso. specialize (Hone Tp). apply (isone_iff c Hc a Na Za) in I. destruct I as [I|I].
      - unfold is_one in I. rewrite Qabs_pos in I by lra. lra.
      - unfold is_nines in I. rewrite Qabs_pos in I by lra. pose proof (p10_pos (- (edc c * elem_number c))). lra. }
    assert (VW : (value c a / p2 p == w)%Q).
    { unfold w. rewrite Ept. pose proof (p2_neg t) as K. setoid_replace (value c a / p2 t)%Q with (value c a * (p2 (- t) * p2 t) / p2 t)%Q by (rewrite K; field; apply p2_nz). field. apply p2_nz. }
    assert (WP : (value c a == w * p2 p)%Q) by (rewrite <- VW; field; apply p2_nz).
    assert (H1 : dexp h <= M - 33).
    { apply (proj1 (p10_le _ _)). eapply Qle_trans; [exact Q1|]. eapply Qle_trans; [exact Hh2|]. replace (M - 33) with (M - 34 + 1) by ring.
      rewrite (p10_add (M - 34) 1). change (p10 1) with 10%Q. lra. }
    assert (H2 : - edc c < dexp h).
    { assert (X : (p10 0 < p10 (dexp h + edc c))%Q). { eapply Qle_lt_trans; [|exact Q2]. rewrite p10_0. assert (2 <= p2 p)%Q by (change 2%Q with (p2 1); apply p2_le; lia). lra. }
      apply (proj1 (p10_lt _ _)) in X. lia. }
    assert (X1 : - M + 2 * edc c < dexp a - dexp h).
    { assert (T : (p10 (- k - 1) * p10 (dexp h) < p10 (dexp a + edc c))%Q).
      { eapply Qle_lt_trans; [|exact V2]. rewrite WP. apply Qle_trans with (p10 (- k) * p2 p)%Q; [|apply Qmult_le_compat_r; lra].
        replace (- k) with (- k - 1 + 1) by ring. rewrite (p10_add (- k - 1) 1). change (p10 1) with 10%Q. replace (- k - 1 + 1 - 1) with (- k - 1) by ring.
        setoid_replace (p10 (- k - 1) * 10 * p2 p)%Q with (p10 (- k - 1) * (10 * p2 p))%Q by ring.
        rewrite !(Qmult_comm (p10 (- k - 1))). apply Qmult_le_compat_r; [lra|apply Qlt_le_weak, p10_pos]. }
      rewrite <- p10_add in T. apply (proj1 (p10_lt _ _)) in T. lia. }
    assert (X2 : dexp a - dexp h < M).
    { assert (T : (p10 (dexp a) < p10 (k + 1) * p10 (dexp h + edc c))%Q).
      { eapply Qle_lt_trans; [exact V1|]. rewrite WP. apply Qle_lt_trans with (p10 k * p2 p)%Q; [apply Qmult_le_compat_r; lra|].
        rewrite (p10_add k 1). change (p10 1) with 10%Q.
        setoid_replace (p10 k * 10 * p10 (dexp h + edc c))%Q with (p10 k * (10 * p10 (dexp h + edc c)))%Q by ring.
        apply Qmult_lt_l; [apply p10_pos|]. lra. }
      rewrite <- p10_add in T. apply (proj1 (p10_lt _ _)) in T. lia. }
    destruct (mul_recip mem 0 (later mem' 200) a h Hm (later_ok _ _ Hm') Na Nh Za Zh I1 ltac:(lia) ltac:(lia)) as (r & z & R1 & Z1 & Nz & Sz & Az).
    exists r, z. split.
    { unfold pow_int. replace (- t <? 0) with true by lia. unfold neg_sll. replace (- t =? - 2 ^ 63) with false by lia. rewrite Z.opp_involutive, <- Ept, G1. exact R1. }
    split; [exact Z1|]. split; [exact Nz|].
    pose proof (div_approx (value c a) (value c h) (p2 p) (value c z) d (9 * eps)) as DA. rewrite VW in DA. rewrite (Qabs_pos w) in DA by lra.
    eapply Qle_trans; [apply DA; auto; lra|]. apply Qmult_le_compat_r; lra.
  - assert (Ept : p = - t) by (unfold p; lia). assert (Wp : (w == value c a * p2 p)%Q) by (unfold w; rewrite Ept; reflexivity). clearbody w. rewrite <- Ept.
    assert (X1 : - M < dexp a + dexp h).
    { assert (T : (p10 (- k - 1) < p10 (dexp a + edc c) * p10 (dexp h + edc c))%Q).
      { apply Qlt_le_trans with (p10 (- k) * (1 # 2))%Q.
        - replace (- k) with (- k - 1 + 1) by ring. rewrite (p10_add (- k - 1) 1). change (p10 1) with 10%Q.
          replace (- k - 1 + 1 - 1) with (- k - 1) by ring. pose proof (p10_pos (- k - 1)). lra.
        - apply Qle_trans with (value c a * value c h)%Q; [|apply Qmult_le_compat_nonneg; split; lra].
          apply Qle_trans with (w * (1 # 2))%Q; [apply Qmult_le_compat_r; lra|]. rewrite Wp.
          setoid_replace (value c a * p2 p * (1 # 2))%Q with (value c a * ((1 # 2) * p2 p))%Q by ring. rewrite !(Qmult_comm (value c a)). apply Qmult_le_compat_r; lra. }
      rewrite <- p10_add in T. apply (proj1 (p10_lt _ _)) in T. lia. }
    assert (X2 : dexp a + dexp h < M).
    { assert (T : (p10 (dexp a) * p10 (dexp h) <= p10 (k + 1))%Q).
      { apply Qle_trans with (value c a * value c h)%Q; [pose proof (p10_pos (dexp a)); pose proof (p10_pos (dexp h)); apply Qmult_le_compat_nonneg; split; lra|].
        apply Qle_trans with (value c a * ((3 # 2) * p2 p))%Q; [rewrite !(Qmult_comm (value c a)); apply Qmult_le_compat_r; lra|].
        setoid_replace (value c a * ((3 # 2) * p2 p))%Q with ((3 # 2) * w)%Q by (rewrite Wp; ring). rewrite (p10_add k 1). change (p10 1) with 10%Q. lra. }
      rewrite <- p10_add in T. apply (proj1 (p10_le _ _)) in T. lia. }
    destruct (normal_facts c Hc a Na) as (_ & _ & Pra & _). destruct (normal_facts c Hc h Nh) as (_ & _ & Prh & _).
    destruct (mul_rel c Hc (fst (mem 0%nat n)) (snd (mem 0%nat n)) a h (newton_mul_ok c Hc Hk) (memory_pool c Hc mem 0 Hm) Na Nh Za Zh ltac:(lia))
      as (z & Ez & Nz & Zz & Sz & Az).
    exists h, z. split; [unfold pow_int; replace (p <? 0) with false by lia; exact G1|].
    split; [unfold mulm; rewrite Za, Zh; cbn [orb]; rewrite Pra, Prh, Nat.min_id; exact Ez|]. split; [exact Nz|].
    set (A := value c a) in *. set (H := value c h) in *.
    assert (AHp : (0 < A * H)%Q) by (apply Qmult_lt_0_compat; lra). rewrite (Qabs_pos (A * H)) in Az by lra.
    assert (K1 : (Qabs (A * H - w) <= d * w)%Q).
    { rewrite Wp. setoid_replace (A * H - A * p2 p)%Q with (A * (H - p2 p))%Q by ring. rewrite Qabs_Qmult, (Qabs_pos A) by lra.
      setoid_replace (d * (A * p2 p))%Q with (A * (d * p2 p))%Q by ring. rewrite !(Qmult_comm A). apply Qmult_le_compat_r; lra. }
    assert (K2 : (A * H <= (3 # 2) * w)%Q) by (rewrite Wp; setoid_replace ((3 # 2) * (A * p2 p))%Q with (A * ((3 # 2) * p2 p))%Q by ring; rewrite !(Qmult_comm A); apply Qmult_le_compat_r; lra).
    assert (K3 : (A * H * eps <= (3 # 2) * w * eps)%Q) by (apply Qmult_le_compat_r; lra).
    assert (K4 : ((d + 2 * eps) * w <= inject_Z (5 * p + 20) * eps * w)%Q) by (apply Qmult_le_compat_r; lra).
    eapply Qle_trans; [|exact K4].
    apply Qabs_Qle_condition in K1. apply Qlt_le_weak, Qabs_Qle_condition in Az. apply Qabs_Qle_condition.
    assert (W1 : (0 < w * eps)%Q) by (apply Qmult_lt_0_compat; lra). lra.
Qed.

End FX.
