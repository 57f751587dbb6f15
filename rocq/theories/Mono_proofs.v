(** Mono_proofs.v - addition, subtraction and multiplication are monotone. *)
From Verif Require Export Laws_proofs Refute_arith Conv6_proofs.
From Coq Require Import Lqa.
Local Open Scope Z_scope.

(** Multiples of a coarse unit stay above multiples of a finer unit (and conversely). *)
Lemma grid_le k F k' F' q : F' <= F -> (inject_Z k * p10 F <= q)%Q -> (q < inject_Z k' * p10 F' + p10 F')%Q ->
  (inject_Z k * p10 F <= inject_Z k' * p10 F')%Q.
Proof.
  intros HF H1 H2. rewrite (scaleZ k F F' HF) in *. apply sc_le.
  assert (H3 : (inject_Z (k * 10 ^ (F - F')) * p10 F' < inject_Z (k' + 1) * p10 F')%Q).
  { eapply Qle_lt_trans; [exact H1|]. rewrite inject_Z_plus. change (inject_Z 1) with 1%Q. lra. }
  apply sc_lt in H3. lia.
Qed.
Lemma grid_ge k F k' F' q : F <= F' -> (inject_Z k * p10 F < q + p10 F)%Q -> (q <= inject_Z k' * p10 F')%Q ->
  (inject_Z k * p10 F <= inject_Z k' * p10 F')%Q.
Proof.
  intros HF H1 H2. rewrite (scaleZ k' F' F HF) in *. apply sc_le.
  assert (H3 : (inject_Z k * p10 F < inject_Z (k' * 10 ^ (F' - F) + 1) * p10 F)%Q).
  { eapply Qlt_le_trans; [exact H1|]. rewrite inject_Z_plus. change (inject_Z 1) with 1%Q. lra. }
  apply sc_lt in H3. lia.
Qed.

Section MO.
Variable c : cfg.
Notation L := (c_limb c).
Notation B := (mask L).
Notation V := (limbs_value B).
Notation E := (ebits (c_expo c)).
Notation n := (nel c).
Notation M := (max_exp10_of (c_expo c)).
Hypothesis Hc : cfg_ok c.

Lemma exp_mono x z : normal c x -> normal c z -> iszero x = false -> iszero z = false ->
  (Qabs (value c x) <= Qabs (value c z))%Q -> dexp x <= dexp z.
Proof using Hc.
  intros Nx Nz Zx Zz H. destruct (value_bracket c Hc x Nx Zx) as [X1 _]. destruct (value_bracket c Hc z Nz Zz) as [_ Z2].
  assert (K : (p10 (dexp x) < p10 (dexp z + edc c))%Q) by (eapply Qle_lt_trans; [exact X1|]; eapply Qle_lt_trans; [exact H|exact Z2]).
  apply (proj1 (p10_lt _ _)) in K. destruct (normal_exp c x Nx) as [k1 K1]. destruct (normal_exp c z Nz) as [k2 K2].
  pose proof (edc_pos c) as He. rewrite K1, K2 in *. clear - K He.
  assert (k1 < k2 + 1) by nia. assert (k1 <= k2) by lia. nia.
Qed.

(** One of the two signs, as a factor. *)
Definition sg (s : Q) : Prop := (s == 1)%Q \/ (s == -(1))%Q.
Lemma sg_opp s : sg s -> sg (- s).
Proof. intros [H|H]; [right|left]; rewrite H; ring. Qed.
Lemma sg_abs s q : sg s -> (0 <= s * q)%Q -> (Qabs q == s * q)%Q.
Proof.
  intros [H|H] P; rewrite H in *.
  - rewrite Qabs_pos by lra. ring.
  - rewrite Qabs_neg by lra. ring.
Qed.
Lemma sg_prod s a b : sg s -> (0 < s * a)%Q -> (0 <= a * b)%Q -> (0 <= s * b)%Q.
Proof.
  intros [H|H] P Q; rewrite H in *.
  - destruct (Qlt_le_dec b 0) as [N|N]; [|lra]. exfalso.
    assert (0 < a * - b)%Q by (apply Qmult_lt_0_compat; lra). lra.
  - destruct (Qlt_le_dec 0 b) as [N|N]; [|lra]. exfalso.
    assert (0 < - a * b)%Q by (apply Qmult_lt_0_compat; lra). lra.
Qed.

Lemma zero_or x : normal c x -> iszero x = false <-> ~ (value c x == 0)%Q.
Proof using Hc.
  intros N. split; [apply (value_nonzero c Hc); auto|]. intros H. destruct (iszero x) eqn:Z; auto.
  exfalso. apply H. apply (value_zero c Hc); auto.
Qed.

Lemma on_grid s x : sg s -> normal c x -> exists k, (s * value c x == inject_Z k * p10 (low c (dexp x)))%Q.
Proof using Hc.
  intros S N. destruct (normal_ok c Hc x N) as (Lx & _).
  destruct S as [S|S].
  - exists (sgn (dneg x) * V (data x)). rewrite S, (value_low c x Lx). ring.
  - exists (- (sgn (dneg x) * V (data x))). rewrite S, (value_low c x Lx), inject_Z_opp. ring.
Qed.

(** Truncation: the larger of two exact results truncates to the larger object. *)
Lemma trunc_sg s z q : sg s -> truncates c z q -> (0 < s * q)%Q ->
  (0 <= s * value c z)%Q /\ (s * value c z <= s * q)%Q /\ (s * q < s * value c z + ulp c z)%Q.
Proof.
  intros S (T1 & T2 & T3) P. pose proof (sg_prod s q (value c z) S P T1) as P2.
  rewrite (sg_abs s (value c z) S P2), (sg_abs s q S) in * by lra. auto.
Qed.
Lemma away_sg s z q w : sg s -> rounds_away c z q w -> (0 < s * q)%Q ->
  (0 <= s * value c z)%Q /\ (s * q <= s * value c z)%Q /\ (s * value c z < s * q + w)%Q.
Proof.
  intros S (T1 & T2 & T3) P. pose proof (sg_prod s q (value c z) S P T1) as P2.
  rewrite (sg_abs s (value c z) S P2), (sg_abs s q S) in * by lra. auto.
Qed.

Lemma trunc_mono s z z' q : sg s -> normal c z -> normal c z' -> iszero z' = false ->
  (0 <= s * value c z')%Q -> (s * value c z <= q)%Q -> (q < s * value c z' + ulp c z')%Q ->
  (s * value c z <= s * value c z')%Q.
Proof using Hc.
  intros S N N' Z' P' H1 H2. destruct (Qlt_le_dec (s * value c z') (s * value c z)) as [Hlt|Hle]; [|exact Hle].
  assert (Z : iszero z = false). { apply zero_or; auto. intros K. rewrite K in Hlt. lra. }
  assert (He : dexp z' <= dexp z).
  { apply exp_mono; auto. rewrite (sg_abs s _ S P'), (sg_abs s (value c z) S) by lra. lra. }
  destruct (on_grid s z S N) as [k K]. destruct (on_grid s z' S N') as [k' K'].
  destruct (normal_ok c Hc z' N') as (L' & _).
  rewrite (ulp_low c z' L') in H2. rewrite K, K' in *. eapply grid_le; [|exact H1|exact H2]. apply low_le. exact He.
Qed.

Section ADD.
Variables (s : Q) (z : dec).
Hypothesis S : sg s.
Hypothesis Nz : normal c z.
Hypothesis Zneg : (s * value c z < 0)%Q.
Notation v x := (s * value c x)%Q.
Notation f x := (s * value c (add c x z))%Q.
Notation safe x := (exp_safe c (Z.max (dexp x) (dexp z))).

Lemma z_nz : iszero z = false.
Proof using Hc Nz Zneg. apply zero_or; auto. intros K. rewrite K in Zneg. lra. Qed.

Lemma neg_iff x : normal c x -> iszero x = false -> (v x < 0)%Q <-> dneg x = dneg z.
Proof using Hc S Nz Zneg.
  intros N Zx. pose proof (value_sign c Hc x N Zx) as Sx. pose proof (value_sign c Hc z Nz z_nz) as Sz.
  clear Hc. destruct S as [S1|S1]; rewrite S1 in *; destruct (dneg x), (dneg z); split; intros H; try reflexivity; try discriminate; lra.
Qed.

Lemma add_nz x : normal c x -> safe x -> ~ (v x + v z == 0)%Q -> iszero (add c x z) = false.
Proof using Hc S Nz.
  intros N Sf H. apply zero_or; [apply add_normal; auto|]. intros K. apply (add_zero_iff c Hc x z N Nz Sf) in K. apply H.
  setoid_replace (v x + v z)%Q with (s * (value c x + value c z))%Q by ring. rewrite K. ring.
Qed.

(** Same sign: magnitude of the sum. *)
Lemma same x : normal c x -> safe x -> (v x < 0)%Q ->
  normal c (add c x z) /\ iszero (add c x z) = false /\
  (0 <= - s * value c (add c x z))%Q /\ (- s * value c (add c x z) <= - (v x + v z))%Q /\
  (- (v x + v z) < - s * value c (add c x z) + ulp c (add c x z))%Q.
Proof using Hc S Nz Zneg.
  intros N Sf P.
  assert (Zx : iszero x = false) by (apply zero_or; auto; intros K; rewrite K in P; lra).
  assert (D : dneg z = dneg x) by (symmetry; apply neg_iff; auto).
  destruct (add_same_all c Hc x z N Nz Zx z_nz D Sf) as (T & _). cbv zeta in T.
  destruct (trunc_sg (- s) _ _ (sg_opp s S) T) as (T1 & T2 & T3); [lra|].
  split; [apply add_normal; auto|]. split; [apply add_nz; auto; lra|].
  split; [exact T1|]. split; lra.
Qed.

(** Opposite sign: a multiple of a unit [10^F], moved away from zero by less than one unit. *)
Lemma opp x : normal c x -> safe x -> (0 < v x)%Q ->
  let F := low c (Z.max (dexp x) (dexp z)) in
  normal c (add c x z) /\ (exists k, f x == inject_Z k * p10 F)%Q /\
  ((v x + v z == 0)%Q -> (f x == 0)%Q) /\
  ((0 < v x + v z)%Q -> (0 <= f x)%Q /\ (v x + v z <= f x)%Q /\ (f x < v x + v z + p10 F)%Q) /\
  ((v x + v z < 0)%Q -> (f x <= 0)%Q /\ (f x <= v x + v z)%Q /\ (v x + v z - p10 F < f x)%Q).
Proof using Hc S Nz Zneg.
  intros N Sf P F.
  assert (Zx : iszero x = false) by (apply zero_or; auto; intros K; rewrite K in P; lra).
  assert (D : dneg z = negb (dneg x)).
  { pose proof (neg_iff x N Zx) as Q. destruct (dneg x), (dneg z); auto; exfalso; assert (v x < 0)%Q by (apply Q; auto); lra. }
  destruct (add_diff_away c Hc x z N Nz Zx z_nz D Sf) as (T & _). fold F in T.
  pose proof (add_diff_value c Hc x z N Nz Zx z_nz D Sf) as HV. cbv zeta in HV.
  split; [apply add_normal; auto|]. split.
  { set (D0 := sgn (dneg x) * _ + _) in HV.
    assert (HV2 : (value c (add c x z) == inject_Z D0 * p10 F)%Q).
    { rewrite HV. unfold F. rewrite (scaleZ D0 (low c (Z.max (dexp x) (dexp z))) (low c (Z.min (dexp x) (dexp z)))) by (apply low_le; lia).
      rewrite low_sub. reflexivity. }
    destruct S as [S1|S1].
    - exists D0. rewrite S1, HV2. ring.
    - exists (- D0). rewrite S1, HV2, inject_Z_opp. ring. }
  split.
  { intros K. assert (K2 : (value c x + value c z == 0)%Q).
    { clear - S K. destruct S as [S1|S1]; rewrite S1 in K; lra. }
    apply (proj2 (add_zero_iff c Hc x z N Nz Sf)) in K2. rewrite K2. ring. }
  split.
  - intros K. destruct (away_sg s _ _ _ S T) as (T1 & T2 & T3); [lra|].
    split; [exact T1|]. split; lra.
  - intros K. destruct (away_sg (- s) _ _ _ (sg_opp s S) T) as (T1 & T2 & T3); [lra|].
    split; [lra|]. split; lra.
Qed.

Lemma zero_arg x : normal c x -> iszero x = true -> (f x == v z)%Q.
Proof using. intros N Z. rewrite add_zero_l by auto. reflexivity. Qed.

Lemma below x : normal c x -> safe x -> (v x < 0)%Q -> (f x <= v z)%Q.
Proof using Hc S Nz Zneg.
  intros N Sf P. destruct (same x N Sf P) as (A1 & A2 & A3 & A4 & A5).
  assert (K : (- s * value c z <= - s * value c (add c x z))%Q).
  { apply (trunc_mono (- s) z (add c x z) (- (v x + v z))%Q); auto; [apply sg_opp; auto|lra]. }
  lra.
Qed.

Lemma above x : normal c x -> safe x -> (0 < v x)%Q -> (v z <= f x)%Q.
Proof using Hc S Nz Zneg.
  intros N Sf P. destruct (opp x N Sf P) as (A1 & [k A2] & A3 & A4 & A5). cbv zeta in *.
  assert (Zx : iszero x = false) by (apply zero_or; auto; intros K; rewrite K in P; lra).
  destruct (Q_dec (v x + v z) 0) as [[K|K]|K].
  - assert (He : dexp x <= dexp z).
    { apply exp_mono; auto using z_nz. rewrite (sg_abs s _ S), (sg_abs (- s) (value c z) (sg_opp s S)) by lra. lra. }
    rewrite Z.max_r in * by exact He. destruct (A5 K) as (B1 & B2 & B3).
    destruct (on_grid (- s) z (sg_opp s S) Nz) as [k' K'].
    assert (Q : (inject_Z (- k) * p10 (low c (dexp z)) <= inject_Z k' * p10 (low c (dexp z)))%Q).
    { rewrite inject_Z_opp. setoid_replace (- inject_Z k * p10 (low c (dexp z)))%Q with (- (inject_Z k * p10 (low c (dexp z))))%Q by ring.
      setoid_replace (- (inject_Z k * p10 (low c (dexp z))))%Q with (inject_Z (- k) * p10 (low c (dexp z)))%Q by (rewrite inject_Z_opp; ring).
      apply (grid_ge _ _ _ _ (- (v x + v z))%Q); [lia| |rewrite <- K'; lra].
      rewrite inject_Z_opp. rewrite A2 in B3. lra. }
    rewrite <- K' in Q. rewrite A2. rewrite inject_Z_opp in Q. lra.
  - destruct (A4 K) as (B1 & _). lra.
  - rewrite (A3 K). lra.
Qed.

Theorem add_mono_opp x y : normal c x -> normal c y -> safe x -> safe y -> (v x <= v y)%Q -> (f x <= f y)%Q.
Proof using Hc S Nz Zneg.
  intros Nx Ny Sx Sy H.
  destruct (Q_dec (v x) 0) as [[X|X]|X].
  - destruct (Q_dec (v y) 0) as [[Y|Y]|Y].
    + destruct (same x Nx Sx X) as (A1 & A2 & A3 & A4 & A5). destruct (same y Ny Sy Y) as (B1 & B2 & B3 & B4 & B5).
      assert (K : (- s * value c (add c y z) <= - s * value c (add c x z))%Q).
      { apply (trunc_mono (- s) (add c y z) (add c x z) (- (v x + v z))%Q); auto; [apply sg_opp; auto|lra]. }
      lra.
    + pose proof (below x Nx Sx X). pose proof (above y Ny Sy Y). lra.
    + assert (Zy : iszero y = true).
      { destruct (iszero y) eqn:Q; auto. exfalso. apply (proj1 (zero_or y Ny) Q).
        clear - S Y. destruct S as [S1|S1]; rewrite S1 in Y; lra. }
      rewrite (zero_arg y Ny Zy). apply below; auto.
  - assert (Y : (0 < v y)%Q) by lra.
    destruct (opp x Nx Sx X) as (A1 & [k A2] & A3 & A4 & A5). destruct (opp y Ny Sy Y) as (B1 & [l B2] & B3 & B4 & B5). cbv zeta in *.
    assert (Zx : iszero x = false) by (apply zero_or; auto; intros K; rewrite K in X; lra).
    assert (Zy : iszero y = false) by (apply zero_or; auto; intros K; rewrite K in Y; lra).
    assert (Exy : dexp x <= dexp y).
    { apply exp_mono; auto. rewrite !(sg_abs s _ S) by lra. lra. }
    destruct (Q_dec (v x + v z) 0) as [[P|P]|P].
    + destruct (Q_dec (v y + v z) 0) as [[Q|Q]|Q].
      * assert (He : dexp y <= dexp z).
        { apply exp_mono; auto using z_nz. rewrite (sg_abs s _ S), (sg_abs (- s) (value c z) (sg_opp s S)) by lra. lra. }
        rewrite !Z.max_r in * by lia. destruct (A5 P) as (C1 & C2 & C3). destruct (B5 Q) as (D1 & D2 & D3).
        rewrite A2, B2 in *. set (W := p10 (low c (dexp z))) in *.
        assert (R : (inject_Z (- l) * W <= inject_Z (- k) * W)%Q).
        { apply (grid_ge _ _ _ _ (- (v y + v z))%Q); [lia| |]; fold W; rewrite inject_Z_opp; lra. }
        rewrite !inject_Z_opp in R. lra.
      * destruct (A5 P) as (C1 & _). destruct (B4 Q) as (D1 & _). lra.
      * destruct (A5 P) as (C1 & _). rewrite (B3 Q). lra.
    + assert (Q : (0 < v y + v z)%Q) by lra. destruct (A4 P) as (C1 & C2 & C3). destruct (B4 Q) as (D1 & D2 & D3).
      rewrite A2, B2 in *. apply (grid_ge _ _ _ _ (v x + v z)%Q); [apply low_le; lia| |]; lra.
    + assert (Q : (0 <= v y + v z)%Q) by lra. rewrite (A3 P).
      destruct (Q_dec (v y + v z) 0) as [[Q1|Q1]|Q1]; [lra|apply B4; auto|rewrite (B3 Q1); lra].
  - assert (Zx : iszero x = true).
    { destruct (iszero x) eqn:Q; auto. exfalso. apply (proj1 (zero_or x Nx) Q).
      clear - S X. destruct S as [S1|S1]; rewrite S1 in X; lra. }
    rewrite (zero_arg x Nx Zx).
    destruct (Q_dec (v y) 0) as [[Y|Y]|Y]; [lra|apply above; auto|].
    assert (Zy : iszero y = true).
    { destruct (iszero y) eqn:Q; auto. exfalso. apply (proj1 (zero_or y Ny) Q).
      clear - S Y. destruct S as [S1|S1]; rewrite S1 in Y; lra. }
    rewrite (zero_arg y Ny Zy). lra.
Qed.
End ADD.

Theorem add_mono x y z : normal c x -> normal c y -> normal c z ->
  exp_safe c (Z.max (dexp x) (dexp z)) -> exp_safe c (Z.max (dexp y) (dexp z)) ->
  (value c x <= value c y)%Q -> (value c (add c x z) <= value c (add c y z))%Q.
Proof using Hc.
  intros Nx Ny Nz Sx Sy H. destruct (Q_dec (value c z) 0) as [[K|K]|K].
  - pose proof (add_mono_opp 1 z (or_introl (Qeq_refl 1)) Nz ltac:(lra) x y Nx Ny Sx Sy ltac:(lra)). lra.
  - assert (S : sg (-(1))) by (right; reflexivity).
    pose proof (add_mono_opp (-(1)) z S Nz ltac:(lra) y x Ny Nx Sy Sx ltac:(lra)). lra.
  - assert (Zz : iszero z = true).
    { destruct (iszero z) eqn:Q; auto. exfalso. apply (proj1 (zero_or z Nz) Q). exact K. }
    rewrite !(add_zero_value c Hc) by auto. lra.
Qed.

Lemma add_comm_value x z : normal c x -> normal c z -> (value c (add c x z) == value c (add c z x))%Q.
Proof using Hc.
  intros Nx Nz. destruct (iszero x) eqn:Zx; [rewrite !(add_zero_value c Hc) by auto; ring|].
  destruct (iszero z) eqn:Zz; [rewrite !(add_zero_value c Hc) by auto; ring|].
  rewrite (add_comm c Hc x z) by auto. reflexivity.
Qed.
End MO.
