(** Mono2_proofs.v - subtraction, multiplication and division are monotone. *)
From Verif Require Export Mono_proofs.
From Coq Require Import Lqa.
Local Open Scope Z_scope.

Section MU.
Variable c : cfg.
Notation L := (c_limb c).
Notation B := (mask L).
Notation V := (limbs_value B).
Notation E := (ebits (c_expo c)).
Notation n := (nel c).
Notation M := (max_exp10_of (c_expo c)).
Hypothesis Hc : cfg_ok c.

Theorem sub_mono x y z : normal c x -> normal c y -> normal c z ->
  exp_safe c (Z.max (dexp x) (dexp z)) -> exp_safe c (Z.max (dexp y) (dexp z)) ->
  (value c x <= value c y)%Q ->
  (value c (sub c x z) <= value c (sub c y z))%Q /\ (value c (sub c z y) <= value c (sub c z x))%Q.
Proof using Hc.
  intros Nx Ny Nz Sx Sy H.
  assert (Sub : forall a b, normal c a -> normal c b -> (value c (sub c a b) == - value c (add c (negate a) b))%Q).
  { intros a b Na Nb. unfold sub. apply value_negate; auto. apply add_normal; auto. apply negate_normal; auto. }
  assert (NN : forall a, normal c a -> normal c (negate a)) by (intros; apply negate_normal; auto).
  split.
  - rewrite !Sub by auto.
    assert (K : (value c (add c (negate y) z) <= value c (add c (negate x) z))%Q).
    { apply add_mono; auto; rewrite ?negate_exp; auto. rewrite !value_negate by auto. lra. }
    lra.
  - rewrite !Sub by auto. rewrite (add_comm_value c Hc (negate z) x), (add_comm_value c Hc (negate z) y) by auto.
    assert (K : (value c (add c x (negate z)) <= value c (add c y (negate z)))%Q).
    { apply add_mono; auto; rewrite ?negate_exp; auto. }
    lra.
Qed.

Theorem add_mono_both x y z : normal c x -> normal c y -> normal c z ->
  exp_safe c (Z.max (dexp x) (dexp z)) -> exp_safe c (Z.max (dexp y) (dexp z)) ->
  (value c x <= value c y)%Q ->
  (value c (add c x z) <= value c (add c y z))%Q /\ (value c (add c z x) <= value c (add c z y))%Q.
Proof using Hc.
  intros Nx Ny Nz Sx Sy H. pose proof (add_mono c Hc x y z Nx Ny Nz Sx Sy H) as K. split; [exact K|].
  rewrite (add_comm_value c Hc z x), (add_comm_value c Hc z y) by auto. exact K.
Qed.

(** Magnitudes below one are at most 0.99...9. *)
Lemma nines_top x : normal c x -> iszero x = false -> (Qabs (value c x) < 1)%Q ->
  (Qabs (value c x) <= 1 - p10 (- (edc c * elem_number c)))%Q.
Proof using Hc.
  intros N Zx H. pose proof (edc_pos c) as He. destruct (value_bracket c Hc x N Zx) as [B1 B2].
  destruct (normal_exp c x N) as [k K]. pose proof (nel_Z c Hc) as HnZ. pose proof (elem_number_ge4 c Hc) as H4.
  assert (E0 : (p10 (dexp x) < p10 0)%Q) by (rewrite p10_0; eapply Qle_lt_trans; [exact B1|exact H]).
  apply (proj1 (p10_lt _ _)) in E0.
  assert (Ek : k <= -1) by (clear - E0 K He; rewrite K in E0; nia).
  destruct (Z.eq_dec k (-1)) as [Q|Q].
  - destruct (normal_ok c Hc x N) as (Lx & _).
    assert (HL : low c (dexp x) = - (edc c * elem_number c)). { unfold low. rewrite HnZ, K, Q. ring. }
    assert (A : (Qabs (value c x) == inject_Z (Z.abs (sgn (dneg x) * V (data x))) * p10 (- (edc c * elem_number c)))%Q).
    { rewrite (value_low c x Lx), sc_abs, HL. reflexivity. }
    set (m := Z.abs _) in A. set (F := - (edc c * elem_number c)) in *.
    assert (H1 : (1 == inject_Z (10 ^ (0 - F)) * p10 F)%Q).
    { rewrite <- p10_0. apply (p10_scale 0 F). unfold F. nia. }
    rewrite A in *. assert (H2 : (inject_Z m * p10 F < inject_Z (10 ^ (0 - F)) * p10 F)%Q) by (rewrite <- H1; exact H).
    apply sc_lt in H2.
    setoid_replace (1 - p10 F)%Q with (inject_Z (10 ^ (0 - F)) * p10 F - p10 F)%Q by (rewrite <- H1; reflexivity).
    setoid_replace (inject_Z (10 ^ (0 - F)) * p10 F - p10 F)%Q with (inject_Z (10 ^ (0 - F) - 1) * p10 F)%Q.
    + apply sc_le. lia.
    + unfold Z.sub at 2. rewrite inject_Z_plus. change (inject_Z (-(1))) with (-(1))%Q. ring.
  - assert (A1 : (p10 (dexp x + edc c) <= p10 (-1))%Q) by (apply (proj2 (p10_le _ _)); rewrite K; nia).
    assert (A2 : (p10 (- (edc c * elem_number c)) <= p10 (-1))%Q) by (apply (proj2 (p10_le _ _)); nia).
    assert (A3 : (p10 (-1) == 1 # 10)%Q) by reflexivity. rewrite A3 in *. lra.
Qed.

Lemma spec_range x : normal c x -> isone_sign_neutral c x = true ->
  iszero x = false /\ (1 - p10 (- (edc c * elem_number c)) <= Qabs (value c x))%Q /\ (Qabs (value c x) <= 1)%Q.
Proof using Hc.
  intros N U. pose proof (isone_iszero c x U) as Zx. split; [exact Zx|].
  pose proof (p10_pos (- (edc c * elem_number c))) as P.
  apply (isone_iff c Hc x N Zx) in U. destruct U as [U|U]; unfold is_one, is_nines in U; rewrite U; split; lra.
Qed.

Lemma nonspec_range x : normal c x -> iszero x = false -> isone_sign_neutral c x = false -> 
  (Qabs (value c x) < 1 - p10 (- (edc c * elem_number c)))%Q \/ (1 < Qabs (value c x))%Q.
Proof using Hc.
  intros N Zx U. 
  destruct (Q_dec (Qabs (value c x)) 1) as [[H|H]|H]; [left|right; exact H|].
  - pose proof (nines_top x N Zx H) as T. destruct (Q_dec (Qabs (value c x)) (1 - p10 (- (edc c * elem_number c)))) as [[K|K]|K]; [exact K|lra|].
    exfalso. assert (isone_sign_neutral c x = true) by (apply isone_iff; auto). congruence.
  - exfalso. assert (isone_sign_neutral c x = true) by (apply isone_iff; auto). congruence.
Qed.

(** The magnitude of a factor as operator*= sees it. *)
Definition seen (x : dec) : Q := if isone_sign_neutral c x then 1%Q else Qabs (value c x).

Lemma seen_mono x y : normal c x -> normal c y -> iszero x = false -> iszero y = false ->
  (Qabs (value c x) <= Qabs (value c y))%Q -> (seen x <= seen y)%Q.
Proof using Hc.
  intros Nx Ny Zx Zy H. unfold seen.
  destruct (isone_sign_neutral c x) eqn:Ux, (isone_sign_neutral c y) eqn:Uy.
  - apply Qle_refl.
  - destruct (spec_range x Nx Ux) as (_ & A & B0). destruct (nonspec_range y Ny Zy Uy); lra.
  - destruct (spec_range y Ny Uy) as (_ & A & B0). lra.
  - exact H.
Qed.

Lemma mul_mag rmem scratch x z : mul_ok c -> pool_ok c rmem scratch -> normal c x -> normal c z ->
  iszero x = false -> iszero z = false -> - M < dexp x + dexp z < M ->
  exists r, mul c rmem scratch x z = Some r /\ normal c r /\ iszero r = false /\ dneg r = xorb (dneg x) (dneg z) /\
    (isone_sign_neutral c z = true ->
       (Qabs (value c r) == if isone_sign_neutral c x then Qabs (value c z) else Qabs (value c x))%Q) /\
    (isone_sign_neutral c z = false ->
       (Qabs (value c r) <= seen x * Qabs (value c z))%Q /\ (seen x * Qabs (value c z) < Qabs (value c r) + ulp c r)%Q).
Proof using Hc.
  intros Hm Hp Nx Nz Zx Zz He. pose proof (max_exp10_bounds c) as (HM & HM2 & HM3).
  assert (HE : 2 ^ (E - 1) <= 2 ^ E) by (apply Z.pow_le_mono_r; pose proof (E_ge8 c); lia).
  assert (Sn : forall w b, normal c w -> (Qabs (value c (set_neg w b)) == Qabs (value c w))%Q).
  { intros w b Nw. rewrite (value_set_neg c Hc w b Nw), Qabs_Qmult. destruct (xorb b (dneg w)); unfold Qabs at 1; cbn; ring. }
  assert (Up : forall w, normal c w -> (0 < ulp c w)%Q).
  { intros w Nw. unfold ulp. apply p10_pos. }
  destruct (mul_nonzero_spec c Hc Hm rmem scratch x z Hp Nx Nz Zx Zz) as (r & R1 & R); [lia|].
  exists r. split; [exact R1|].
  destruct R as [A1 A2|A1 A2 A3|A1 A2 A3 A4 A5|A1 A2 A3 A4 A5|r A1 A2 A3 A4 A5 A6 A7 A8 A9 A10]; try lia.
  - split; [apply set_neg_normal; auto|]. split; [exact A2|]. split; [reflexivity|]. unfold seen. rewrite A1.
    split; intros U; [apply Sn; auto|]. rewrite (Sn z) by auto. pose proof (Up (set_neg z (xorb (dneg x) (dneg z))) ltac:(apply set_neg_normal; auto)).
    split; lra.
  - split; [apply set_neg_normal; auto|]. split; [exact A3|]. split; [reflexivity|]. rewrite A1. split; intros U; [apply Sn; auto|congruence].
  - split; [auto|]. split; [auto|]. split; [auto|]. split; intros U; [congruence|]. unfold seen. rewrite A1.
    destruct (mul_trunc c Hc Hm rmem scratch x z Hp Nx Nz Zx Zz) as (r2 & Q1 & _ & _ & (_ & T2 & T3)); auto.
    1-4: intros K; assert (isone_sign_neutral c x = true \/ isone_sign_neutral c z = true)
           by (rewrite (isone_iff c Hc x Nx Zx), (isone_iff c Hc z Nz Zz); tauto); destruct H; congruence.
    assert (r2 = r) by congruence. subst r2. rewrite Qabs_Qmult in T2, T3. auto.
Qed.

Lemma mul_mag_mono rm1 sc1 rm2 sc2 x y z a b : mul_ok c -> pool_ok c rm1 sc1 -> pool_ok c rm2 sc2 ->
  normal c x -> normal c y -> normal c z -> iszero x = false -> iszero y = false -> iszero z = false ->
  - M < dexp x + dexp z < M -> - M < dexp y + dexp z < M ->
  mul c rm1 sc1 x z = Some a -> mul c rm2 sc2 y z = Some b ->
  (Qabs (value c x) <= Qabs (value c y))%Q -> (Qabs (value c a) <= Qabs (value c b))%Q.
Proof using Hc.
  intros Hm Hp1 Hp2 Nx Ny Nz Zx Zy Zz Ex Ey Ra Rb H.
  destruct (mul_mag rm1 sc1 x z Hm Hp1 Nx Nz Zx Zz Ex) as (r1 & Q1 & N1 & O1 & D1 & F1 & G1).
  destruct (mul_mag rm2 sc2 y z Hm Hp2 Ny Nz Zy Zz Ey) as (r2 & Q2 & N2 & O2 & D2 & F2 & G2).
  assert (r1 = a) by congruence. assert (r2 = b) by congruence. subst r1 r2.
  destruct (isone_sign_neutral c z) eqn:Uz.
  - rewrite F1, F2 by auto. destruct (spec_range z Nz Uz) as (_ & S1 & S2).
    destruct (isone_sign_neutral c x) eqn:Ux, (isone_sign_neutral c y) eqn:Uy.
    + apply Qle_refl.
    + destruct (spec_range x Nx Ux) as (_ & T1 & T2). destruct (nonspec_range y Ny Zy Uy); lra.
    + destruct (spec_range y Ny Uy) as (_ & T1 & T2). destruct (nonspec_range x Nx Zx Ux); lra.
    + exact H.
  - destruct (G1 eq_refl) as [G1a G1b]. destruct (G2 eq_refl) as [G2a G2b].
    assert (K : (seen x * Qabs (value c z) <= seen y * Qabs (value c z))%Q).
    { apply Qmult_le_compat_r; [apply seen_mono; auto|apply Qabs_nonneg]. }
    (* move to positive objects *)
    assert (Sn : forall w, normal c w -> (value c (set_neg w false) == Qabs (value c w))%Q /\ ulp c (set_neg w false) = ulp c w).
    { intros w Nw. split; [|reflexivity]. rewrite (value_set_neg c Hc w false Nw). cbn [xorb].
      destruct (iszero w) eqn:Zw.
      - rewrite (value_zero c Hc w Nw Zw). destruct (dneg w); reflexivity.
      - pose proof (value_sign c Hc w Nw Zw) as Sw. destruct (dneg w); [rewrite Qabs_neg by lra|rewrite Qabs_pos by lra]; ring. }
    destruct (Sn a N1) as [V1 U1]. destruct (Sn b N2) as [V2 U2].
    assert (T : (1 * value c (set_neg a false) <= 1 * value c (set_neg b false))%Q).
    { pose proof (Qabs_nonneg (value c b)) as P.
      apply (trunc_mono c Hc 1 (set_neg a false) (set_neg b false) (seen x * Qabs (value c z)) (or_introl (Qeq_refl 1))
               (set_neg_normal c a false N1) (set_neg_normal c b false N2) O2).
      - rewrite V2. lra.
      - rewrite V1. lra.
      - rewrite U2, V2. lra. }
    rewrite V1, V2 in T.
    lra.
Qed.

(** [x <= y] and [0 <= z] give [x * z <= y * z]. *)
Theorem mul_mono rm1 sc1 rm2 sc2 x y z : mul_ok c -> pool_ok c rm1 sc1 -> pool_ok c rm2 sc2 ->
  normal c x -> normal c y -> normal c z -> - M < dexp z < M ->
  - M < dexp x + dexp z < M -> - M < dexp y + dexp z < M ->
  (value c x <= value c y)%Q ->
  exists a b, mul c rm1 sc1 x z = Some a /\ mul c rm2 sc2 y z = Some b /\ normal c a /\ normal c b /\
    ((0 <= value c z)%Q -> (value c a <= value c b)%Q) /\ ((value c z <= 0)%Q -> (value c b <= value c a)%Q).
Proof using Hc.
  intros Hm Hp1 Hp2 Nx Ny Nz Ez Ex Ey H.
  (* every product: value zero if a factor is zero, else the sign of the product *)
  assert (G : forall rm sc w, pool_ok c rm sc -> normal c w -> - M < dexp w + dexp z < M ->
     exists r, mul c rm sc w z = Some r /\ normal c r /\
       ((value c w == 0)%Q -> (value c r == 0)%Q) /\ ((value c z == 0)%Q -> (value c r == 0)%Q) /\
       ((0 < value c w)%Q -> (0 < value c z)%Q -> (0 < value c r)%Q) /\
       ((0 < value c w)%Q -> (value c z < 0)%Q -> (value c r < 0)%Q) /\
       ((value c w < 0)%Q -> (0 < value c z)%Q -> (value c r < 0)%Q) /\
       ((value c w < 0)%Q -> (value c z < 0)%Q -> (0 < value c r)%Q)).
  { intros rm sc w Hp Nw Ew.
    destruct (iszero w) eqn:Zw; [|destruct (iszero z) eqn:Zz].
    - destruct (mul_zero_full c rm sc w z Hc Hm Hp Nw Nz (or_introl Zw) Ez) as (r & R1 & Nr & Zr & _).
      pose proof (value_zero c Hc w Nw Zw) as W0. pose proof (value_zero c Hc r Nr Zr) as R0.
      exists r. split; [exact R1|]. split; [exact Nr|]. repeat split; intros; auto; lra.
    - destruct (mul_zero_full c rm sc w z Hc Hm Hp Nw Nz (or_intror Zz) Ez) as (r & R1 & Nr & Zr & _).
      pose proof (value_zero c Hc z Nz Zz) as W0. pose proof (value_zero c Hc r Nr Zr) as R0.
      exists r. split; [exact R1|]. split; [exact Nr|]. repeat split; intros; auto; lra.
    - destruct (mul_mag rm sc w z Hm Hp Nw Nz Zw Zz Ew) as (r & R1 & Nr & Zr & Dr & _).
      exists r. split; [exact R1|]. split; [exact Nr|].
      pose proof (value_sign c Hc w Nw Zw) as Sw. pose proof (value_sign c Hc z Nz Zz) as Sz. pose proof (value_sign c Hc r Nr Zr) as Sr.
      rewrite Dr in Sr. destruct (dneg w), (dneg z); cbn [xorb] in Sr; repeat split; intros; auto; lra. }
  destruct (G rm1 sc1 x Hp1 Nx Ex) as (a & A1 & A2 & A3 & A4 & A5 & A6 & A7 & A8).
  destruct (G rm2 sc2 y Hp2 Ny Ey) as (b & B1 & B2 & B3 & B4 & B5 & B6 & B7 & B8).
  exists a, b. split; [exact A1|]. split; [exact B1|]. split; [exact A2|]. split; [exact B2|].
  assert (nz : forall w, normal c w -> ~ (value c w == 0)%Q -> iszero w = false) by (intros; apply (zero_or c Hc); auto).
  assert (PP : (0 < value c x)%Q -> ~ (value c z == 0)%Q -> (Qabs (value c a) <= Qabs (value c b))%Q).
  { intros X Z. apply (mul_mag_mono rm1 sc1 rm2 sc2 x y z); auto.
    - apply nz; auto. lra.
    - apply nz; auto. lra.
    - rewrite !Qabs_pos by lra. exact H. }
  assert (MM : (value c y < 0)%Q -> ~ (value c z == 0)%Q -> (Qabs (value c b) <= Qabs (value c a))%Q).
  { intros Y Z. apply (mul_mag_mono rm2 sc2 rm1 sc1 y x z); auto.
    - apply nz; auto. lra.
    - apply nz; auto. lra.
    - rewrite !Qabs_neg by lra. lra. }
  assert (AB : forall q, (0 < q)%Q -> (Qabs q == q)%Q) by (intros; apply Qabs_pos; lra).
  assert (AN : forall q, (q < 0)%Q -> (Qabs q == - q)%Q) by (intros; apply Qabs_neg; lra).
  split; intros Z.
  - destruct (Q_dec 0 (value c z)) as [[Z1|Z1]|Z1]; [|lra|rewrite A4, B4 by (rewrite <- Z1; reflexivity); lra].
    destruct (Q_dec 0 (value c x)) as [[X|X]|X].
    + assert (Y : (0 < value c y)%Q) by lra. specialize (PP X ltac:(lra)). specialize (A5 X Z1). specialize (B5 Y Z1).
      rewrite !AB in PP by auto. exact PP.
    + specialize (A7 X Z1). destruct (Q_dec 0 (value c y)) as [[Y|Y]|Y].
      * specialize (B5 Y Z1). lra.
      * specialize (B7 Y Z1). specialize (MM Y ltac:(lra)). rewrite !AN in MM by auto. lra.
      * rewrite (B3 (Qeq_sym _ _ Y)). lra.
    + rewrite (A3 (Qeq_sym _ _ X)). destruct (Q_dec 0 (value c y)) as [[Y|Y]|Y]; [specialize (B5 Y Z1); lra|lra|].
      rewrite (B3 (Qeq_sym _ _ Y)). lra.
  - destruct (Q_dec 0 (value c z)) as [[Z1|Z1]|Z1]; [lra| |rewrite A4, B4 by (rewrite <- Z1; reflexivity); lra].
    destruct (Q_dec 0 (value c x)) as [[X|X]|X].
    + assert (Y : (0 < value c y)%Q) by lra. specialize (PP X ltac:(lra)). specialize (A6 X Z1). specialize (B6 Y Z1).
      rewrite !AN in PP by auto. lra.
    + specialize (A8 X Z1). destruct (Q_dec 0 (value c y)) as [[Y|Y]|Y].
      * specialize (B6 Y Z1). lra.
      * specialize (B8 Y Z1). specialize (MM Y ltac:(lra)). rewrite !AB in MM by auto. lra.
      * rewrite (B3 (Qeq_sym _ _ Y)). lra.
    + rewrite (A3 (Qeq_sym _ _ X)). destruct (Q_dec 0 (value c y)) as [[Y|Y]|Y]; [specialize (B6 Y Z1); lra|lra|].
      rewrite (B3 (Qeq_sym _ _ Y)). lra.
Qed.
End MU.
