(** Cmp_proofs.v - comparison is the numeric order; multiplication commutes. *)
From Verif Require Export Mul_proofs.
From Coq Require Import Lqa.
Local Open Scope Z_scope.

Lemma Qcompare_sc a b F : (inject_Z a * p10 F ?= inject_Z b * p10 F)%Q = (a ?= b).
Proof.
  destruct (Z.compare_spec a b) as [H|H|H].
  - subst. apply Qeq_alt. reflexivity.
  - apply Qlt_alt. apply sc_lt. auto.
  - apply Qgt_alt. apply sc_lt. auto.
Qed.

Lemma Qc_lt a b : (a < b)%Q -> (a ?= b)%Q = Lt.
Proof. intros H. apply (proj1 (Qlt_alt a b)). auto. Qed.
Lemma Qc_gt a b : (b < a)%Q -> (a ?= b)%Q = Gt.
Proof. intros H. apply (proj1 (Qgt_alt a b)). auto. Qed.
Lemma Qc_eq a b : (a == b)%Q -> (a ?= b)%Q = Eq.
Proof. intros H. apply (proj1 (Qeq_alt a b)). auto. Qed.

Section C.
Variable c : cfg.
Notation L := (c_limb c).
Notation B := (mask L).
Notation V := (limbs_value B).
Notation P n := (B ^ Z.of_nat n).
Notation E := (ebits (c_expo c)).
Notation n := (nel c).
Hypothesis Hc : cfg_ok c.
Let HB : 0 < B := mask_pos L.

Definition cmpZ (o : comparison) : Z := match o with Lt => -1 | Eq => 0 | Gt => 1 end.

Lemma value_sign x : normal c x -> iszero x = false ->
  if dneg x then (value c x < 0)%Q else (0 < value c x)%Q.
Proof.
  intros Hx Zx. destruct (normal_facts c Hc x Hx) as (Lx & _ & _ & _ & _ & _ & Nx & _). specialize (Nx Zx).
  pose proof (value_low c x Lx) as HV.
  destruct (dneg x); cbn [sgn] in HV; rewrite HV; setoid_replace 0%Q with (inject_Z 0 * p10 (low c (dexp x)))%Q by ring;
    apply sc_lt; lia.
Qed.

Theorem cmp_spec x v : normal c x -> normal c v -> cmp x v = cmpZ (value c x ?= value c v)%Q.
Proof.
  intros Hx Hv. unfold cmp.
  destruct (iszero x) eqn:Zx.
  { pose proof (value_zero c Hc x Hx Zx) as V0. destruct (iszero v) eqn:Zv.
    - pose proof (value_zero c Hc v Hv Zv) as V1. rewrite V0, V1. reflexivity.
    - pose proof (value_sign v Hv Zv) as Sv. rewrite V0. destruct (dneg v).
      + rewrite (Qc_gt _ _ Sv). reflexivity.
      + rewrite (Qc_lt _ _ Sv). reflexivity. }
  pose proof (value_sign x Hx Zx) as Sx.
  destruct (iszero v) eqn:Zv.
  { pose proof (value_zero c Hc v Hv Zv) as V1. rewrite V1. destruct (dneg x).
    - rewrite (Qc_lt _ _ Sx). reflexivity.
    - rewrite (Qc_gt _ _ Sx). reflexivity. }
  pose proof (value_sign v Hv Zv) as Sv.
  destruct (eqb (dneg x) (dneg v)) eqn:Es; cbn [negb].
  2:{ destruct (dneg x), (dneg v); cbn in Es; try discriminate.
      - assert (H : (value c x < value c v)%Q) by lra. rewrite (Qc_lt _ _ H). reflexivity.
      - assert (H : (value c v < value c x)%Q) by lra. rewrite (Qc_gt _ _ H). reflexivity. }
  apply eqb_prop in Es.
  destruct (normal_facts c Hc x Hx) as (Lx & Ox & _). destruct (normal_facts c Hc v Hv) as (Lv & Ov & _).
  destruct (dexp x =? dexp v) eqn:Ee; cbn [negb].
  - rewrite (compare_ranges_spec L) by (auto; lia). rewrite !value_low by auto.
    assert (He : dexp x = dexp v) by lia. rewrite He, Es, Qcompare_sc.
    destruct (dneg v); cbn [sgn negb].
    + destruct (Z.compare_spec (-1 * V (data x)) (-1 * V (data v))), (Z.compare_spec (V (data x)) (V (data v)));
        cbn [cmpZ]; lia.
    + rewrite !Z.mul_1_l. destruct (V (data x) ?= V (data v)); reflexivity.
  - destruct (value_bracket c Hc x Hx Zx) as [X1 X2]. destruct (value_bracket c Hc v Hv Zv) as [W1 W2].
    destruct (normal_exp c x Hx) as [k1 K1]. destruct (normal_exp c v Hv) as [k2 K2]. pose proof (edc_pos c).
    destruct (dexp x <? dexp v) eqn:Elt.
    + assert (Hm : (Qabs (value c x) < Qabs (value c v))%Q).
      { apply Qlt_le_trans with (p10 (dexp x + edc c)); auto. apply Qle_trans with (p10 (dexp v)); auto.
        apply (proj2 (p10_le _ _)). rewrite K1, K2 in *. assert (k1 < k2) by nia. nia. }
      rewrite Es in *. destruct (dneg v).
      * rewrite !Qabs_neg in Hm by lra. assert (H0 : (value c v < value c x)%Q) by lra.
        rewrite (Qc_gt _ _ H0). reflexivity.
      * rewrite !Qabs_pos in Hm by lra. assert (H0 : (value c x < value c v)%Q) by lra.
        rewrite (Qc_lt _ _ H0). reflexivity.
    + assert (Hm : (Qabs (value c v) < Qabs (value c x))%Q).
      { apply Qlt_le_trans with (p10 (dexp v + edc c)); auto. apply Qle_trans with (p10 (dexp x)); auto.
        apply (proj2 (p10_le _ _)). rewrite K1, K2 in *. assert (k2 < k1) by nia. nia. }
      rewrite Es in *. destruct (dneg v).
      * rewrite !Qabs_neg in Hm by lra. assert (H0 : (value c x < value c v)%Q) by lra.
        rewrite (Qc_lt _ _ H0). reflexivity.
      * rewrite !Qabs_pos in Hm by lra. assert (H0 : (value c v < value c x)%Q) by lra.
        rewrite (Qc_gt _ _ H0). reflexivity.
Qed.

Lemma ops_spec x v : normal c x -> normal c v ->
  (op_lt x v = true <-> (value c x < value c v)%Q) /\
  (op_le x v = true <-> (value c x <= value c v)%Q) /\
  (op_eq x v = true <-> (value c x == value c v)%Q) /\
  (op_ne x v = true <-> ~ (value c x == value c v)%Q) /\
  (op_ge x v = true <-> (value c v <= value c x)%Q) /\
  (op_gt x v = true <-> (value c v < value c x)%Q).
Proof.
  intros Hx Hv. unfold op_lt, op_le, op_eq, op_ne, op_ge, op_gt. rewrite (cmp_spec x v Hx Hv).
  destruct (Qcompare_spec (value c x) (value c v)) as [H|H|H]; cbn [cmpZ Z.ltb Z.leb Z.eqb Z.geb Z.gtb Z.compare negb].
  - repeat split; intros; try discriminate; try lra; try reflexivity; exfalso; auto; lra.
  - repeat split; intros; try discriminate; try lra; try reflexivity; exfalso; lra.
  - repeat split; intros; try discriminate; try lra; try reflexivity; exfalso; lra.
Qed.

(** Representations are unique: equal values of non-zero normalised objects are the same object. *)
Lemma value_unique x v : normal c x -> normal c v -> iszero x = false ->
  (value c x == value c v)%Q -> x = v.
Proof.
  intros Hx Hv Zx Heq. pose proof (cmp_spec x v Hx Hv) as Hcmp.
  assert (Zv : iszero v = false).
  { destruct (iszero v) eqn:Zv; auto. exfalso. apply (value_nonzero c Hc x Hx Zx). rewrite Heq. apply value_zero; auto. }
  rewrite (Qc_eq _ _ Heq) in Hcmp. cbn [cmpZ] in Hcmp.
  unfold cmp in Hcmp. rewrite Zx, Zv in Hcmp.
  destruct (eqb (dneg x) (dneg v)) eqn:Es; cbn [negb] in Hcmp; [|destruct (dneg x); discriminate].
  apply eqb_prop in Es.
  destruct (dexp x =? dexp v) eqn:Ee; cbn [negb] in Hcmp; [|destruct (dexp x <? dexp v), (dneg x); discriminate].
  destruct (normal_facts c Hc x Hx) as (Lx & Ox & Px & _). destruct (normal_facts c Hc v Hv) as (Lv & Ov & Pv & _).
  rewrite (compare_ranges_spec L) in Hcmp by (auto; lia).
  apply (dec_eq c); auto; try lia; try congruence.
  destruct (Z.compare_spec (V (data x)) (V (data v))); auto; destruct (dneg x); discriminate.
Qed.

Hypothesis Hm : mul_ok c.

Lemma mul_main_unique x v z1 z2 : normal c z1 -> normal c z2 -> iszero z1 = false -> iszero z2 = false ->
  dneg z1 = dneg z2 -> 0 <= V (data x) * V (data v) ->
  V (data z1) = V (data x) * V (data v) / 10 ^ (low c (dexp z1) - (low c (dexp x) + low c (dexp v))) ->
  V (data z2) = V (data x) * V (data v) / 10 ^ (low c (dexp z2) - (low c (dexp x) + low c (dexp v))) ->
  (dexp z1 = dexp x + dexp v \/ dexp z1 = dexp x + dexp v + edc c) ->
  (dexp z2 = dexp x + dexp v \/ dexp z2 = dexp x + dexp v + edc c) -> z1 = z2.
Proof.
  intros H1 H2 Z1 Z2 Hs HT V1 V2 E1 E2.
  pose proof (nel_ge4 c Hc) as Hn4. pose proof (edc_pos c) as He.
  destruct (normal_facts c Hc z1 H1) as (L1 & O1 & P1 & _). destruct (normal_facts c Hc z2 H2) as (L2 & O2 & P2 & _).
  assert (N1 : nth 0 (data z1) 0 <> 0) by (unfold iszero in Z1; lia).
  assert (N2 : nth 0 (data z2) 0 <> 0) by (unfold iszero in Z2; lia).
  pose proof (lead_range c _ L1 O1 N1) as R1. pose proof (lead_range c _ L2 O2 N2) as R2.
  set (T := V (data x) * V (data v)) in *. set (F := low c (dexp x) + low c (dexp v)) in *.
  assert (HPn : P n = B * P (n - 1)) by (rewrite <- pow_succ_nat; do 2 f_equal; lia).
  assert (HF : forall e, e = dexp x + dexp v \/ e = dexp x + dexp v + edc c -> 0 <= low c e - F).
  { intros e [-> | ->]; unfold F, low; nia. }
  assert (Key : forall e, e = dexp x + dexp v -> T / 10 ^ (low c (e + edc c) - F) = T / 10 ^ (low c e - F) / B).
  { intros e He'. rewrite Z.div_div by (try apply Z.pow_pos_nonneg; try (pose proof (Z.pow_pos_nonneg 10 (low c e - F)); pose proof (HF e); lia); auto; try lia).
    f_equal. rewrite mask_pow. change (ed L) with (edc c). rewrite <- Z.pow_add_r; [f_equal; unfold low; lia|apply HF; auto|lia]. }
  assert (dexp z1 = dexp z2).
  { destruct E1 as [E1|E1], E2 as [E2|E2]; try lia; exfalso.
    - rewrite E2 in V2. rewrite Key in V2 by auto. rewrite <- E1 in V2. rewrite <- V1 in V2.
      assert (V (data z1) / B < P (n - 1)) by (apply Z.div_lt_upper_bound; lia). lia.
    - rewrite E1 in V1. rewrite Key in V1 by auto. rewrite <- E2 in V1. rewrite <- V2 in V1.
      assert (V (data z2) / B < P (n - 1)) by (apply Z.div_lt_upper_bound; lia). lia. }
  apply (dec_eq c); auto; try congruence.
Qed.

Theorem mul_comm rmem scratch x v : pool_ok c rmem scratch -> normal c x -> normal c v ->
  iszero x = false -> iszero v = false -> - 2 ^ E < dexp x + dexp v ->
  ~ is_nines c x -> ~ is_nines c v ->
  mul c rmem scratch x v = mul c rmem scratch v x.
Proof.
  intros Hp Hx Hv Zx Zv Hs Nx Nv.
  destruct (mul_nonzero_spec c Hc Hm rmem scratch x v Hp Hx Hv Zx Zv Hs) as (z1 & E1 & R1).
  destruct (mul_nonzero_spec c Hc Hm rmem scratch v x Hp Hv Hx Zv Zx) as (z2 & E2 & R2); [lia|].
  rewrite E1, E2. f_equal. clear E1 E2.
  assert (Both : isone_sign_neutral c x = true -> isone_sign_neutral c v = true ->
     set_neg v (xorb (dneg x) (dneg v)) = set_neg x (xorb (dneg v) (dneg x))).
  { intros O1 O2. apply isone_iff in O1, O2; auto.
    assert (U1 : is_one c x) by tauto. assert (U2 : is_one c v) by tauto. unfold is_one in U1, U2.
    assert (VA : forall y b, normal c y -> (Qabs (value c (set_neg y b)) == Qabs (value c y))%Q).
    { intros y b Hy. destruct (normal_facts c Hc y Hy) as (Ly & _). rewrite !value_low by auto. cbn [set_neg data dexp dneg].
      rewrite !sc_abs. destruct b, (dneg y); cbn [sgn]; rewrite !Z.abs_mul; reflexivity. }
    rewrite (xorb_comm (dneg v)). set (s := xorb _ _). 
    symmetry. apply value_unique; [apply set_neg_normal; auto|apply set_neg_normal; auto|auto|].
    pose proof (VA x s Hx) as A1. pose proof (VA v s Hv) as A2. rewrite U1 in A1. rewrite U2 in A2.
    pose proof (value_sign (set_neg x s) (set_neg_normal c x s Hx) Zx) as S1.
    pose proof (value_sign (set_neg v s) (set_neg_normal c v s Hv) Zv) as S2. cbn [set_neg dneg] in S1, S2.
    fold (set_neg x s) in S1. fold (set_neg v s) in S2.
    destruct s.
    - rewrite Qabs_neg in A1, A2 by (apply Qlt_le_weak; auto). lra.
    - rewrite Qabs_pos in A1, A2 by (apply Qlt_le_weak; auto). lra. }
  assert (HT : 0 <= V (data x) * V (data v)).
  { pose proof (value_range_nel c Hc x Hx). pose proof (value_range_nel c Hc v Hv). nia. }
  assert (Xc : xorb (dneg v) (dneg x) = xorb (dneg x) (dneg v)) by apply xorb_comm.
  pose proof (max_exp10_bounds c) as (HM & _).
  destruct R1 as [A1 A2|A1 A2 A3|A1 A2 A3 A4 A5|A1 A2 A3 A4 A5|z1 A1 A2 A3 A4 A5 A6 A7 A8 A9 A10];
  destruct R2 as [B1 B2|B1 B2 B3|B1 B2 B3 B4 B5|B1 B2 B3 B4 B5|z2 B1 B2 B3 B4 B5 B6 B7 B8 B9 B10]; try congruence; try lia.
  - apply Both; auto.
  - apply (mul_main_unique x v); auto; try congruence.
    + rewrite B9. f_equal; [ring|f_equal; ring].
    + destruct B10 as [-> | ->]; [left|right]; ring.
Qed.

End C.
