(** Laws_proofs.v - user-level corollaries: exactness when representable, relative error bounds. *)
From Verif Require Export Misc_proofs.
From Coq Require Import Lqa.
Local Open Scope Z_scope.

Section W.
Variable c : cfg.
Notation L := (c_limb c).
Notation B := (mask L).
Notation V := (limbs_value B).
Notation P n := (B ^ Z.of_nat n).
Notation E := (ebits (c_expo c)).
Notation n := (nel c).
Hypothesis Hc : cfg_ok c.
Let HB : 0 < B := mask_pos L.

(** A truncated value is exact whenever the true result is a multiple of the last stored unit. *)
Lemma truncates_multiple z q k : length (data z) = n -> digits_ok B (data z) -> truncates c z q ->
  (q == inject_Z k * ulp c z)%Q -> (value c z == q)%Q.
Proof.
  intros Hl Ho (T1 & T2 & T3) Hq. rewrite Hq in *. rewrite (ulp_low c z Hl) in *. rewrite (value_low c z Hl) in *.
  set (F := low c (dexp z)) in *. set (m := sgn (dneg z) * V (data z)) in *.
  setoid_replace (Qabs (inject_Z m * p10 F) + p10 F)%Q with (inject_Z (Z.abs m + 1) * p10 F)%Q in T3.
  2:{ rewrite sc_abs, inject_Z_plus. change (inject_Z 1) with 1%Q. ring. }
  rewrite !sc_abs in T2. rewrite sc_abs in T3. apply sc_le in T2. apply sc_lt in T3.
  apply sc_eq. assert (HA : Z.abs m = Z.abs k) by lia.
  assert (HP : 0 <= k * m).
  { setoid_replace (inject_Z k * p10 F * (inject_Z m * p10 F))%Q with (inject_Z (k * m) * p10 (F + F))%Q in T1
      by (rewrite p10_add, inject_Z_mult; ring).
    setoid_replace 0%Q with (inject_Z 0 * p10 (F + F))%Q in T1 by ring. apply sc_le in T1. auto. }
  destruct (Z.eq_dec k 0) as [H0|H0]; [subst; lia|]. nia.
Qed.

Lemma normal_ok z : normal c z -> length (data z) = n /\ digits_ok B (data z) /\ (iszero z = false -> nth 0 (data z) 0 <> 0).
Proof.
  intros Hz. destruct (normal_facts c Hc z Hz) as (H1 & H2 & _). split; [auto|]. split; [auto|].
  unfold iszero. lia.
Qed.

Lemma add_same_all x v : normal c x -> normal c v -> iszero x = false -> iszero v = false ->
  dneg v = dneg x -> exp_safe c (Z.max (dexp x) (dexp v)) ->
  let z := add c x v in let s := (value c x + value c v)%Q in
  truncates c z s /\
  (forall k, (s == inject_Z k * ulp c z)%Q -> (value c z == s)%Q) /\
  (Qabs (value c z - s) < Qabs s * p10 (- (c_digits10 c + 2 * edc c)))%Q.
Proof.
  intros Hx Hv Zx Zv Hs Hsafe. cbv zeta.
  pose proof (add_same_trunc c Hc x v Hx Hv Zx Zv Hs Hsafe) as T.
  destruct (add_same_int c Hc x v Hx Hv Zx Zv Hs) as (A1 & A2 & A3 & _).
  split; [auto|]. split.
  - intros k Hk. apply (truncates_multiple _ _ k); auto.
  - apply (truncates_rel c Hc); auto.
Qed.

Lemma add_same_carry x v : normal c x -> normal c v -> iszero x = false -> iszero v = false ->
  dneg v = dneg x -> exp_safe c (Z.max (dexp x) (dexp v)) -> dexp x = dexp v ->
  dexp (add c x v) = dexp x -> (value c (add c x v) == value c x + value c v)%Q.
Proof.
  intros Hx Hv Zx Zv Hs Hsafe He Hz.
  destruct (add_same_all x v Hx Hv Zx Zv Hs Hsafe) as (_ & T & _).
  destruct (normal_ok x Hx) as (Lx & _). destruct (normal_ok v Hv) as (Lv & _).
  destruct (add_same_int c Hc x v Hx Hv Zx Zv Hs) as (A1 & _).
  apply (T (sgn (dneg x) * V (data x) + sgn (dneg v) * V (data v))).
  rewrite (ulp_low c _ A1), Hz, (value_low c x Lx), (value_low c v Lv), <- He, sc_add. reflexivity.
Qed.

Lemma mul_trunc_all rmem scratch x v : mul_ok c -> pool_ok c rmem scratch -> normal c x -> normal c v ->
  iszero x = false -> iszero v = false ->
  ~ is_one c x -> ~ is_nines c x -> ~ is_one c v -> ~ is_nines c v ->
  - max_exp10_of (c_expo c) < dexp x + dexp v < max_exp10_of (c_expo c) ->
  exists z, mul c rmem scratch x v = Some z /\ normal c z /\
    truncates c z (value c x * value c v) /\
    (forall k, (value c x * value c v == inject_Z k * ulp c z)%Q -> (value c z == value c x * value c v)%Q) /\
    (Qabs (value c z - value c x * value c v) < Qabs (value c x * value c v) * p10 (- (c_digits10 c + 2 * edc c)))%Q.
Proof.
  intros Hm Hp Hx Hv Zx Zv H1 H2 H3 H4 H5.
  destruct (mul_trunc c Hc Hm rmem scratch x v) as (z & E1 & E2 & E3 & E4); auto.
  destruct (normal_ok z E2) as (A1 & A2 & A3).
  exists z. split; [auto|]. split; [auto|]. split; [auto|]. split.
  - intros k Hk. apply (truncates_multiple _ _ k); auto.
  - apply (truncates_rel c Hc); auto.
Qed.

(** All products, including those with a factor one or 0.99...9, have small relative error. *)
Lemma nines_rel x v : normal c x -> is_nines c x -> 
  (Qabs (value c v * 1 - Qabs (value c x) * value c v) == Qabs (value c v) * p10 (- (edc c * elem_number c)))%Q.
Proof.
  intros Hx Nx. unfold is_nines in Nx. rewrite Nx.
  setoid_replace (value c v * 1 - (1 - p10 (- (edc c * elem_number c))) * value c v)%Q with (value c v * p10 (- (edc c * elem_number c)))%Q by ring.
  rewrite Qabs_Qmult. rewrite (Qabs_pos (p10 _)) by (apply Qlt_le_weak, p10_pos). reflexivity.
Qed.

Lemma elem_digits : c_digits10 c + 3 * edc c <= edc c * elem_number c.
Proof.
  unfold elem_number. change (ed L) with (edc c). pose proof (edc_pos c) as He. set (e := edc c) in *.
  pose proof (Z.div_mod (c_digits10 c) e ltac:(lia)) as D1. pose proof (Z.mod_pos_bound (c_digits10 c) e ltac:(lia)) as D2.
  destruct (c_digits10 c mod e =? 0) eqn:E0; nia.
Qed.

Lemma value_set_neg x s : normal c x -> (value c (set_neg x s) == (if xorb s (dneg x) then -(1) else 1) * value c x)%Q.
Proof.
  intros Hx. destruct (normal_ok x Hx) as (Lx & _). rewrite !value_low by auto. cbn [set_neg data dexp dneg].
  rewrite !inject_Z_mult. destruct s, (dneg x); cbn [xorb sgn]; change (inject_Z (-1)) with (-(1))%Q; change (inject_Z 1) with 1%Q; ring.
Qed.

Lemma mul_rel rmem scratch x v : mul_ok c -> pool_ok c rmem scratch -> normal c x -> normal c v ->
  iszero x = false -> iszero v = false ->
  - max_exp10_of (c_expo c) < dexp x + dexp v < max_exp10_of (c_expo c) ->
  exists z, mul c rmem scratch x v = Some z /\ normal c z /\ iszero z = false /\ dneg z = xorb (dneg x) (dneg v) /\
    (Qabs (value c z - value c x * value c v) < Qabs (value c x * value c v) * p10 (- (c_digits10 c + 2 * edc c)))%Q.
Proof.
  intros Hm Hp Hx Hv Zx Zv Hexp. pose proof (max_exp10_bounds c) as (HM & HM2 & _).
  assert (HE : 2 ^ (E - 1) <= 2 ^ E) by (apply Z.pow_le_mono_r; pose proof (E_ge8 c); lia).
  destruct (mul_nonzero_spec c Hc Hm rmem scratch x v Hp Hx Hv Zx Zv) as (z & E1 & R); [lia|].
  exists z. split; [auto|]. pose proof (edc_pos c) as He. pose proof elem_digits as Hed.
  (* one-or-nines factor: |w| multiplied by sign, relative error 0 or 10^-(ed*n) *)
  assert (Key : forall u w, normal c u -> normal c w -> iszero u = false -> iszero w = false ->
     isone_sign_neutral c u = true ->
     (Qabs (value c (set_neg w (xorb (dneg u) (dneg w))) - value c u * value c w) < Qabs (value c u * value c w) * p10 (- (c_digits10 c + 2 * edc c)))%Q).
  { intros u w Hu Hw Zu Zw U. rewrite (value_set_neg w _ Hw). rewrite xorb_assoc, xorb_nilpotent, xorb_false_r.
    pose proof (value_sign c Hc u Hu Zu) as Su. pose proof (value_nonzero c Hc w Hw Zw) as Nw.
    assert (Hu0 : ((if dneg u then - (1) else 1) * Qabs (value c u) == value c u)%Q).
    { destruct (dneg u); [rewrite Qabs_neg by lra|rewrite Qabs_pos by lra]; ring. }
    set (t := (if dneg u then - (1) else 1)%Q) in *.
    assert (Ht : (Qabs t == 1)%Q) by (unfold t; destruct (dneg u); reflexivity).
    assert (Hw0 : (0 < Qabs (value c w))%Q).
    { destruct (Qlt_le_dec (value c w) 0) as [H|H]; [rewrite Qabs_neg by lra; lra|].
      rewrite Qabs_pos by lra. destruct (Qeq_dec (value c w) 0); [tauto|lra]. }
    pose proof (p10_pos (- (c_digits10 c + 2 * edc c))) as Hp0.
    rewrite <- Hu0. setoid_replace (t * value c w - t * Qabs (value c u) * value c w)%Q with (t * (value c w * 1 - Qabs (value c u) * value c w))%Q by ring.
    rewrite !Qabs_Qmult, Ht, !Qmult_1_l. rewrite (Qabs_pos (Qabs _)) by apply Qabs_nonneg.
    apply isone_iff in U; auto. destruct U as [U|U].
    - unfold is_one in U. rewrite U. setoid_replace (value c w * 1 - 1 * value c w)%Q with 0%Q by ring. change (Qabs 0) with 0%Q.
      rewrite Qmult_1_l. apply Qmult_lt_0_compat; auto.
    - rewrite (nines_rel u w Hu U). unfold is_nines in U. rewrite U.
      assert (A1 : (p10 (- (edc c * elem_number c)) * 10 <= p10 (- (c_digits10 c + 2 * edc c)))%Q).
      { change 10%Q with (inject_Z (10 ^ 1)). rewrite <- p10_Z by lia. rewrite <- p10_add. apply (proj2 (p10_le _ _)). lia. }
      assert (A2 : (p10 (- (edc c * elem_number c)) * 10 <= 1)%Q).
      { change 10%Q with (inject_Z (10 ^ 1)). rewrite <- p10_Z, <- p10_add by lia. rewrite <- p10_0. apply (proj2 (p10_le _ _)). destruct Hc. lia. }
      pose proof (p10_pos (- (edc c * elem_number c))) as Hq.
      set (a := p10 (- (edc c * elem_number c))) in *. set (b := p10 (- (c_digits10 c + 2 * edc c))) in *.
      setoid_replace ((1 - a) * Qabs (value c w) * b)%Q with (Qabs (value c w) * ((1 - a) * b))%Q by ring.
      apply Qmult_lt_l; auto. apply Qlt_le_trans with ((9#10) * b)%Q; [lra|]. apply Qmult_le_compat_r; lra. }
  inversion R as [A1 A2|A1 A2 A3|A1 A2 A3 A4 A5|A1 A2 A3 A4 A5|z1 A1 A2 A3 A4 A5 A6 A7 A8 A9 A10]; subst.
  - split; [apply set_neg_normal; auto|]. split; [auto|]. split; [reflexivity|]. apply Key; auto.
  - split; [apply set_neg_normal; auto|]. split; [auto|]. split; [reflexivity|]. rewrite xorb_comm.
    setoid_replace (value c x * value c v)%Q with (value c v * value c x)%Q by ring. apply Key; auto.
  - lia.
  - lia.
  - split; [auto|]. split; [auto|]. split; [auto|].
    assert (N1 : forall u, isone_sign_neutral c u = false -> normal c u -> iszero u = false -> ~ is_one c u /\ ~ is_nines c u).
    { intros u U Hu Zu. split; intros H; assert (isone_sign_neutral c u = true) by (apply isone_iff; auto); congruence. }
    destruct (N1 x A1 Hx Zx). destruct (N1 v A2 Hv Zv).
    destruct (mul_trunc_all rmem scratch x v) as (z2 & F1 & _ & _ & _ & F2); auto.
    rewrite F1 in E1. injection E1 as ->. auto.
Qed.

(** Division by a small integer, relative to the true quotient's magnitude. *)
Lemma div_ull_rel bd x u : normal c x -> iszero x = false -> 1 < u < 10 ^ edc c ->
  - max_exp10_of (c_expo c) <= dexp x - edc c ->
  exists z, div_ull c bd x u = Some z /\ normal c z /\ iszero z = false /\
    (Qabs (value c z - value c x / inject_Z u) < Qabs (value c z) * p10 (- c_digits10 c))%Q.
Proof.
  intros Hx Zx Hu Hlo. destruct (div_ull_spec c Hc bd x u Hx Zx Hu Hlo) as (z & E1 & E2 & E3 & _ & E5).
  exists z. split; [auto|]. split; [auto|]. split; [auto|].
  eapply Qlt_le_trans; [exact E5|]. destruct (normal_ok z E2) as (A1 & A2 & A3).
  pose proof (ulp_rel c Hc z A1 A2 (A3 E3)) as U.
  apply Qle_trans with (Qabs (value c z) * p10 (- (c_digits10 c + 2 * edc c)) * p10 (2 * edc c))%Q.
  - apply Qmult_le_compat_r; [auto|apply Qlt_le_weak, p10_pos].
  - rewrite <- Qmult_assoc, <- p10_add. replace (- (c_digits10 c + 2 * edc c) + 2 * edc c) with (- c_digits10 c) by ring. apply Qle_refl.
Qed.

(** Subtraction is addition of the negation. *)
Lemma sub_as_add x v : normal c x -> normal c v -> iszero x = false -> iszero v = false ->
  exp_safe c (Z.max (dexp x) (dexp v)) ->
  (dneg x = negb (dneg v) -> truncates c (sub c x v) (value c x - value c v)) /\
  (dneg x = dneg v ->
     rounds_away c (sub c x v) (value c x - value c v) (p10 (low c (Z.max (dexp x) (dexp v)))) /\
     (dexp x = dexp v -> value c (sub c x v) == value c x - value c v)%Q).
Proof.
  intros Hx Hv Zx Zv Hs. unfold sub.
  assert (Hn : normal c (negate x)) by (apply negate_normal; auto).
  assert (Hnn : normal c (add c (negate x) v)) by (apply add_normal; auto).
  assert (Dn : dneg (negate x) = negb (dneg x)) by (unfold negate; rewrite Zx; auto).
  split; intros Hd.
  - assert (T : truncates c (add c (negate x) v) (value c (negate x) + value c v)).
    { apply add_same_trunc; auto; [rewrite iszero_negate; auto| |rewrite negate_exp; auto]. rewrite Dn, Hd, negb_involutive; auto. }
    eapply truncates_compat; [|apply truncates_opp; [auto|auto|exact T]]. rewrite (value_negate c Hc x Hx). ring.
  - destruct (add_diff_away c Hc (negate x) v) as [(T1 & T2 & T3) Te]; auto.
    { rewrite iszero_negate; auto. } { rewrite Dn, Hd, negb_involutive; auto. } { rewrite negate_exp; auto. }
    rewrite !negate_exp in *. rewrite (value_negate c Hc x Hx) in *.
    assert (Hq : (value c x - value c v == - (- value c x + value c v))%Q) by ring.
    split.
    + unfold rounds_away. rewrite (value_negate c Hc _ Hnn), Hq, !Qabs_opp.
      split; [setoid_replace (- (- value c x + value c v) * - value c (add c (negate x) v))%Q with ((- value c x + value c v) * value c (add c (negate x) v))%Q by ring; auto|auto].
    + intros He. rewrite (value_negate c Hc _ Hnn), Hq, (Te He). reflexivity.
Qed.

Lemma sub_self_doubling x : normal c x -> iszero x = false -> exp_safe c (dexp x) ->
  truncates c (sub_self c x) (2 * value c x)%Q.
Proof.
  intros Hx Zx Hs. unfold sub_self. cbv zeta.
  assert (Hn : normal c (negate x)) by (apply negate_normal; auto).
  assert (T : truncates c (add c (negate x) (negate x)) (value c (negate x) + value c (negate x))).
  { apply add_same_trunc; auto; try (rewrite iszero_negate; auto). rewrite Z.max_id, negate_exp; auto. }
  eapply truncates_compat; [|apply truncates_opp; [auto|apply add_normal; auto|exact T]].
  rewrite (value_negate c Hc x Hx). ring.
Qed.

End W.
