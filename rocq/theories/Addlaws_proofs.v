(** Addlaws_proofs.v - laws of addition and subtraction derived from Sum_proofs. *)
From Verif Require Export Sum_proofs.
From Coq Require Import Lqa.
Local Open Scope Z_scope.

Section S.
Variable c : cfg.
Notation L := (c_limb c).
Notation B := (mask L).
Notation V := (limbs_value B).
Notation P n := (B ^ Z.of_nat n).
Notation E := (ebits (c_expo c)).
Notation n := (nel c).
Hypothesis Hc : cfg_ok c.
Let HB : 0 < B := mask_pos L.

Lemma dec_eq x y : length (data x) = n -> length (data y) = n ->
  digits_ok B (data x) -> digits_ok B (data y) -> V (data x) = V (data y) ->
  dexp x = dexp y -> dneg x = dneg y -> dprec x = dprec y -> x = y.
Proof.
  intros Lx Ly Ox Oy HV He Hn Hp. destruct x as [dx ex nx px], y as [dy ey ny py]; cbn [data dexp dneg dprec] in *.
  assert (dx = dy) by (apply (limbs_value_inj B); auto; lia). congruence.
Qed.

Lemma lead_range d : length d = n -> digits_ok B d -> nth 0 d 0 <> 0 -> P (n - 1) <= V d < P n.
Proof.
  intros Hl Hok Hz. split.
  - destruct d as [|d0 d]; [cbn in Hz; lia|]. cbn [nth] in Hz. apply digits_ok_cons in Hok.
    cbn [limbs_value]. pose proof (limbs_value_bound B d HB (proj2 Hok)). cbn [length] in Hl.
    replace (length d) with (n - 1)%nat in * by lia. pose proof (pow_pos_nat B (n - 1) HB). nia.
  - pose proof (limbs_value_bound B d HB Hok). rewrite Hl in *. lia.
Qed.

Theorem add_comm x v : normal c x -> normal c v -> iszero x = false -> iszero v = false ->
  add c x v = add c v x.
Proof.
  intros Hx Hv Zx Zv. pose proof (nel_ge4 c Hc) as Hn4.
  destruct (eqb (dneg x) (dneg v)) eqn:Es.
  - apply eqb_prop in Es.
    destruct (add_same_int c Hc x v Hx Hv Zx Zv (eq_sym Es)) as (A1 & A2 & A3 & A4 & A5 & A6).
    destruct (add_same_int c Hc v x Hv Hx Zv Zx Es) as (B1 & B2 & B3 & B4 & B5 & B6).
    rewrite (Z.max_comm (dexp v)) in B6.
    rewrite (Z.add_comm (V (data v) / _)) in B6.
    set (S := V (data x) / _ + _) in *. set (e := Z.max _ _) in *.
    pose proof (lead_range _ A1 A2 A3) as RA. pose proof (lead_range _ B1 B2 B3) as RB.
    destruct A6 as [[A6 A7]|(A6 & A7 & A8)], B6 as [[B6 B7]|(B6 & B7 & B8)]; try lia; apply dec_eq; auto; congruence.
  - assert (Hs : dneg v = negb (dneg x)) by (destruct (dneg x), (dneg v); cbn in *; congruence).
    assert (Hs' : dneg x = negb (dneg v)) by (destruct (dneg x), (dneg v); cbn in *; congruence).
    destruct (add_diff_int c Hc x v Hx Hv Zx Zv Hs) as [A0 A1].
    destruct (add_diff_int c Hc v x Hv Hx Zv Zx Hs') as [B0 B1].
    rewrite (Z.max_comm (dexp v)) in B1.
    rewrite (Z.add_comm (sgn (dneg v) * _)) in B0, B1.
    set (D := sgn (dneg x) * _ + _) in *. set (e := Z.max _ _) in *.
    destruct (Z.eq_dec D 0) as [E0|E0]; [rewrite A0, B0; auto|].
    destruct (A1 E0) as (i & I0 & I1 & I2 & I3 & I4 & I5 & I6 & I7).
    destruct (B1 E0) as (j & J0 & J1 & J2 & J3 & J4 & J5 & J6 & J7).
    pose proof (lead_range _ I1 I2 I3) as RA. pose proof (lead_range _ J1 J2 J3) as RB.
    rewrite I6 in RA. rewrite J6 in RB.
    assert (Hmono : forall p q, (p < q)%nat -> B * P p <= P q).
    { intros p q Hpq. rewrite <- pow_succ_nat. apply Z.pow_le_mono_r; lia. }
    assert (HPn : P n = B * P (n - 1)) by (rewrite <- pow_succ_nat; do 2 f_equal; lia).
    assert (i = j).
    { destruct (Nat.lt_trichotomy i j) as [H|[H|H]]; auto; exfalso;
        pose proof (Hmono _ _ H); pose proof (pow_pos_nat B i HB); pose proof (pow_pos_nat B j HB); nia. }
    subst j. apply dec_eq; auto; congruence.
Qed.

(** x + 0 and 0 + x *)
Lemma add_zero_r x v : normal c x -> normal c v -> iszero v = true -> iszero x = false -> add c x v = x.
Proof. intros Hx Hv Zv Zx. unfold add. rewrite Zx, Zv. reflexivity. Qed.
Lemma add_zero_l x v : iszero x = true -> add c x v = v.
Proof. intros Zx. unfold add. rewrite Zx. reflexivity. Qed.
Lemma add_zero_value x v : normal c x -> normal c v -> (iszero x = true \/ iszero v = true) ->
  (value c (add c x v) == value c x + value c v)%Q.
Proof.
  intros Hx Hv H. destruct (iszero x) eqn:Zx.
  - rewrite add_zero_l, (value_zero c Hc x) by auto. ring.
  - destruct H as [H|H]; [discriminate|]. rewrite add_zero_r by auto. rewrite (value_zero c Hc v) by auto. ring.
Qed.

(** zero exactly when x = -y *)
Lemma add_zero_iff x v : normal c x -> normal c v -> exp_safe c (Z.max (dexp x) (dexp v)) ->
  (value c (add c x v) == 0)%Q <-> (value c x + value c v == 0)%Q.
Proof.
  intros Hx Hv Hsafe.
  destruct (iszero x) eqn:Zx; [rewrite add_zero_value by auto; tauto|].
  destruct (iszero v) eqn:Zv; [rewrite add_zero_value by auto; tauto|].
  destruct (eqb (dneg x) (dneg v)) eqn:Es.
  - apply eqb_prop in Es.
    destruct (add_same_int c Hc x v Hx Hv Zx Zv (eq_sym Es)) as (A1 & A2 & A3 & A4 & A5 & A6).
    assert (Za : iszero (add c x v) = false) by (unfold iszero; lia).
    pose proof (add_normal c Hc x v Hx Hv) as Hn.
    split; intros H; exfalso; [apply (value_nonzero c Hc _ Hn Za H)|].
    rewrite (isum_value c Hc) in H by auto.
    assert (H' : isum c x v = 0).
    { apply (sc_eq _ _ (low c (Z.min (dexp x) (dexp v)))). rewrite H. ring. }
    destruct (normal_facts c Hc x Hx) as (_ & _ & _ & _ & _ & _ & Nx & _). specialize (Nx Zx).
    destruct (normal_facts c Hc v Hv) as (_ & _ & _ & _ & _ & _ & Nv & _). specialize (Nv Zv).
    unfold isum in H'. rewrite Es in H'.
    pose proof (Z.pow_pos_nonneg 10 (dexp x - Z.min (dexp x) (dexp v)) ltac:(lia) ltac:(lia)).
    pose proof (Z.pow_pos_nonneg 10 (dexp v - Z.min (dexp x) (dexp v)) ltac:(lia) ltac:(lia)).
    destruct (dneg v); cbn [sgn] in H'; nia.
  - assert (Hs : dneg v = negb (dneg x)) by (destruct (dneg x), (dneg v); cbn in *; congruence).
    pose proof (add_diff_value c Hc x v Hx Hv Zx Zv Hs Hsafe) as HV.
    destruct (isum_diff c Hc x v Hx Hv Zx Zv Hs) as (I1 & I2 & I3). cbv zeta in *.
    rewrite HV, (isum_value c Hc) by auto.
    set (D := sgn (dneg x) * _ + _) in *. set (m := Z.min _ _) in *. set (e := Z.max _ _) in *.
    pose proof (Z.pow_pos_nonneg 10 (e - m) ltac:(lia) ltac:(lia)).
    setoid_replace 0%Q with (inject_Z 0 * p10 (low c m))%Q by ring. rewrite !sc_eq.
    split; intros H0.
    + assert (D = 0) by nia. subst. rewrite H1 in I2. cbn in I2. destruct (isum c x v); cbn in I2; congruence.
    + rewrite H0 in I2. cbn in I2. destruct D; cbn in I2; try congruence. lia.
Qed.

(** ulp against magnitude *)
Lemma ulp_rel z : length (data z) = n -> digits_ok B (data z) -> nth 0 (data z) 0 <> 0 ->
  (ulp c z <= Qabs (value c z) * p10 (- (c_digits10 c + 2 * edc c)))%Q.
Proof.
  intros Hl Hok Hz. pose proof (lead_range _ Hl Hok Hz) as R. pose proof (nel_ge4 c Hc) as Hn4.
  pose proof (pow_pos_nat B (n - 1) HB) as HP.
  rewrite (ulp_low c) by auto. rewrite value_low by auto. rewrite sc_abs, sgn_abs by lia.
  assert (Hd : c_digits10 c + 2 * edc c <= edc c * (Z.of_nat n - 1)).
  { rewrite (nel_Z c Hc). unfold elem_number, edc. set (e := ed L). pose proof (ed_pos L). fold e in H.
    pose proof (Z.div_mod (c_digits10 c) e ltac:(lia)). pose proof (Z.mod_pos_bound (c_digits10 c) e ltac:(lia)).
    destruct (c_digits10 c mod e =? 0) eqn:Em; nia. }
  set (w := low c (dexp z)). set (k := c_digits10 c + 2 * edc c) in *.
  assert (Hk : 0 <= k) by (destruct Hc; pose proof (edc_pos c); lia).
  assert (Hge : 10 ^ k <= V (data z)).
  { apply Z.le_trans with (P (n - 1)); [|lia]. rewrite Bpow by lia. apply Z.pow_le_mono_r; [lia|]. unfold edc in *. nia. }
  apply Qle_trans with (inject_Z (10 ^ k) * p10 w * p10 (- k))%Q.
  2:{ apply Qmult_le_compat_r; [apply sc_le; auto|apply Qlt_le_weak, p10_pos]. }
  apply Qle_lteq. right. rewrite <- p10_Z by lia. rewrite <- !p10_add. replace (k + w + - k) with w by lia. reflexivity.
Qed.

Lemma truncates_rel z q : length (data z) = n -> digits_ok B (data z) -> nth 0 (data z) 0 <> 0 -> truncates c z q ->
  (Qabs (value c z - q) < Qabs q * p10 (- (c_digits10 c + 2 * edc c)))%Q.
Proof.
  intros Hl Hok Hz (T1 & T2 & T3). pose proof (ulp_rel z Hl Hok Hz) as U.
  set (a := value c z) in *. set (k := p10 _) in *.
  assert (Hk : (0 <= k)%Q) by (apply Qlt_le_weak, p10_pos).
  assert (Hle : (Qabs a * k <= Qabs q * k)%Q) by (apply Qmult_le_compat_r; auto).
  assert (Hd : (Qabs (a - q) < ulp c z)%Q).
  { destruct (Qlt_le_dec q 0) as [Hq|Hq].
    - assert (Ha : (a <= 0)%Q).
      { apply Qnot_lt_le. intros Ha. apply (Qle_not_lt _ _ T1). 
        setoid_replace (q * a)%Q with (- ((- q) * a))%Q by ring. 
        apply (Qopp_lt_compat 0). apply Qmult_lt_0_compat; auto. apply (Qopp_lt_compat q 0) in Hq. exact Hq. }
      rewrite (Qabs_neg a) in T2, T3 by auto. rewrite (Qabs_neg q) in T2, T3 by (apply Qlt_le_weak; auto).
      rewrite Qabs_pos; [|clear -T2; lra]. clear -T3. lra.
    - destruct (Qlt_le_dec 0 q) as [Hq'|Hq'].
      + assert (Ha : (0 <= a)%Q).
        { apply Qnot_lt_le. intros Ha. apply (Qle_not_lt _ _ T1).
          setoid_replace (q * a)%Q with (- (q * - a))%Q by ring.
          apply (Qopp_lt_compat 0). apply Qmult_lt_0_compat; auto. apply (Qopp_lt_compat a 0) in Ha. exact Ha. }
        rewrite (Qabs_pos a) in T2, T3 by auto. rewrite (Qabs_pos q) in T2, T3 by auto.
        rewrite Qabs_neg; [|clear -T2; lra]. clear -T3. lra.
      + assert (Hq0 : (q == 0)%Q) by (apply Qle_antisym; auto).
        rewrite Hq0 in *. cbn [Qabs] in *. rewrite (Qabs_pos 0) in * by apply Qle_refl.
        assert (Ha0 : (Qabs a == 0)%Q) by (apply Qle_antisym; auto; apply Qabs_nonneg).
        setoid_replace (a - 0)%Q with a by ring. rewrite Ha0. pose proof (ulp_low c z Hl) as Hu. rewrite Hu. apply p10_pos. }
  lra.
Qed.

End S.
