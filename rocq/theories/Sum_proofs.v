(** Sum_proofs.v - operator+= and operator-= at full precision, in terms of values. *)
From Verif Require Export Value_proofs.
Local Open Scope Z_scope.

Section S.
Variable c : cfg.
Notation L := (c_limb c).
Notation B := (mask L).
Notation V := (limbs_value B).
Notation P n := (B ^ Z.of_nat n).
Notation E := (ebits (c_expo c)).
Notation n := (nel c).
Hypothesis Hc : cfg_ok c.
Let HB : 0 < B := mask_pos L.

Lemma normal_intro x : length (data x) = n -> digits_ok B (data x) -> nth 0 (data x) 0 <> 0 ->
  (edc c | dexp x) -> - 2 ^ (E - 1) <= dexp x < 2 ^ (E - 1) -> dprec x = n -> normal c x.
Proof.
  intros H1 H2 H3 H4 H5 H6. split; [auto|]. split; [apply ok_mask; auto|].
  split; [intros; exfalso; auto|]. auto.
Qed.

Lemma normal_exp x : normal c x -> exists k, dexp x = k * edc c.
Proof. intros (_ & _ & _ & [k Hk] & _). exists k; auto. Qed.

(** Offsets: the aligned difference of two exponents. *)
Definition sh (e f : Z) : Z := (Z.max e f - e) / edc c.

Lemma sh_pow x v : normal c x -> normal c v ->
  0 <= sh (dexp x) (dexp v) /\ B ^ sh (dexp x) (dexp v) = 10 ^ (Z.max (dexp x) (dexp v) - dexp x).
Proof.
  intros Hx Hv. destruct (normal_exp x Hx) as [k1 E1]. destruct (normal_exp v Hv) as [k2 E2].
  pose proof (edc_pos c). unfold sh. rewrite E1, E2.
  replace (Z.max (k1 * edc c) (k2 * edc c) - k1 * edc c) with ((Z.max k1 k2 - k1) * edc c).
  2:{ destruct (Z.max_spec k1 k2) as [[? ->]|[? ->]]; rewrite Z.mul_sub_distr_r; f_equal.
      - rewrite Z.max_r by nia; auto.
      - rewrite Z.max_l by nia; auto. }
  rewrite Z.div_mul by lia. split; [lia|]. rewrite Bpow by lia. f_equal. unfold edc. lia.
Qed.

(** The control flow of operator+= for two non-zero normalised values: far apart, or aligned. *)
Lemma add_cases x v : normal c x -> normal c v -> iszero x = false -> iszero v = false ->
  exists o, dexp x - dexp v = o * edc c /\
  ((Z.of_nat n <= o /\ add c x v = x) \/ (o <= - Z.of_nat n /\ add c x v = v) \/
   (Z.abs o < Z.of_nat n /\
    add c x v = if eqb (dneg x) (dneg v) then add_same_sign c x v n o else add_diff_sign c x v n o)).
Proof.
  intros Hx Hv Zx Zv. pose proof (edc_pos c) as He.
  destruct (normal_exp x Hx) as [k1 E1]. destruct (normal_exp v Hv) as [k2 E2].
  exists (k1 - k2). split; [lia|].
  destruct (ofs_spec c x v Hx Hv) as [Eo Oo]. pose proof (max_delta_spec c Hc) as Emd.
  pose proof (normal_facts c Hc x Hx) as (_ & _ & Px & _). pose proof (normal_facts c Hc v Hv) as (_ & _ & Pv & _).
  unfold add. rewrite Zx, Zv, Px, Pv, Nat.min_id. cbn [orb].
  rewrite Emd. set (of := uw_sub E (uw_make E (dexp x)) (uw_make E (dexp v))) in *.
  destruct Oo as [O1 O2]. unfold uw_value in Eo. rewrite E1, E2 in Eo.
  change (ed L) with (edc c).
  destruct (uw_neg of) eqn:Es; cbn [negb andb orb].
  - specialize (O2 eq_refl). assert (Ev : uw_val of = (k2 - k1) * edc c) by lia. rewrite Ev.
    destruct ((k2 - k1) * edc c >=? Z.of_nat n * edc c) eqn:Ec; cbn [andb].
    + right; left. split; [nia|auto].
    + right; right. split; [nia|]. rewrite Z.div_mul by lia. replace (- (k2 - k1)) with (k1 - k2) by lia. auto.
  - assert (Ev : uw_val of = (k1 - k2) * edc c) by lia. rewrite Ev.
    destruct ((k1 - k2) * edc c >=? Z.of_nat n * edc c) eqn:Ec; cbn [andb].
    + left. split; [nia|auto].
    + right; right. split; [nia|]. rewrite Z.div_mul by lia. auto.
Qed.

(** Integer characterisation of the sum of two non-zero values. *)
Lemma far_zero x k : normal c x -> Z.of_nat n <= k -> V (data x) / B ^ k = 0.
Proof.
  intros Hx Hk. pose proof (value_range_nel c Hc x Hx) as R.
  apply Z.div_small. split; [lia|]. eapply Z.lt_le_trans; [apply R|]. apply Z.pow_le_mono_r; lia.
Qed.

Lemma add_same_int x v : normal c x -> normal c v -> iszero x = false -> iszero v = false ->
  dneg v = dneg x ->
  let e := Z.max (dexp x) (dexp v) in
  let S := V (data x) / B ^ sh (dexp x) (dexp v) + V (data v) / B ^ sh (dexp v) (dexp x) in
  let z := add c x v in
  length (data z) = n /\ digits_ok B (data z) /\ nth 0 (data z) 0 <> 0 /\
  dprec z = n /\ dneg z = dneg x /\
  ((dexp z = e /\ V (data z) = S) \/
   (dexp z = scast E (e + edc c) /\ V (data z) = S / B /\ P n <= S)).
Proof.
  intros Hx Hv Zx Zv Hs. cbv zeta.
  destruct (add_cases x v Hx Hv Zx Zv) as (o & Ho & Hcase).
  destruct (normal_facts c Hc x Hx) as (Lx & Ox & Px & _).
  destruct (normal_facts c Hc v Hv) as (Lv & Ov & Pv & _). pose proof (edc_pos c).
  unfold sh. rewrite (Z.max_comm (dexp v) (dexp x)).
  assert (Dx : (Z.max (dexp x) (dexp v) - dexp x) / edc c = Z.max 0 (- o)).
  { destruct (Z.le_ge_cases o 0).
    - rewrite (Z.max_r (dexp x)) by nia. replace (dexp v - dexp x) with ((- o) * edc c) by lia. rewrite Z.div_mul by lia. lia.
    - rewrite (Z.max_l (dexp x)) by nia. rewrite Z.sub_diag, Z.div_0_l by lia. lia. }
  assert (Dv : (Z.max (dexp x) (dexp v) - dexp v) / edc c = Z.max 0 o).
  { destruct (Z.le_ge_cases o 0).
    - rewrite (Z.max_r (dexp x)) by nia. rewrite Z.sub_diag, Z.div_0_l by lia. lia.
    - rewrite (Z.max_l (dexp x)) by nia. rewrite Ho, Z.div_mul by lia. lia. }
  pose proof (nel_ge4 c Hc).
  destruct Hcase as [[Hf ->]|[[Hf ->]|[Hn ->]]].
  - rewrite Dx, Dv. rewrite (Z.max_l 0 (- o)), (Z.max_r 0 o) by lia.
    rewrite (far_zero v o Hv Hf), Z.pow_0_r, Z.div_1_r.
    split; [auto|]. split; [auto|]. split; [unfold iszero in Zx; lia|]. split; [auto|]. split; [auto|].
    left. split; [|lia]. nia.
  - rewrite Dx, Dv. rewrite (Z.max_r 0 (- o)), (Z.max_l 0 o) by lia.
    rewrite (far_zero x (- o) Hx), Z.pow_0_r, Z.div_1_r by lia.
    split; [auto|]. split; [auto|]. split; [unfold iszero in Zv; lia|]. split; [auto|]. split; [auto|].
    left. split; [|lia]. nia.
  - rewrite Hs, eqb_reflx.
    pose proof (add_same_sign_spec c Hc x v o Hx Hv Zx Zv Ho Hn) as HH. cbv zeta in HH. exact HH.
Qed.

Lemma add_diff_int x v : normal c x -> normal c v -> iszero x = false -> iszero v = false ->
  dneg v = negb (dneg x) ->
  let e := Z.max (dexp x) (dexp v) in
  let D := sgn (dneg x) * (V (data x) / B ^ sh (dexp x) (dexp v))
         + sgn (dneg v) * (V (data v) / B ^ sh (dexp v) (dexp x)) in
  let z := add c x v in
  (D = 0 -> z = zero c) /\
  (D <> 0 -> exists sj, (sj < n)%nat /\ length (data z) = n /\ digits_ok B (data z) /\
     nth 0 (data z) 0 <> 0 /\ dprec z = n /\ dneg z = (D <? 0) /\
     V (data z) = Z.abs D * P sj /\
     dexp z = (if (sj =? 0)%nat then e else scast E (e - Z.of_nat sj * edc c))).
Proof.
  intros Hx Hv Zx Zv Hs. cbv zeta.
  destruct (add_cases x v Hx Hv Zx Zv) as (o & Ho & Hcase).
  destruct (normal_facts c Hc x Hx) as (Lx & Ox & Px & _ & _ & _ & Nx & _).
  destruct (normal_facts c Hc v Hv) as (Lv & Ov & Pv & _ & _ & _ & Nv & _). pose proof (edc_pos c).
  specialize (Nx Zx). specialize (Nv Zv).
  unfold sh. rewrite (Z.max_comm (dexp v) (dexp x)).
  assert (Dx : (Z.max (dexp x) (dexp v) - dexp x) / edc c = Z.max 0 (- o)).
  { destruct (Z.le_ge_cases o 0).
    - rewrite (Z.max_r (dexp x)) by nia. replace (dexp v - dexp x) with ((- o) * edc c) by lia. rewrite Z.div_mul by lia. lia.
    - rewrite (Z.max_l (dexp x)) by nia. rewrite Z.sub_diag, Z.div_0_l by lia. lia. }
  assert (Dv : (Z.max (dexp x) (dexp v) - dexp v) / edc c = Z.max 0 o).
  { destruct (Z.le_ge_cases o 0).
    - rewrite (Z.max_r (dexp x)) by nia. rewrite Z.sub_diag, Z.div_0_l by lia. lia.
    - rewrite (Z.max_l (dexp x)) by nia. rewrite Ho, Z.div_mul by lia. lia. }
  pose proof (nel_ge4 c Hc).
  destruct Hcase as [[Hf ->]|[[Hf ->]|[Hn ->]]].
  - rewrite Dx, Dv. rewrite (Z.max_l 0 (- o)), (Z.max_r 0 o) by lia.
    rewrite (far_zero v o Hv Hf), Z.pow_0_r, Z.div_1_r. rewrite Hs, Z.mul_0_r, Z.add_0_r.
    split; [destruct (dneg x); cbn [sgn]; intros; exfalso; lia|]. intros _.
    exists O. split; [lia|]. split; [auto|]. split; [auto|]. split; [unfold iszero in Zx; lia|]. split; [auto|].
    split; [destruct (dneg x); cbn [sgn]; symmetry; lia|].
    split; [rewrite Z.pow_0_r, sgn_abs by lia; lia|]. cbn [Nat.eqb]. nia.
  - rewrite Dx, Dv. rewrite (Z.max_r 0 (- o)), (Z.max_l 0 o) by lia.
    rewrite (far_zero x (- o) Hx), Z.pow_0_r, Z.div_1_r by lia. rewrite Z.mul_0_r, Z.add_0_l.
    split; [destruct (dneg v); cbn [sgn]; intros; exfalso; lia|]. intros _.
    exists O. split; [lia|]. split; [auto|]. split; [auto|]. split; [unfold iszero in Zv; lia|]. split; [auto|].
    split; [destruct (dneg v); cbn [sgn]; symmetry; lia|].
    split; [rewrite Z.pow_0_r, sgn_abs by lia; lia|]. cbn [Nat.eqb]. nia.
  - replace (eqb (dneg x) (dneg v)) with false by (rewrite Hs; destruct (dneg x); auto).
    pose proof (add_diff_sign_spec c Hc x v o Hx Hv Zx Zv Hs Ho Hn) as HH. cbv zeta in HH. exact HH.
Qed.

(** * Normal form *)
Lemma add_normal x v : normal c x -> normal c v -> normal c (add c x v).
Proof.
  intros Hx Hv. destruct (iszero x) eqn:Zx; [unfold add; rewrite Zx; auto|].
  destruct (iszero v) eqn:Zv; [unfold add; rewrite Zx, Zv; auto|].
  pose proof Hx as (_ & _ & _ & Dx & Rx & _). pose proof Hv as (_ & _ & _ & Dv & Rv & _).
  assert (Dm : (edc c | Z.max (dexp x) (dexp v))) by (destruct (Z.max_spec (dexp x) (dexp v)) as [[_ ->]|[_ ->]]; auto).
  assert (Rm : - 2 ^ (E - 1) <= Z.max (dexp x) (dexp v) < 2 ^ (E - 1)) by lia.
  destruct (eqb (dneg x) (dneg v)) eqn:Es.
  - apply eqb_prop in Es.
    destruct (add_same_int x v Hx Hv Zx Zv (eq_sym Es)) as (A1 & A2 & A3 & A4 & A5 & A6).
    apply normal_intro; auto.
    + destruct A6 as [[-> _]|[-> _]]; auto. apply scast_divides. apply Z.divide_add_r; auto. apply Z.divide_refl.
    + destruct A6 as [[-> _]|[-> _]]; auto. apply scast_range.
  - assert (Hs : dneg v = negb (dneg x)) by (destruct (dneg x), (dneg v); cbn in *; congruence).
    destruct (add_diff_int x v Hx Hv Zx Zv Hs) as [A0 A1].
    match type of A0 with ?D = 0 -> _ => destruct (Z.eq_dec D 0) as [E0|E0] end.
    + rewrite (A0 E0). apply zero_normal.
    + destruct (A1 E0) as (sj & _ & B1 & B2 & B3 & B4 & B5 & B6 & B7). apply normal_intro; auto.
      * rewrite B7. destruct (sj =? 0)%nat; auto. apply scast_divides. apply Z.divide_sub_r; auto. apply Z.divide_factor_r.
      * rewrite B7. destruct (sj =? 0)%nat; auto. apply scast_range.
Qed.

Lemma negate_normal x : normal c x -> normal c (negate x).
Proof. unfold negate. destruct (iszero x); auto. Qed.
Lemma iszero_negate x : iszero (negate x) = iszero x.
Proof. unfold negate. destruct (iszero x) eqn:Ez; auto. Qed.
Lemma negate_exp x : dexp (negate x) = dexp x.
Proof. unfold negate. destruct (iszero x) eqn:Ez; auto. Qed.
Lemma negate_data x : data (negate x) = data x.
Proof. unfold negate. destruct (iszero x) eqn:Ez; auto. Qed.

Lemma sub_normal x v : normal c x -> normal c v -> normal c (sub c x v).
Proof. intros Hx Hv. apply negate_normal, add_normal; auto. apply negate_normal; auto. Qed.

(** * Values *)
Lemma value_zero x : normal c x -> iszero x = true -> (value c x == 0)%Q.
Proof.
  intros Hx Zx. destruct (normal_facts c Hc x Hx) as (Lx & _ & _ & _ & _ & Hz & _). destruct (Hz Zx) as [_ V0].
  rewrite value_low, V0, Z.mul_0_r by auto. ring.
Qed.
Lemma value_nonzero x : normal c x -> iszero x = false -> ~ (value c x == 0)%Q.
Proof.
  intros Hx Zx. destruct (normal_facts c Hc x Hx) as (Lx & _ & _ & _ & _ & _ & Hz & _). specialize (Hz Zx).
  rewrite value_low by auto. setoid_replace 0%Q with (inject_Z 0 * p10 (low c (dexp x)))%Q by ring.
  rewrite sc_eq. destruct (dneg x); cbn [sgn]; lia.
Qed.
Lemma value_zero_iff x : normal c x -> (iszero x = true <-> (value c x == 0)%Q).
Proof.
  intros Hx. destruct (iszero x) eqn:Ez.
  - split; auto. intros; apply value_zero; auto.
  - split; [discriminate|]. intros H. exfalso. apply (value_nonzero x Hx Ez H).
Qed.
Lemma value_negate x : normal c x -> (value c (negate x) == - value c x)%Q.
Proof.
  intros Hx. unfold negate. destruct (iszero x) eqn:Ez.
  - rewrite (value_zero x Hx Ez). reflexivity.
  - destruct (normal_facts c Hc x Hx) as (Lx & _). rewrite !value_low by auto. cbn [data dexp dneg].
    destruct (dneg x); cbn [negb sgn]; rewrite !inject_Z_mult; change (inject_Z (-1)) with (-(1))%Q;
    change (inject_Z 1) with 1%Q; ring.
Qed.
Lemma zero_iszero : iszero (zero c) = true.
Proof. unfold iszero, zero; cbn [data]. pose proof (nel_ge4 c Hc). destruct n; [lia|]. reflexivity. Qed.
Lemma value_zero_c : (value c (zero c) == 0)%Q.
Proof. apply value_zero; [apply zero_normal; auto|apply zero_iszero]. Qed.

(** Exact sum as an integer in units of the smaller operand's last limb. *)
Definition isum (x v : dec) : Z :=
  let m := Z.min (dexp x) (dexp v) in
  sgn (dneg x) * V (data x) * 10 ^ (dexp x - m) + sgn (dneg v) * V (data v) * 10 ^ (dexp v - m).

Lemma isum_value x v : normal c x -> normal c v ->
  (value c x + value c v == inject_Z (isum x v) * p10 (low c (Z.min (dexp x) (dexp v))))%Q.
Proof.
  intros Hx Hv. destruct (normal_facts c Hc x Hx) as (Lx & _). destruct (normal_facts c Hc v Hv) as (Lv & _).
  set (m := Z.min (dexp x) (dexp v)).
  rewrite (value_scaled c x (low c m)) by (auto; apply low_le; lia).
  rewrite (value_scaled c v (low c m)) by (auto; apply low_le; lia).
  rewrite sc_add, !low_sub. reflexivity.
Qed.

Lemma max_min_pow x v : 10 ^ (dexp x - Z.min (dexp x) (dexp v)) = 10 ^ (Z.max (dexp v) (dexp x) - dexp v).
Proof. f_equal. lia. Qed.

(** Same-sign sums: truncation of the exact sum. *)
Lemma add_same_trunc x v : normal c x -> normal c v -> iszero x = false -> iszero v = false ->
  dneg v = dneg x -> exp_safe c (Z.max (dexp x) (dexp v)) ->
  truncates c (add c x v) (value c x + value c v).
Proof.
  intros Hx Hv Zx Zv Hs Hsafe.
  destruct (add_same_int x v Hx Hv Zx Zv Hs) as (A1 & A2 & A3 & A4 & A5 & A6).
  destruct (normal_facts c Hc x Hx) as (Lx & Ox & Px & _ & _ & _ & Nx & _).
  destruct (normal_facts c Hc v Hv) as (Lv & Ov & Pv & _ & _ & _ & Nv & _).
  specialize (Nx Zx). specialize (Nv Zv). pose proof (edc_pos c) as He.
  destruct (sh_pow x v Hx Hv) as [Sx0 Sx]. destruct (sh_pow v x Hv Hx) as [Sv0 Sv].
  set (m := Z.min (dexp x) (dexp v)). set (e := Z.max (dexp x) (dexp v)) in *.
  set (T := V (data x) * 10 ^ (dexp x - m) + V (data v) * 10 ^ (dexp v - m)).
  assert (HT : isum x v = sgn (dneg x) * T) by (unfold isum, T; fold m; rewrite Hs; ring).
  assert (HT0 : 0 <= T).
  { unfold T. pose proof (Z.pow_pos_nonneg 10 (dexp x - m)). pose proof (Z.pow_pos_nonneg 10 (dexp v - m)). nia. }
  assert (HS : V (data x) / B ^ sh (dexp x) (dexp v) + V (data v) / B ^ sh (dexp v) (dexp x) = T / 10 ^ (e - m)).
  { rewrite Sx, Sv, (Z.max_comm (dexp v)). fold e. unfold T.
    destruct (Z.le_ge_cases (dexp x) (dexp v)).
    - replace m with (dexp x) by lia. replace e with (dexp v) by lia. rewrite !Z.sub_diag, !Z.pow_0_r, Z.div_1_r.
      rewrite Z.mul_1_r, Z.div_add by (pose proof (Z.pow_pos_nonneg 10 (dexp v - dexp x)); lia). lia.
    - replace m with (dexp v) by lia. replace e with (dexp x) by lia. rewrite !Z.sub_diag, !Z.pow_0_r, Z.div_1_r.
      rewrite Z.mul_1_r, (Z.add_comm (_ * _)), Z.div_add by (pose proof (Z.pow_pos_nonneg 10 (dexp x - dexp v)); lia). lia. }
  rewrite HS in A6.
  apply (truncates_intro c _ _ T (low c m) (dneg x)); auto.
  - apply low_le. destruct A6 as [[-> _]|[-> _]]; [lia|].
    destruct Hsafe as [Hs1 Hs2]. rewrite scast_id by (pose proof (E_ge8 c); pose proof (elem_number_ge4 c Hc); nia). lia.
  - rewrite low_sub. destruct A6 as [[-> A7]|(-> & A7 & _)]; [auto|].
    destruct Hsafe as [Hs1 Hs2]. rewrite scast_id by (pose proof (E_ge8 c); pose proof (elem_number_ge4 c Hc); nia).
    rewrite A7. rewrite Z.div_div by (try apply Z.pow_pos_nonneg; try (pose proof (Z.pow_pos_nonneg 10 (e - m)); lia); lia).
    f_equal. rewrite mask_pow. change (ed L) with (edc c). rewrite <- Z.pow_add_r by lia. f_equal. lia.
  - rewrite isum_value, HT by auto. reflexivity.
Qed.

(** Opposite-sign sums. *)
Lemma isum_diff x v : normal c x -> normal c v -> iszero x = false -> iszero v = false ->
  dneg v = negb (dneg x) ->
  let m := Z.min (dexp x) (dexp v) in
  let e := Z.max (dexp x) (dexp v) in
  let D := sgn (dneg x) * (V (data x) / B ^ sh (dexp x) (dexp v))
         + sgn (dneg v) * (V (data v) / B ^ sh (dexp v) (dexp x)) in
  Z.abs (isum x v) <= Z.abs D * 10 ^ (e - m) < Z.abs (isum x v) + 10 ^ (e - m) /\
  Z.sgn D = Z.sgn (isum x v) /\ (dexp x = dexp v -> D = isum x v).
Proof.
  intros Hx Hv Zx Zv Hs. cbv zeta.
  destruct (normal_facts c Hc x Hx) as (Lx & Ox & Px & _ & _ & _ & Nx & Tx).
  destruct (normal_facts c Hc v Hv) as (Lv & Ov & Pv & _ & _ & _ & Nv & Tv).
  specialize (Nx Zx). specialize (Nv Zv). pose proof (edc_pos c) as He.
  destruct (sh_pow x v Hx Hv) as [Sx0 Sx]. destruct (sh_pow v x Hv Hx) as [Sv0 Sv].
  rewrite Sx, Sv, (Z.max_comm (dexp v)). unfold isum. rewrite Hs.
  pose proof (value_range_nel c Hc x Hx) as Rx. pose proof (value_range_nel c Hc v Hv) as Rv.
  assert (Gx : P (n - 1) <= V (data x)).
  { pose proof (digits_ok_nth B (data x) 0 HB Ox). pose proof (pow_pos_nat B (n - 1) HB). unfold iszero in Zx. nia. }
  assert (Gv : P (n - 1) <= V (data v)).
  { pose proof (digits_ok_nth B (data v) 0 HB Ov). pose proof (pow_pos_nat B (n - 1) HB). unfold iszero in Zv. nia. }
  assert (HPn : P n = B * P (n - 1)) by (rewrite <- pow_succ_nat; pose proof (nel_ge4 c Hc); do 2 f_equal; lia).
  assert (Big : forall x v, normal c x -> normal c v -> dexp v < dexp x -> B <= 10 ^ (dexp x - dexp v)).
  { intros a b Ha Hb Hlt. destruct (normal_exp a Ha) as [k1 E1]. destruct (normal_exp b Hb) as [k2 E2].
    rewrite mask_pow. apply Z.pow_le_mono_r; [lia|]. change (ed L) with (edc c). rewrite E1, E2 in *. clear - Hlt He. assert (k2 < k1) by nia. nia. }
  set (a := V (data x)) in *. set (b := V (data v)) in *.
  assert (Core : forall a b k, 0 < a -> 0 < b -> 1 <= k -> b < a * k ->
     Z.abs (a * k - b) <= Z.abs (a - b / k) * k < Z.abs (a * k - b) + k /\ 0 < a - b / k /\ 0 < a * k - b).
  { intros a0 b0 k Ha Hb Hk Hlt. pose proof (Z.div_mod b0 k ltac:(lia)). pose proof (Z.mod_pos_bound b0 k ltac:(lia)).
    assert (0 < a0 - b0 / k) by nia. split; [|lia]. rewrite !Z.abs_eq by nia. nia. }
  destruct (Z.lt_trichotomy (dexp x) (dexp v)) as [Hlt|[Heq|Hgt]].
  - replace (Z.min (dexp x) (dexp v)) with (dexp x) by lia. replace (Z.max (dexp x) (dexp v)) with (dexp v) by lia.
    rewrite !Z.sub_diag, !Z.pow_0_r, Z.div_1_r, Z.mul_1_r.
    pose proof (Big v x Hv Hx Hlt) as HBk. set (k := 10 ^ (dexp v - dexp x)) in *.
    destruct (Core b a k Nv Nx ltac:(lia)) as (C1 & C2 & C3); [nia|].
    rewrite !Z.abs_eq in C1 by nia.
    split; [|split; [|lia]].
    + destruct (dneg x); cbn [negb sgn]; split; try nia.
    + destruct (dneg x); cbn [negb sgn].
      * rewrite !Z.sgn_pos by lia. auto.
      * rewrite !Z.sgn_neg by lia. auto.
  - rewrite Heq. rewrite Z.min_id, Z.max_id, !Z.sub_diag, !Z.pow_0_r, !Z.div_1_r.
    split; [lia|]. split; [f_equal; ring|intros; ring].
  - replace (Z.min (dexp x) (dexp v)) with (dexp v) by lia. replace (Z.max (dexp x) (dexp v)) with (dexp x) by lia.
    rewrite !Z.sub_diag, !Z.pow_0_r, Z.div_1_r.
    pose proof (Big x v Hx Hv Hgt) as HBk. set (k := 10 ^ (dexp x - dexp v)) in *.
    destruct (Core a b k Nx Nv ltac:(lia)) as (C1 & C2 & C3); [nia|].
    rewrite !Z.abs_eq in C1 by nia.
    split; [|split; [|lia]].
    + destruct (dneg x); cbn [negb sgn]; split; try nia.
    + destruct (dneg x); cbn [negb sgn].
      * rewrite !Z.sgn_neg by lia. auto.
      * rewrite !Z.sgn_pos by lia. auto.
Qed.

Lemma Zsgn_prod a b : Z.sgn a = Z.sgn b -> 0 <= a * b.
Proof. intros H. destruct a, b; cbn in H; try discriminate; lia. Qed.

(** Value of an opposite-sign sum, exactly, in units of the smaller operand. *)
Lemma add_diff_value x v : normal c x -> normal c v -> iszero x = false -> iszero v = false ->
  dneg v = negb (dneg x) -> exp_safe c (Z.max (dexp x) (dexp v)) ->
  let m := Z.min (dexp x) (dexp v) in
  let e := Z.max (dexp x) (dexp v) in
  let D := sgn (dneg x) * (V (data x) / B ^ sh (dexp x) (dexp v))
         + sgn (dneg v) * (V (data v) / B ^ sh (dexp v) (dexp x)) in
  (value c (add c x v) == inject_Z (D * 10 ^ (e - m)) * p10 (low c m))%Q.
Proof.
  intros Hx Hv Zx Zv Hs Hsafe. cbv zeta. pose proof (edc_pos c) as He.
  destruct (add_diff_int x v Hx Hv Zx Zv Hs) as [A0 A1].
  set (D := sgn (dneg x) * _ + _) in *.
  set (m := Z.min (dexp x) (dexp v)). set (e := Z.max (dexp x) (dexp v)) in *.
  destruct (Z.eq_dec D 0) as [E0|E0].
  - rewrite (A0 E0), E0, value_zero_c, Z.mul_0_l. ring.
  - destruct (A1 E0) as (sj & B0 & B1 & B2 & B3 & B4 & B5 & B6 & B7).
    assert (B7' : dexp (add c x v) = e - Z.of_nat sj * edc c).
    { rewrite B7. destruct (sj =? 0)%nat eqn:Ej; [apply Nat.eqb_eq in Ej; lia|].
      destruct Hsafe as [Hs1 Hs2]. apply scast_id; [pose proof (E_ge8 c); lia|].
      pose proof (nel_Z c Hc). nia. }
    rewrite value_low, B5, B6 by auto.
    set (F := low c m - Z.of_nat n * edc c).
    rewrite (scaleZ (D * 10 ^ (e - m)) (low c m) F) by (unfold F; nia).
    rewrite (scaleZ _ (low c (dexp (add c x v))) F).
    2:{ unfold F, low. rewrite B7'. nia. }
    apply sc_eq. replace (sgn (D <? 0) * (Z.abs D * P sj)) with (D * P sj).
    2:{ destruct (Z.ltb_spec D 0); cbn [sgn]; [rewrite Z.abs_neq by lia|rewrite Z.abs_eq by lia]; ring. }
    rewrite <- !Z.mul_assoc. f_equal. rewrite Bpow by lia. unfold edc in *.
    rewrite <- !Z.pow_add_r.
    + f_equal. unfold F, low. rewrite B7'. unfold edc. lia.
    + lia.
    + unfold F. nia.
    + nia.
    + unfold F, low. rewrite B7'. unfold edc. nia.
Qed.

Lemma add_diff_away x v : normal c x -> normal c v -> iszero x = false -> iszero v = false ->
  dneg v = negb (dneg x) -> exp_safe c (Z.max (dexp x) (dexp v)) ->
  rounds_away c (add c x v) (value c x + value c v) (p10 (low c (Z.max (dexp x) (dexp v)))) /\
  (dexp x = dexp v -> value c (add c x v) == value c x + value c v)%Q.
Proof.
  intros Hx Hv Zx Zv Hs Hsafe.
  pose proof (add_diff_value x v Hx Hv Zx Zv Hs Hsafe) as HV.
  destruct (isum_diff x v Hx Hv Zx Zv Hs) as (I1 & I2 & I3). cbv zeta in *.
  set (D := sgn (dneg x) * _ + _) in *.
  pose proof (isum_value x v Hx Hv) as HI.
  set (m := Z.min (dexp x) (dexp v)) in *. set (e := Z.max (dexp x) (dexp v)) in *.
  assert (Hpow : 0 < 10 ^ (e - m)) by (apply Z.pow_pos_nonneg; lia).
  split.
  - unfold rounds_away. rewrite HV, HI. rewrite (p10_scale (low c e) (low c m)) by (apply low_le; lia).
    rewrite low_sub, !sc_abs, sc_add, sc_le, sc_lt.
    assert (Habs : Z.abs (D * 10 ^ (e - m)) = Z.abs D * 10 ^ (e - m)) by (rewrite Z.abs_mul, (Z.abs_eq (10 ^ _)) by lia; auto).
    rewrite Habs. split; [|lia].
    setoid_replace (inject_Z (isum x v) * p10 (low c m) * (inject_Z (D * 10 ^ (e - m)) * p10 (low c m)))%Q
      with (inject_Z (isum x v * D * 10 ^ (e - m)) * (p10 (low c m) * p10 (low c m)))%Q.
    + apply Qmult_le_0_compat; [|apply Qmult_le_0_compat; apply Qlt_le_weak, p10_pos].
      change 0%Q with (inject_Z 0). rewrite <- Zle_Qle. pose proof (Zsgn_prod _ _ I2). nia.
    + rewrite !inject_Z_mult. ring.
  - intros He. rewrite HV, HI, (I3 He). subst e m. rewrite He, Z.max_id, Z.min_id, Z.sub_diag, Z.pow_0_r, Z.mul_1_r. reflexivity.
Qed.

End S.
