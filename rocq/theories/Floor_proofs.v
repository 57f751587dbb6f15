(** Floor_proofs.v - integer part, floor, ceil, conversion to built-in integers. *)
From Verif Require Export Round_proofs Laws_proofs.
From Coq Require Import Lqa ZifyBool.
Local Open Scope Z_scope.

Lemma Qfloor_unique q k : (inject_Z k <= q)%Q -> (q < inject_Z (k + 1))%Q -> Qfloor q = k.
Proof.
  intros H1 H2. pose proof (Qfloor_le q) as F1. pose proof (Qlt_floor q) as F2.
  assert (A : (inject_Z k < inject_Z (Qfloor q + 1))%Q) by lra. assert (C : (inject_Z (Qfloor q) < inject_Z (k + 1))%Q) by lra.
  rewrite <- Zlt_Qlt in A, C. lia.
Qed.
Lemma Qle_bool_iff' q : Qle_bool 0 q = true <-> (0 <= q)%Q.
Proof. apply Qle_bool_iff. Qed.
Lemma truncZ_comp q r : (q == r)%Q -> truncZ q = truncZ r.
Proof.
  intros H. unfold truncZ. assert (Hb : Qle_bool 0 q = Qle_bool 0 r).
  { apply Bool.eq_true_iff_eq. rewrite !Qle_bool_iff'. rewrite H. reflexivity. }
  rewrite Hb. destruct (Qle_bool 0 r); [apply Qfloor_comp|apply Qceiling_comp]; auto.
Qed.
Lemma truncZ_pos q : (0 <= q)%Q -> truncZ q = Qfloor q.
Proof. intros H. unfold truncZ. apply Qle_bool_iff' in H. rewrite H. auto. Qed.
Lemma truncZ_neg q : (q <= 0)%Q -> truncZ q = Qceiling q.
Proof.
  intros H. unfold truncZ. destruct (Qle_bool 0 q) eqn:E; auto. apply Qle_bool_iff' in E.
  assert (Hq : (q == inject_Z 0)%Q) by (change (inject_Z 0) with 0%Q; lra).
  rewrite (Qfloor_comp _ _ Hq), (Qceiling_comp _ _ Hq). reflexivity.
Qed.
Lemma truncZ_opp q : truncZ (- q) = - truncZ q.
Proof.
  destruct (Qlt_le_dec q 0) as [H|H].
  - rewrite truncZ_pos by lra. rewrite truncZ_neg by lra. unfold Qceiling. lia.
  - rewrite truncZ_neg by lra. rewrite truncZ_pos by lra. unfold Qceiling. rewrite (Qfloor_comp (- - q) q) by lra. lia.
Qed.

Lemma floor_scaled N F : F <= 0 -> Qfloor (inject_Z N * p10 F) = N / 10 ^ (- F).
Proof.
  intros HF. assert (HP : 0 < 10 ^ (- F)) by (apply Z.pow_pos_nonneg; lia).
  pose proof (Z.div_mod N (10 ^ (- F)) ltac:(lia)) as DM. pose proof (Z.mod_pos_bound N (10 ^ (- F)) HP) as HM.
  assert (S : forall k, (inject_Z k == inject_Z (k * 10 ^ (- F)) * p10 F)%Q).
  { intros k. rewrite inject_Z_mult, <- p10_Z by lia. rewrite <- Qmult_assoc, <- p10_add.
    replace (- F + F) with 0 by lia. rewrite p10_0. ring. }
  apply Qfloor_unique; rewrite (S (N / _)) || rewrite (S (N / _ + 1)); [apply sc_le|apply sc_lt]; nia.
Qed.

Lemma trunc_scaled s N F : 0 <= N -> F <= 0 -> truncZ (inject_Z (sgn s * N) * p10 F) = sgn s * (N / 10 ^ (- F)).
Proof.
  intros HN HF. assert (H0 : (0 <= inject_Z N * p10 F)%Q).
  { pose proof (p10_pos F). apply Qmult_le_0_compat; [|lra]. change 0%Q with (inject_Z 0). rewrite <- Zle_Qle. auto. }
  destruct s; cbn [sgn].
  - rewrite (truncZ_comp _ (- (inject_Z N * p10 F))) by (rewrite inject_Z_mult; change (inject_Z (-1)) with (-1 # 1)%Q; ring).
    rewrite truncZ_opp, truncZ_pos, floor_scaled by auto. lia.
  - rewrite (truncZ_comp _ (inject_Z N * p10 F)) by (rewrite Z.mul_1_l; reflexivity). rewrite truncZ_pos, floor_scaled by auto. lia.
Qed.

Section R.
Variable c : cfg.
Hypothesis Hc : cfg_ok c.
Notation L := (c_limb c).
Notation B := (mask L).
Notation E := (ebits (c_expo c)).
Notation n := (nel c).
Notation V := (limbs_value B).
Notation P k := (B ^ Z.of_nat k).
Let HB : 0 < B := mask_pos L.

Lemma trunc_low x : normal c x -> low c (dexp x) <= 0 ->
  truncZ (value c x) = sgn (dneg x) * (V (data x) / 10 ^ (- low c (dexp x))).
Proof.
  intros Hx Hl. destruct (normal_facts c Hc x Hx) as (Lx & Ox & _).
  rewrite (truncZ_comp _ _ (value_low c x Lx)). apply trunc_scaled; auto. pose proof (limbs_value_bound B (data x) HB Ox). lia.
Qed.

(** Value of the leading limbs. *)
Lemma firstn_value l k : digits_ok B l -> (k <= length l)%nat -> V (firstn k l) = V l / P (length l - k).
Proof.
  intros Ho Hk. pose proof (limbs_value_bound B (skipn k l) HB) as Hb.
  assert (Hok : digits_ok B (skipn k l)) by (apply Forall_forall; intros d Hd; rewrite <- (firstn_skipn k l) in Ho; unfold digits_ok in Ho; rewrite Forall_app in Ho; destruct Ho as [_ Ho]; rewrite Forall_forall in Ho; auto).
  specialize (Hb Hok). rewrite skipn_length in Hb.
  rewrite <- (firstn_skipn k l) at 2. rewrite limbs_value_app, skipn_length.
  symmetry. rewrite Z.div_add_l by lia. rewrite Z.div_small by lia. lia.
Qed.


Lemma dg_small : c_digits10 c + 2 * edc c <= edc c * (Z.of_nat n - 1).
Proof.
  rewrite nel_Z by auto. unfold elem_number. pose proof (edc_pos c) as He. change (ed L) with (edc c).
  pose proof (Z.div_mod (c_digits10 c) (edc c) ltac:(lia)) as DM. pose proof (Z.mod_pos_bound (c_digits10 c) (edc c) ltac:(lia)) as HM.
  destruct (c_digits10 c mod edc c =? 0) eqn:E0; nia.
Qed.
Lemma dg_range : 0 <= c_digits10 c - 1 < 2 ^ (E - 1).
Proof.
  pose proof dg_small as H. rewrite nel_Z in H by auto. pose proof (edc_pos c). destruct Hc as [H1 H2]. nia.
Qed.

Lemma pos_P x : normal c x -> 0 <= dexp x -> (Z.to_nat (Z.quot (dexp x) (edc c)) < n)%nat ->
  P (n - (Z.to_nat (Z.quot (dexp x) (edc c)) + 1)) = 10 ^ (- low c (dexp x)).
Proof.
  intros Hx Hd Hn. pose proof (edc_pos c) as He. rewrite Bpow by lia. change (ed L) with (edc c). f_equal. unfold low.
  destruct Hx as (_ & _ & _ & [q Hq] & _). rewrite Hq in *. rewrite Z.quot_mul in * by lia. assert (0 <= q) by nia.
  rewrite Nat2Z.inj_sub by lia. rewrite Nat2Z.inj_add, Z2Nat.id by lia. change (Z.of_nat 1) with 1. lia.
Qed.

Lemma digits_firstn l k : digits_ok B l -> digits_ok B (firstn k l).
Proof. intros H. unfold digits_ok in *. rewrite <- (firstn_skipn k l), Forall_app in H. tauto. Qed.
Lemma digits_repeat0 k : digits_ok B (repeat 0 k).
Proof. apply Forall_forall. intros d Hd. apply repeat_spec in Hd. lia. Qed.
Lemma nth0_firstn (l : list Z) k : (0 < k)%nat -> nth 0 (firstn k l) 0 = nth 0 l 0.
Proof. destruct k, l; cbn; auto; lia. Qed.

(** The integer part of a value below 10^(digits10-1): truncation towards zero. *)
Lemma eip_spec x : normal c x -> iszero x = false -> dexp x < c_digits10 c - 1 ->
  normal c (extract_integer_part c x) /\ (value c (extract_integer_part c x) == inject_Z (truncZ (value c x)))%Q /\
  (0 <= dexp x -> iszero (extract_integer_part c x) = false /\ dexp (extract_integer_part c x) = dexp x).
Proof.
  intros Hx Zx Hd. destruct (normal_facts c Hc x Hx) as (Lx & Ox & _ & _ & _ & _ & Vx & Top).
  pose proof (edc_pos c) as He. pose proof dg_small as Hs. pose proof dg_range as Hr. pose proof (E_ge8 c) as HE.
  assert (Hlow : low c (dexp x) <= 0) by (unfold low; lia).
  unfold extract_integer_part. rewrite scast_id by lia. destruct (dexp x <? 0) eqn:En.
  - split; [apply zero_normal; auto|]. split; [|lia]. rewrite (trunc_low x Hx Hlow).
    assert (HD : (edc c | dexp x)) by (destruct Hx as (_ & _ & _ & ? & _); auto).
    assert (He1 : dexp x <= - edc c) by (destruct HD as [q Hq]; clear - Hq He En; assert (q < 0) by nia; nia).
    rewrite Z.div_small.
    + rewrite Z.mul_0_r. destruct (max_min_values c Hc) as (_ & _ & _ & _ & _ & ->). reflexivity.
    + pose proof (limbs_value_bound B (data x) HB Ox) as Hb. split; [lia|]. apply Z.lt_le_trans with (P n); [rewrite Lx in Hb; lia|].
      rewrite Bpow by lia. change (ed L) with (edc c). apply Z.pow_le_mono_r; [lia|]. unfold low. lia.
  - replace (dexp x >=? c_digits10 c - 1) with false by lia.
    change (ed L) with (edc c). set (k := Z.to_nat (Z.quot (dexp x) (edc c))).
    assert (HD : (edc c | dexp x)) by (destruct Hx as (_ & _ & _ & ? & _); auto).
    assert (Hk : (k + 1 < n)%nat).
    { unfold k. destruct HD as [q Hq]. rewrite Hq in *. rewrite Z.quot_mul by lia. assert (q < Z.of_nat n - 1) by (clear - He Hs Hd; nia). pose proof (nel_ge4 c Hc) as H4. clear - H H4; lia. }
    pose proof (pos_P x Hx ltac:(lia) ltac:(unfold k in Hk; lia)) as HP. fold k in HP.
    set (z := mkDec _ _ _ _).
    assert (Lz : length (data z) = n) by (cbn [data z]; rewrite app_length, firstn_length, repeat_length, Lx; lia).
    assert (N0 : nth 0 (data z) 0 = nth 0 (data x) 0) by (cbn [data z]; rewrite app_nth1 by (rewrite firstn_length, Lx; lia); apply nth0_firstn; lia).
    assert (Nz : nth 0 (data x) 0 <> 0) by (unfold iszero in Zx; lia).
    split.
    { destruct Hx as (_ & _ & _ & H4 & H5 & H6). split; [exact Lz|]. split.
      - apply ok_mask. cbn [data z]. apply Forall_app. split; [apply digits_firstn; auto|apply digits_repeat0].
      - split; [intros H0; congruence|]. split; [exact H4|]. split; [exact H5|exact H6]. }
    split; [|intros _; split; [unfold iszero; rewrite N0; lia|reflexivity]].
    rewrite (value_low c z Lz). rewrite (trunc_low x Hx Hlow). change (dexp z) with (dexp x). change (dneg z) with (dneg x).
    assert (HV : V (data z) = (V (data x) / 10 ^ (- low c (dexp x))) * 10 ^ (- low c (dexp x))).
    { cbn [data z]. rewrite limbs_value_app, repeat_length, limbs_value_repeat0, Z.add_0_r, firstn_value by (auto; lia). rewrite Lx, HP. reflexivity. }
    rewrite HV, Z.mul_assoc, inject_Z_mult, <- (p10_Z (- low c (dexp x))) by lia. rewrite <- Qmult_assoc, <- p10_add.
    replace (- low c (dexp x) + low c (dexp x)) with 0 by lia. rewrite p10_0. ring.
Qed.

Lemma p10_le a b : a <= b -> (p10 a <= p10 b)%Q.
Proof.
  intros H. rewrite (p10_scale b a) by auto. setoid_replace (p10 a) with (inject_Z 1 * p10 a)%Q at 1 by (change (inject_Z 1) with 1%Q; ring).
  apply sc_le. assert (0 < 10 ^ (b - a)) by (apply Z.pow_pos_nonneg; lia). lia.
Qed.
Lemma p10_lt_inv a b : (p10 a < p10 b)%Q -> a < b.
Proof. intros H. destruct (Z.lt_ge_cases a b) as [|G]; auto. pose proof (p10_le b a G). lra. Qed.

Lemma exp_below z k : normal c z -> iszero z = false -> (Qabs (value c z) < p10 k)%Q -> dexp z < k.
Proof. intros Hz Zz H. destruct (value_bracket c Hc z Hz Zz) as [H1 _]. apply p10_lt_inv. lra. Qed.

Lemma round_near x : normal c x -> iszero x = false -> edc c <= max_digits10 c -> dexp x + edc c < 2 ^ (E - 1) ->
  exists z kk, round_self c x = Some z /\ normal c z /\ iszero z = false /\ dneg z = dneg x /\
    leading_exponent (value c x) kk /\ (Qabs (value c z - value c x) < 2 * p10 (kk - (c_digits10 c + 3)))%Q /\
    ((exists m : Z, value c x == inject_Z m * p10 (kk - (c_digits10 c + 3)))%Q -> value c z == value c x)%Q /\
    dexp x <= dexp z /\ kk < dexp x + edc c.
Proof.
  intros Hx Zx Hm Hhi. destruct (round_self_spec c Hc x Hx Zx Hm Hhi)
    as (z & r & kk & H1 & H2 & H3 & H4 & H5 & H6 & H7 & H8 & H9 & H10 & H11 & H12 & H13 & H14 & _).
  exists z, kk. split; [auto|]. split; [auto|]. split; [auto|]. split; [auto|]. split; [auto|].
  split; [|split; [auto|split; auto]].
  set (u := p10 (kk - (c_digits10 c + 3))) in *. assert (Hu : (0 < u)%Q) by (apply p10_pos).
  destruct H6 as (Hs & k & K1 & K2 & K3). pose proof (value_sign c Hc x Hx Zx) as Sx. pose proof (value_sign c Hc z H2 H3) as Sz. rewrite H4 in Sz.
  unfold Qdiv in *. change (/ 2)%Q with (1 # 2)%Q in *.
  assert (Hrabs : (Qabs r < Qabs (value c x) + u)%Q) by (rewrite K1; lra).
  assert (Hrabs2 : (Qabs (value c x) < Qabs r + u)%Q) by (rewrite K1; lra).
  apply Qabs_Qlt_condition. destruct (dneg x).
  - rewrite (Qabs_neg (value c x)) in * by lra. rewrite (Qabs_neg (value c z)) in * by lra. split; lra.
  - rewrite (Qabs_pos (value c x)) in * by lra. rewrite (Qabs_pos (value c z)) in * by lra. split; lra.
Qed.

(** Cutting digits below the units does not change the truncation. *)
Lemma truncates_trunc z q : normal c z -> iszero z = false -> low c (dexp z) <= 0 -> truncates c z q ->
  truncZ (value c z) = truncZ q.
Proof.
  intros Hz Zz Hl (T1 & T2 & T3). destruct (normal_facts c Hc z Hz) as (Lz & Oz & _ & _ & _ & _ & Vz & _). specialize (Vz Zz).
  pose proof (value_low c z Lz) as HV. rewrite (ulp_low c z Lz) in T3. set (F := low c (dexp z)) in *. set (N := V (data z)) in *.
  rewrite (truncZ_comp _ _ HV), trunc_scaled by lia.
  assert (HP : 0 < 10 ^ (- F)) by (apply Z.pow_pos_nonneg; lia).
  pose proof (Z.div_mod N (10 ^ (- F)) ltac:(lia)) as DM. pose proof (Z.mod_pos_bound N (10 ^ (- F)) HP) as HM.
  rewrite HV, sc_abs, sgn_abs in T2, T3 by lia.
  assert (S : forall k, (inject_Z k == inject_Z (k * 10 ^ (- F)) * p10 F)%Q).
  { intros k. rewrite inject_Z_mult, <- p10_Z by lia. rewrite <- Qmult_assoc, <- p10_add.
    replace (- F + F) with 0 by lia. rewrite p10_0. ring. }
  assert (FL : Qfloor (Qabs q) = N / 10 ^ (- F)).
  { apply Qfloor_unique.
    - rewrite (S (N / 10 ^ (- F))). apply Qle_trans with (inject_Z N * p10 F)%Q; auto. apply sc_le. nia.
    - apply Qlt_le_trans with (inject_Z (N + 1) * p10 F)%Q; [rewrite inject_Z_plus; change (inject_Z 1) with 1%Q; lra|].
      rewrite (S (N / 10 ^ (- F) + 1)). apply sc_le. nia. }
  pose proof (value_sign c Hc z Hz Zz) as Sz. destruct (dneg z); cbn [sgn].
  - assert (Hq : (q <= 0)%Q) by nra. rewrite Qabs_neg in FL by auto. rewrite truncZ_neg by auto. unfold Qceiling. lia.
  - assert (Hq : (0 <= q)%Q) by nra. rewrite Qabs_pos in FL by auto. rewrite truncZ_pos by auto. lia.
Qed.

Lemma one_value : (value c (one c) == 1)%Q.
Proof. destruct (max_min_values c Hc) as (_ & _ & _ & H & _). exact H. Qed.

(** One step away from zero. *)
Definition away (r : dec) : dec := if dneg r then sub c r (one c) else add c r (one c).
Lemma away_spec r : normal c r -> iszero r = false -> (Qabs (value c r) < p10 (c_digits10 c - 1) - 1)%Q ->
  normal c (extract_integer_part c (away r)) /\
  (value c (extract_integer_part c (away r)) == inject_Z (truncZ (value c r + (if dneg r then - 1 else 1))))%Q.
Proof.
  intros Hr Zr Hb. pose proof (edc_pos c) as He. pose proof dg_small as Hs. pose proof dg_range as Hd. pose proof (E_ge8 c) as HE.
  pose proof (nel_ge4 c Hc) as Hn.
  assert (Hr1 : dexp r < c_digits10 c - 1) by (apply exp_below; auto; lra).
  assert (Z1 : iszero (one c) = false) by (apply (isone_iszero c), one_isone; auto).
  assert (N1 : normal c (one c)) by (apply one_normal; auto).
  assert (E1 : dexp (one c) = 0). { unfold one, from_lst. reflexivity. }
  assert (D1 : dneg (one c) = false) by reflexivity.
  assert (Hsafe : exp_safe c (Z.max (dexp r) (dexp (one c)))).
  { rewrite E1. unfold exp_safe. destruct Hc as [_ Hc2]. rewrite (nel_Z c Hc) in *. unfold nel in *. nia. }
  set (q := (value c r + (if dneg r then - 1 else 1))%Q).
  pose proof (value_sign c Hc r Hr Zr) as Sr.
  assert (T : normal c (away r) /\ truncates c (away r) q).
  { unfold away, q. destruct (dneg r) eqn:Dr.
    - split; [apply sub_normal; auto|]. destruct (sub_as_add c Hc r (one c) Hr N1 Zr Z1 Hsafe) as [T _].
      rewrite Dr, D1 in T. specialize (T eq_refl). destruct T as (T1 & T2 & T3). unfold truncates. 
      setoid_replace (value c r + -1)%Q with (value c r - value c (one c))%Q by (rewrite one_value; ring). auto.
    - split; [apply add_normal; auto|]. destruct (add_same_all c Hc r (one c) Hr N1 Zr Z1) as (T & _); [congruence|auto|].
      destruct T as (T1 & T2 & T3). unfold truncates. setoid_replace (value c r + 1)%Q with (value c r + value c (one c))%Q by (rewrite one_value; ring). auto. }
  destruct T as [Nw T]. pose proof T as (T1 & T2 & T3).
  assert (Hq : (1 < Qabs q)%Q /\ (Qabs q < p10 (c_digits10 c - 1))%Q).
  { unfold q. destruct (dneg r).
    - rewrite (Qabs_neg (value c r)) in Hb by lra. rewrite Qabs_neg by lra. lra.
    - rewrite (Qabs_pos (value c r)) in Hb by lra. rewrite Qabs_pos by lra. lra. }
  assert (Zw : iszero (away r) = false).
  { destruct (iszero (away r)) eqn:Zw; auto. exfalso. unfold away in Zw. destruct (dneg r) eqn:Dr.
    - unfold sub in Zw. rewrite iszero_negate in Zw. pose proof (negate_normal c r Hr) as Nr.
      apply (value_zero_iff c Hc) in Zw; [|apply add_normal; auto].
      apply (add_zero_iff c Hc) in Zw; auto; [|rewrite negate_exp; auto].
      rewrite (value_negate c Hc), one_value in Zw by auto. lra.
    - apply (value_zero_iff c Hc) in Zw; [|apply add_normal; auto]. apply (add_zero_iff c Hc) in Zw; auto. rewrite one_value in Zw. lra. }
  assert (Hw : dexp (away r) < c_digits10 c - 1) by (apply exp_below; auto; lra).
  destruct (eip_spec (away r) Nw Zw Hw) as (A1 & A2 & _). split; auto. rewrite A2.
  rewrite (truncates_trunc (away r) q Nw Zw); auto; [reflexivity|]. unfold low. lia.
Qed.

Lemma nonint_floor q : ~ is_integer q -> (inject_Z (Qfloor q) < q)%Q /\ (q < inject_Z (Qfloor q + 1))%Q.
Proof.
  intros H. pose proof (Qfloor_le q) as F1. pose proof (Qlt_floor q) as F2. split; auto.
  destruct (Qlt_le_dec (inject_Z (Qfloor q)) q); auto. exfalso. apply H. exists (Qfloor q). lra.
Qed.
Lemma int_floor q : is_integer q -> (q == inject_Z (Qfloor q))%Q /\ (q == inject_Z (Qceiling q))%Q.
Proof. intros [k Hk]. rewrite (Qfloor_comp _ _ Hk), (Qceiling_comp _ _ Hk), Qfloor_Z, Qceiling_Z. auto. Qed.

Lemma floor_ceil_round x : normal c x -> iszero x = false -> edc c <= c_digits10 c + 4 ->
  (Qabs (value c x) <= p10 (c_digits10 c - 1) - 2)%Q ->
  exists y, round_self c x = Some y /\ nearly c (value c x) (value c y) /\
    (exists z, dfloor c x = Some z /\ normal c z /\ value c z == inject_Z (Qfloor (value c y)))%Q /\
    (exists z, dceil c x = Some z /\ normal c z /\ value c z == inject_Z (Qceiling (value c y)))%Q.
Proof.
  intros Hx Zx Hm Hb. pose proof (edc_pos c) as He. pose proof dg_small as Hs. pose proof dg_range as Hd. pose proof (E_ge8 c) as HE.
  assert (Hdx : dexp x < c_digits10 c - 1) by (apply exp_below; auto; lra).
  assert (Hhi : dexp x + edc c < 2 ^ (E - 1)).
  { destruct Hc as [_ Hc2]. rewrite <- (nel_Z c Hc) in Hc2. nia. }
  destruct (round_near x Hx Zx Hm Hhi) as (z & kk & H1 & H2 & H3 & H4 & H5 & H6 & H7 & H8 & H9).
  exists z. split; [exact H1|]. split; [exists kk; auto|].
  assert (Hkk : kk < c_digits10 c - 1). { destruct H5 as [H5 _]. apply p10_lt_inv. lra. }
  assert (Hu : (p10 (kk - (c_digits10 c + 3)) <= 1 # 1000)%Q).
  { apply Qle_trans with (p10 (-3)); [apply p10_le; lia|]. apply Qle_refl. }
  assert (Hzb : (Qabs (value c z) < p10 (c_digits10 c - 1) - 1)%Q).
  { apply Qle_lt_trans with (Qabs (value c x) + Qabs (value c z - value c x))%Q; [|lra].
    setoid_replace (value c z) with (value c x + (value c z - value c x))%Q at 1 by ring. apply Qabs_triangle. }
  assert (Hdz : dexp z < c_digits10 c - 1) by (apply exp_below; auto; lra).
  destruct (eip_spec z H2 H3 Hdz) as (I1 & I2 & _). destruct (away_spec z H2 H3 Hzb) as (A1 & A2).
  pose proof (isint_spec c Hc z H2 (or_introl H3)) as HI. pose proof (value_sign c Hc z H2 H3) as Sz.
  unfold dfloor, dceil. rewrite H1. destruct (isint c z) eqn:EI.
  - destruct (int_floor (value c z)) as [F1 F2]; [apply HI; auto|]. split; exists z; auto.
  - assert (NI : ~ is_integer (value c z)) by (rewrite <- HI; discriminate).
    destruct (nonint_floor _ NI) as [G1 G2]. set (f := Qfloor (value c z)) in *.
    assert (CE : Qceiling (value c z) = f + 1).
    { unfold Qceiling. assert (Qfloor (- value c z) = - (f + 1)); [|lia]. apply Qfloor_unique; [rewrite inject_Z_opp; lra|].
      replace (- (f + 1) + 1) with (- f) by lia. rewrite inject_Z_opp. lra. }
    unfold away in A1, A2. rewrite inject_Z_plus in G2. change (inject_Z 1) with 1%Q in G2.
    destruct (dneg z); cbn [negb]; split; eexists; (split; [reflexivity|]); (split; [assumption|]).
    + rewrite A2. rewrite truncZ_neg by lra. unfold Qceiling. rewrite (Qfloor_unique _ (- f)).
      * rewrite Z.opp_involutive. reflexivity.
      * rewrite inject_Z_opp. lra.
      * rewrite inject_Z_plus, inject_Z_opp. change (inject_Z 1) with 1%Q. lra.
    + rewrite I2, truncZ_neg by lra. reflexivity.
    + rewrite I2, truncZ_pos by lra. reflexivity.
    + rewrite A2, CE. rewrite truncZ_pos by lra. rewrite (Qfloor_unique _ (f + 1)); [reflexivity|rewrite inject_Z_plus; change (inject_Z 1) with 1%Q; lra|].
      rewrite !inject_Z_plus. change (inject_Z 1) with 1%Q. lra.
Qed.
Lemma floor_ceil_spec x : normal c x -> iszero x = false -> edc c <= c_digits10 c + 4 ->
  (Qabs (value c x) <= p10 (c_digits10 c - 1) - 2)%Q ->
  exists r, nearly c (value c x) r /\
    (exists z, dfloor c x = Some z /\ normal c z /\ value c z == inject_Z (Qfloor r))%Q /\
    (exists z, dceil c x = Some z /\ normal c z /\ value c z == inject_Z (Qceiling r))%Q.
Proof.
  intros Hx Zx Hm Hb. destruct (floor_ceil_round x Hx Zx Hm Hb) as (y & _ & H1 & H2 & H3). exists (value c y). auto.
Qed.
End R.
