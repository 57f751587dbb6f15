(** Misc_proofs.v - precision, isint, ilogb, numeric_limits, identities, histories. *)
From Verif Require Export Int2_proofs Model_Misc.
From Coq Require Import Lqa.
Local Open Scope Z_scope.

Section M.
Variable c : cfg.
Notation L := (c_limb c).
Notation B := (mask L).
Notation V := (limbs_value B).
Notation P n := (B ^ Z.of_nat n).
Notation E := (ebits (c_expo c)).
Notation n := (nel c).
Hypothesis Hc : cfg_ok c.
Let HB : 0 < B := mask_pos L.

(** * precision *)
Lemma precision_spec x k :
  let p := Z.of_nat (dprec (precision c x k)) in
  2 <= p <= elem_number c /\ data (precision c x k) = data x /\ dexp (precision c x k) = dexp x /\
  dneg (precision c x k) = dneg x /\ (value c (precision c x k) == value c x)%Q /\
  (0 <= k <= elem_number c * edc c -> k <= get_precision c (precision c x k)) /\
  (k <= 2 * edc c -> p = 2) /\
  (elem_number c * edc c <= k -> p = elem_number c) /\
  (2 * edc c <= k <= elem_number c * edc c -> get_precision c (precision c x k) < k + edc c).
Proof.
  pose proof (elem_number_ge4 c Hc) as H4. pose proof (edc_pos c) as He. cbv zeta. unfold precision, get_precision. cbn [dprec data dexp dneg].
  change (ed L) with (edc c). set (e := edc c) in *.
  set (nd := Z.quot k e + (if Z.rem k e =? 0 then 0 else 1)).
  assert (Hp : Z.of_nat (Z.to_nat (Z.min (elem_number c) (Z.max nd 2))) = Z.min (elem_number c) (Z.max nd 2)) by lia.
  rewrite Hp. clear Hp.
  assert (Hnd : 0 <= k -> k <= nd * e < k + e).
  { intros Hk. unfold nd. rewrite Z.quot_div_nonneg, Z.rem_mod_nonneg by lia.
    pose proof (Z.div_mod k e ltac:(lia)) as D1. pose proof (Z.mod_pos_bound k e ltac:(lia)) as D2.
    destruct (k mod e =? 0) eqn:E0; nia. }
  assert (Hneg : k < 0 -> nd <= 1).
  { intros Hk. unfold nd. pose proof (Z.quot_le_mono k 0 e ltac:(lia) ltac:(lia)) as Hq. rewrite Z.quot_0_l in Hq by lia.
    destruct (Z.rem k e =? 0); lia. }
  split; [lia|]. split; [auto|]. split; [auto|]. split; [auto|]. split; [reflexivity|].
  split; [|split; [|split]].
  - intros Hk. specialize (Hnd ltac:(lia)). destruct (Z.le_gt_cases nd (elem_number c)).
    + apply Z.le_trans with (nd * e); [lia|]. apply Z.mul_le_mono_nonneg_r; lia.
    + rewrite Z.min_l by lia. lia.
  - intros Hk. destruct (Z.lt_ge_cases k 0) as [Hk0|Hk0]; [specialize (Hneg Hk0); lia|].
    specialize (Hnd Hk0). assert (nd < 3) by (apply Z.mul_lt_mono_pos_r with (p := e); lia). lia.
  - intros Hk. specialize (Hnd ltac:(nia)). assert (elem_number c <= nd) by (apply Z.mul_le_mono_pos_r with (p := e); lia). lia.
  - intros Hk. specialize (Hnd ltac:(lia)). assert (2 <= nd) by (apply Z.mul_le_mono_pos_r with (p := e); lia).
    rewrite Z.max_l by lia. apply Z.le_lt_trans with (nd * e); [|lia]. apply Z.mul_le_mono_nonneg_r; lia.
Qed.

Lemma precision_mono x y j k : j <= k -> (dprec (precision c x j) <= dprec (precision c y k))%nat.
Proof.
  intros H. unfold precision. cbn [dprec]. change (ed L) with (edc c). pose proof (edc_pos c) as He. set (e := edc c) in *.
  assert (Hm : Z.max (Z.quot j e + (if Z.rem j e =? 0 then 0 else 1)) 2 <= Z.max (Z.quot k e + (if Z.rem k e =? 0 then 0 else 1)) 2).
  { destruct (Z.lt_ge_cases j 0) as [Hj|Hj].
    - pose proof (Z.quot_le_mono j 0 e ltac:(lia) ltac:(lia)) as Hq. rewrite Z.quot_0_l in Hq by lia. destruct (Z.rem j e =? 0); lia.
    - rewrite !Z.quot_div_nonneg, !Z.rem_mod_nonneg by lia.
      pose proof (Z.div_mod j e ltac:(lia)). pose proof (Z.mod_pos_bound j e ltac:(lia)).
      pose proof (Z.div_mod k e ltac:(lia)). pose proof (Z.mod_pos_bound k e ltac:(lia)).
      pose proof (Z.div_le_mono j k e ltac:(lia) H).
      destruct (Z.eq_dec (j / e) (k / e)) as [Heq|Hne].
      + rewrite Heq in *. destruct (j mod e =? 0) eqn:E1; destruct (k mod e =? 0) eqn:E2; lia.
      + destruct (j mod e =? 0) eqn:E1; destruct (k mod e =? 0) eqn:E2; lia. }
  lia.
Qed.

(** * Integer values *)
Lemma scaled_integer m F : (is_integer (inject_Z m * p10 F)) <-> (0 <= F \/ m mod 10 ^ (- F) = 0).
Proof.
  destruct (Z.le_gt_cases 0 F) as [H|H].
  - split; [auto|]. intros _. exists (m * 10 ^ F). rewrite p10_Z, inject_Z_mult by auto. reflexivity.
  - assert (HP : 0 < 10 ^ (- F)) by (apply Z.pow_pos_nonneg; lia).
    split.
    + intros [k Hk]. right. assert (Hk' : (inject_Z m * p10 F == inject_Z (k * 10 ^ (- F)) * p10 F)%Q).
      { rewrite Hk. rewrite <- (Z.sub_0_l F) at 1. rewrite <- (scaleZ k 0 F) by lia. rewrite p10_0. ring. }
      apply sc_eq in Hk'. rewrite Hk'. apply Z.mod_mul. lia.
    + intros [?|Hm]; [lia|]. exists (m / 10 ^ (- F)).
      rewrite (Z.div_mod m (10 ^ (- F))) at 1 by lia. rewrite Hm, Z.add_0_r, Z.mul_comm.
      rewrite <- (Z.sub_0_l F). rewrite <- (scaleZ _ 0 F) by lia. rewrite p10_0. ring.
Qed.

Lemma value_integer_iff x : normal c x -> iszero x = false ->
  (is_integer (value c x) <-> 0 <= low c (dexp x) \/ V (data x) mod 10 ^ (- low c (dexp x)) = 0).
Proof.
  intros Hx Zx. destruct (normal_facts c Hc x Hx) as (Lx & _).
  assert (Hi : is_integer (value c x) <-> is_integer (inject_Z (sgn (dneg x) * V (data x)) * p10 (low c (dexp x)))).
  { pose proof (value_low c x Lx) as Hv. unfold is_integer. split; intros [k Hk]; exists k; [rewrite <- Hv|rewrite Hv]; auto. }
  rewrite Hi, scaled_integer. destruct (dneg x); cbn [sgn]; [|rewrite Z.mul_1_l; tauto].
  replace (-1 * V (data x)) with (- V (data x)) by ring.
  destruct (Z.le_gt_cases 0 (low c (dexp x))) as [H|H]; [tauto|].
  assert (HP : 10 ^ (- low c (dexp x)) <> 0) by (apply Z.pow_nonzero; lia).
  split; (intros [H1|H1]; [lia|right]).
  - apply Z.mod_divide in H1; auto. apply (proj1 (Z.divide_opp_r _ _)) in H1. apply Z.mod_divide; auto.
  - apply Z.mod_divide in H1; auto. apply Z.mod_divide; auto. apply (proj2 (Z.divide_opp_r _ _)). auto.
Qed.

(** isint is exact on every normal value that is non-zero or carries a non-negative exponent. *)
Lemma isint_spec x : normal c x -> (iszero x = false \/ 0 <= dexp x) ->
  (isint c x = true <-> is_integer (value c x)).
Proof.
  intros Hx Hz. destruct (normal_facts c Hc x Hx) as (Lx & Ox & _). unfold isint.
  pose proof (edc_pos c) as He. pose proof (nel_ge4 c Hc) as Hn.
  destruct (iszero x) eqn:Zx.
  { destruct Hz as [?|Hz]; [congruence|]. replace (dexp x <? 0) with false by lia. cbn [orb]. split; auto. intros _.
    exists 0. rewrite (value_zero c Hc x Hx Zx). reflexivity. }
  clear Hz. destruct (dexp x <? 0) eqn:En.
  { split; [discriminate|]. intros Hi. exfalso. destruct (value_bracket c Hc x Hx Zx) as [B1 B2].
    destruct Hx as (_ & _ & _ & [k Hk] & _). change (ed L) with (edc c) in *.
    assert (k < 0) by nia. assert (dexp x + edc c <= 0) by nia.
    destruct Hi as [m Hm]. rewrite Hm in B1, B2.
    assert (B3 : (Qabs (inject_Z m) < 1)%Q).
    { eapply Qlt_le_trans; [exact B2|]. rewrite <- p10_0. apply (proj2 (p10_le _ _)). auto. }
    assert (B4 : (0 < Qabs (inject_Z m))%Q) by (eapply Qlt_le_trans; [apply p10_pos|exact B1]).
    change (Qabs (inject_Z m)) with (inject_Z (Z.abs m)) in *.
    change 1%Q with (inject_Z 1) in B3. change 0%Q with (inject_Z 0) in B4.
    rewrite <- Zlt_Qlt in B3, B4. lia. }
  cbn [orb]. destruct (isone_sign_neutral c x) eqn:U.
  { split; auto. intros _. apply isone_iff in U; auto. destruct U as [U|U].
    - destruct (Qlt_le_dec (value c x) 0) as [Hs|Hs].
      + exists (-1). unfold is_one in U. rewrite Qabs_neg in U by lra. change (inject_Z (-1)) with (-(1))%Q. lra.
      + exists 1. unfold is_one in U. rewrite Qabs_pos in U by lra. change (inject_Z 1) with 1%Q. lra.
    - exfalso. destruct (value_bracket c Hc x Hx Zx) as [B1 _]. unfold is_nines in U. rewrite U in B1.
      assert (B2 : (1 <= p10 (dexp x))%Q) by (rewrite <- p10_0; apply (proj2 (p10_le _ _)); lia).
      pose proof (p10_pos (- (edc c * elem_number c))). lra. }
  rewrite value_integer_iff by auto.
  assert (Hoff : exists k, dexp x = k * edc c /\ 0 <= k /\ dexp x / ed L = k).
  { destruct Hx as (_ & _ & _ & [k Hk] & _). exists k. change (ed L) with (edc c) in *. rewrite Hk, Z.div_mul by lia. split; [auto|]. split; [nia|auto]. }
  destruct Hoff as (k & Hk & Hk0 & ->).
  assert (Hlow : low c (dexp x) = edc c * (k + 1 - Z.of_nat n)) by (unfold low; rewrite Hk; ring).
  destruct (n <=? Z.to_nat k + 1)%nat eqn:El.
  { split; auto. intros _. left. rewrite Hlow. apply Z.mul_nonneg_nonneg; lia. }
  set (off := (Z.to_nat k + 1)%nat). assert (Hoff : (off < n)%nat) by (apply Nat.leb_gt in El; auto).
  assert (Hneg : low c (dexp x) < 0) by (rewrite Hlow; apply Z.mul_pos_neg; lia).
  rewrite Hlow. replace (- (edc c * (k + 1 - Z.of_nat n))) with (edc c * Z.of_nat (n - off)) by (unfold off; rewrite Nat2Z.inj_sub by lia; rewrite Nat2Z.inj_add, Z2Nat.id by lia; ring).
  change (edc c) with (ed L) at 2. rewrite <- Bpow by lia.
  assert (HV : V (data x) = V (firstn off (data x)) * P (n - off) + V (skipn off (data x))).
  { rewrite <- (firstn_skipn off (data x)) at 1. rewrite limbs_value_app. rewrite skipn_length, Lx. reflexivity. }
  assert (Hs : digits_ok B (skipn off (data x))) by (apply digits_ok_skipn; auto).
  assert (Hsl : length (skipn off (data x)) = (n - off)%nat) by (rewrite skipn_length; lia).
  pose proof (limbs_value_bound B _ HB Hs) as Hb. rewrite Hsl in Hb.
  rewrite HV, (Z.add_comm (_ * _)), Z.mod_add by lia. rewrite Z.mod_small by lia.
  rewrite forallb_zero. rewrite (limbs_value_zero_iff B) by auto.
  rewrite Hlow in Hneg. split; [auto|intros [?|?]; [lia|auto]].
Qed.

(** * ilogb *)
Lemma ilogb_spec x : normal c x -> iszero x = false -> dexp x + edc c <= 2 ^ (E - 1) ->
  (p10 (ilogb c x) <= Qabs (value c x))%Q /\ (Qabs (value c x) < p10 (ilogb c x + 1))%Q.
Proof.
  intros Hx Zx Hhi. destruct (normal_facts c Hc x Hx) as (Lx & Ox & _).
  pose proof (edc_pos c) as He. pose proof (nel_ge4 c Hc) as Hn. pose proof (E_ge8 c) as HE. pose proof (E_le64 c) as HE2.
  assert (Hd : 0 < nth 0 (data x) 0 < B).
  { pose proof (digits_ok_nth B (data x) 0 HB Ox). unfold iszero in Zx. lia. }
  assert (H64 : nth 0 (data x) 0 < 2 ^ 64).
  { assert (B <= 2 ^ 64) by (destruct L; cbn; lia). lia. }
  destruct (order_spec (nth 0 (data x) 0)) as [O1 O2]; [lia|].
  set (k := order_of_builtin_integer (nth 0 (data x) 0)) in *.
  assert (Hk : k <= edc c).
  { assert (10 ^ (k - 1) < 10 ^ edc c) by (unfold edc; rewrite <- mask_pow; lia).
    apply Z.pow_lt_mono_r_iff in H; lia. }
  assert (Hx1 : - 2 ^ (E - 1) <= dexp x < 2 ^ (E - 1)) by (destruct Hx as (_ & _ & _ & _ & ? & _); auto).
  assert (H128 : 128 <= 2 ^ (E - 1)) by (change 128 with (2 ^ 7); apply Z.pow_le_mono_r; lia).
  assert (Hil : ilogb c x = dexp x + k - 1).
  { unfold ilogb. fold k. rewrite (scast_id E k) by lia. rewrite (scast_id E (k - 1)) by lia. rewrite scast_id by lia. lia. }
  rewrite Hil.
  destruct (data x) as [|d0 ds] eqn:Ed; [cbn in Lx; lia|]. cbn [nth] in *.
  apply digits_ok_cons in Ox. destruct Ox as [_ Ox]. cbn [length] in Lx.
  pose proof (limbs_value_bound B ds HB Ox) as Hb.
  assert (HV : (Qabs (value c x) == inject_Z (d0 * P (length ds) + V ds) * p10 (low c (dexp x)))%Q).
  { rewrite value_low by (rewrite Ed; cbn; lia). rewrite sc_abs. rewrite Ed. cbn [limbs_value].
    rewrite sgn_abs by nia. reflexivity. }
  rewrite HV.
  assert (HPl : P (length ds) = 10 ^ (dexp x - low c (dexp x))).
  { rewrite Bpow by lia. f_equal. unfold low, edc. replace (length ds) with (n - 1)%nat by lia. rewrite Nat2Z.inj_sub by lia. ring. }
  assert (HF : low c (dexp x) <= dexp x) by (unfold low; nia).
  split.
  - rewrite (p10_scale (dexp x + k - 1) (low c (dexp x))) by lia. apply sc_le.
    replace (dexp x + k - 1 - low c (dexp x)) with ((k - 1) + (dexp x - low c (dexp x))) by ring.
    rewrite Z.pow_add_r, <- HPl by lia.
    assert (10 ^ (k - 1) * P (length ds) <= d0 * P (length ds)) by (apply Z.mul_le_mono_nonneg_r; lia). lia.
  - rewrite (p10_scale (dexp x + k - 1 + 1) (low c (dexp x))) by lia. apply sc_lt.
    replace (dexp x + k - 1 + 1 - low c (dexp x)) with (k + (dexp x - low c (dexp x))) by ring.
    rewrite Z.pow_add_r, <- HPl by lia.
    assert ((d0 + 1) * P (length ds) <= 10 ^ k * P (length ds)) by (apply Z.mul_le_mono_nonneg_r; lia). lia.
Qed.

(** * numeric_limits *)
Lemma single_value d e : (value c (from_lst c [d] e) == inject_Z d * p10 e)%Q.
Proof.
  pose proof (nel_ge4 c Hc) as Hn. unfold from_lst. cbn [length]. replace (1 <? n)%nat with true by (symmetry; apply Nat.ltb_lt; lia).
  rewrite value_low by (cbn [data]; rewrite app_length, repeat_length; cbn; lia). cbn [data dexp dneg sgn app limbs_value].
  rewrite repeat_length, limbs_value_repeat0, Z.add_0_r, Z.mul_1_l.
  rewrite (scaleZ d e (low c e)) by (unfold low; pose proof (edc_pos c); nia). apply sc_eq. f_equal. rewrite Bpow by lia. f_equal. unfold low, edc. rewrite Nat2Z.inj_sub by lia. ring.
Qed.

Lemma pow10_maker_spec k : (k <= 8)%nat -> pow10_maker k = 10 ^ Z.of_nat k.
Proof. intros H. do 9 (destruct k as [|k]; [reflexivity|]). lia. Qed.

Lemma eps_digits : 0 <= digits10_for_epsilon c - c_digits10 c < edc c /\ (edc c | digits10_for_epsilon c) /\
  (c_digits10 c mod edc c = 1 <-> digits10_for_epsilon c - c_digits10 c = edc c - 1) /\ 0 < digits10_for_epsilon c < 2 ^ (E - 1).
Proof.
  pose proof (edc_pos c) as He. destruct Hc as [Hd Hf]. unfold digits10_for_epsilon. unfold elem_number in Hf.
  change (ed L) with (edc c) in *. set (e := edc c) in *.
  pose proof (Z.div_mod (c_digits10 c) e ltac:(lia)) as D1. pose proof (Z.mod_pos_bound (c_digits10 c) e ltac:(lia)) as D2.
  destruct (c_digits10 c mod e =? 0) eqn:E0.
  - split; [lia|]. split; [exists (c_digits10 c / e); lia|]. split; [|nia]. split; intros; nia.
  - split; [nia|]. split; [exists (c_digits10 c / e + 1); lia|]. split; [|nia]. split; intros; nia.
Qed.

Lemma eps_value : (value c (value_eps c) == p10 (1 - c_digits10 c))%Q.
Proof.
  destruct eps_digits as (H1 & H2 & H3 & H4). pose proof (edc_pos c) as He. pose proof (E_ge8 c) as HE.
  unfold value_eps. rewrite single_value. rewrite scast_id by lia.
  rewrite pow10_maker_spec by lia. rewrite Z2Nat.id by lia.
  assert (Hle : 10 ^ (1 + digits10_for_epsilon c - c_digits10 c) <= 10 ^ edc c) by (apply Z.pow_le_mono_r; lia).
  assert (Hp : 0 < 10 ^ (1 + digits10_for_epsilon c - c_digits10 c)) by (apply Z.pow_pos_nonneg; lia).
  unfold edc in Hle at 1. rewrite <- mask_pow in Hle. pose proof (mask_fits L). rewrite ucast_id by lia.
  rewrite <- p10_Z by lia. rewrite <- p10_add. replace (1 + digits10_for_epsilon c - c_digits10 c + - digits10_for_epsilon c) with (1 - c_digits10 c) by ring. reflexivity.
Qed.

Lemma eps_normal : normal c (value_eps c) <-> c_digits10 c mod edc c <> 1.
Proof.
  destruct eps_digits as (H1 & H2 & H3 & H4). pose proof (edc_pos c) as He. pose proof (E_ge8 c) as HE.
  pose proof (mask_fits L) as Hmf.
  assert (Hp : 0 < 10 ^ (1 + digits10_for_epsilon c - c_digits10 c)) by (apply Z.pow_pos_nonneg; lia).
  assert (Hle : 10 ^ (1 + digits10_for_epsilon c - c_digits10 c) <= B).
  { rewrite mask_pow. apply Z.pow_le_mono_r; unfold edc in *; lia. }
  unfold value_eps. rewrite pow10_maker_spec by lia. rewrite Z2Nat.id by lia. rewrite scast_id by lia. rewrite ucast_id by lia.
  split.
  - intros (_ & Hok & _) Hm. apply H3 in Hm. pose proof (nel_ge4 c Hc) as Hn. unfold from_lst in Hok. cbn [length] in Hok.
    replace (1 <? n)%nat with true in Hok by (symmetry; apply Nat.ltb_lt; lia). cbn [data app] in Hok. apply digits_ok_cons in Hok.
    replace (1 + digits10_for_epsilon c - c_digits10 c) with (edc c) in Hok by lia. lia.
  - intros Hne. apply from_lst_single_normal; auto; [|apply Z.divide_opp_r; auto|lia].
    split; [auto|]. rewrite mask_pow. apply Z.pow_lt_mono_r; unfold edc in *; lia.
Qed.

Lemma max_min_values :
  (value c (value_max c) == (9 # 1) * p10 (max_exp10_of (c_expo c)))%Q /\
  (value c (value_min c) == p10 (- max_exp10_of (c_expo c)))%Q /\
  (value c (half c) == 1 # 2)%Q /\ (value c (one c) == 1)%Q /\ (value c (two c) == 2)%Q /\ (value c (zero c) == 0)%Q.
Proof.
  unfold value_max, value_min, half, one, two. rewrite !single_value. pose proof (edc_pos c) as He.
  split; [reflexivity|]. split; [change (inject_Z 1) with 1%Q; ring|]. split; [|split; [|split]].
  - assert (H5 : (inject_Z (B / 2) * 2 == inject_Z B)%Q) by (destruct L; reflexivity).
    assert (H6 : (inject_Z B * p10 (- ed L) == 1)%Q).
    { rewrite mask_pow, <- p10_Z by (unfold edc in He; lia). rewrite <- p10_add. replace (ed L + - ed L) with 0 by ring. reflexivity. }
    rewrite <- H5 in H6. change (1 # 2)%Q with (/ 2)%Q. apply Qmult_inj_r with (z := 2%Q); [discriminate|].
    setoid_replace (inject_Z (B / 2) * p10 (- ed L) * 2)%Q with (inject_Z (B / 2) * 2 * p10 (- ed L))%Q by ring. rewrite H6. reflexivity.
  - change (inject_Z 1) with 1%Q. rewrite p10_0. reflexivity.
  - rewrite p10_0. reflexivity.
  - apply value_zero_c; auto.
Qed.

Lemma one_normal : normal c (one c).
Proof.
  apply from_lst_single_normal; auto; [pose proof (B_gt9 c); lia|apply Z.divide_0_r|].
  pose proof (E_ge8 c). pose proof (Z.pow_pos_nonneg 2 (E - 1)). lia.
Qed.

(** * Identities *)
Lemma one_isone : isone_sign_neutral c (one c) = true.
Proof.
  apply isone_iff; auto; [apply one_normal| |].
  - unfold iszero, one, from_lst. pose proof (nel_ge4 c Hc). cbn [length]. replace (1 <? n)%nat with true by (symmetry; apply Nat.ltb_lt; lia). reflexivity.
  - left. unfold is_one. destruct max_min_values as (_ & _ & _ & H & _). rewrite H. reflexivity.
Qed.

Lemma set_neg_same x : set_neg x (dneg x) = x.
Proof. destruct x; reflexivity. Qed.

Lemma mul_one_r rmem scratch x : normal c x -> iszero x = false -> ~ is_nines c x -> mul c rmem scratch x (one c) = Some x.
Proof.
  intros Hx Zx Nx. unfold mul.
  assert (Z1 : iszero (one c) = false) by (apply (isone_iszero c), one_isone).
  rewrite Zx, Z1. cbn [orb]. assert (D1 : dneg (one c) = false) by reflexivity.
  rewrite D1, xorb_false_r. rewrite one_isone.
  destruct (isone_sign_neutral c (set_neg x false)) eqn:U.
  - change (isone_sign_neutral c (set_neg x false)) with (isone_sign_neutral c x) in U.
    apply isone_iff in U; auto. destruct U as [U|U]; [|tauto]. f_equal.
    (* x = +-1 *)
    apply (value_unique c Hc); [apply set_neg_normal, one_normal|auto|rewrite <- Z1; reflexivity|].
    pose proof (value_sign c Hc x Hx Zx) as Sx. unfold is_one in U.
    destruct max_min_values as (_ & _ & _ & H1 & _).
    assert (Hs : forall b, (value c (set_neg (one c) b) == (if b then -(1) else 1))%Q).
    { intros b. destruct (normal_facts c Hc _ one_normal) as (L1 & _). rewrite value_low in H1 by auto. rewrite D1 in H1. cbn [sgn] in H1. rewrite Z.mul_1_l in H1.
      rewrite value_low by auto. cbn [set_neg data dexp dneg]. destruct b; cbn [sgn].
      - replace (-1 * V (data (one c))) with (- V (data (one c))) by ring. rewrite inject_Z_opp.
        setoid_replace (- inject_Z (V (data (one c))) * p10 (low c (dexp (one c))))%Q with (- (inject_Z (V (data (one c))) * p10 (low c (dexp (one c)))))%Q by ring. rewrite H1. reflexivity.
      - rewrite Z.mul_1_l. exact H1. }
    rewrite Hs. destruct (dneg x).
    + rewrite Qabs_neg in U by lra. lra.
    + rewrite Qabs_pos in U by lra. lra.
  - f_equal. unfold set_neg at 1. cbn [data dexp dprec set_neg]. destruct x; reflexivity.
Qed.

Lemma mul_one_l rmem scratch x : normal c x -> iszero x = false -> mul c rmem scratch (one c) x = Some x.
Proof.
  intros Hx Zx. unfold mul.
  assert (Z1 : iszero (one c) = false) by (apply (isone_iszero c), one_isone).
  rewrite Zx, Z1. cbn [orb]. change (dneg (one c)) with false. rewrite xorb_false_l.
  change (isone_sign_neutral c (set_neg (one c) false)) with (isone_sign_neutral c (one c)). rewrite one_isone.
  rewrite set_neg_same. reflexivity.
Qed.

Lemma negate_negate x : negate (negate x) = x.
Proof.
  destruct (iszero x) eqn:Z.
  - unfold negate. rewrite Z, Z. reflexivity.
  - unfold negate at 1. rewrite iszero_negate, Z. unfold negate. rewrite Z. cbn [data dexp dneg dprec]. rewrite negb_involutive. destruct x; reflexivity.
Qed.

Lemma fabs_spec x : normal c x -> (iszero x = true -> dneg x = false) ->
  normal c (fabs x) /\ (value c (fabs x) == Qabs (value c x))%Q /\ dneg (fabs x) = false /\ fabs (negate x) = fabs x.
Proof.
  intros Hx Hz. unfold fabs.
  destruct (iszero x) eqn:Zx.
  - rewrite (Hz eq_refl). split; [auto|]. split; [rewrite (value_zero c Hc x Hx Zx); reflexivity|]. split; [auto|].
    assert (negate x = x) by (unfold negate; rewrite Zx; auto). rewrite H, (Hz eq_refl). auto.
  - pose proof (value_sign c Hc x Hx Zx) as Sx. destruct (dneg x) eqn:Dx.
    + split; [apply negate_normal; auto|]. split; [rewrite (value_negate c Hc x Hx), Qabs_neg by lra; reflexivity|].
      unfold negate. rewrite Zx. cbn [dneg]. rewrite Dx. auto.
    + split; [auto|]. split; [rewrite Qabs_pos by lra; reflexivity|]. split; [auto|].
      unfold negate. rewrite Zx. cbn [dneg]. rewrite Dx. cbn [negb]. unfold iszero in *. cbn [data]. rewrite Zx. cbn [dneg]. destruct x; cbn in *; subst; reflexivity.
Qed.

Lemma add_neg_self x : normal c x -> iszero x = false -> add c x (negate x) = zero c.
Proof.
  intros Hx Zx.
  destruct (add_diff_int c Hc x (negate x) Hx (negate_normal c x Hx) Zx) as [H _].
  - rewrite iszero_negate; auto.
  - unfold negate. rewrite Zx. reflexivity.
  - apply H. rewrite !negate_exp, !negate_data. unfold negate. rewrite Zx. cbn [dneg]. destruct (dneg x); cbn [negb sgn]; ring.
Qed.

Lemma sub_self_distinct x : normal c x -> iszero x = false -> sub c x x = zero c.
Proof.
  intros Hx Zx. unfold sub.
  pose proof (add_neg_self (negate x) (negate_normal c x Hx)) as H. rewrite iszero_negate, negate_negate in H. rewrite (H Zx).
  unfold negate. rewrite (zero_iszero c Hc). reflexivity.
Qed.

(** Aliased x -= x doubles the value. *)
Lemma sub_self_doubles x : normal c x -> iszero x = false -> sub_self c x = negate (add c (negate x) (negate x)).
Proof. reflexivity. Qed.

(** * Histories keep the normal form *)
Hypothesis Hm : mul_ok c.

Definition stmt_ok (o : stmt) : Prop :=
  match o with
  | SInt _ k | SAddI _ k | SMulI _ k => - 2 ^ 63 <= k < 2 ^ 63
  | SSubI _ k => - 2 ^ 63 < k < 2 ^ 63
  | SUInt _ k => 0 <= k < 2 ^ 64
  | SDivI _ k => - 2 ^ 63 <= k < 2 ^ 63 /\ Z.abs k < 10 ^ edc c
  | _ => True
  end.

Lemma set_Forall s i x : Forall (normal c) s -> normal c x -> Forall (normal c) (set s i x).
Proof.
  intros Hs Hx. revert i. induction Hs as [|y t Hy Ht IH]; intros i; cbn [set]; [constructor|].
  destruct i; constructor; auto.
Qed.
Lemma set_length s i x : length (set s i x) = length s.
Proof. revert i. induction s as [|y t IH]; intros i; cbn [set]; [auto|]. destruct i; cbn [length]; auto. Qed.
Lemma get_normal s i : Forall (normal c) s -> normal c (get c s i).
Proof.
  intros Hs. unfold get. destruct (nth_in_or_default i s (zero c)) as [H|H].
  - rewrite Forall_forall in Hs. auto.
  - rewrite H. apply zero_normal; auto.
Qed.

Lemma add_sll_normal x k : normal c x -> - 2 ^ 63 <= k < 2 ^ 63 -> normal c (add_sll c x k).
Proof.
  intros Hx Hk. unfold add_sll, add_ull. pose proof (abs_ucast k Hk) as Ha.
  change (2 ^ 63) with 9223372036854775808 in *.
  destruct (k <? 0) eqn:En; cbn [negb] in Ha.
  - rewrite Ha. apply negate_normal, add_normal; auto; [apply negate_normal; auto|apply from_ull_normal; auto].
    change (2 ^ 64) with 18446744073709551616. lia.
  - apply add_normal; auto. apply from_ull_normal; auto. change (2 ^ 64) with 18446744073709551616. lia.
Qed.

Lemma step_normal rmem scratch s o : pool_ok c rmem scratch -> Forall (normal c) s -> stmt_ok o ->
  exists s', step c rmem scratch s o = Some s' /\ Forall (normal c) s' /\ length s' = length s.
Proof.
  intros Hp Hs Ho.
  assert (Put : forall d r, (exists x, r = Some x /\ normal c x) ->
    exists s', (match r with Some x => Some (set s d x) | None => None end) = Some s' /\ Forall (normal c) s' /\ length s' = length s).
  { intros d r (x & -> & Hx). eexists; split; [reflexivity|]. split; [apply set_Forall; auto|apply set_length]. }
  assert (G : forall i, normal c (get c s i)) by (intros; apply get_normal; auto).
  destruct o; cbn [step stmt_ok] in *; first [apply (Put d (Some _))|apply Put].
  - eexists; split; [reflexivity|]. apply negate_normal; auto.
  - eexists; split; [reflexivity|]. unfold fabs. destruct (dneg _); [apply negate_normal|]; auto.
  - eexists; split; [reflexivity|]. auto.
  - eexists; split; [reflexivity|]. apply from_sll_normal; auto.
  - eexists; split; [reflexivity|]. apply from_ull_normal; auto.
  - eexists; split; [reflexivity|]. apply add_normal; auto.
  - eexists; split; [reflexivity|]. destruct (_ =? _)%nat.
    + unfold sub_self. apply negate_normal, add_normal; auto; apply negate_normal; auto.
    + apply sub_normal; auto.
  - apply (mul_normal c Hc Hm); auto.
  - eexists; split; [reflexivity|]. apply add_sll_normal; auto.
  - unfold sub_sll, neg_sll. replace (k =? - 2 ^ 63) with false by lia. eexists; split; [reflexivity|]. apply add_sll_normal; auto. lia.
  - apply mul_sll_normal; auto.
  - unfold div_sll. rewrite abs_ucast by tauto.
    destruct (div_ull_normal c Hc (fun y w => if w <? 10 ^ edc c then None else Some (zero c)) (get c s d) (Z.abs k)) as (z & E1 & E2); auto; [lia| |].
    { intros y w _ Hw. replace (w <? 10 ^ edc c) with false by lia. eexists; split; [reflexivity|]. apply zero_normal; auto. }
    assert (E3 : div_ull c (fun _ _ => None) (get c s d) (Z.abs k) = Some z).
    { rewrite <- E1. unfold div_ull. destruct (Z.abs k =? 0); auto. destruct (iszero _); auto.
      replace (Z.abs k >=? mask L) with false; auto. rewrite mask_pow. fold (edc c). destruct Ho. lia. }
    rewrite E3. eexists; split; [reflexivity|]. destruct (negb _); auto. apply negate_normal; auto.
  - eexists; split; [reflexivity|]. apply add_normal; auto. apply one_normal.
  - eexists; split; [reflexivity|]. apply sub_normal; auto. apply one_normal.
Qed.

Lemma run_normal mem t s p : (forall k, pool_ok c (fst (mem k)) (snd (mem k))) -> Forall (normal c) s -> Forall stmt_ok p ->
  exists s', run c mem t s p = Some s' /\ Forall (normal c) s' /\ length s' = length s.
Proof.
  intros Hp Hs Hok. revert t s Hs. induction Hok as [|o p Ho Hok IH]; intros t s Hs; cbn [run].
  - eauto.
  - destruct (step_normal (fst (mem t)) (snd (mem t)) s o (Hp t) Hs Ho) as (s1 & E1 & N1 & L1). rewrite E1.
    destruct (IH (S t) s1 N1) as (s2 & E2 & N2 & L2). exists s2. rewrite L2. auto.
Qed.

End M.
