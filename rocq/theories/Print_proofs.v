(** Print_proofs.v - the digits extracted for output. *)
From Verif Require Import Base Add_proofs Value_proofs Sum_proofs Mul_proofs Int_proofs Misc_proofs Util_proofs.
From Verif Require Export Parse2_proofs Spec_Util.
From Coq Require Import Lia Lqa.
Local Open Scope Z_scope.

Lemma V10_lead l : digits_ok 10 l -> l <> [] ->
  (hd 0 l <> 0 <-> 10 ^ (Z.of_nat (length l) - 1) <= V10 l).
Proof.
  intros H Hn. destruct l as [|a t]; [tauto|]. apply digits_ok_cons in H. destruct H as [Ha Ht].
  pose proof (limbs_value_bound 10 t ltac:(lia) Ht) as Hb. cbn [hd limbs_value length].
  replace (Z.of_nat (S (length t)) - 1) with (Z.of_nat (length t)) by lia.
  pose proof (pow_pos_nat 10 (length t) ltac:(lia)). split; intros; nia.
Qed.

Lemma V10_snoc l a : V10 (l ++ [a]) = 10 * V10 l + a.
Proof. rewrite limbs_value_app, limbs_value_single. change (10 ^ Z.of_nat (length [a])) with 10. lia. Qed.

(** Rounding a digit text up. *)
Lemma round_up_spec l : digits_ok 10 l -> l <> [] ->
  exists l' b, round_up_rev (rev (dch l)) = (rev (dch l'), b) /\ length l' = length l /\ digits_ok 10 l' /\
    V10 l' * (if b then 10 else 1) = V10 l + 1 /\ (b = true -> V10 l' = 10 ^ (Z.of_nat (length l) - 1)).
Proof.
  induction l as [|a l IH] using rev_ind; [tauto|]. intros Ho _.
  apply digits_ok_app in Ho. destruct Ho as [Hl Ha]. apply digits_ok_cons in Ha. destruct Ha as [Ha _].
  rewrite dch_app, rev_app_distr. cbn [dch map rev app].
  destruct l as [|b l0] eqn:El.
  - cbn [dch map rev app round_up_rev]. replace (48 + a - 48) with a by lia. destruct (a =? 9) eqn:E9.
    + exists [1], true. cbn [app length rev dch map]. repeat split; auto; try (cbn; lia). repeat constructor; lia.
    + exists [a + 1], false. cbn [rev app dch map length limbs_value]. split; [f_equal; f_equal; lia|]. split; [auto|].
      split; [repeat constructor; lia|]. split; [cbn; lia|discriminate].
  - destruct (IH Hl ltac:(discriminate)) as (l' & bb & E1 & E2 & E3 & E4 & E5).
    assert (Hne : rev (dch (b :: l0)) <> []).
    { intros E. apply (f_equal (@length Z)) in E. rewrite rev_length, dch_length in E. cbn in E. lia. }
    destruct (rev (dch (b :: l0))) as [|y ys] eqn:Er; [tauto|].
    change (round_up_rev (48 + a :: y :: ys)) with
      (if 48 + a - 48 =? 9 then let '(t', b) := round_up_rev (y :: ys) in (48 :: t', b) else (48 + a + 1 :: y :: ys, false)).
    replace (48 + a - 48) with a by lia. destruct (a =? 9) eqn:E9.
    + rewrite E1. exists (l' ++ [0]), bb. rewrite dch_app, rev_app_distr. cbn [dch map rev app].
      split; [auto|]. split; [rewrite app_length; cbn [length] in *; rewrite app_length; cbn [length]; lia|].
      split; [apply digits_ok_app; split; auto; repeat constructor; lia|].
      change (b :: l0 ++ [a]) with ((b :: l0) ++ [a]). rewrite !V10_snoc.
      split; [destruct bb; lia|]. intros Hb. rewrite (E5 Hb). rewrite app_length. cbn [length]. rewrite Z.add_0_r.
      rewrite <- Z.pow_succ_r by lia. f_equal. lia.
    + exists ((b :: l0) ++ [a + 1]), false. rewrite dch_app, rev_app_distr, Er. cbn [dch map rev app].
      split; [f_equal; f_equal; lia|]. split; [cbn [length]; rewrite !app_length; auto|].
      change (b :: l0 ++ [a + 1]) with ((b :: l0) ++ [a + 1]).
      split; [apply digits_ok_app; split; auto; repeat constructor; lia|]. change (b :: l0 ++ [a]) with ((b :: l0) ++ [a]).
      rewrite !V10_snoc. split; [lia|discriminate].
Qed.

Section P.
Variable c : cfg.
Hypothesis Hc : cfg_ok c.
Notation E := (ebits (c_expo c)).
Notation ED := (edc c).
Notation B := (mask (c_limb c)).
Notation n := (nel c).

Lemma text_chars t : Forall (fun ch => exists dd, 0 <= dd < 10 /\ ch = extract10 dd) t ->
  exists l, t = dch l /\ digits_ok 10 l /\ text_value 10 t = V10 l.
Proof.
  induction 1 as [|ch t (dd & Hd & ->) Ht (l & -> & Hl & Hv)].
  - exists []. repeat split. constructor.
  - exists (dd :: l). split; [|split; [constructor; auto|]].
    + change (dch (dd :: l)) with (48 + dd :: dch l). f_equal. unfold extract10. replace (dd <=? 9) with true by lia. lia.
    + unfold text_value in *. cbn [map limbs_value]. rewrite Hv. rewrite map_length, dch_length.
      rewrite extract10_value by auto. reflexivity.
Qed.

Lemma dec_text u cap : 0 <= u < 2 ^ 64 -> u < 10 ^ Z.of_nat cap -> (0 < cap)%nat ->
  exists l, baselexical_cast 10 extract10 cap u = Some (dch l) /\ digits_ok 10 l /\ V10 l = u /\
    (0 < length l <= cap)%nat /\ (u <> 0 -> hd 0 l <> 0).
Proof.
  intros Hu Hc1 Hcap.
  destruct (baselexical_proof 10 extract10 cap u ltac:(lia) Hu extract10_value Hc1 Hcap) as (t & E1 & E2 & E3 & E4 & E5 & E6).
  destruct (text_chars t E6) as (l & -> & Hl & Hv). exists l. rewrite dch_length in E5.
  split; [auto|]. split; [auto|]. split; [congruence|]. split; [auto|].
  intros Hnz Hh. apply (E4 Hnz). destruct l; [cbn in E5; lia|]. cbn in *. subst. reflexivity.
Qed.

Lemma ED_pow : 10 ^ ED = B. Proof. symmetry. apply mask_pow. Qed.
Lemma B_small : B <= 100000000. Proof. destruct (c_limb c); cbn; lia. Qed.
Lemma EDn : Z.of_nat (Z.to_nat ED) = ED. Proof. pose proof (edc_pos c). lia. Qed.

Lemma limb_text_spec u : 0 <= u < B ->
  exists l, limb_text c u = Some (dch l) /\ digits_ok 10 l /\ V10 l = u /\ (0 < length l <= Z.to_nat ED)%nat /\ (u <> 0 -> hd 0 l <> 0).
Proof.
  intros Hu. pose proof B_small. pose proof (edc_pos c). apply dec_text.
  - change (2 ^ 64) with 18446744073709551616. lia.
  - change (ed (c_limb c)) with ED. rewrite EDn, ED_pow. lia.
  - change (ed (c_limb c)) with ED. lia.
Qed.

Lemma limb_text_full_spec u : 0 <= u < B ->
  exists l, limb_text_full c u = Some (dch l) /\ digits_ok 10 l /\ V10 l = u /\ length l = Z.to_nat ED.
Proof.
  intros Hu. destruct (limb_text_spec u Hu) as (l & E1 & E2 & E3 & E4 & _). unfold limb_text_full. rewrite E1.
  change (ed (c_limb c)) with ED. rewrite dch_length, <- dch_repeat0, <- dch_app.
  eexists. split; [reflexivity|]. split; [apply digits_ok_app; split; auto; apply digits_ok_repeat0; lia|].
  split; [rewrite limbs_value_app, limbs_value_repeat0; lia|]. rewrite app_length, repeat_length. lia.
Qed.

Lemma concat_texts_spec l : digits_ok B l ->
  exists t, concat_texts c l = Some (dch t) /\ digits_ok 10 t /\ V10 t = limbs_value B l /\
    length t = (length l * Z.to_nat ED)%nat.
Proof.
  induction 1 as [|u l Hu Hl (t & E1 & E2 & E3 & E4)]; cbn [concat_texts].
  - exists []. repeat split. constructor.
  - destruct (limb_text_full_spec u Hu) as (l0 & F1 & F2 & F3 & F4). rewrite F1, E1. exists (l0 ++ t).
    rewrite dch_app. split; [auto|]. split; [apply digits_ok_app; auto|]. split.
    + rewrite limbs_value_app, F3, E3, E4. cbn [limbs_value]. f_equal. f_equal.
      rewrite <- ED_pow, <- Z.pow_mul_r by (pose proof (edc_pos c); lia). f_equal.
      rewrite Nat2Z.inj_mul, EDn. ring.
    + rewrite app_length. cbn [length]. lia.
Qed.

(** Number of digits of the first limb, in terms of ilogb. *)
Lemma ilogb_eq x : normal c x -> iszero x = false -> dexp x + ED <= 2 ^ (E - 1) ->
  ilogb c x = dexp x + order_of_builtin_integer (nth 0 (data x) 0) - 1 /\
  1 <= order_of_builtin_integer (nth 0 (data x) 0) <= ED /\
  10 ^ (order_of_builtin_integer (nth 0 (data x) 0) - 1) <= nth 0 (data x) 0 < 10 ^ order_of_builtin_integer (nth 0 (data x) 0).
Proof.
  intros Hx Zx Hhi. destruct (normal_facts c Hc x Hx) as (Lx & Ox & _).
  pose proof (edc_pos c) as He. pose proof (E_ge8 c) as HE.
  assert (Hd : 0 < nth 0 (data x) 0 < B).
  { pose proof (digits_ok_nth B (data x) 0 (mask_pos _) Ox). unfold iszero in Zx. lia. }
  pose proof B_small. 
  destruct (order_spec (nth 0 (data x) 0)) as [O1 O2]; [change (2 ^ 64) with 18446744073709551616; lia|].
  set (k := order_of_builtin_integer (nth 0 (data x) 0)) in *.
  assert (Hk : k <= ED).
  { assert (Hp : 10 ^ (k - 1) < 10 ^ ED) by (rewrite ED_pow; lia). apply Z.pow_lt_mono_r_iff in Hp; lia. }
  assert (Hx1 : - 2 ^ (E - 1) <= dexp x < 2 ^ (E - 1)) by (destruct Hx as (_ & _ & _ & _ & ? & _); auto).
  assert (H128 : 128 <= 2 ^ (E - 1)) by (change 128 with (2 ^ 7); apply Z.pow_le_mono_r; lia).
  split; [|split; [lia|auto]].
  unfold ilogb. fold k. rewrite (scast_id E k) by lia. rewrite (scast_id E (k - 1)) by lia. rewrite scast_id by lia. lia.
Qed.

(** The first [k] limbs as digits. *)
Lemma get_output_digits_spec x k : normal c x -> iszero x = false -> dexp x + ED <= 2 ^ (E - 1) -> (1 <= k <= n)%nat ->
  exists t, get_output_digits c x k = Some (dch t) /\ digits_ok 10 t /\ hd 0 t <> 0 /\
    V10 t = limbs_value B (firstn k (data x)) /\
    Z.of_nat (length t) = ilogb c x - dexp x + 1 + (Z.of_nat k - 1) * ED.
Proof.
  intros Hx Zx Hhi Hk. destruct (normal_facts c Hc x Hx) as (Lx & Ox & _).
  destruct (ilogb_eq x Hx Zx Hhi) as (Hil & Ho1 & Ho2). unfold get_output_digits.
  destruct (data x) as [|u r] eqn:Ed; [cbn in Lx; lia|]. destruct k as [|k]; [lia|]. cbn [firstn nth] in *.
  apply digits_ok_cons in Ox. destruct Ox as [Hu Hr].
  assert (Hu0 : u <> 0) by (unfold iszero in Zx; rewrite Ed in Zx; cbn in Zx; lia).
  destruct (limb_text_spec u Hu) as (l & E1 & E2 & E3 & E4 & E5).
  destruct (concat_texts_spec (firstn k r) (digits_ok_firstn _ _ _ Hr)) as (t & F1 & F2 & F3 & F4).
  rewrite E1, F1. exists (l ++ t). rewrite dch_app. split; [auto|]. split; [apply digits_ok_app; auto|].
  split; [destruct l; [cbn in E4; lia|cbn in *; auto]|].
  assert (Hlk : length (firstn k r) = k) by (rewrite firstn_length; cbn in Lx; lia).
  pose proof (edc_pos c) as He.
  split.
  - rewrite limbs_value_app, E3, F3, F4, Hlk. cbn [limbs_value]. rewrite Hlk. f_equal. f_equal.
    rewrite <- ED_pow, <- Z.pow_mul_r by lia. f_equal. rewrite Nat2Z.inj_mul, EDn. ring.
  - rewrite app_length, F4, Hlk, Nat2Z.inj_add, Nat2Z.inj_mul, EDn.
    assert (Hlen : Z.of_nat (length l) = order_of_builtin_integer u).
    { assert (Hne : l <> []) by (intros ->; cbn in E4; lia). pose proof (proj1 (V10_lead l E2 Hne) (E5 Hu0)) as Hb1.
      pose proof (limbs_value_bound 10 l ltac:(lia) E2) as Hb2. rewrite E3 in *.
      set (o := order_of_builtin_integer u) in *. set (m := Z.of_nat (length l)) in *.
      assert (P1 : 10 ^ (m - 1) < 10 ^ o) by lia. assert (P2 : 10 ^ (o - 1) < 10 ^ m) by lia.
      apply Z.pow_lt_mono_r_iff in P1; [|lia|lia]. apply Z.pow_lt_mono_r_iff in P2; lia. }
    rewrite Hlen, Hil. lia.
Qed.

Lemma V10_firstn t k : digits_ok 10 t -> (k <= length t)%nat ->
  V10 (firstn k t) = V10 t / 10 ^ Z.of_nat (length t - k).
Proof.
  intros Ht Hk. rewrite <- (firstn_skipn k t) at 2. rewrite limbs_value_app, skipn_length.
  pose proof (limbs_value_bound 10 (skipn k t) ltac:(lia) (digits_ok_skipn _ _ _ Ht)) as Hb. rewrite skipn_length in Hb.
  rewrite Z.div_add_l by lia. rewrite Z.div_small by lia. lia.
Qed.

Lemma firstn_snoc {A} (t : list A) k d : (k < length t)%nat -> firstn (S k) t = firstn k t ++ [nth k t d].
Proof.
  revert k; induction t as [|a t IH]; intros [|k] Hk; cbn [length firstn nth app] in *; try lia; auto.
  f_equal. apply IH. lia.
Qed.

(** Rounding by the next digit is rounding half up. *)
Lemma half_up_units T s d M : 0 <= T -> 1 <= M -> T / 10 ^ (M - 1) = 10 * s + d -> 0 <= d < 10 ->
  let k := s + (if d >=? 5 then 1 else 0) in
  2 * k * 10 ^ M - 10 ^ M <= 2 * T < 2 * k * 10 ^ M + 10 ^ M.
Proof.
  intros HT HM Hd Hdr. cbv zeta. assert (Hp : 0 < 10 ^ (M - 1)) by (apply Z.pow_pos_nonneg; lia).
  assert (EM : 10 ^ M = 10 * 10 ^ (M - 1)) by (rewrite <- Z.pow_succ_r by lia; f_equal; lia).
  pose proof (Z.div_mod T (10 ^ (M - 1)) ltac:(lia)) as Hdm. pose proof (Z.mod_pos_bound T (10 ^ (M - 1)) Hp) as Hm.
  rewrite Hd in Hdm. rewrite EM. set (p := 10 ^ (M - 1)) in *. set (r := T mod p) in *. clearbody p r. subst T. clear - Hm Hdr Hp.
  assert (D0 : 0 <= d * p <= 9 * p) by nia.
  destruct (d >=? 5) eqn:E5.
  - assert (5 * p <= d * p) by nia. lia.
  - assert (d * p <= 4 * p) by nia. lia.
Qed.

Lemma half_up_Q T k M low u q r : 0 <= T -> 0 <= k -> 0 <= M -> (u == inject_Z (10 ^ M) * p10 low)%Q ->
  (q == inject_Z T * p10 low)%Q -> (r == inject_Z k * u)%Q ->
  2 * k * 10 ^ M - 10 ^ M <= 2 * T < 2 * k * 10 ^ M + 10 ^ M -> rounds_half_up u q r.
Proof.
  intros HT Hk HM Hu Hq Hr [H1 H2]. unfold rounds_half_up.
  assert (Hpl : (0 < p10 low)%Q) by apply p10_pos.
  assert (0 < 10 ^ M) by (apply Z.pow_pos_nonneg; lia).
  assert (Hup : (0 < u)%Q).
  { rewrite Hu. change 0%Q with (inject_Z 0 * p10 low)%Q at 1 || idtac. 
    assert (Hi : (0 < inject_Z (10 ^ M))%Q) by (change 0%Q with (inject_Z 0); rewrite <- Zlt_Qlt; lia). nra. }
  assert (Hkq : (0 <= inject_Z k)%Q) by (change 0%Q with (inject_Z 0); rewrite <- Zle_Qle; auto).
  assert (HTq : (0 <= inject_Z T)%Q) by (change 0%Q with (inject_Z 0); rewrite <- Zle_Qle; auto).
  assert (Hq0 : (0 <= q)%Q) by (rewrite Hq; nra). assert (Hr0 : (0 <= r)%Q) by (rewrite Hr; nra).
  split; [nra|]. exists k. rewrite (Qabs_pos q), (Qabs_pos r) by auto. split; [auto|].
  assert (G1 : (inject_Z (2 * k * 10 ^ M - 10 ^ M) * p10 low <= inject_Z (2 * T) * p10 low)%Q) by (apply sc_le; auto).
  assert (G2 : (inject_Z (2 * T) * p10 low < inject_Z (2 * k * 10 ^ M + 10 ^ M) * p10 low)%Q) by (apply sc_lt; auto).
  unfold Zminus in G1. rewrite ?inject_Z_plus, ?inject_Z_opp, ?inject_Z_mult in G1, G2. change (inject_Z 2) with 2%Q in *.
  rewrite Hq. unfold Qdiv. change (/ 2)%Q with (1 # 2)%Q.
  assert (U1 : (inject_Z (10 ^ M) * p10 low == u)%Q) by (symmetry; auto).
  change (inject_Z (- 10 ^ M)) with (- inject_Z (10 ^ M))%Q in G1.
  assert (G1' : (2 * (inject_Z k * u) - u <= 2 * (inject_Z T * p10 low))%Q) by (rewrite <- U1; lra).
  assert (G2' : (2 * (inject_Z T * p10 low) < 2 * (inject_Z k * u) + u)%Q) by (rewrite <- U1; lra).
  lra.
Qed.

Lemma get_output_string_spec x nd : normal c x -> iszero x = false -> dexp x + ED <= 2 ^ (E - 1) ->
  - 2 ^ (E - 1) <= ilogb c x -> ilogb c x + 1 < 2 ^ (E - 1) -> 1 <= nd < 2 ^ 63 ->
  exists ds e', get_output_string c x (ilogb c x) nd = Some (dch ds, e') /\ digits_ok 10 ds /\ hd 0 ds <> 0 /\
    1 <= Z.of_nat (length ds) <= nd /\
    (e' = ilogb c x \/ e' = ilogb c x + 1) /\
    rounds_half_up (p10 (ilogb c x - nd + 1)) (Qabs (value c x))
                   (inject_Z (V10 ds) * p10 (e' - (Z.of_nat (length ds) - 1))).
Proof.
  intros Hx Zx Hhi Hlo Hhi2 Hnd. pose proof (edc_pos c) as He. pose proof (nel_Z c Hc) as Hn. pose proof (nel_ge4 c Hc) as Hn4.
  destruct (normal_facts c Hc x Hx) as (Lx & Ox & _). set (e0 := ilogb c x) in *.
  pose proof (Z.div_pos nd ED ltac:(lia) ltac:(lia)) as Hdp.
  assert (Hdl : nd / ED <= nd) by (apply Z.div_le_upper_bound; nia).
  unfold get_output_string. change (ed (c_limb c)) with ED.
  rewrite (ucast_id 64 (nd / ED)), (ucast_id 64 (nd / ED + 2)) by (change (2 ^ 63) with 9223372036854775808 in *; change (2 ^ 64) with 18446744073709551616; lia).
  set (k := Z.min (nd / ED + 2) (elem_number c)).
  assert (Hk : 2 <= k <= Z.of_nat n) by (unfold k; lia).
  destruct (get_output_digits_spec x (Z.to_nat k) Hx Zx Hhi ltac:(lia)) as (t & -> & Ht & Hh & HV & HL).
  fold e0 in HL. rewrite Z2Nat.id in HL by lia.
  destruct (ilogb_eq x Hx Zx Hhi) as (Hil & Ho1 & Ho2). fold e0 in Hil.
  set (T := limbs_value B (data x)). assert (HT : 0 <= T) by (apply limbs_value_bound; [apply mask_pos|auto]).
  assert (Hq : (Qabs (value c x) == inject_Z T * p10 (low c (dexp x)))%Q).
  { rewrite value_low by auto. rewrite sc_abs, sgn_abs by auto. reflexivity. }
  assert (Hlow : low c (dexp x) = e0 + 1 - (e0 - dexp x + 1 + (Z.of_nat n - 1) * ED)) by (unfold low; ring).
  assert (HVT : V10 t = T / 10 ^ ((Z.of_nat n - k) * ED)).
  { rewrite HV, (firstn_value c) by (auto; lia). fold T. f_equal. rewrite Lx, <- ED_pow, <- Z.pow_mul_r by lia. f_equal. lia. }
  set (len := Z.of_nat (length t)) in *.
  unfold sze. rewrite dch_length. fold len.
  set (W := (Z.of_nat n - k) * ED) in *.
  assert (HW : 0 <= W) by (apply Z.mul_nonneg_nonneg; lia).
  assert (Htot : low c (dexp x) = e0 + 1 - (len + W)) by (rewrite Hlow, HL; unfold W; ring). clearbody W.
  destruct (len >? nd) eqn:Hgt.
  - (* cut *)
    set (m := Z.to_nat nd). set (M := len - nd + W).
    assert (Hm : (m < length t)%nat) by lia.
    assert (HM : 1 <= M) by (unfold M; lia).
    set (s := V10 (firstn m t)). set (d := nth m t 0).
    assert (Hd : 0 <= d < 10) by (apply (digits_ok_nth 10 t m); [lia|auto]).
    assert (Hsd : T / 10 ^ (M - 1) = 10 * s + d).
    { unfold s, d. rewrite <- V10_snoc, <- firstn_snoc by auto. rewrite V10_firstn by (auto; lia).
      rewrite HVT, Z.div_div by (try apply Z.pow_nonzero; try apply Z.pow_pos_nonneg; lia).
      rewrite <- Z.pow_add_r by lia. f_equal. f_equal. unfold M, len, m. lia. }
    assert (Enth : nth m (dch t) 0 = 48 + d).
    { unfold d, digit_text. rewrite (nth_indep _ 0 (48 + 0)) by (rewrite map_length; auto). apply map_nth. }
    rewrite Enth. replace (48 + d - 48) with d by lia. rewrite (ucast_id 32) by (change (2 ^ 32) with 4294967296; lia).
    rewrite dch_firstn. set (ds := firstn m t).
    assert (Hlds : length ds = m) by (unfold ds; rewrite firstn_length; lia).
    assert (Hds : digits_ok 10 ds) by (apply digits_ok_firstn; auto).
    assert (Hne : ds <> []) by (intros E0; rewrite E0 in Hlds; cbn in Hlds; lia).
    assert (Hhd : hd 0 ds <> 0) by (unfold ds; destruct t; destruct m; cbn in *; auto; lia).
    assert (Hs0 : 0 <= s) by (apply limbs_value_bound; [lia|auto]).
    pose proof (half_up_units T s d M HT HM Hsd Hd) as HU. cbv zeta in HU.
    assert (Hu : (p10 (e0 - nd + 1) == inject_Z (10 ^ M) * p10 (low c (dexp x)))%Q).
    { rewrite (p10_scale (e0 - nd + 1) (low c (dexp x))) by (rewrite Htot; lia).
      replace (e0 - nd + 1 - low c (dexp x)) with M by (rewrite Htot; unfold M; ring). reflexivity. }
    destruct (d >=? 5) eqn:E5.
    + rewrite dch_length, Hlds. replace (m =? 0)%nat with false by lia.
      destruct (round_up_spec ds Hds Hne) as (l' & b & -> & R2 & R3 & R4 & R5). rewrite rev_involutive.
      exists l', (if b then scast E (e0 + 1) else e0). split; [reflexivity|]. split; [auto|].
      assert (Hl'n : l' <> []) by (intros E0; rewrite E0 in R2; cbn in R2; lia).
      split.
      { apply V10_lead; auto. apply V10_lead in Hhd; auto. rewrite R2. 
        destruct b; [rewrite R5 by auto; lia|lia]. }
      split; [lia|].
      assert (Ee : (if b then scast E (e0 + 1) else e0) = e0 + (if b then 1 else 0)).
      { destruct b; [|lia]. apply sE. lia. }
      rewrite Ee. split; [destruct b; lia|].
      apply (half_up_Q T (s + 1) M (low c (dexp x))); auto; try lia.
      rewrite R2, Hlds. fold s in R4. change (V10 ds) with s in R4.
      destruct b.
      * replace (e0 + 1 - (Z.of_nat m - 1)) with (1 + (e0 - nd + 1)) by lia. rewrite p10_add.
        rewrite <- R4, inject_Z_mult. rewrite (p10_Z 1) by lia. change (inject_Z (10 ^ 1)) with (inject_Z 10). ring.
      * replace (e0 + 0 - (Z.of_nat m - 1)) with (e0 - nd + 1) by lia. rewrite <- R4, Z.mul_1_r. reflexivity.
    + exists ds, e0. split; [reflexivity|]. split; [auto|]. split; [auto|]. split; [lia|]. split; [auto|].
      apply (half_up_Q T s M (low c (dexp x))); auto; try lia.
      rewrite Hlds. replace (e0 - (Z.of_nat m - 1)) with (e0 - nd + 1) by lia. reflexivity.
  - (* all digits *)
    assert (Hkn : k = Z.of_nat n).
    { unfold k in *. destruct (Z.min_spec (nd / ED + 2) (elem_number c)) as [[Hlt Hmin]|[_ Hmin]]; [exfalso|lia].
      rewrite Hmin in *. pose proof (Z.div_mod nd ED ltac:(lia)). pose proof (Z.mod_pos_bound nd ED ltac:(lia)). nia. }
    exists t, e0. split; [reflexivity|]. split; [auto|]. split; [auto|].
    assert (Hlen1 : 1 <= len) by (unfold len; destruct t; cbn in *; lia).
    split; [fold len; lia|]. split; [auto|]. fold len.
    assert (HW0 : W = 0) by (rewrite Hkn in HL; lia). rewrite HW0 in *. change (10 ^ 0) with 1 in HVT. rewrite Z.div_1_r in HVT.
    unfold rounds_half_up.
    assert (Hr : (inject_Z (V10 t) * p10 (e0 - (len - 1)) == Qabs (value c x))%Q).
    { rewrite Hq, HVT, Htot. replace (e0 + 1 - (len + 0)) with (e0 - (len - 1)) by lia. reflexivity. }
    rewrite Hr. pose proof (Qabs_nonneg (value c x)) as Hnn. set (q := Qabs (value c x)) in *.
    split; [nra|]. exists (V10 t * 10 ^ (nd - len)).
    assert (Eq : (inject_Z (V10 t * 10 ^ (nd - len)) * p10 (e0 - nd + 1) == q)%Q).
    { rewrite <- Hr. rewrite (scaleZ (V10 t) (e0 - (len - 1)) (e0 - nd + 1)) by lia.
      replace (e0 - (len - 1) - (e0 - nd + 1)) with (nd - len) by lia. reflexivity. }
    rewrite Eq, Hr, (Qabs_pos q) by auto. assert (Hp : (0 < p10 (e0 - nd + 1))%Q) by apply p10_pos.
    unfold Qdiv. change (/ 2)%Q with (1 # 2)%Q. split; [reflexivity|]. split; lra.
Qed.
End P.
