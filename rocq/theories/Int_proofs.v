(** Int_proofs.v - construction from built-in integers, multiplication and division by them. *)
From Verif Require Export Cmp_proofs.
From Coq Require Import Lqa.
Local Open Scope Z_scope.

(** order_of_builtin_integer counts decimal digits. *)
Lemma order_loop_spec fuel : forall u k, 0 < u < 10 ^ Z.of_nat fuel ->
  exists d, order_loop fuel u k = Some (k + d) /\ 1 <= d <= Z.of_nat fuel /\ 10 ^ (d - 1) <= u < 10 ^ d.
Proof.
  induction fuel as [|f IH]; intros u k Hu; [cbn in Hu; lia|]. cbn [order_loop].
  destruct (u / 10 =? 0) eqn:E0.
  - exists 1. split; [reflexivity|]. pose proof (Z.div_mod u 10). pose proof (Z.mod_pos_bound u 10). cbn. lia.
  - destruct (IH (u / 10) (k + 1)) as (d & E1 & E2 & E3).
    + rewrite Nat2Z.inj_succ, Z.pow_succ_r in Hu by lia. split; [pose proof (Z.div_pos u 10); lia|].
      apply Z.div_lt_upper_bound; lia.
    + exists (d + 1). rewrite E1. split; [f_equal; lia|]. split; [lia|].
      replace (d + 1 - 1) with (Z.succ (d - 1)) by lia. rewrite Z.add_1_r, !Z.pow_succ_r by lia.
      pose proof (Z.div_mod u 10). pose proof (Z.mod_pos_bound u 10). lia.
Qed.
Lemma order_spec u : 0 < u < 2 ^ 64 ->
  1 <= order_of_builtin_integer u <= 20 /\
  10 ^ (order_of_builtin_integer u - 1) <= u < 10 ^ order_of_builtin_integer u.
Proof.
  intros Hu. unfold order_of_builtin_integer.
  destruct (order_loop_spec 64 u 0) as (d & E1 & E2 & E3).
  { split; [lia|]. eapply Z.lt_trans; [apply Hu|reflexivity]. }
  rewrite E1, Z.add_0_l. split; [|auto]. split; [lia|].
  apply Z.le_ngt. intros Hd. assert (10 ^ 20 <= 10 ^ (d - 1)) by (apply Z.pow_le_mono_r; lia).
  assert (2 ^ 64 < 10 ^ 20) by reflexivity. lia.
Qed.

Section I.
Variable c : cfg.
Notation L := (c_limb c).
Notation B := (mask L).
Notation V := (limbs_value B).
Notation P n := (B ^ Z.of_nat n).
Notation E := (ebits (c_expo c)).
Notation n := (nel c).
Hypothesis Hc : cfg_ok c.
Let HB : 0 < B := mask_pos L.

(** Little-endian limbs of u. *)
Lemma ull_limbs_spec k : forall u, 0 <= u < P k ->
  let l := rev (ull_limbs c k u) in
  V l = u /\ digits_ok B l /\ (length l <= k)%nat /\ (0 < u -> nth 0 l 0 <> 0 /\ P (length l - 1) <= u < P (length l)) /\ (u = 0 -> l = []).
Proof.
  induction k as [|k IH]; intros u Hu; cbv zeta.
  - cbn in *. repeat split; try lia; constructor.
  - cbn [ull_limbs]. destruct (u =? 0) eqn:E0.
    + cbn. repeat split; try lia; constructor.
    + rewrite pow_succ_nat in Hu.
      assert (Hq : 0 <= u / B < P k) by (split; [apply Z.div_pos; lia|apply Z.div_lt_upper_bound; lia]).
      specialize (IH (u / B) Hq). cbv zeta in IH. destruct IH as (I1 & I2 & I3 & I4 & I5).
      pose proof (Z.mod_pos_bound u B HB) as Hmb. pose proof (Z.div_mod u B ltac:(lia)) as Hdm.
      rewrite ucl by lia. cbn [rev]. set (l := rev (ull_limbs c k (u / B))) in *.
      rewrite limbs_value_app, app_length. cbn [length limbs_value]. change (P 1) with (B ^ 1). change (P 0) with 1. rewrite Z.pow_1_r, I1.
      split; [lia|]. split; [apply digits_ok_app; split; auto; repeat constructor; lia|]. split; [lia|].
      split; [|lia]. intros _.
      destruct (Z.eq_dec (u / B) 0) as [Hz|Hz].
      * specialize (I5 Hz). rewrite I5. cbn [app nth length]. rewrite Hz in Hdm.
        split; [lia|]. change (P (0 + 1 - 1)) with 1. change (P (0 + 1)) with (B ^ 1). rewrite Z.pow_1_r. lia.
      * destruct (I4 ltac:(lia)) as [I6 I7]. split.
        -- destruct l as [|l0 l']; [cbn in I6; lia|]. exact I6.
        -- assert (Hl : (1 <= length l)%nat) by (destruct l; [cbn in I6; lia|cbn [length]; lia]).
           replace (length l + 1 - 1)%nat with (S (length l - 1)) by lia.
           replace (length l + 1)%nat with (S (length l)) by lia.
           rewrite !pow_succ_nat. nia.
Qed.

Lemma ull_tmp_size_ok : 2 ^ 64 <= P (ull_tmp_size c) /\ (ull_tmp_size c <= 12)%nat /\ (Z.of_nat (ull_tmp_size c) - 1) * edc c <= 32.
Proof. unfold ull_tmp_size, edc. destruct L; cbn; lia. Qed.

(** Integer characterisation of from_ull. *)
Lemma from_ull_int u : 0 <= u < 2 ^ 64 -> exists i : nat,
  let z := from_ull c u in
  length (data z) = n /\ digits_ok B (data z) /\ dprec z = n /\ dneg z = false /\
  (u = 0 -> z = zero c) /\
  (0 < u -> nth 0 (data z) 0 <> 0 /\ (1 <= i)%nat /\ dexp z = (Z.of_nat i - 1) * edc c /\ dexp z <= 32 /\
     P (i - 1) <= u < P i /\ V (data z) = u * P n / P i).
Proof.
  intros Hu. destruct ull_tmp_size_ok as (T1 & T2 & T3). pose proof (edc_pos c) as He.
  destruct (ull_limbs_spec (ull_tmp_size c) u ltac:(lia)) as (I1 & I2 & I3 & I4 & I5). cbv zeta in *.
  unfold from_ull. set (l := rev (ull_limbs c (ull_tmp_size c) u)) in *.
  assert (Hlen : length (ull_limbs c (ull_tmp_size c) u) = length l) by (unfold l; rewrite rev_length; auto).
  rewrite Hlen. exists (length l). cbn [data dexp dneg dprec].
  pose proof (nel_ge4 c Hc) as Hn4. pose proof (E_ge8 c) as HE.
  assert (H128 : 128 <= 2 ^ (E - 1)) by (change 128 with (2 ^ 7); apply Z.pow_le_mono_r; lia).
  set (m := Nat.min (length l) (Nat.min (ull_tmp_size c) n)).
  assert (Hm : m = Nat.min (length l) n) by lia.
  split; [rewrite app_length, firstn_length, repeat_length; lia|].
  split; [apply digits_ok_app; split; [apply digits_ok_firstn; auto|apply digits_ok_repeat0; auto]|].
  split; [auto|]. split; [auto|]. split.
  - intros H0. specialize (I5 H0). rewrite Hm, I5. cbn [length Nat.min firstn app Nat.ltb Nat.leb]. rewrite Nat.sub_0_r. reflexivity.
  - intros Hpos. destruct (I4 Hpos) as [I6 I7].
    assert (Hl1 : (1 <= length l)%nat) by (destruct l; [cbn in I6; lia|cbn [length]; lia]).
    assert (Hm1 : (1 <= m)%nat) by lia.
    split; [rewrite app_nth1 by (rewrite firstn_length; lia); rewrite nth0_firstn by lia; auto|].
    split; [auto|].
    assert (Ee : (if (1 <? length l)%nat then scast E (scast E (scast E (Z.of_nat (length l - 1)) * ed L)) else 0) = (Z.of_nat (length l) - 1) * edc c).
    { destruct (1 <? length l)%nat eqn:E1.
      - apply Nat.ltb_lt in E1. change (ed L) with (edc c).
        assert (Z.of_nat (length l - 1) * edc c <= 32) by nia.
        rewrite (scast_id E (Z.of_nat (length l - 1))) by nia. rewrite !scast_id; try nia. rewrite scast_id; nia.
      - apply Nat.ltb_ge in E1. replace (length l) with 1%nat by lia. cbn. lia. }
    rewrite Ee. split; [auto|]. split; [nia|]. split; [auto|].
    rewrite limbs_value_app, limbs_value_repeat0, repeat_length, Z.add_0_r.
    rewrite (firstn_value c) by (auto; lia). rewrite I1.
    destruct (Nat.le_gt_cases (length l) n) as [Hle|Hgt].
    + replace m with (length l) by lia. rewrite Nat.sub_diag. change (P 0) with 1. rewrite Z.div_1_r.
      replace (P n) with (P (n - length l) * P (length l)) by (rewrite <- Z.pow_add_r by lia; f_equal; lia).
      rewrite Z.mul_assoc, Z.div_mul by (pose proof (pow_pos_nat B (length l) HB); lia). reflexivity.
    + replace m with n by lia. rewrite Nat.sub_diag. change (P 0) with 1. rewrite Z.mul_1_r.
      replace (P (length l)) with (P (length l - n) * P n) by (rewrite <- Z.pow_add_r by lia; f_equal; lia).
      rewrite Z.div_mul_cancel_r; auto; pose proof (pow_pos_nat B (length l - n) HB); pose proof (pow_pos_nat B n HB); lia.
Qed.

Lemma from_ull_normal u : 0 <= u < 2 ^ 64 -> normal c (from_ull c u).
Proof.
  intros Hu. destruct (from_ull_int u Hu) as (i & A1 & A2 & A3 & A4 & A5 & A6). cbv zeta in *.
  destruct (Z.eq_dec u 0) as [H0|H0]; [rewrite A5 by auto; apply zero_normal; auto|].
  destruct (A6 ltac:(lia)) as (B1 & B2 & B3 & B4 & B5 & B6).
  pose proof (E_ge8 c) as HE. assert (H128 : 128 <= 2 ^ (E - 1)) by (change 128 with (2 ^ 7); apply Z.pow_le_mono_r; lia).
  pose proof (edc_pos c).
  apply normal_intro; auto.
  - rewrite B3. apply Z.divide_factor_r.
  - nia.
Qed.

(** Construction from an unsigned integer: truncation in general, exact when the digits fit. *)
Lemma from_ull_trunc u : 0 <= u < 2 ^ 64 -> truncates c (from_ull c u) (inject_Z u).
Proof.
  intros Hu. destruct (from_ull_int u Hu) as (i & A1 & A2 & A3 & A4 & A5 & A6). cbv zeta in *.
  pose proof (edc_pos c) as He. pose proof (nel_ge4 c Hc) as Hn4.
  destruct (Z.eq_dec u 0) as [H0|H0].
  - rewrite A5, H0 by auto. unfold truncates. rewrite (value_zero_c c Hc).
    pose proof (ulp_low c (zero c) (repeat_length 0 n)) as U. rewrite U. pose proof (p10_pos (low c (dexp (zero c)))).
    change (inject_Z 0) with 0%Q. rewrite (Qabs_pos 0) by apply Qle_refl. repeat split; lra.
  - destruct (A6 ltac:(lia)) as (B1 & B2 & B3 & B4 & B5 & B6).
    apply (truncates_intro c _ _ (u * P n) (- (edc c * Z.of_nat n)) false); auto.
    + pose proof (pow_pos_nat B n HB). nia.
    + unfold low. rewrite B3. nia.
    + rewrite B6. f_equal. rewrite Bpow by lia. f_equal. unfold low. rewrite B3. unfold edc. nia.
    + cbn [sgn]. rewrite Z.mul_1_l, Bpow by lia. rewrite inject_Z_mult, <- p10_Z by (unfold edc in *; nia).
      rewrite <- Qmult_assoc, <- p10_add. change (ed L) with (edc c). rewrite Z.add_opp_diag_r, p10_0. ring.
Qed.

Lemma from_ull_exact u : 0 <= u < 2 ^ 64 -> u < 10 ^ (edc c * elem_number c) -> (value c (from_ull c u) == inject_Z u)%Q.
Proof.
  intros Hu Hfit. destruct (from_ull_int u Hu) as (i & A1 & A2 & A3 & A4 & A5 & A6). cbv zeta in *.
  pose proof (edc_pos c) as He. pose proof (nel_ge4 c Hc) as Hn4.
  destruct (Z.eq_dec u 0) as [H0|H0]; [rewrite A5, H0, (value_zero_c c Hc) by auto; reflexivity|].
  destruct (A6 ltac:(lia)) as (B1 & B2 & B3 & B4 & B5 & B6).
  assert (Hin : (i <= n)%nat).
  { destruct (Nat.le_gt_cases i n) as [|Hgt]; auto. exfalso.
    rewrite <- (nel_Z c Hc) in Hfit. unfold edc in Hfit. rewrite <- Bpow in Hfit by lia.
    assert (P n <= P (i - 1)) by (apply Z.pow_le_mono_r; lia). lia. }
  replace (P n) with (P (n - i) * P i) in B6 by (rewrite <- Z.pow_add_r by lia; f_equal; lia).
  rewrite Z.mul_assoc, Z.div_mul in B6 by (pose proof (pow_pos_nat B i HB); lia).
  rewrite value_low, A4, B6 by auto. cbn [sgn]. rewrite Z.mul_1_l, Bpow, inject_Z_mult, <- p10_Z by (unfold edc in *; nia).
  rewrite <- Qmult_assoc, <- p10_add. replace (_ + _) with 0 by (unfold low; rewrite B3, Nat2Z.inj_sub by lia; unfold edc; ring). rewrite p10_0. ring.
Qed.

Lemma from_sll_u m : - 2 ^ 63 <= m < 2 ^ 63 ->
  from_sll c m = set_neg (from_ull c (Z.abs m)) (m <? 0) /\ 0 <= Z.abs m < 2 ^ 64.
Proof.
  intros Hm. change (2 ^ 63) with 9223372036854775808 in *. change (2 ^ 64) with 18446744073709551616 in *.
  split; [|lia]. unfold from_sll. destruct (m <? 0) eqn:Es; cbn [negb]; f_equal; f_equal.
  - unfold negate_u, ucast. change (2 ^ 64) with 18446744073709551616.
    rewrite <- (Z_mod_plus_full m 1). rewrite (Z.mod_small (m + _)) by lia. rewrite Z.abs_neq by lia.
    rewrite <- (Z_mod_plus_full _ 1). rewrite Z.mod_small by lia. lia.
  - rewrite ucast_id by (change (2 ^ 64) with 18446744073709551616; lia). lia.
Qed.

Lemma from_sll_exact m : - 2 ^ 63 <= m < 2 ^ 63 -> Z.abs m < 10 ^ (edc c * elem_number c) ->
  normal c (from_sll c m) /\ (value c (from_sll c m) == inject_Z m)%Q.
Proof.
  intros Hm Hfit. destruct (from_sll_u m Hm) as [Eu Hu]. rewrite Eu.
  pose proof (from_ull_normal _ Hu) as Hn. split; [apply set_neg_normal; auto|].
  pose proof (from_ull_exact _ Hu Hfit) as Hv. destruct (normal_facts c Hc _ Hn) as (Ln & _).
  destruct (from_ull_int _ Hu) as (i & A1 & A2 & A3 & A4 & _). cbv zeta in *.
  rewrite value_low in Hv by auto. rewrite A4 in Hv. cbn [sgn] in Hv.
  rewrite value_low by auto. cbn [set_neg data dexp dneg].
  destruct (m <? 0) eqn:Es; cbn [sgn].
  - rewrite inject_Z_mult. rewrite Z.mul_1_l in Hv. rewrite <- Qmult_assoc, Hv. rewrite Z.abs_neq, inject_Z_opp by lia.
    change (inject_Z (-1)) with (-(1))%Q. ring.
  - rewrite Hv, Z.abs_eq by lia. reflexivity.
Qed.

Lemma from_sll_normal m : - 2 ^ 63 <= m < 2 ^ 63 -> normal c (from_sll c m).
Proof. intros Hm. destruct (from_sll_u m Hm) as [Eu Hu]. rewrite Eu. apply set_neg_normal, from_ull_normal; auto. Qed.

(** Small unsigned constructor (types no wider than the limb). *)
Lemma from_small_spec u : 0 <= u < 2 ^ lbits L ->
  normal c (from_small_unsigned c u) /\ (value c (from_small_unsigned c u) == inject_Z u)%Q.
Proof.
  intros Hu. pose proof (nel_ge4 c Hc) as Hn4. pose proof (edc_pos c) as He.
  pose proof (E_ge8 c) as HE. assert (H128 : 128 <= 2 ^ (E - 1)) by (change 128 with (2 ^ 7); apply Z.pow_le_mono_r; lia).
  unfold from_small_unsigned. destruct (u <? B) eqn:Es.
  - assert (Hl : length (u :: repeat 0 (n - 1)) = n) by (cbn [length]; rewrite repeat_length; lia).
    assert (Hn : normal c (mkDec (u :: repeat 0 (n - 1)) 0 false n)).
    { split; [auto|]. cbn [data dexp dprec nth]. split; [apply ok_mask, digits_ok_cons; split; [lia|apply digits_ok_repeat0; auto]|].
      split; [intros ->; change (0 :: repeat 0 (n - 1)) with (repeat 0 (S (n - 1))); f_equal; lia|].
      split; [apply Z.divide_0_r|]. split; [lia|auto]. }
    split; [auto|]. rewrite value_low by auto. cbn [data dexp dneg sgn limbs_value].
    rewrite limbs_value_repeat0, repeat_length, Z.add_0_r, Z.mul_1_l, Bpow, inject_Z_mult, <- p10_Z by (unfold edc in *; nia).
    rewrite <- Qmult_assoc, <- p10_add. replace (_ + _) with 0 by (unfold low, edc; nia). rewrite p10_0. ring.
  - assert (Hq : 1 <= u / B < B).
    { split; [apply Z.div_le_lower_bound; lia|]. apply Z.div_lt_upper_bound; auto.
      eapply Z.lt_le_trans; [apply Hu|]. destruct L; cbn; lia. }
    pose proof (Z.mod_pos_bound u B HB) as Hmb. pose proof (Z.div_mod u B ltac:(lia)) as Hdm.
    assert (Hl : length (u / B :: u mod B :: repeat 0 (n - 2)) = n) by (cbn [length]; rewrite repeat_length; lia).
    split.
    + apply normal_intro; cbn [data dexp dprec nth]; auto; try lia.
      * apply digits_ok_cons; split; [lia|]. apply digits_ok_cons; split; [lia|apply digits_ok_repeat0; auto].
      * apply Z.divide_refl.
      * unfold edc in He. lia.
    + rewrite value_low by auto. cbn [data dexp dneg sgn limbs_value].
      rewrite limbs_value_repeat0. cbn [length]. rewrite repeat_length, Z.add_0_r, Z.mul_1_l.
      replace (S (n - 2)) with (S (n - 2)) by lia. rewrite pow_succ_nat.
      replace (u / B * (B * P (n - 2)) + u mod B * P (n - 2)) with (u * P (n - 2)) by (rewrite Hdm at 1; ring).
      rewrite Bpow, inject_Z_mult, <- p10_Z by (unfold edc in *; nia).
      rewrite <- Qmult_assoc, <- p10_add. replace (_ + _) with 0 by (unfold low, edc; nia). rewrite p10_0. ring.
Qed.

(** * Multiplication by an unsigned integer below the limb base *)
Lemma mul_ull_small rmem scratch x u : normal c x -> iszero x = false -> 1 < u < B ->
  dexp x + order_of_builtin_integer u < max_exp10_of (c_expo c) ->
  exists z, mul_ull c rmem scratch x u = Some z /\ normal c z /\ iszero z = false /\
    truncates c z (value c x * inject_Z u) /\
    (V (data x) * u < P n -> (value c z == value c x * inject_Z u)%Q).
Proof.
  intros Hx Zx Hu Hexp. unfold mul_ull. change (iszero (set_neg x false)) with (iszero x). rewrite Zx.
  replace (u =? 0) with false by lia. cbn [orb]. change (dexp (set_neg x false)) with (dexp x).
  change (dprec (set_neg x false)) with (dprec x). change (data (set_neg x false)) with (data x).
  pose proof Hx as (_ & _ & _ & Dx & Rx & _). destruct (normal_facts c Hc x Hx) as (Lx & Ox & Px & Fx & Sx & _ & Nx & _).
  specialize (Nx Zx).
  assert (HB32 : B <= 2 ^ 32) by (destruct L; cbn; lia).
  assert (Hu64 : 0 < u < 2 ^ 64) by (change (2 ^ 64) with (2 ^ 32 * 2 ^ 32); nia).
  destruct (order_spec u Hu64) as [Or1 Or2]. set (k := order_of_builtin_integer u) in *.
  pose proof (E_ge8 c) as HE. pose proof (pow2E c) as H2E. pose proof (max_exp10_bounds c) as (HM & HM2 & HM3).
  assert (H128 : 128 <= 2 ^ (E - 1)) by (change 128 with (2 ^ 7); apply Z.pow_le_mono_r; lia).
  rewrite (scast_id E k) by lia.
  destruct (uw_make_spec E (dexp x) ltac:(lia) Rx) as [E1 O1].
  destruct (uw_make_spec E k ltac:(lia) ltac:(lia)) as [E2 O2].
  destruct (uw_add_spec E _ _ O1 O2) as [E3 O3]; [rewrite E1, E2; lia|].
  rewrite E1, E2 in E3. set (r := uw_add _ _ _) in *. destruct O3 as [O3 O4]. unfold uw_value in E3.
  replace (negb (uw_neg r) && (uw_val r >=? max_exp10_of (c_expo c))) with false.
  2:{ symmetry. destruct (uw_neg r); cbn [negb andb]; [auto|]. lia. }
  replace (u >=? B) with false by lia. replace (u =? 1) with false by lia.
  rewrite Px, Fx, Sx. pose proof (mask_fits L). rewrite ucl by lia.
  pose proof (mul_loop_n_spec L (data x) u Ox ltac:(lia)) as HA.
  destruct (mul_loop_n L (data x) u) as [rr cy]. destruct HA as (Hr & Hok & Hcy & Hcu & EA). rewrite Lx in *.
  pose proof (nel_ge4 c Hc) as Hn4. pose proof (edc_pos c) as He.
  assert (Zlx : nth 0 (data x) 0 <> 0) by (unfold iszero in Zx; lia).
  pose proof (lead_range c _ Lx Ox Zlx) as Rgx.
  assert (HPn : P n = B * P (n - 1)) by (rewrite <- pow_succ_nat; do 2 f_equal; lia).
  pose proof (pow_pos_nat B (n - 1) HB) as HP1.
  destruct (cy =? 0) eqn:Ecy; cbn [data dexp dneg dprec].
  - assert (cy = 0) by lia. subst cy. rewrite app_nil_r.
    eexists; split; [reflexivity|].
    assert (Hlead : nth 0 rr 0 <> 0).
    { intros H0. destruct rr as [|r0 rr]; [cbn in Hr; lia|]. cbn [nth] in H0. subst r0. apply digits_ok_cons in Hok.
      pose proof (limbs_value_bound B rr HB (proj2 Hok)). cbn [length] in Hr. cbn [limbs_value] in EA.
      replace (length rr) with (n - 1)%nat in * by lia. nia. }
    assert (Hnz : normal c (mkDec rr (dexp x) (dneg x) n)) by (apply normal_intro; auto).
    assert (Hval : (value c (mkDec rr (dexp x) (dneg x) n) == value c x * inject_Z u)%Q).
    { rewrite !value_low by auto. cbn [data dexp dneg].
      replace (V rr) with (V (data x) * u) by lia. rewrite !inject_Z_mult. ring. }
    split; [auto|]. split; [unfold iszero; cbn [data]; lia|]. split; [|auto].
    apply (truncates_intro c _ _ (V (data x) * u) (low c (dexp x)) (dneg x)); cbn [data dexp dneg]; auto; try lia.
    + rewrite Z.sub_diag, Z.pow_0_r, Z.div_1_r. lia.
    + rewrite value_low by auto. rewrite !inject_Z_mult. ring.
  - rewrite app_nil_r. eexists; split; [reflexivity|].
    rewrite scast_id by (unfold edc in *; lia). change (ed L) with (edc c).
    assert (Hlen : length (cy :: firstn (n - 1) rr) = n) by (cbn [length]; rewrite firstn_length; lia).
    assert (Hokz : digits_ok B (cy :: firstn (n - 1) rr)) by (apply digits_ok_cons; split; [lia|apply digits_ok_firstn; auto]).
    assert (HVz : V (cy :: firstn (n - 1) rr) = V (data x) * u / B).
    { cbn [limbs_value]. rewrite firstn_length. replace (Nat.min (n - 1) (length rr)) with (n - 1)%nat by lia.
      rewrite (firstn_value c) by (auto; lia). replace (length rr - (n - 1))%nat with 1%nat by lia. change (P 1) with (B ^ 1). rewrite Z.pow_1_r.
      rewrite <- EA, HPn. replace (V rr + cy * (B * P (n - 1))) with (cy * P (n - 1) * B + V rr) by ring.
      rewrite Z.div_add_l by lia. lia. }
    split; [|split; [|split]].
    + apply normal_intro; cbn [data dexp dprec nth]; auto; try lia.
      apply Z.divide_add_r; auto. apply Z.divide_refl.
    + unfold iszero; cbn [data nth]. lia.
    + apply (truncates_intro c _ _ (V (data x) * u) (low c (dexp x)) (dneg x)); cbn [data dexp dneg]; auto.
      * apply Z.mul_nonneg_nonneg; lia.
      * unfold low; lia.
      * rewrite HVz. f_equal. rewrite low_sub, mask_pow. f_equal. unfold edc. lia.
      * rewrite value_low by auto. rewrite !inject_Z_mult. ring.
    + intros Hlt. exfalso. pose proof (limbs_value_bound B rr HB Hok). nia.
Qed.

End I.
