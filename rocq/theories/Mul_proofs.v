(** Mul_proofs.v - operator*= at full precision. *)
From Verif Require Export Addlaws_proofs.
From Coq Require Import Lqa.
Local Open Scope Z_scope.

(** Executable form of kara_size, to check the whole Karatsuba range of sizes. *)
Fixpoint kara_size_b (fuel k : nat) : bool :=
  match fuel with
  | O => false
  | S f => ((1 <=? k) && (k <=? 32) || (32 <? k) && Nat.even k && kara_size_b f (k / 2))%nat
  end.
Lemma kara_size_b_sound fuel k : kara_size_b fuel k = true -> kara_size k.
Proof.
  revert k; induction fuel as [|f IH]; cbn [kara_size_b]; intros k H; [discriminate|].
  apply orb_true_iff in H. destruct H as [H|H].
  - apply andb_true_iff in H. destruct H as [H1 H2]. apply Nat.leb_le in H1, H2. apply ks_base. lia.
  - apply andb_true_iff in H. destruct H as [H H3]. apply andb_true_iff in H. destruct H as [H1 H2].
    apply Nat.ltb_lt in H1. apply Nat.even_spec in H2. destruct H2 as [m Hm]. subst k.
    rewrite (Nat.mul_comm 2 m), Nat.div_mul in H3 by lia. apply ks_step; [lia|]. apply IH; auto.
Qed.

(** The whole range of prec for which Karatsuba is selected. *)
Lemma a029750_range v : 1 <= v < elems_for_fft ->
  v <= a029750 v /\ a029750 v <= 1792 /\ kara_size (Z.to_nat (a029750 v)).
Proof.
  intros Hv.
  assert (H : forallb (fun i => let v := Z.of_nat i in (v <=? a029750 v) && (a029750 v <=? 1792)
              && kara_size_b 10 (Z.to_nat (a029750 v)))
              (seq 1 1792) = true) by (vm_compute; reflexivity).
  rewrite forallb_forall in H. specialize (H (Z.to_nat v)). cbv zeta in H.
  unfold elems_for_fft in Hv.
  rewrite Z2Nat.id in H by lia.
  assert (Hin : In (Z.to_nat v) (seq 1 1792)) by (apply in_seq; lia).
  specialize (H Hin). apply andb_true_iff in H. destruct H as [H H3].
  split; [lia|]. split; [lia|]. eapply kara_size_b_sound; eauto.
Qed.

Lemma nth0_firstn k (l : list Z) : (1 <= k)%nat -> nth 0 (firstn k l) 0 = nth 0 l 0.
Proof. destruct k; [lia|]. destruct l; reflexivity. Qed.

Lemma scast_of_ucast64 w x : 1 <= w <= 64 -> - 2 ^ (w - 1) <= x < 2 ^ (w - 1) -> scast w (ucast 64 x) = x.
Proof.
  intros Hw Hx. unfold ucast. unfold scast.
  assert (E : 2 ^ w = 2 * 2 ^ (w - 1)) by (rewrite <- Z.pow_succ_r by lia; f_equal; lia).
  assert (E2 : 2 ^ 64 = 2 ^ (64 - w) * 2 ^ w) by (rewrite <- Z.pow_add_r by lia; f_equal; lia).
  rewrite (Z.mod_eq x (2 ^ 64)) by lia. rewrite E2 at 1.
  replace (x - 2 ^ (64 - w) * 2 ^ w * (x / 2 ^ 64) + 2 ^ (w - 1))
    with (x + 2 ^ (w - 1) + (- 2 ^ (64 - w) * (x / 2 ^ 64)) * 2 ^ w) by ring.
  rewrite Z.mod_add by lia. rewrite Z.mod_small; lia.
Qed.

Lemma p10_le a b : (p10 a <= p10 b)%Q <-> a <= b.
Proof.
  set (F := Z.min a b). assert (HF : F <= a /\ F <= b) by (unfold F; lia). clearbody F.
  rewrite (p10_scale a F), (p10_scale b F) by lia. rewrite sc_le.
  split; intros H.
  - apply (Z.pow_le_mono_r_iff 10 (a - F) (b - F)) in H; lia.
  - apply Z.pow_le_mono_r; lia.
Qed.
Lemma p10_lt a b : (p10 a < p10 b)%Q <-> a < b.
Proof.
  split; intros H.
  - apply Z.nle_gt. intros Hle. apply (proj2 (p10_le b a)) in Hle. apply Qlt_not_le in H. auto.
  - apply Qnot_le_lt. intros Hle. apply (proj1 (p10_le b a)) in Hle. lia.
Qed.

Section M.
Variable c : cfg.
Notation L := (c_limb c).
Notation B := (mask L).
Notation V := (limbs_value B).
Notation P n := (B ^ Z.of_nat n).
Notation E := (ebits (c_expo c)).
Notation n := (nel c).
Hypothesis Hc : cfg_ok c.
Hypothesis Hm : mul_ok c.
Let HB : 0 < B := mask_pos L.

(** The limb product used by mul_dispatch: some array of 2k limbs (k >= n) holding a*b in its
    leading 2n limbs. *)
Lemma mul_dispatch_spec rmem scratch x v e : pool_ok c rmem scratch ->
  length (data x) = n -> digits_ok B (data x) -> length (data v) = n -> digits_ok B (data v) ->
  exists res k, mul_dispatch c rmem scratch x v e n = Some (store_product c x e res n) /\
    (n <= k)%nat /\ length res = (2 * k)%nat /\ digits_ok B res /\
    V res = V (data x) * V (data v) * P (2 * k - 2 * n).
Proof.
  intros [Hp1 Hp2] Lx Ox Lv Ov. pose proof (nel_Z c Hc) as HnZ. pose proof (nel_ge4 c Hc) as Hn4.
  unfold mul_dispatch. rewrite !HnZ. rewrite !firstn_all2 by lia.
  destruct Hm as [Hm1 Hm2].
  destruct (elem_number c <? elems_for_kara) eqn:Ek.
  - destruct (mul_school_spec L (data x) (data v)) as (r & E1 & E2 & E3 & E4); auto; try lia.
    { destruct Hm2 as [Hu|Hf]; [lia|left; auto|right]. unfold school_fits. rewrite Lx, HnZ, mask_pow. exact Hf. }
    rewrite E1. exists r, n. split; [reflexivity|]. split; [lia|]. split; [lia|]. split; [auto|].
    rewrite E4. rewrite Nat.sub_diag. change (P 0) with 1. lia.
  - replace (elem_number c <? elems_for_fft) with true by lia.
    destruct (a029750_range (elem_number c)) as (R1 & R2 & R3); [unfold elems_for_kara in Ek; lia|].
    set (k := Z.to_nat (a029750 (elem_number c))) in *.
    assert (Hnk : (n <= k)%nat) by lia.
    cbv zeta.
    destruct (kara_spec L k R3 k rmem (data x ++ repeat 0 (k - n)) (data v ++ repeat 0 (k - n)) scratch)
      as (r & t & E1 & E2 & E3 & E4 & E5); auto; try lia.
    { rewrite app_length, repeat_length; lia. }
    { rewrite app_length, repeat_length; lia. }
    { apply digits_ok_app; split; auto; apply digits_ok_repeat0; auto. }
    { apply digits_ok_app; split; auto; apply digits_ok_repeat0; auto. }
    rewrite E1. exists r, k. split; [reflexivity|]. split; [auto|]. split; [auto|]. split; [auto|].
    rewrite E5, !limbs_value_app, !limbs_value_repeat0, !repeat_length.
    replace (2 * k - 2 * n)%nat with ((k - n) + (k - n))%nat by lia. rewrite Nat2Z.inj_add, Z.pow_add_r by lia. ring.
Qed.

Lemma firstn_value l k : digits_ok B l -> (k <= length l)%nat ->
  V (firstn k l) = V l / P (length l - k).
Proof.
  intros Ho Hk. rewrite <- (limbs_value_firstn B l (length l - k) HB Ho) by lia.
  do 2 f_equal. lia.
Qed.

Lemma store_product_spec x e res k : (n <= k)%nat -> length res = (2 * k)%nat -> digits_ok B res ->
  forall a b, P (n - 1) <= a < P n -> P (n - 1) <= b < P n ->
  V res = a * b * P (2 * k - 2 * n) -> length (data x) = n -> dprec x = n ->
  let z := store_product c x e res n in
  length (data z) = n /\ digits_ok B (data z) /\ nth 0 (data z) 0 <> 0 /\ dprec z = n /\ dneg z = dneg x /\
  ((dexp z = e /\ V (data z) = a * b / P (n - 1)) \/
   (dexp z = scast E (e + edc c) /\ V (data z) = a * b / P n)).
Proof.
  intros Hnk Hl Hok a b Ha Hb HV Lx Px. pose proof (nel_ge4 c Hc) as Hn4. cbv zeta. unfold store_product.
  assert (Hsk : skipn n (data x) = []) by (rewrite <- Lx; apply skipn_all).
  rewrite Hsk, !app_nil_r.
  pose proof (pow_pos_nat B (2 * k - 2 * n) HB) as HPk. pose proof (pow_pos_nat B (n - 1) HB) as HPn1.
  assert (HPn : P n = B * P (n - 1)) by (rewrite <- pow_succ_nat; do 2 f_equal; lia).
  destruct res as [|r0 res]; [cbn in Hl; lia|]. cbn [nth skipn].
  pose proof Hok as Hok'. apply digits_ok_cons in Hok. destruct Hok as [Hr0 Hok].
  pose proof (limbs_value_bound B res HB Hok) as Hbr. cbn [length] in Hl.
  assert (HP2n2 : P (2 * k - 2) = P (n - 1) * P (n - 1) * P (2 * k - 2 * n)).
  { rewrite <- !Z.pow_add_r by lia. f_equal. lia. }
  assert (HP2k1 : P (length res) = B * P (2 * k - 2)).
  { rewrite <- pow_succ_nat. do 2 f_equal. lia. }
  cbn [limbs_value] in HV.
  destruct (r0 =? 0) eqn:E0; cbn [data dexp dneg dprec].
  - assert (r0 = 0) by lia. subst r0. rewrite Z.mul_0_l, Z.add_0_l in HV.
    split; [rewrite firstn_length; lia|]. split; [apply digits_ok_firstn; auto|].
    split.
    + rewrite nth0_firstn by lia. destruct res as [|r1 res]; [cbn in Hl; lia|]. cbn [nth].
      intros ->. apply digits_ok_cons in Hok. destruct Hok as [_ Hok].
      pose proof (limbs_value_bound B res HB Hok) as Hbr'. cbn [limbs_value length] in *.
      replace (length res) with (2 * k - 2)%nat in * by lia.
      assert (P (n - 1) * P (n - 1) <= a * b) by nia. nia.
    + split; [auto|]. split; [auto|]. left. split; [auto|].
      rewrite firstn_value by (auto; lia). rewrite HV.
      replace (length res - n)%nat with ((n - 1) + (2 * k - 2 * n))%nat by lia.
      rewrite Nat2Z.inj_add, Z.pow_add_r by lia. rewrite Z.div_mul_cancel_r by lia. reflexivity.
  - split; [rewrite firstn_length; cbn [length]; lia|]. split; [apply digits_ok_firstn; auto|].
    split; [rewrite nth0_firstn by lia; cbn [nth]; lia|].
    split; [auto|]. split; [auto|]. right. split; [auto|].
    rewrite firstn_value by (auto; cbn [length]; lia). cbn [limbs_value]. rewrite HV. cbn [length].
    replace (S (length res) - n)%nat with (n + (2 * k - 2 * n))%nat by lia.
    rewrite Nat2Z.inj_add, Z.pow_add_r by lia. rewrite Z.div_mul_cancel_r by lia. reflexivity.
Qed.

Lemma E_le64 : E <= 64.
Proof. destruct (c_expo c); cbn; lia. Qed.
Lemma max_exp10_bounds : 64 <= max_exp10_of (c_expo c) /\ 2 * max_exp10_of (c_expo c) <= 2 ^ (E - 1) /\ 2 ^ (E - 1) <= 2 ^ 63.
Proof. destruct (c_expo c); cbn; lia. Qed.

(** Exponent of a product. *)
Lemma mul_exp x v : normal c x -> normal c v -> - 2 ^ E < dexp x + dexp v ->
  let r := uw_add E (uw_make E (dexp x)) (uw_make E (dexp v)) in
  let M := max_exp10_of (c_expo c) in
  (negb (uw_neg r) && (uw_val r >=? M) = (M <=? dexp x + dexp v)) /\
  (uw_neg r && (uw_val r >=? M) = (dexp x + dexp v <=? - M)) /\
  (- M < dexp x + dexp v < M ->
   (if negb (uw_neg r) then scast E (uw_val r) else negate_s E (scast E (uw_val r))) = dexp x + dexp v).
Proof.
  intros (_ & _ & _ & _ & Hx & _) (_ & _ & _ & _ & Hv & _) Hsum. pose proof (E_ge8 c) as HE. pose proof (pow2E c) as H2E.
  destruct (uw_make_spec E (dexp x) ltac:(lia) Hx) as [E1 O1].
  destruct (uw_make_spec E (dexp v) ltac:(lia) Hv) as [E2 O2].
  cbv zeta.
  pose proof max_exp10_bounds as (HM & HM2 & HM3).
  destruct (uw_add_spec E _ _ O1 O2) as [E3 O3]; [rewrite E1, E2; lia|].
  rewrite E1, E2 in E3. set (r := uw_add _ _ _) in *. destruct O3 as [O3 O4].
  unfold uw_value in E3.
  destruct (uw_neg r); cbn [negb andb].
  - specialize (O4 eq_refl). split; [symmetry; lia|]. split; [destruct (Z.geb_spec (uw_val r) (max_exp10_of (c_expo c))); symmetry; lia|].
    intros Hr. unfold negate_s, negate_u. rewrite (scast_id E (uw_val r)) by lia.
    change (2 ^ 63) with 9223372036854775808 in *.
    rewrite (ucast_id 64 (uw_val r)) by (change (2 ^ 64) with 18446744073709551616; lia).
    replace (uw_val r) with (- (dexp x + dexp v)) in * by lia. rewrite Z.opp_involutive.
    pose proof E_le64. apply scast_of_ucast64; lia.
  - split; [destruct (Z.geb_spec (uw_val r) (max_exp10_of (c_expo c))); symmetry; lia|]. split; [symmetry; lia|].
    intros Hr. rewrite scast_id by lia. lia.
Qed.

Lemma limbs_nines k : V (repeat (B - 1) k) = P k - 1.
Proof. induction k as [|k IH]; [reflexivity|]. cbn [repeat limbs_value]. rewrite repeat_length, IH, pow_succ_nat. ring. Qed.

(** Magnitude of a normalised non-zero value: its exponent brackets it. *)
Lemma value_bracket x : normal c x -> iszero x = false ->
  (p10 (dexp x) <= Qabs (value c x))%Q /\ (Qabs (value c x) < p10 (dexp x + edc c))%Q.
Proof.
  intros Hx Zx. pose proof (nel_ge4 c Hc) as Hn4. destruct (normal_facts c Hc x Hx) as (Lx & Ox & _).
  pose proof (edc_pos c) as He.
  assert (Zl : nth 0 (data x) 0 <> 0) by (unfold iszero in Zx; lia).
  pose proof (lead_range c (data x) Lx Ox Zl) as HR. pose proof (pow_pos_nat B (n - 1) HB) as HP1.
  rewrite value_low by auto. rewrite sc_abs, sgn_abs by lia.
  rewrite (p10_scale (dexp x) (low c (dexp x))), (p10_scale (dexp x + edc c) (low c (dexp x))) by (unfold low; nia).
  rewrite sc_le, sc_lt.
  replace (dexp x - low c (dexp x)) with (ed L * (Z.of_nat (n - 1))) by (unfold low, edc; nia).
  replace (dexp x + edc c - low c (dexp x)) with (ed L * (Z.of_nat n)) by (unfold low, edc; nia).
  rewrite <- !Bpow by lia. lia.
Qed.

Lemma isone_iff x : normal c x -> iszero x = false ->
  (isone_sign_neutral c x = true <-> is_one c x \/ is_nines c x).
Proof.
  intros Hx Zx. pose proof (nel_ge4 c Hc) as Hn4. pose proof (nel_Z c Hc) as HnZ.
  destruct (normal_facts c Hc x Hx) as (Lx & Ox & _). pose proof (edc_pos c) as He.
  assert (Zl : nth 0 (data x) 0 <> 0) by (unfold iszero in Zx; lia).
  pose proof (lead_range c (data x) Lx Ox Zl) as HR.
  pose proof Hx as (_ & _ & _ & [ke Hke] & _).
  assert (HPn : P n = B * P (n - 1)) by (rewrite <- pow_succ_nat; do 2 f_equal; lia).
  pose proof (pow_pos_nat B (n - 1) HB) as HP1.
  destruct (value_bracket x Hx Zx) as [Bk1 Bk2].
  (* numeric reading of the two candidates *)
  assert (O1 : is_one c x <-> dexp x = 0 /\ V (data x) = P (n - 1)).
  { unfold is_one. split.
    - intros H. rewrite H in Bk1, Bk2. rewrite <- p10_0 in Bk1. rewrite <- p10_0 in Bk2.
      apply (proj1 (p10_le _ _)) in Bk1. apply (proj1 (p10_lt _ _)) in Bk2. assert (ke = 0) by nia. subst ke.
      split; [lia|]. rewrite value_low in H by auto. rewrite sc_abs, sgn_abs in H by lia.
      rewrite <- p10_0 in H. rewrite (p10_scale 0 (low c (dexp x))) in H by (unfold low; nia).
      apply sc_eq in H. rewrite H. rewrite Bpow by lia. f_equal. unfold low, edc in *. nia.
    - intros [H1 H2]. rewrite value_low, H2 by auto. rewrite sc_abs, sgn_abs by lia.
      rewrite Bpow, <- p10_Z by (unfold edc in *; nia). rewrite <- p10_add.
      replace (_ + _) with 0 by (unfold low, edc in *; nia). reflexivity. }
  assert (O2 : is_nines c x <-> dexp x = - edc c /\ V (data x) = P n - 1).
  { unfold is_nines. rewrite <- HnZ. set (w := - (edc c * Z.of_nat n)).
    assert (Hone : (1 - p10 w == inject_Z (P n - 1) * p10 w)%Q).
    { rewrite <- p10_0. rewrite (p10_scale 0 w) by (unfold w; nia). unfold Z.sub at 2. rewrite inject_Z_plus, inject_Z_opp.
      rewrite Bpow by lia. replace (0 - w) with (ed L * Z.of_nat n) by (unfold w, edc; lia). change (inject_Z 1) with 1%Q. ring. }
    split.
    - intros H. rewrite H in Bk1, Bk2. pose proof (p10_pos w) as Hw.
      assert (U1 : (p10 (dexp x) < p10 0)%Q) by (rewrite p10_0; lra).
      apply (proj1 (p10_lt _ _)) in U1.
      assert (U2 : (p10 (-1) < p10 (dexp x + edc c))%Q).
      { apply Qle_lt_trans with (1 - p10 w)%Q; auto.
        assert (p10 w <= p10 (-1))%Q by (apply (proj2 (p10_le _ _)); unfold w; nia).
        change (p10 (-1)) with (1 # 10)%Q in *. lra. }
      apply (proj1 (p10_lt _ _)) in U2. assert (ke = -1) by nia. subst ke. split; [lia|].
      rewrite Hone, value_low in H by auto. rewrite sc_abs, sgn_abs in H by lia.
      replace (low c (dexp x)) with w in H by (unfold low, w; nia). apply sc_eq in H. auto.
    - intros [H1 H2]. rewrite Hone, value_low, H2 by auto. rewrite sc_abs, sgn_abs by nia.
      replace (low c (dexp x)) with w by (unfold low, w; nia). reflexivity. }
  rewrite O1, O2. clear O1 O2. unfold isone_sign_neutral. change (ed L) with (edc c).
  assert (D1 : V (data x) = P (n - 1) <-> nth 0 (data x) 0 = 1 /\ forallb (fun d => d =? 0) (tl (data x)) = true).
  { split.
    - intros H. assert (Hd : data x = 1 :: repeat 0 (n - 1)).
      { apply (limbs_value_inj B); auto.
        - cbn [length]. rewrite repeat_length. lia.
        - apply digits_ok_cons. split; [pose proof (mask_fits L); destruct L; cbn; lia|apply digits_ok_repeat0; auto].
        - cbn [limbs_value]. rewrite limbs_value_repeat0, repeat_length. lia. }
      rewrite Hd. cbn [nth tl]. split; auto. apply forallb_zero. rewrite repeat_length. auto.
    - intros [H1 H2]. destruct (data x) as [|d0 d]; [cbn in Lx; lia|]. cbn [nth tl] in *. subst d0.
      apply forallb_zero in H2. rewrite H2. cbn [limbs_value]. rewrite repeat_length, limbs_value_repeat0.
      cbn [length] in Lx. replace (length d) with (n - 1)%nat by lia. lia. }
  assert (D2 : V (data x) = P n - 1 <-> nth 0 (data x) 0 = B - 1 /\ forallb (fun d => d =? B - 1) (tl (data x)) = true).
  { assert (AB : forall l, forallb (fun d => d =? B - 1) l = true <-> l = repeat (B - 1) (length l)).
    { induction l as [|y l IH]; cbn [forallb repeat length]; [tauto|]. rewrite andb_true_iff, IH.
      split; [intros [Hy Hl]; rewrite <- Hl; f_equal; lia|intros [= -> Hl]; split; [lia|auto]]. }
    split.
    - intros H. assert (Hd : data x = repeat (B - 1) n).
      { apply (limbs_value_inj B); auto.
        - rewrite repeat_length. lia.
        - apply Forall_forall. intros y Hy. apply repeat_spec in Hy. lia.
        - rewrite limbs_nines. auto. }
      rewrite Hd. destruct n as [|n']; [lia|]. cbn [repeat nth tl]. split; auto. apply AB. rewrite repeat_length. auto.
    - intros [H1 H2]. destruct (data x) as [|d0 d]; [cbn in Lx; lia|]. cbn [nth tl] in *. subst d0.
      apply AB in H2. cbn [length] in Lx. replace (length d) with (n - 1)%nat in H2 by lia.
      rewrite H2. change ((B - 1) :: repeat (B - 1) (n - 1)) with (repeat (B - 1) (S (n - 1))).
      rewrite limbs_nines. do 3 f_equal. lia. }
  rewrite D1, D2. destruct (nth 0 (data x) 0 =? 1) eqn:E1, (dexp x =? 0) eqn:E2; cbn [andb].
  - split; [intros H; left; split; [lia|split; [lia|auto]]|]. intros [(_ & _ & H)|(H & _)]; [auto|exfalso; lia].
  - destruct (nth 0 (data x) 0 =? B - 1) eqn:E3, (dexp x =? - edc c) eqn:E4; cbn [andb].
    + split; [intros H; right; split; [lia|split; [lia|auto]]|]. intros [(H & _)|(_ & _ & H)]; [exfalso; lia|auto].
    + split; [discriminate|]. intros [(H & _)|(H & _)]; exfalso; lia.
    + split; [discriminate|]. intros [(H & _)|(_ & H & _)]; exfalso; lia.
    + split; [discriminate|]. intros [(H & _)|(H & _)]; exfalso; lia.
  - destruct (nth 0 (data x) 0 =? B - 1) eqn:E3, (dexp x =? - edc c) eqn:E4; cbn [andb].
    + exfalso; lia.
    + split; [discriminate|]. intros [(_ & H & _)|(H & _)]; exfalso; lia.
    + exfalso; lia.
    + split; [discriminate|]. intros [(_ & H & _)|(H & _)]; exfalso; lia.
  - destruct (nth 0 (data x) 0 =? B - 1) eqn:E3, (dexp x =? - edc c) eqn:E4; cbn [andb].
    + split; [intros H; right; split; [lia|split; [lia|auto]]|]. intros [(H & _)|(_ & _ & H)]; [exfalso; lia|auto].
    + split; [discriminate|]. intros [(H & _)|(H & _)]; exfalso; lia.
    + split; [discriminate|]. intros [(H & _)|(_ & H & _)]; exfalso; lia.
    + split; [discriminate|]. intros [(H & _)|(H & _)]; exfalso; lia.
Qed.


Lemma max_exp10_divides : (edc c | max_exp10_of (c_expo c)).
Proof. unfold edc. destruct L, (c_expo c); cbn [ed max_exp10_of]; apply Z.mod_divide; try lia; reflexivity. Qed.

Lemma from_lst_single_normal d e : 0 < d < B -> (edc c | e) -> - 2 ^ (E - 1) <= e < 2 ^ (E - 1) ->
  normal c (from_lst c [d] e).
Proof.
  intros Hd He Hr. pose proof (nel_ge4 c Hc) as Hn4. unfold from_lst. cbn [length].
  replace (1 <? n)%nat with true by (symmetry; apply Nat.ltb_lt; lia).
  apply normal_intro; cbn [data dexp dprec app nth]; auto; try lia.
  - cbn [length]. rewrite repeat_length. lia.
  - apply digits_ok_cons. split; [lia|apply digits_ok_repeat0; auto].
Qed.
Lemma B_gt9 : 9 < B.
Proof. destruct L; cbn; lia. Qed.
Lemma value_max_normal : normal c (value_max c).
Proof. pose proof max_exp10_bounds. pose proof B_gt9. apply from_lst_single_normal; try lia. apply max_exp10_divides. Qed.
Lemma value_min_normal : normal c (value_min c).
Proof. pose proof max_exp10_bounds. pose proof B_gt9. apply from_lst_single_normal; try lia.
  apply Z.divide_opp_r. apply max_exp10_divides. Qed.

Lemma set_neg_normal x s : normal c x -> normal c (set_neg x s).
Proof. unfold normal, set_neg; cbn [data dexp dneg dprec]. auto. Qed.

(** Exponent used for a product, in every case (also after wrapping): a legal exponent. *)
Lemma mul_exp_legal x v : normal c x -> normal c v ->
  let r := uw_add E (uw_make E (dexp x)) (uw_make E (dexp v)) in
  let M := max_exp10_of (c_expo c) in
  negb (uw_neg r) && (uw_val r >=? M) = false -> uw_neg r && (uw_val r >=? M) = false ->
  let e := (if negb (uw_neg r) then scast E (uw_val r) else negate_s E (scast E (uw_val r))) in
  (edc c | e) /\ - M < e < M.
Proof.
  intros Hx Hv. cbv zeta. intros H1 H2.
  pose proof Hx as (_ & _ & _ & Dx & Rx & _). pose proof Hv as (_ & _ & _ & Dv & Rv & _).
  pose proof max_exp10_bounds as (HM & HM2 & HM3).
  destruct (Z.eq_dec (dexp x + dexp v) (- 2 ^ E)) as [Hw|Hw].
  - pose proof (pow2E c). assert (Ex : dexp x = - 2 ^ (E - 1)) by lia. assert (Ev : dexp v = - 2 ^ (E - 1)) by lia.
    rewrite Ex, Ev. replace (if negb _ then _ else _) with 0.
    + split; [apply Z.divide_0_r|lia].
    + clear. destruct (c_expo c); vm_compute; reflexivity.
  - destruct (mul_exp x v Hx Hv) as (M1 & M2 & M3); [pose proof (pow2E c); lia|]. cbv zeta in *.
    rewrite M1 in H1. rewrite M2 in H2. rewrite M3 by lia. split; [apply Z.divide_add_r; auto|lia].
Qed.

Lemma store_product_zero x e res k : (n <= k)%nat -> length res = (2 * k)%nat -> digits_ok B res ->
  V res = 0 -> length (data x) = n ->
  store_product c x e res n = mkDec (repeat 0 n) e (dneg x) (dprec x).
Proof.
  intros Hnk Hl Hok HV Lx. pose proof (nel_ge4 c Hc). unfold store_product.
  apply limbs_value_zero_iff in HV; auto. rewrite HV, Hl.
  replace (nth 0 (repeat 0 (2 * k)) 0) with 0 by (destruct (2 * k)%nat; auto). cbn [Z.eqb].
  f_equal. rewrite <- Lx at 2. rewrite skipn_all, app_nil_r.
  replace (2 * k)%nat with (1 + (2 * k - 1))%nat by lia. cbn [repeat skipn plus].
  replace (2 * k - 1)%nat with (n + (2 * k - 1 - n))%nat by lia. rewrite repeat_app, firstn_app_exact; auto.
  apply repeat_length.
Qed.

(** Total specification of operator*= on normalised operands. *)
Inductive mul_result (x v : dec) : dec -> Prop :=
| mr_one_l : isone_sign_neutral c x = true -> iszero v = false ->
    mul_result x v (set_neg v (xorb (dneg x) (dneg v)))
| mr_one_r : isone_sign_neutral c x = false -> isone_sign_neutral c v = true -> iszero x = false ->
    mul_result x v (set_neg x (xorb (dneg x) (dneg v)))
| mr_over : isone_sign_neutral c x = false -> isone_sign_neutral c v = false ->
    iszero x = false -> iszero v = false -> max_exp10_of (c_expo c) <= dexp x + dexp v ->
    mul_result x v (set_neg (value_max c) (xorb (dneg x) (dneg v)))
| mr_under : isone_sign_neutral c x = false -> isone_sign_neutral c v = false ->
    iszero x = false -> iszero v = false -> dexp x + dexp v <= - max_exp10_of (c_expo c) ->
    mul_result x v (set_neg (value_min c) (xorb (dneg x) (dneg v)))
| mr_main z : isone_sign_neutral c x = false -> isone_sign_neutral c v = false ->
    iszero x = false -> iszero v = false ->
    - max_exp10_of (c_expo c) < dexp x + dexp v < max_exp10_of (c_expo c) ->
    normal c z -> iszero z = false -> dneg z = xorb (dneg x) (dneg v) ->
    V (data z) = V (data x) * V (data v) / 10 ^ (low c (dexp z) - (low c (dexp x) + low c (dexp v))) ->
    (dexp z = dexp x + dexp v \/ dexp z = dexp x + dexp v + edc c) ->
    mul_result x v z.

Lemma isone_iszero x : isone_sign_neutral c x = true -> iszero x = false.
Proof.
  unfold isone_sign_neutral, iszero. destruct (nth 0 (data x) 0 =? 1) eqn:E1; [intros; lia|]. cbn [andb].
  destruct (nth 0 (data x) 0 =? B - 1) eqn:E2; [intros; pose proof B_gt9; lia|discriminate].
Qed.

Lemma mul_nonzero_spec rmem scratch x v : pool_ok c rmem scratch -> normal c x -> normal c v ->
  iszero x = false -> iszero v = false -> - 2 ^ E < dexp x + dexp v ->
  exists z, mul c rmem scratch x v = Some z /\ mul_result x v z.
Proof.
  intros Hp Hx Hv Zx Zv Hsum. unfold mul. rewrite Zx, Zv. cbn [orb].
  change (isone_sign_neutral c (set_neg x false)) with (isone_sign_neutral c x).
  destruct (isone_sign_neutral c x) eqn:Ox.
  { eexists; split; [reflexivity|]. apply mr_one_l; auto. }
  destruct (isone_sign_neutral c v) eqn:Ov.
  { eexists; split; [reflexivity|]. change (set_neg (set_neg x false) (xorb (dneg x) (dneg v))) with (set_neg x (xorb (dneg x) (dneg v))). apply mr_one_r; auto. }
  change (dexp (set_neg x false)) with (dexp x). change (dprec (set_neg x false)) with (dprec x).
  destruct (mul_exp x v Hx Hv Hsum) as (M1 & M2 & M3). cbv zeta in *. rewrite M1, M2.
  destruct (max_exp10_of (c_expo c) <=? dexp x + dexp v) eqn:C1.
  { eexists; split; [reflexivity|]. apply mr_over; auto. lia. }
  destruct (dexp x + dexp v <=? - max_exp10_of (c_expo c)) eqn:C2.
  { eexists; split; [reflexivity|]. apply mr_under; auto. lia. }
  rewrite M3 by lia.
  destruct (normal_facts c Hc x Hx) as (Lx & Okx & Px & _). destruct (normal_facts c Hc v Hv) as (Lv & Okv & Pv & _).
  rewrite Px, Pv, Nat.min_id.
  destruct (mul_dispatch_spec rmem scratch (set_neg x false) v (dexp x + dexp v) Hp Lx Okx Lv Okv) as (res & k & D1 & D2 & D3 & D4 & D5).
  rewrite D1.
  assert (Zlx : nth 0 (data x) 0 <> 0) by (unfold iszero in Zx; lia).
  assert (Zlv : nth 0 (data v) 0 <> 0) by (unfold iszero in Zv; lia).
  destruct (store_product_spec (set_neg x false) (dexp x + dexp v) res k D2 D3 D4 (V (data x)) (V (data v))
    (lead_range c _ Lx Okx Zlx) (lead_range c _ Lv Okv Zlv) D5 Lx Px) as (S1 & S2 & S3 & S4 & S5 & S6).
  set (z := store_product c (set_neg x false) (dexp x + dexp v) res n) in *.
  eexists; split; [reflexivity|].
  pose proof max_exp10_bounds as (HM & HM2 & HM3). pose proof (edc_pos c) as He. pose proof (E_ge8 c) as HE.
  pose proof (nel_ge4 c Hc) as Hn4.
  rewrite (scast_id E (dexp x + dexp v + edc c)) in S6 by lia.
  pose proof Hx as (_ & _ & _ & Dx & _). pose proof Hv as (_ & _ & _ & Dv & _).
  apply mr_main; auto.
  - lia.
  - apply set_neg_normal, normal_intro; auto.
    + destruct S6 as [[-> _]|[-> _]]; repeat apply Z.divide_add_r; auto. apply Z.divide_refl.
    + destruct S6 as [[-> _]|[-> _]]; lia.
  - unfold iszero. cbn [set_neg data]. lia.
  - cbn [set_neg data dexp]. destruct S6 as [[-> ->]|[-> ->]]; f_equal; rewrite Bpow by lia; f_equal; unfold low, edc; lia.
  - cbn [set_neg dexp]. tauto.
Qed.

(** Normal form is preserved by multiplication, zero operands and wrapped exponents included. *)
Lemma mul_normal rmem scratch x v : pool_ok c rmem scratch -> normal c x -> normal c v ->
  exists z, mul c rmem scratch x v = Some z /\ normal c z.
Proof.
  intros Hp Hx0 Hv. unfold mul.
  set (x1 := if iszero x || iszero v then zero c else x).
  assert (Hx : normal c x1) by (unfold x1; destruct (iszero x || iszero v); [apply zero_normal; auto|auto]).
  assert (Zz : iszero x1 = false -> iszero v = false).
  { unfold x1. destruct (iszero x), (iszero v); cbn [orb]; auto; intros H; rewrite (zero_iszero c Hc) in H; discriminate. }
  clearbody x1. set (s := xorb (dneg x1) (dneg v)).
  set (x2 := set_neg x1 false). assert (Hx2 : normal c x2) by (apply set_neg_normal; auto).
  assert (Z2 : iszero x2 = iszero x1) by reflexivity. rewrite <- Z2 in Zz. clearbody x2. clear Hx Z2.
  destruct (isone_sign_neutral c x2); [eexists; split; [reflexivity|apply set_neg_normal; auto]|].
  destruct (isone_sign_neutral c v); [eexists; split; [reflexivity|apply set_neg_normal; auto]|].
  destruct (normal_facts c Hc x2 Hx2) as (Lx & Okx & Px & _ & _ & Z0 & _). destruct (normal_facts c Hc v Hv) as (Lv & Okv & Pv & _).
  pose proof (mul_exp_legal x2 v Hx2 Hv) as HL. cbv zeta in HL.
  set (r := uw_add _ _ _) in *.
  destruct (negb (uw_neg r) && (uw_val r >=? max_exp10_of (c_expo c))) eqn:C1;
    [eexists; split; [reflexivity|apply set_neg_normal, value_max_normal]|].
  destruct (uw_neg r && (uw_val r >=? max_exp10_of (c_expo c))) eqn:C2;
    [eexists; split; [reflexivity|apply set_neg_normal, value_min_normal]|].
  specialize (HL eq_refl eq_refl). set (e := if negb (uw_neg r) then _ else _) in *. clearbody e.
  rewrite Px, Pv, Nat.min_id. pose proof max_exp10_bounds as (HM & HM2 & HM3).
  pose proof (nel_ge4 c Hc) as Hn4.
  destruct (mul_dispatch_spec rmem scratch x2 v e Hp Lx Okx Lv Okv) as (res & k & D1 & D2 & D3 & D4 & D5).
  rewrite D1. eexists; split; [reflexivity|]. apply set_neg_normal.
  destruct (iszero x2) eqn:Zx.
  - destruct (Z0 eq_refl) as [_ V0]. rewrite V0, !Z.mul_0_l in D5.
    rewrite (store_product_zero x2 e res k) by auto.
    split; [apply repeat_length|]. split; [apply ok_mask, digits_ok_repeat0; auto|]. split; [auto|].
    split; [tauto|]. cbn [dexp dprec]. split; [lia|auto].
  - specialize (Zz eq_refl).
    assert (Zlx : nth 0 (data x2) 0 <> 0) by (unfold iszero in Zx; lia).
    assert (Zlv : nth 0 (data v) 0 <> 0) by (unfold iszero in Zz; lia).
    destruct (store_product_spec x2 e res k D2 D3 D4 (V (data x2)) (V (data v))
      (lead_range c _ Lx Okx Zlx) (lead_range c _ Lv Okv Zlv) D5 Lx Px) as (S1 & S2 & S3 & S4 & S5 & S6).
    apply normal_intro; auto.
    + destruct S6 as [[-> _]|[-> _]]; [tauto|]. apply scast_divides, Z.divide_add_r; [tauto|apply Z.divide_refl].
    + destruct S6 as [[-> _]|[-> _]]; [lia|]. apply scast_range.
Qed.

(** Multiplication truncates the exact product. *)
Lemma mul_trunc rmem scratch x v : pool_ok c rmem scratch -> normal c x -> normal c v ->
  iszero x = false -> iszero v = false ->
  ~ is_one c x -> ~ is_nines c x -> ~ is_one c v -> ~ is_nines c v ->
  - max_exp10_of (c_expo c) < dexp x + dexp v < max_exp10_of (c_expo c) ->
  exists z, mul c rmem scratch x v = Some z /\ normal c z /\ iszero z = false /\
    truncates c z (value c x * value c v).
Proof.
  intros Hp Hx Hv Zx Zv O1 O2 O3 O4 Hr. pose proof max_exp10_bounds as (HM & HM2 & HM3). pose proof (pow2E c).
  destruct (mul_nonzero_spec rmem scratch x v Hp Hx Hv Zx Zv) as (z & E1 & E2); [lia|].
  exists z. split; [auto|].
  assert (Ox : isone_sign_neutral c x <> true) by (rewrite isone_iff; tauto).
  assert (Ov : isone_sign_neutral c v <> true) by (rewrite isone_iff; tauto).
  destruct E2 as [A|A A'|A1 A2 A3 A4 A5|A1 A2 A3 A4 A5|z A1 A2 A3 A4 A5 Hz Nz Sz Vz Ez]; try (exfalso; auto; lia).
  split; [auto|]. split; [auto|].
  destruct (normal_facts c Hc x Hx) as (Lx & Okx & _ & _ & _ & _ & Nx & _). destruct (normal_facts c Hc v Hv) as (Lv & Okv & _ & _ & _ & _ & Nv & _).
  destruct (normal_facts c Hc z Hz) as (Lz & Okz & _). specialize (Nx Zx). specialize (Nv Zv).
  pose proof (nel_ge4 c Hc) as Hn4. pose proof (edc_pos c).
  eapply truncates_intro with (T := V (data x) * V (data v)) (F := low c (dexp x) + low c (dexp v)); eauto.
  - nia.
  - unfold low. destruct Ez as [-> | ->]; nia.
  - rewrite !value_low by auto. rewrite p10_add.
    destruct (dneg x), (dneg v); cbn [xorb sgn]; rewrite ?inject_Z_mult; change (inject_Z (-1)) with (-(1))%Q;
      change (inject_Z 1) with 1%Q; ring.
Qed.

End M.
