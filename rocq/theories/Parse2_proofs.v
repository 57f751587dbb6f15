(** Parse2_proofs.v - rd_string computes the value of a literal: limbs, and the whole function. *)
From Verif Require Import Base Add_proofs Value_proofs Sum_proofs Mul_proofs.
From Verif Require Export Parse_proofs.
From Coq Require Import Lia Lqa.
Local Open Scope Z_scope.

Section P.
Variable c : cfg.
Hypothesis Hc : cfg_ok c.
Notation E := (ebits (c_expo c)).
Notation ED := (edc c).
Notation B := (mask (c_limb c)).
Notation n := (nel c).

Definition max_dec : Z := (elem_number c - 1) * ED.

Lemma max_dec_pos : 6 <= max_dec.
Proof. unfold max_dec. pose proof (elem_number_ge4 c Hc). pose proof (edc_pos c). nia. Qed.

Lemma rd_pad_spec I F : digits_ok 10 I -> digits_ok 10 F ->
  Z.of_nat (length I) + Z.of_nat (length F) < 2 ^ 31 - 1 ->
  exists k, rd_pad c (mtext I F) = Some (mtext I (firstn (Z.to_nat max_dec) (F ++ repeat 0 k)))
    /\ (ED | Z.of_nat (length (F ++ repeat 0 k))).
Proof.
  intros HI HF HL. pose proof (edc_pos c) as Hed. pose proof max_dec_pos as Hmd. unfold rd_pad.
  rewrite find_mtext by auto. change (ed (c_limb c)) with ED. change ((elem_number c - 1) * ED) with max_dec. rewrite mtext_sze.
  change (2 ^ 31) with 2147483648 in HL.
  assert (s32 : forall x, 0 <= x < 2147483648 -> scast 32 x = x) by (intros; apply scast_id; cbn; lia).
  replace (Z.of_nat (length I) + 1 + Z.of_nat (length F) - 1) with (Z.of_nat (length I) + Z.of_nat (length F)) by lia.
  rewrite (s32 (_ + _)), (s32 (Z.of_nat (length I))) by lia.
  replace (Z.of_nat (length I) + Z.of_nat (length F) - Z.of_nat (length I)) with (Z.of_nat (length F)) by lia.
  rewrite s32 by lia. rewrite Z.rem_mod_nonneg by lia.
  set (f := Z.of_nat (length F)). set (k := if f mod ED =? 0 then 0 else ED - f mod ED).
  pose proof (Z.mod_pos_bound f ED ltac:(lia)) as Hm. pose proof (Z.div_mod f ED ltac:(lia)) as Hdm.
  assert (Hk : 0 <= k < ED) by (unfold k; destruct (f mod ED =? 0) eqn:Ez; lia).
  exists (Z.to_nat k).
  assert (Et : mtext I F ++ repeat 48 (Z.to_nat k) = mtext I (F ++ repeat 0 (Z.to_nat k))).
  { unfold mtext. rewrite dch_app, dch_repeat0, <- app_assoc. auto. }
  rewrite Et. split.
  - f_equal. set (G := F ++ repeat 0 (Z.to_nat k)). rewrite mtext_sze.
    match goal with |- context [if ?b then _ else _] => destruct b eqn:El end.
    + replace (Z.to_nat (Z.of_nat (length I) + 1 + max_dec)) with (length I + S (Z.to_nat max_dec))%nat by lia.
      unfold mtext. replace (length I) with (length (dch I)) by apply dch_length. rewrite firstn_app_2. cbn [firstn]. rewrite dch_firstn. auto.
    + f_equal. symmetry. apply firstn_all2. lia.
  - rewrite app_length, repeat_length, Nat2Z.inj_add, Z2Nat.id by lia. fold f. unfold k.
    destruct (f mod ED =? 0) eqn:E0; [exists (f / ED)|exists (f / ED + 1)]; nia.
Qed.

Lemma ED_nat : Z.of_nat (Z.to_nat ED) = ED.
Proof. pose proof (edc_pos c). lia. Qed.

Lemma limb_of_digits l : digits_ok 10 l -> Z.of_nat (length l) <= ED ->
  ucast (lbits (c_limb c)) (strtoul (dch l)) = V10 l /\ 0 <= V10 l < B.
Proof.
  intros Hl Hn. pose proof (limbs_value_bound 10 l ltac:(lia) Hl) as Hb. pose proof (edc_pos c) as Hed.
  assert (10 ^ Z.of_nat (length l) <= 10 ^ ED) by (apply Z.pow_le_mono_r; lia).
  assert (10 ^ ED = B) by (symmetry; apply mask_pow). pose proof (mask_fits (c_limb c)).
  assert (B <= 100000000) by (destruct (c_limb c); cbn; lia).
  rewrite strtoul_dch by (auto; change (2 ^ 64) with 18446744073709551616; lia). split; [|lia].
  apply ucast_id. lia.
Qed.

Lemma rd_chunks_spec j l : digits_ok 10 l -> length l = (j * Z.to_nat ED)%nat ->
  digits_ok B (rd_chunks c j (dch l)) /\ length (rd_chunks c j (dch l)) = j /\
  limbs_value B (rd_chunks c j (dch l)) = V10 l.
Proof.
  revert l; induction j as [|j IH]; intros l Hl Hn; cbn [rd_chunks].
  - destruct l; [|cbn in Hn; lia]. repeat split; auto. constructor.
  - change (ed (c_limb c)) with ED. rewrite dch_firstn, dch_skipn.
    pose proof (edc_pos c) as Hed.
    set (a := firstn (Z.to_nat ED) l). set (b := skipn (Z.to_nat ED) l).
    assert (Eab : l = a ++ b) by (symmetry; apply firstn_skipn).
    assert (Hla : length a = Z.to_nat ED) by (unfold a; rewrite firstn_length; lia).
    assert (Hlb : length b = (j * Z.to_nat ED)%nat) by (unfold b; rewrite skipn_length; lia).
    rewrite Eab in Hl. apply digits_ok_app in Hl. destruct Hl as [Ha Hb].
    destruct (IH b Hb Hlb) as (H1 & H2 & H3).
    destruct (limb_of_digits a Ha ltac:(lia)) as [H4 H5]. rewrite H4.
    split; [constructor; auto|]. split; [cbn; lia|].
    cbn [limbs_value]. rewrite H2, H3, Eab, limbs_value_app, Hlb. f_equal. f_equal.
    rewrite mask_pow. fold ED. rewrite <- Z.pow_mul_r by lia. f_equal. lia.
Qed.

Lemma rd_limbs_spec I F : digits_ok 10 I -> digits_ok 10 F -> Z.of_nat (length I) <= ED ->
  (ED | Z.of_nat (length F)) -> Z.of_nat (length F) <= max_dec ->
  exists l, rd_limbs c (mtext I F) = Some l /\ length l = n /\ digits_ok B l /\
    limbs_value B l = V10 (I ++ F) * 10 ^ (max_dec - Z.of_nat (length F)) /\ nth 0 l 0 = V10 I.
Proof.
  intros HI HF HlI [j Hj] HlF. pose proof (edc_pos c) as Hed. pose proof (nel_Z c Hc) as Hn. pose proof (nel_ge4 c Hc) as Hn4.
  unfold rd_limbs. rewrite find_mtext by auto. unfold mtext.
  rewrite firstn_app_exact by apply dch_length.
  replace (skipn (S (length I)) (dch I ++ 46 :: dch F)) with (dch F).
  2:{ symmetry. replace (dch I ++ 46 :: dch F) with ((dch I ++ [46]) ++ dch F) by (rewrite <- app_assoc; auto).
      apply skipn_app_exact. rewrite app_length, dch_length. cbn. lia. }
  change (ed (c_limb c)) with ED. unfold sze. rewrite dch_length, Hj, Z.div_mul by lia.
  assert (Hj0 : 0 <= j) by nia.
  destruct (rd_chunks_spec (Z.to_nat j) F HF ltac:(nia)) as (H1 & H2 & H3).
  destruct (limb_of_digits I HI HlI) as [H4 H5]. rewrite H4. set (t := rd_chunks c (Z.to_nat j) (dch F)) in *.
  assert (Hjn : j <= elem_number c - 1) by (unfold max_dec in HlF; nia).
  replace (length (V10 I :: t) <=? n)%nat with true by (cbn [length]; lia).
  eexists. split; [reflexivity|]. split; [rewrite app_length, repeat_length; cbn [length]; lia|].
  split.
  { apply digits_ok_app. split; [constructor; auto|apply digits_ok_repeat0; apply mask_pos]. }
  split; [|reflexivity].
  rewrite limbs_value_app, limbs_value_repeat0, repeat_length, Z.add_0_r.
  cbn [limbs_value length]. rewrite H2, H3, limbs_value_app.
  assert (EB : forall k, 0 <= k -> B ^ k = 10 ^ (ED * k)) by (intros; rewrite mask_pow; fold ED; rewrite <- Z.pow_mul_r by lia; auto).
  rewrite !EB by lia. f_equal; [f_equal; f_equal; f_equal; lia|]. f_equal. unfold max_dec. nia.
Qed.


Definition mant (l : literal) : list Z :=
  dch (l_int l) ++ match l_frac l with Some f => 46 :: dch f | None => [] end.

Lemma mant_ne l ch : lit_ok l -> (ch < 46 \/ 57 < ch) -> Forall (fun x => x <> ch) (mant l).
Proof.
  intros (H1 & H2 & _) Hch. unfold mant, frac_digits in *. apply Forall_app. split; [apply dch_ne; auto; lia|].
  destruct (l_frac l); constructor; [lia|]. apply dch_ne; auto; lia.
Qed.
Lemma sign_ne s ch : ch <> 43 -> ch <> 45 -> Forall (fun x => x <> ch) (sign_text s).
Proof. destruct s as [[]|]; cbn; constructor; auto. Qed.

Lemma E_le64 : E <= 64. Proof. destruct (c_expo c); cbn; lia. Qed.

Lemma rd_exponent_spec l : lit_ok l -> Z.abs (lit_exp l) < 2 ^ (E - 1) ->
  rd_exponent c (lit_text l) = (lit_exp l, sign_text (l_sign l) ++ mant l).
Proof.
  intros Hok He. unfold rd_exponent, pos_of_e.
  assert (Et : lit_text l = (sign_text (l_sign l) ++ mant l) ++
     match l_exp l with Some (upper, s, ds) => (if upper then 69 else 101) :: sign_text s ++ dch ds | None => [] end).
  { unfold lit_text, mant. rewrite <- !app_assoc. auto. }
  rewrite Et. set (m := sign_text (l_sign l) ++ mant l).
  assert (Hm : forall ch, ch = 101 \/ ch = 69 -> Forall (fun x => x <> ch) m).
  { intros ch Hch. apply Forall_app. split; [apply sign_ne; lia|apply mant_ne; auto; lia]. }
  destruct Hok as (_ & _ & Hx). unfold lit_exp in *.
  destruct (l_exp l) as [[[up s] ds]|].
  - assert (HT : forall ch, ch = 101 \/ ch = 69 -> Forall (fun x => x <> ch) (sign_text s ++ dch ds)).
    { intros ch Hch. apply Forall_app. split; [apply sign_ne; lia|apply dch_ne; auto; lia]. }
    assert (HV : V10 ds < 2 ^ 63).
    { pose proof (limbs_value_bound 10 ds ltac:(lia) Hx). pose proof E_le64. 
      assert (2 ^ (E - 1) <= 2 ^ 63) by (apply Z.pow_le_mono_r; lia). destruct s as [[]|]; lia. }
    assert (Hsk : forall ch, skipn (S (length m)) (m ++ ch :: sign_text s ++ dch ds) = sign_text s ++ dch ds).
    { intros ch. replace (m ++ ch :: sign_text s ++ dch ds) with ((m ++ [ch]) ++ sign_text s ++ dch ds) by (rewrite <- app_assoc; auto).
      apply skipn_app_exact. rewrite app_length. cbn. lia. }
    assert (Hgo : (scast E (strtoll (sign_text s ++ dch ds))) = match s with Some true => -1 | _ => 1 end * V10 ds).
    { rewrite strtoll_dch by auto. apply sE; lia. }
    destruct up.
    + rewrite (find_ch_none 101) by (apply Forall_app; split; [auto|constructor; [lia|auto]]).
      rewrite find_ch_app by auto. rewrite Hsk, Hgo, firstn_app_exact by auto. reflexivity.
    + rewrite find_ch_app by auto. rewrite Hsk, Hgo, firstn_app_exact by auto. reflexivity.
  - rewrite app_nil_r, !find_ch_none by auto. reflexivity.
Qed.

Lemma rd_sign_spec l : lit_ok l ->
  rd_sign (sign_text (l_sign l) ++ mant l) = (match l_sign l with Some true => true | _ => false end, mant l).
Proof.
  intros Hok. pose proof (mant_ne l 45 Hok ltac:(lia)) as H1. pose proof (mant_ne l 43 Hok ltac:(lia)) as H2.
  unfold rd_sign. destruct (l_sign l) as [[]|]; cbn [sign_text app].
  - cbn [find_ch Z.eqb Pos.eqb]. unfold erase1. cbn [firstn skipn app]. rewrite find_ch_none by auto. reflexivity.
  - rewrite find_ch_none by (constructor; [lia|auto]). cbn [find_ch Z.eqb Pos.eqb]. unfold erase1. reflexivity.
  - rewrite !find_ch_none by auto. reflexivity.
Qed.

Lemma firstn_repeat0 a b : firstn a (repeat 0 b) = repeat 0 (Nat.min a b).
Proof. revert b; induction a as [|a IH]; intros [|b]; cbn; f_equal; auto. Qed.

Lemma Vdiv I G k : 0 <= k <= Z.of_nat (length G) -> digits_ok 10 G ->
  V10 (I ++ G) / 10 ^ (Z.of_nat (length G) - k) = V10 (I ++ firstn (Z.to_nat k) G).
Proof.
  intros Hk HG. rewrite <- (firstn_skipn (Z.to_nat k) G) at 1. rewrite app_assoc, limbs_value_app.
  rewrite skipn_length. replace (Z.of_nat (length G - Z.to_nat k)) with (Z.of_nat (length G) - k) by lia.
  assert (0 < 10 ^ (Z.of_nat (length G) - k)) by (apply Z.pow_pos_nonneg; lia).
  rewrite Z.div_add_l by lia. rewrite Z.div_small; [lia|].
  pose proof (limbs_value_bound 10 (skipn (Z.to_nat k) G) ltac:(lia) (digits_ok_skipn _ _ _ HG)) as Hb.
  rewrite skipn_length in Hb. replace (Z.of_nat (length G - Z.to_nat k)) with (Z.of_nat (length G) - k) in Hb by lia. auto.
Qed.

Lemma V10_hd_pos I : digits_ok 10 I -> hd 0 I <> 0 -> 0 < V10 I.
Proof.
  destruct 1 as [|x I Hx HI]; cbn [hd]; [lia|]. intros Hn. cbn [limbs_value].
  pose proof (limbs_value_bound 10 I ltac:(lia) HI). pose proof (pow_pos_nat 10 (length I) ltac:(lia)). nia.
Qed.

Lemma rd_string_spec l : lit_ok l -> lit_fits c l ->
  exists z, rd_string c (lit_text l) = Some z /\ normal c z /\ truncates c z (lit_value l)
    /\ (iszero z = true -> (lit_value l == 0)%Q)
    /\ ((lit_value l == 0)%Q \/ dneg z = match l_sign l with Some true => true | _ => false end).
Proof.
  intros Hok [HfL HfE]. pose proof (edc_pos c) as Hed. pose proof (nel_Z c Hc) as Hn. pose proof (nel_ge4 c Hc) as Hn4.
  unfold rd_string, rd_string_on. rewrite rd_exponent_spec by (auto; lia). rewrite rd_sign_spec by auto.
  set (neg := match l_sign l with Some true => true | _ => false end).
  set (I := l_int l) in *. set (F := frac_digits l) in *. set (e := lit_exp l) in *.
  pose proof Hok as (HI & HF & _). fold I in HI. fold F in HF.
  assert (HlIF : Z.of_nat (length I) + Z.of_nat (length F) < 2 ^ 30).
  { unfold lit_text in HfL. rewrite !app_length, dch_length in HfL. unfold F, frac_digits, I.
    destruct (l_frac l); cbn [length] in *; rewrite ?dch_length in HfL; lia. }
  assert (Elv : (lit_value l == inject_Z (sgn neg) * mval I F e)%Q).
  { unfold lit_value, mval. fold I F e. rewrite inject_Z_mult. unfold neg. destruct (l_sign l) as [[]|]; cbn [sgn]; ring. }
  rewrite app_length in HfE. change (2 ^ 30) with 1073741824 in *.
  destruct (rd_point_spec c I (l_frac l) e) as [[Er Hz]|(I1 & F1 & e1 & Er & HI1 & HF1 & HG1 & HV1 & He1a & He1b & Hl1)];
    try (change (match l_frac l with Some f => f | None => [] end) with F); auto.
  { rewrite app_length. change (2 ^ 61) with 2305843009213693952. lia. }
  { rewrite app_length. lia. }
  { unfold mant. fold I. rewrite Er. exists (zero c). split; [auto|]. split; [apply zero_normal; auto|].
    change (match l_frac l with Some f => f | None => [] end) with F in Hz.
    assert (Em : (mval I F e == 0)%Q) by (unfold mval; rewrite Hz; change (inject_Z 0) with 0%Q; ring).
    unfold truncates. assert (Ez : (value c (zero c) == 0)%Q).
    { apply value_zero; auto; [apply zero_normal|apply zero_iszero]; auto. }
    rewrite Elv at 1 2 3. rewrite Em, Ez. setoid_replace (inject_Z (sgn neg) * 0)%Q with 0%Q by ring. change (Qabs 0) with 0%Q.
    split; [split; [lra|]; split; [lra|]; assert (0 < ulp c (zero c))%Q by apply p10_pos; lra|].
    assert (Eq0 : (lit_value l == 0)%Q) by (rewrite Elv, Em; ring). tauto. }
  unfold mant. fold I. rewrite Er. clear Er.
  change (match l_frac l with Some f => f | None => [] end) with F in *.
  rewrite !app_length in *.
  assert (Hl1z : Z.of_nat (length I1) + Z.of_nat (length F1) < 1073741824) by lia.
  destruct (rd_shift_spec c I1 F1 e1) as (I2 & F2 & e2 & -> & HI2 & HF2 & HG2 & HV2 & Hd2 & He2 & Hl2a & Hl2); auto.
  { rewrite app_length. change (2 ^ 61) with 2305843009213693952. lia. }
  { lia. }
  rewrite !app_length in *.
  destruct (rd_reduce_spec c I2 F2 e2) as (I3 & F3 & e3 & -> & HI3 & HF3 & HG3 & HV3 & Hd3 & He3 & Hl3a & Hl3); auto;
    try (change (2 ^ 31) with 2147483648; lia); try lia.
  rewrite !app_length in *.
  destruct (rd_pad_spec I3 F3) as (k & -> & Hk); auto; [change (2 ^ 31) with 2147483648; lia|].
  set (G := F3 ++ repeat 0 k) in *. pose proof max_dec_pos as Hmd.
  assert (HG : digits_ok 10 G) by (apply digits_ok_app; split; auto; apply digits_ok_repeat0; lia).
  set (F4 := firstn (Z.to_nat max_dec) G).
  assert (HF4 : digits_ok 10 F4) by (apply digits_ok_firstn; auto).
  assert (HlF4 : Z.of_nat (length F4) = Z.min max_dec (Z.of_nat (length G))) by (unfold F4; rewrite firstn_length; lia).
  destruct (rd_limbs_spec I3 F4) as (dl & -> & Hld & Hod & HVd & Hn0); auto.
  { rewrite HlF4. destruct (Z.min_spec max_dec (Z.of_nat (length G))) as [[_ ->]|[_ ->]]; auto.
    exists (elem_number c - 1). reflexivity. }
  { lia. }
  eexists. split; [reflexivity|]. split.
  - unfold normal. cbn [data dexp dneg dprec]. split; [auto|]. split; [apply ok_mask; auto|]. split; [|split; [auto|split; [|auto]]].
    + intros H0. rewrite Hn0 in H0. destruct HG3 as [Hh|Hv].
      * pose proof (V10_hd_pos I3 HI3 Hh). lia.
      * assert (HV0 : limbs_value B dl = 0).
        { rewrite HVd. enough (V10 (I3 ++ F4) = 0) as -> by lia.
          assert (HVG : V10 (I3 ++ G) = 0) by (unfold G; rewrite V10_zeros, Hv; lia).
          rewrite <- (firstn_skipn (Z.to_nat max_dec) G) in HVG. fold F4 in HVG.
          rewrite app_assoc, limbs_value_app in HVG.
          pose proof (limbs_value_bound 10 (I3 ++ F4) ltac:(lia) ltac:(apply digits_ok_app; auto)) as Hb1.
          pose proof (limbs_value_bound 10 (skipn (Z.to_nat max_dec) G) ltac:(lia) (digits_ok_skipn _ _ _ HG)) as Hb2.
          pose proof (pow_pos_nat 10 (length (skipn (Z.to_nat max_dec) G)) ltac:(lia)) as Hb3. clear - HVG Hb1 Hb2 Hb3. nia. }
        apply (limbs_value_inj B); auto; [apply mask_pos|rewrite repeat_length; auto|apply digits_ok_repeat0, mask_pos|].
        rewrite HV0, limbs_value_repeat0. auto.
    + pose proof (E_ge8 c). lia.
  - split; [|split; [|right; reflexivity]].
    2:{ intros Hz0. unfold iszero in Hz0. cbn [data] in Hz0. rewrite Hn0 in Hz0. destruct HG3 as [Hh|Hv].
        - pose proof (V10_hd_pos I3 HI3 Hh). lia.
        - rewrite Elv, <- HV1, <- HV2, <- HV3. unfold mval. rewrite Hv. change (inject_Z 0) with 0%Q. ring. }
    (* value *)
    set (H := G ++ repeat 0 (Z.to_nat max_dec)).
    assert (HH : digits_ok 10 H) by (apply digits_ok_app; split; auto; apply digits_ok_repeat0; lia).
    assert (HlH : Z.of_nat (length H) = Z.of_nat (length G) + max_dec) by (unfold H; rewrite app_length, repeat_length; lia).
    apply (truncates_intro c _ _ (V10 (I3 ++ H)) (e3 - Z.of_nat (length H)) neg); cbn [data dexp dneg]; auto.
    + apply limbs_value_bound; [lia|]. apply digits_ok_app; auto.
    + unfold low. unfold max_dec in HlH, Hmd. rewrite Hn. lia.
    + replace (low c e3 - (e3 - Z.of_nat (length H))) with (Z.of_nat (length H) - max_dec) by (unfold low, max_dec; rewrite Hn; ring).
      rewrite Vdiv by (auto; lia). rewrite HVd.
      replace (firstn (Z.to_nat max_dec) H) with (F4 ++ repeat 0 (Z.to_nat (max_dec - Z.of_nat (length F4)))).
      * rewrite V10_zeros, Z2Nat.id by lia. reflexivity.
      * unfold H. rewrite firstn_app. fold F4. f_equal. rewrite firstn_repeat0. f_equal. lia.
    + assert (EH : Qeq (mval I3 H e3) (mval I3 F3 e3)) by (unfold H, G; rewrite <- app_assoc, <- repeat_app; apply mval_zeros).
      rewrite Elv, <- HV1, <- HV2, <- HV3, <- EH. unfold mval. rewrite inject_Z_mult. ring.
Qed.

(** Literals whose significant digits fit the stored limbs are read exactly. *)
Lemma truncates_exact z q m k : normal c z -> truncates c z q -> (iszero z = true -> (q == 0)%Q) ->
  (Qabs q == inject_Z m * p10 k)%Q -> m < 10 ^ (max_dec + 1) -> (value c z == q)%Q.
Proof.
  intros Hz (T1 & T2 & T3) H0 Hq Hm. pose proof (edc_pos c) as Hed. pose proof max_dec_pos as Hmd.
  pose proof (nel_Z c Hc) as Hn.
  destruct (iszero z) eqn:Zz.
  { rewrite (H0 eq_refl). apply value_zero; auto. }
  destruct (normal_facts c Hc z Hz) as (Lz & Oz & _).
  destruct (value_bracket c Hc z Hz Zz) as [Hb _].
  assert (Hlow : low c (dexp z) = dexp z - max_dec) by (unfold low, max_dec; rewrite Hn; ring).
  assert (Hk : dexp z - max_dec <= k).
  { destruct (Z.le_gt_cases (dexp z - max_dec) k) as [|Hgt]; auto. exfalso.
    assert (Hle : (p10 (dexp z) <= inject_Z m * p10 k)%Q) by (rewrite <- Hq; lra).
    rewrite (p10_scale (dexp z) k) in Hle by lia. apply sc_le in Hle.
    assert (10 ^ (max_dec + 1) <= 10 ^ (dexp z - k)) by (apply Z.pow_le_mono_r; lia). lia. }
  rewrite ulp_low in T3 by auto. rewrite Hlow in T3.
  assert (Hva : (Qabs (value c z) == inject_Z (limbs_value B (data z)) * p10 (dexp z - max_dec))%Q).
  { rewrite value_low by auto. rewrite sc_abs, Hlow, sgn_abs; [reflexivity|]. apply limbs_value_bound; auto. apply mask_pos. }
  rewrite (scaleZ m k (dexp z - max_dec)) in Hq by auto.
  rewrite Hq, Hva in T2, T3. apply sc_le in T2.
  assert (T4 : (inject_Z (m * 10 ^ (k - (dexp z - max_dec))) * p10 (dexp z - max_dec) <
                inject_Z (limbs_value B (data z) + 1) * p10 (dexp z - max_dec))%Q).
  { rewrite (inject_Z_plus _ 1). change (inject_Z 1) with 1%Q. lra. }
  apply sc_lt in T4.
  assert (HE : (Qabs q == Qabs (value c z))%Q).
  { rewrite Hq, Hva. apply sc_eq. lia. }
  assert (Hnz : ~ (value c z == 0)%Q) by (apply value_nonzero; auto).
  clear - T1 HE Hnz. set (v := value c z) in *.
  destruct (Qlt_le_dec v 0) as [Hv|Hv]; destruct (Qlt_le_dec q 0) as [Hq|Hq].
  - rewrite !Qabs_neg in HE by lra. lra.
  - rewrite (Qabs_neg v), (Qabs_pos q) in HE by lra. nra.
  - rewrite (Qabs_pos v), (Qabs_neg q) in HE by lra. 
    assert (0 < v)%Q by (destruct (Qlt_le_dec 0 v); auto; exfalso; apply Hnz; lra). nra.
  - rewrite !Qabs_pos in HE by lra. lra.
Qed.
End P.
