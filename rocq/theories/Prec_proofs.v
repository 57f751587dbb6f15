(** Prec_proofs.v - multiplication and subtraction at a reduced working precision, as used inside the
    Newton iterations. *)
From Verif Require Export Laws_proofs Top_proofs Model_Inv.
From Coq Require Import Lqa.
Local Open Scope Z_scope.

(** Configurations whose products are exact at every working precision up to the full one: no FFT
    sizes, and for 16-bit limbs no more than 42 limbs (the column sums fit 32 bits). *)
Definition newton_ok (c : cfg) : Prop :=
  elem_number c < elems_for_fft /\ (c_limb c = U16 -> elem_number c <= 42).

(** Working memory of a multiplication at [p] limbs: sizes fixed, contents arbitrary. *)
Definition pool_at (p : nat) (m : list Z * list Z) : Prop :=
  let k := Z.to_nat (a029750 (Z.of_nat p)) in
  length (fst m) = (2 * k)%nat /\ length (snd m) = (4 * k)%nat.
Definition memory_ok (mem : memory) : Prop := forall i p, pool_at p (mem i p).

Section PR.
Variable c : cfg.
Notation L := (c_limb c).
Notation B := (mask L).
Notation V := (limbs_value B).
Notation ok := (digits_ok B).
Notation P n := (B ^ Z.of_nat n).
Notation E := (ebits (c_expo c)).
Notation n := (nel c).
Notation M := (max_exp10_of (c_expo c)).
Hypothesis Hc : cfg_ok c.
Hypothesis Hk : newton_ok c.
Let HB : 0 < B := mask_pos L.

Lemma newton_mul_ok : mul_ok c.
Proof.
  destruct Hk as [H1 H2]. split; auto. intros H. unfold edc, elems_for_kara in *. rewrite <- mask_pow.
  pose proof (elem_number_ge4 c Hc). destruct L eqn:EL; [left; auto| |]; right; cbn [mask dbits].
  - specialize (H2 eq_refl). change (2 ^ 32) with 4294967296. lia.
  - change (2 ^ 64) with 18446744073709551616. lia.
Qed.

Definition lowp (p : nat) (e : Z) : Z := e - edc c * (Z.of_nat p - 1).
Definition mag (x : dec) : Q := (inject_Z (V (data x)) * p10 (low c (dexp x)))%Q.
(** Nearly normal: the leading limb may equal the base when all others are zero; any precision. *)
Definition wk (x : dec) : Prop :=
  length (data x) = n /\ okA L (data x) /\ nth 0 (data x) 0 <> 0 /\ (edc c | dexp x).

Lemma mag_value x : length (data x) = n -> dneg x = false -> (value c x == mag x)%Q.
Proof. intros H1 H2. rewrite value_low, H2 by auto. unfold mag. cbn [sgn]. rewrite Z.mul_1_l. reflexivity. Qed.

Lemma normal_wk x : normal c x -> iszero x = false -> wk x.
Proof.
  intros Hx Zx. destruct (normal_facts c Hc x Hx) as (Lx & Ox & _). pose proof Hx as (_ & _ & _ & D & _).
  repeat split; auto; [left; auto|]. unfold iszero in Zx. lia.
Qed.

Lemma firstn_okA l p : (1 <= p)%nat -> okA L l -> (p <= length l)%nat -> okA L (firstn p l) /\ ok (skipn p l) /\
  (V l = P (length l) -> True) /\ (V (firstn p l) = P p -> V (skipn p l) = 0).
Proof.
  intros Hp Ho Hl. rewrite <- (firstn_skipn p l) in Ho. pose proof Ho as Ho'.
  assert (Lf : length (firstn p l) = p) by (rewrite firstn_length; lia).
  apply okA_split in Ho; [|lia]. destruct Ho as [O1 O2]. split; auto. split; auto. split; auto.
  intros HV. destruct Ho' as [H|H].
  - apply digits_ok_app in H. destruct H as [H _]. pose proof (limbs_value_bound B _ HB H) as Hb. rewrite Lf in Hb. lia.
  - rewrite app_length, Lf in H. replace (p + length (skipn p l) - 1)%nat with ((p - 1) + length (skipn p l))%nat in H by lia.
    rewrite repeat_app in H. change (B :: repeat 0 (p - 1) ++ repeat 0 (length (skipn p l))) with ((B :: repeat 0 (p - 1)) ++ repeat 0 (length (skipn p l))) in H.
    apply app_inj_len in H; [|cbn [length]; rewrite repeat_length; lia]. destruct H as [_ H]. rewrite H. apply limbs_value_repeat0.
Qed.

Lemma prefix_lead l p : (1 <= p)%nat -> okA L l -> nth 0 l 0 <> 0 -> (p <= length l)%nat ->
  P (p - 1) <= V (firstn p l) <= P p.
Proof.
  intros Hp Ho Hz Hl. destruct (firstn_okA l p Hp Ho Hl) as (O1 & _).
  pose proof (okA_bound L _ O1) as Hb. rewrite firstn_length, Nat.min_l in Hb by lia. split; [|lia].
  destruct l as [|d l]; [cbn in Hl; lia|]. destruct p as [|p]; [lia|]. cbn [firstn limbs_value nth] in *.
  replace (S p - 1)%nat with p by lia. rewrite firstn_length, Nat.min_l by (cbn in Hl; lia).
  assert (0 < d) by (destruct Ho as [Ho|Ho]; [apply digits_ok_cons in Ho; lia|injection Ho as -> _; auto]).
  assert (0 <= V (firstn p l)).
  { destruct O1 as [O1|O1]; [apply digits_ok_cons in O1; pose proof (limbs_value_bound B _ HB (proj2 O1)); lia|].
    injection O1 as _ O1. rewrite O1, limbs_value_repeat0. lia. }
  pose proof (pow_pos_nat B p HB). nia.
Qed.

Lemma low_lowp p e : (p <= n)%nat -> low c e <= lowp p e /\ lowp p e - low c e = edc c * Z.of_nat (n - p).
Proof. intros H. pose proof (edc_pos c). unfold low, lowp. assert (Z.of_nat p <= Z.of_nat n) by lia. rewrite Nat2Z.inj_sub by auto. nia. Qed.

Lemma mag_prefix x p : wk x -> (1 <= p <= n)%nat ->
  let a := V (firstn p (data x)) in
  P (p - 1) <= a <= P p /\ (inject_Z a * p10 (lowp p (dexp x)) <= mag x)%Q /\
  (mag x < inject_Z (a + 1) * p10 (lowp p (dexp x)))%Q /\ okA L (firstn p (data x)) /\ ok (skipn p (data x)) /\
  (a = P p -> (mag x == inject_Z a * p10 (lowp p (dexp x)))%Q).
Proof.
  intros (Hl & Ho & Hz & _) Hp a. destruct (firstn_okA (data x) p ltac:(lia) Ho ltac:(lia)) as (O1 & O2 & _ & O3).
  split; [apply prefix_lead; auto; lia|].
  pose proof (limbs_value_bound B _ HB O2) as Hb. rewrite skipn_length, Hl in Hb.
  assert (EV : V (data x) = a * P (n - p) + V (skipn p (data x))).
  { rewrite <- (firstn_skipn p (data x)) at 1. rewrite limbs_value_app, skipn_length, Hl. reflexivity. }
  pose proof (edc_pos c) as He. destruct (low_lowp p (dexp x) ltac:(lia)) as [Hlow Hd].
  assert (HP : P (n - p) = 10 ^ (lowp p (dexp x) - low c (dexp x))).
  { rewrite Bpow, Hd by lia. reflexivity. }
  unfold mag. rewrite !(scaleZ _ _ _ Hlow). rewrite sc_le, sc_lt, sc_eq, <- HP.
  split; [lia|]. split; [nia|]. split; auto. split; auto. intros Ha. rewrite (O3 Ha) in EV. lia.
Qed.

Lemma mag_bracket x : wk x -> (p10 (dexp x) <= mag x)%Q /\ (mag x <= p10 (dexp x + edc c))%Q.
Proof.
  intros Hx. pose proof (nel_ge4 c Hc) as Hn. pose proof (edc_pos c) as He.
  destruct (mag_prefix x n Hx ltac:(lia)) as (A1 & _). destruct Hx as (Hl & _).
  rewrite firstn_all2 in A1 by lia. unfold mag.
  rewrite (p10_scale (dexp x) (low c (dexp x))), (p10_scale (dexp x + edc c) (low c (dexp x))) by (unfold low; nia).
  rewrite !sc_le.
  replace (dexp x - low c (dexp x)) with (ed L * (Z.of_nat (n - 1))) by (unfold low, edc; nia).
  replace (dexp x + edc c - low c (dexp x)) with (ed L * (Z.of_nat n)) by (unfold low, edc; nia).
  rewrite <- !Bpow by lia. lia.
Qed.
Lemma mag_pos x : wk x -> (0 < mag x)%Q.
Proof. intros H. destruct (mag_bracket x H). pose proof (p10_pos (dexp x)). lra. Qed.

Lemma mag_bracket_lt x : wk x -> ok (data x) -> (mag x < p10 (dexp x + edc c))%Q.
Proof.
  intros Hx Ho. pose proof (nel_ge4 c Hc) as Hn. pose proof (edc_pos c) as He. destruct Hx as (Hl & _).
  pose proof (limbs_value_bound B _ HB Ho) as Hb. rewrite Hl in Hb. unfold mag.
  rewrite (p10_scale (dexp x + edc c) (low c (dexp x))) by (unfold low; nia). rewrite sc_lt.
  replace (dexp x + edc c - low c (dexp x)) with (ed L * (Z.of_nat n)) by (unfold low, edc; nia).
  rewrite <- !Bpow by lia. lia.
Qed.

(** The limb product at [p] limbs. *)
Lemma dispatchp_spec m x v e p : pool_at p m -> (2 <= p <= n)%nat ->
  length (data x) = n -> okA L (data x) -> length (data v) = n -> ok (data v) ->
  exists res k, mul_dispatch c (fst m) (snd m) x v e p = Some (store_product c x e res p) /\
    (p <= k)%nat /\ length res = (2 * k)%nat /\ ok res /\
    V res = V (firstn p (data x)) * V (firstn p (data v)) * P (2 * k - 2 * p).
Proof.
  intros [Hp1 Hp2] Hp Lx Ox Lv Ov. pose proof (nel_Z c Hc) as HnZ. destruct Hk as [Hk1 Hk2].
  destruct (firstn_okA (data x) p ltac:(lia) Ox ltac:(lia)) as (O1 & _).
  pose proof (digits_ok_firstn B p _ Ov) as O2.
  assert (Lf : length (firstn p (data x)) = p) by (rewrite firstn_length; lia).
  assert (Lg : length (firstn p (data v)) = p) by (rewrite firstn_length; lia).
  unfold mul_dispatch.
  destruct (Z.of_nat p <? elems_for_kara) eqn:Ek.
  - destruct (school_okA_spec L (firstn p (data x)) (firstn p (data v))) as (r & E1 & E2 & E3 & E4); auto; try lia.
    { rewrite Lf. unfold school_fits, elems_for_kara in *. destruct L eqn:EL; auto; right; cbn [mask dbits].
      - specialize (Hk2 eq_refl). change (2 ^ 32) with 4294967296. lia.
      - change (2 ^ 64) with 18446744073709551616. lia. }
    rewrite E1. exists r, p. split; [reflexivity|]. split; [lia|]. split; [lia|]. split; [auto|].
    rewrite E4. rewrite Nat.sub_diag. change (P 0) with 1. lia.
  - replace (Z.of_nat p <? elems_for_fft) with true by lia.
    destruct (a029750_range (Z.of_nat p)) as (R1 & R2 & R3); [unfold elems_for_kara in Ek; lia|].
    set (k := Z.to_nat (a029750 (Z.of_nat p))) in *.
    assert (Hnk : (p <= k)%nat) by lia.
    cbv zeta.
    destruct (kara_okA_spec L k R3 k (fst m) (firstn p (data x) ++ repeat 0 (k - p)) (firstn p (data v) ++ repeat 0 (k - p)) (snd m))
      as (r & t & E1 & E2 & E3 & E4 & E5); auto; try lia.
    { rewrite app_length, repeat_length; lia. }
    { rewrite app_length, repeat_length; lia. }
    { destruct O1 as [O1|O1]; [left; apply digits_ok_app; split; auto; apply digits_ok_repeat0; auto|right].
      rewrite O1, Lf. cbn [app length]. rewrite app_length, !repeat_length, <- repeat_app. do 2 f_equal. lia. }
    { apply digits_ok_app; split; auto; apply digits_ok_repeat0; auto. }
    rewrite E1. exists r, k. split; [reflexivity|]. split; [auto|]. split; [auto|]. split; [auto|].
    rewrite E5, !limbs_value_app, !limbs_value_repeat0, !repeat_length.
    replace (2 * k - 2 * p)%nat with ((k - p) + (k - p))%nat by lia. rewrite Nat2Z.inj_add, Z.pow_add_r by lia. ring.
Qed.

Lemma storep_spec x e res k p : (2 <= p <= n)%nat -> (p <= k)%nat -> length res = (2 * k)%nat -> ok res ->
  forall a b, P (p - 1) <= a <= P p -> P (p - 1) <= b < P p ->
  V res = a * b * P (2 * k - 2 * p) -> length (data x) = n -> ok (skipn p (data x)) ->
  let z := store_product c x e res p in
  length (data z) = n /\ ok (data z) /\ nth 0 (data z) 0 <> 0 /\ dprec z = dprec x /\ dneg z = dneg x /\
  skipn p (data z) = skipn p (data x) /\
  ((dexp z = e /\ V (firstn p (data z)) = a * b / P (p - 1) /\ a * b < P (2 * p - 1)) \/
   (dexp z = scast E (e + edc c) /\ V (firstn p (data z)) = a * b / P p /\ P (2 * p - 1) <= a * b)).
Proof.
  intros Hp Hnk Hl Hok a b Ha Hb HV Lx Osk. pose proof (nel_ge4 c Hc) as Hn4. cbv zeta. unfold store_product.
  pose proof (pow_pos_nat B (2 * k - 2 * p) HB) as HPk. pose proof (pow_pos_nat B (p - 1) HB) as HPn1.
  assert (HPn : P p = B * P (p - 1)) by (rewrite <- pow_succ_nat; do 2 f_equal; lia).
  destruct res as [|r0 res]; [cbn in Hl; lia|]. cbn [nth skipn].
  pose proof Hok as Hok'. apply digits_ok_cons in Hok. destruct Hok as [Hr0 Hok].
  pose proof (limbs_value_bound B res HB Hok) as Hbr. cbn [length] in Hl.
  assert (HP2n2 : P (2 * k - 2) = P (p - 1) * P (p - 1) * P (2 * k - 2 * p)).
  { rewrite <- !Z.pow_add_r by lia. f_equal. lia. }
  assert (HP2k1 : P (length res) = B * P (2 * k - 2)).
  { rewrite <- pow_succ_nat. do 2 f_equal. lia. }
  assert (HP2p1 : P (length res) = P (2 * p - 1) * P (2 * k - 2 * p)).
  { rewrite <- !Z.pow_add_r by lia. f_equal. lia. }
  assert (Lsk : length (skipn p (data x)) = (n - p)%nat) by (rewrite skipn_length; lia).
  cbn [limbs_value] in HV.
  destruct (r0 =? 0) eqn:E0; cbn [data dexp dneg dprec].
  - assert (r0 = 0) by lia. subst r0. rewrite Z.mul_0_l, Z.add_0_l in HV.
    assert (Lf : length (firstn p res) = p) by (rewrite firstn_length; lia).
    split; [rewrite app_length; lia|]. split; [apply digits_ok_app; split; auto; apply digits_ok_firstn; auto|].
    rewrite app_nth1 by lia. rewrite firstn_app_exact, skipn_app_exact by auto.
    split.
    + rewrite nth0_firstn by lia. destruct res as [|r1 res]; [cbn in Hl; lia|]. cbn [nth].
      intros ->. apply digits_ok_cons in Hok. destruct Hok as [_ Hok].
      pose proof (limbs_value_bound B res HB Hok) as Hbr'. cbn [limbs_value length] in *.
      replace (length res) with (2 * k - 2)%nat in * by lia.
      assert (Hab : P (p - 1) * P (p - 1) <= a * b) by (apply Z.mul_le_mono_nonneg; lia).
      apply (Z.mul_le_mono_nonneg_r _ _ (P (2 * k - 2 * p))) in Hab; lia.
    + split; [auto|]. split; [auto|]. split; auto. left. split; [auto|].
      rewrite firstn_value by (auto; lia). rewrite HV. split.
      * replace (length res - p)%nat with ((p - 1) + (2 * k - 2 * p))%nat by lia.
        rewrite Nat2Z.inj_add, Z.pow_add_r by lia. rewrite Z.div_mul_cancel_r by lia. reflexivity.
      * rewrite HP2p1, HV in Hbr. destruct Hbr as [_ Hbr]. apply Z.mul_lt_mono_pos_r in Hbr; auto.
  - assert (Lf : length (firstn p (r0 :: res)) = p) by (rewrite firstn_length; cbn [length]; lia).
    split; [rewrite app_length; lia|]. split; [apply digits_ok_app; split; auto; apply digits_ok_firstn; auto|].
    rewrite app_nth1 by lia. rewrite firstn_app_exact, skipn_app_exact by auto.
    split; [rewrite nth0_firstn by lia; cbn [nth]; lia|].
    split; [auto|]. split; [auto|]. split; auto. right. split; [auto|]. split.
    + rewrite firstn_value by (auto; cbn [length]; lia). cbn [limbs_value]. rewrite HV. cbn [length].
      replace (S (length res) - p)%nat with (p + (2 * k - 2 * p))%nat by lia.
      rewrite Nat2Z.inj_add, Z.pow_add_r by lia. rewrite Z.div_mul_cancel_r by lia. reflexivity.
    + assert (P (2 * p - 1) * P (2 * k - 2 * p) <= a * b * P (2 * k - 2 * p)) by (rewrite <- HP2p1, <- HV; assert (1 * P (length res) <= r0 * P (length res)) by (apply Z.mul_le_mono_nonneg_r; lia); lia).
      apply Z.mul_le_mono_pos_r in H; auto.
Qed.
End PR.
