(** Round_proofs.v - rounding to max_digits10 significant digits. *)
From Verif Require Export Misc_proofs Model_Round Spec_Round.
From Coq Require Import Lqa ZifyBool.
Local Open Scope Z_scope.

Lemma limb_digits_spec f t : 0 < t < 10 ^ Z.of_nat f ->
  10 ^ (limb_digits f t - 1) <= t < 10 ^ limb_digits f t /\ 1 <= limb_digits f t.
Proof.
  revert t. induction f as [|f IH]; intros t Ht. { cbn in Ht. lia. }
  rewrite Nat2Z.inj_succ, Z.pow_succ_r in Ht by lia. cbn [limb_digits]. replace (t >? 0) with true by lia.
  destruct (Z.eq_dec (t / 10) 0) as [H0|H0].
  - rewrite H0. assert (Hz : limb_digits f 0 = 0) by (destruct f; reflexivity). rewrite Hz. pose proof (Z.div_mod t 10).
    pose proof (Z.mod_pos_bound t 10). cbn. lia.
  - assert (Hq : 0 < t / 10 < 10 ^ Z.of_nat f).
    { split; [pose proof (Z.div_pos t 10); lia|]. apply Z.div_lt_upper_bound; lia. }
    destruct (IH _ Hq) as ((I1 & I2) & I3). set (k := limb_digits f (t / 10)) in *.
    replace (1 + k - 1) with (1 + (k - 1)) by lia. rewrite !Z.pow_add_r by lia. change (10 ^ 1) with 10.
    pose proof (Z.div_mod t 10). pose proof (Z.mod_pos_bound t 10). lia.
Qed.

Lemma round_carry_spec L l : forall cy, digits_ok (mask L) l -> 0 <= cy <= 1 ->
  digits_ok (mask L) (fst (round_carry L l cy)) /\ length (fst (round_carry L l cy)) = length l /\
  0 <= snd (round_carry L l cy) <= 1 /\
  limbs_value (mask L) (fst (round_carry L l cy)) + snd (round_carry L l cy) * mask L ^ Z.of_nat (length l)
  = limbs_value (mask L) l + cy.
Proof.
  pose proof (mask_pos L) as HB. pose proof (mask_fits L) as HF.
  induction l as [|x l IH]; intros cy Ho Hcy.
  - cbn. repeat split; try lia. constructor.
  - apply digits_ok_cons in Ho. destruct Ho as [Hx Ho]. specialize (IH cy Ho Hcy). cbn [round_carry].
    destruct (round_carry L l cy) as [r k]. cbn [fst snd] in IH. destruct IH as (I1 & I2 & I3 & I4).
    destruct (k =? 0) eqn:Ek.
    + cbn [fst snd]. split; [apply digits_ok_cons; auto|]. split; [cbn; lia|]. split; [lia|].
      cbn [limbs_value]. rewrite I2. assert (k = 0) by lia. subst k. lia.
    + cbn [fst snd]. assert (k = 1) by lia. subst k. rewrite (ucast_id _ (x + 1)) by lia.
      destruct (x + 1 >=? mask L) eqn:Eg.
      * change (1 =? 0) with false. cbn iota. rewrite ucast_id by lia. split; [apply digits_ok_cons; split; [lia|auto]|].
        split; [cbn; lia|]. split; [lia|]. cbn [limbs_value length]. rewrite I2, pow_succ_nat. assert (x = mask L - 1) by lia. subst x. nia.
      * change (0 =? 0) with true. cbn iota. rewrite ucast_id by lia. split; [apply digits_ok_cons; split; [lia|auto]|].
        split; [cbn; lia|]. split; [lia|]. cbn [limbs_value length]. rewrite I2. nia.
Qed.

(** Deciding half-up by the first dropped digit. *)
Lemma half_digit N W : 0 <= N -> 0 < W -> ((N / W) mod 10 >= 5 <-> 2 * (N mod (10 * W)) >= 10 * W).
Proof.
  intros HN HW. rewrite (Z.mul_comm 10 W). rewrite Z.rem_mul_r by lia.
  pose proof (Z.mod_pos_bound N W HW). pose proof (Z.mod_pos_bound (N / W) 10 ltac:(lia)).
  set (q := (N / W) mod 10) in *. split; intros; nia.
Qed.

Section R.
Variable c : cfg.
Notation L := (c_limb c).
Notation B := (mask L).
Notation V := (limbs_value B).
Notation P n := (B ^ Z.of_nat n).
Notation E := (ebits (c_expo c)).
Notation n := (nel c).
Hypothesis Hc : cfg_ok c.
Let HB : 0 < B := mask_pos L.

(** Splitting a limb array at index [i]. *)
Lemma split_at (d : list Z) (i : nat) : (i < length d)%nat -> d = firstn i d ++ nth i d 0 :: skipn (S i) d.
Proof.
  revert i. induction d as [|x d IH]; intros i Hi; [cbn in Hi; lia|]. destruct i; [reflexivity|].
  cbn [firstn nth skipn app]. f_equal. apply IH. cbn in Hi. lia.
Qed.

Lemma V_split d i : (i < length d)%nat ->
  V d = (V (firstn i d) * B + nth i d 0) * P (length d - 1 - i) + V (skipn (S i) d).
Proof.
  intros Hi. rewrite (split_at d i Hi) at 1. rewrite limbs_value_app. cbn [limbs_value length].
  rewrite skipn_length. replace (length d - S i)%nat with (length d - 1 - i)%nat by lia. rewrite pow_succ_nat. ring.
Qed.

Lemma p10_divides_B r : 0 <= r <= edc c -> B = 10 ^ r * 10 ^ (edc c - r).
Proof. intros. rewrite <- Z.pow_add_r by lia. rewrite mask_pow. f_equal. unfold edc. lia. Qed.

Lemma digit_extract d i r : digits_ok B d -> (i < length d)%nat -> 0 <= r < edc c ->
  (V d / (P (length d - 1 - i) * 10 ^ r)) mod 10 = (nth i d 0 / 10 ^ r) mod 10.
Proof.
  intros Ho Hi Hr. rewrite (V_split d i Hi). set (W := P (length d - 1 - i)).
  assert (HW : 0 < W) by (apply pow_pos_nat; auto).
  assert (H10 : 0 < 10 ^ r) by (apply Z.pow_pos_nonneg; lia).
  assert (Hs : 0 <= V (skipn (S i) d) < W).
  { pose proof (limbs_value_bound B (skipn (S i) d) HB (digits_ok_skipn _ _ _ Ho)) as H. rewrite skipn_length in H.
    unfold W. replace (length d - 1 - i)%nat with (length d - S i)%nat by lia. auto. }
  rewrite <- Z.div_div by lia. rewrite Z.div_add_l by lia. rewrite (Z.div_small (V (skipn (S i) d))) by auto. rewrite Z.add_0_r.
  rewrite (p10_divides_B r) at 2 by lia.
  replace (V (firstn i d) * (10 ^ r * 10 ^ (edc c - r)) + nth i d 0) with (nth i d 0 + (V (firstn i d) * 10 ^ (edc c - r)) * 10 ^ r) by ring.
  rewrite Z.div_add by lia. replace (10 ^ (edc c - r)) with (10 ^ (edc c - r - 1) * 10).
  - rewrite Z.mul_assoc, Z.mod_add by lia. reflexivity.
  - replace (edc c - r) with (edc c - r - 1 + 1) at 2 by lia. rewrite Z.pow_add_r by lia. reflexivity.
Qed.

Lemma mod_unit d i pos : digits_ok B d -> (i < length d)%nat -> 0 <= pos <= edc c ->
  V d mod (P (length d - 1 - i) * 10 ^ pos) = (nth i d 0 mod 10 ^ pos) * P (length d - 1 - i) + V (skipn (S i) d).
Proof.
  intros Ho Hi Hp. rewrite (V_split d i Hi) at 1. set (W := P (length d - 1 - i)).
  assert (HW : 0 < W) by (apply pow_pos_nat; auto).
  assert (H10 : 0 < 10 ^ pos) by (apply Z.pow_pos_nonneg; lia).
  assert (Hs : 0 <= V (skipn (S i) d) < W).
  { pose proof (limbs_value_bound B (skipn (S i) d) HB (digits_ok_skipn _ _ _ Ho)) as H. rewrite skipn_length in H.
    unfold W. replace (length d - 1 - i)%nat with (length d - S i)%nat by lia. auto. }
  rewrite Z.rem_mul_r by lia. rewrite Z.div_add_l by lia. rewrite (Z.div_small (V (skipn (S i) d))) by auto. rewrite Z.add_0_r.
  replace (((V (firstn i d) * B + nth i d 0) * W + V (skipn (S i) d)) mod W) with (V (skipn (S i) d)).
  2:{ rewrite Z.add_comm, Z.mod_add by lia. rewrite Z.mod_small; auto. }
  replace ((V (firstn i d) * B + nth i d 0) mod 10 ^ pos) with (nth i d 0 mod 10 ^ pos); [ring|].
  rewrite (p10_divides_B pos) at 2 by lia.
  replace (V (firstn i d) * (10 ^ pos * 10 ^ (edc c - pos)) + nth i d 0) with (nth i d 0 + (V (firstn i d) * 10 ^ (edc c - pos)) * 10 ^ pos) by ring.
  rewrite Z.mod_add by lia. auto.
Qed.

(** Position of the last kept digit: [idx] limbs down, [pos] digits up. *)
Lemma round_position k : 1 <= k <= edc c -> edc c <= max_digits10 c ->
  let rest := max_digits10 c - k in
  let md := Z.rem rest (ed L) in
  let idx := Z.quot rest (ed L) + (if md =? 0 then 0 else 1) in
  let pos := if md =? 0 then 0 else ed L - md in
  let ridx := if md =? 0 then idx + 1 else idx in
  let rpos := if pos =? 0 then ed L - 1 else pos - 1 in
  0 <= idx /\ 0 <= pos < edc c /\ 0 <= rpos < edc c /\ edc c * idx - pos = rest /\
  idx <= ridx <= Z.of_nat n - 1 /\ edc c * ridx - rpos = rest + 1.
Proof.
  intros Hk Hm. cbv zeta. change (ed L) with (edc c). unfold max_digits10 in *. rewrite (nel_Z c Hc).
  destruct Hc as [Hd _]. unfold elem_number. change (ed L) with (edc c).
  assert (He : edc c = 2 \/ edc c = 4 \/ edc c = 8) by (unfold edc; destruct L; cbn; lia).
  rewrite Z.quot_div_nonneg, Z.rem_mod_nonneg by lia.
  destruct He as [He|[He|He]]; rewrite He in *; clear He Hc.
  all: Z.to_euclidean_division_equations; repeat match goal with |- context[if ?b then _ else _] => destruct b eqn:?E end; lia.
Qed.


Lemma nth_error_nth' (d : list Z) i : (i < length d)%nat -> nth_error d i = Some (nth i d 0).
Proof. intros H. apply nth_error_nth'; auto. Qed.

Lemma pow10_rt_small k : k < 10 -> pow10_rt k = 10 ^ k.
Proof. intros H. unfold pow10_rt. replace (k <? 10) with true by lia. auto. Qed.

Lemma digit_at_spec u r : 0 <= u < B -> 0 <= r < edc c -> digit_at L u r = (u / 10 ^ r) mod 10.
Proof.
  intros Hu Hr. pose proof (edc_pos c). unfold digit_at. rewrite pow10_rt_small by lia.
  pose proof (mask_fits L). pose proof (lbits_ge L). 
  assert (0 < 10 ^ r) by (apply Z.pow_pos_nonneg; lia).
  assert (0 <= u / 10 ^ r <= u). { split; [apply Z.div_pos; lia|]. apply Z.div_le_upper_bound; nia. }
  assert (256 <= 2 ^ lbits L) by (change 256 with (2 ^ 8); apply Z.pow_le_mono_r; lia).
  pose proof (Z.mod_pos_bound (u / 10 ^ r) 10 ltac:(lia)).
  rewrite (ucast_id _ (u / 10 ^ r)) by lia. rewrite (ucast_id (lbits L)) by lia. apply ucast_id. change (2 ^ 8) with 256. lia.
Qed.

Lemma floor_unit N U a : 0 < U -> (U | a) -> a <= N -> a <= N - N mod U.
Proof.
  intros HU [q ->] Ha. pose proof (Z.div_mod N U ltac:(lia)) as DM. pose proof (Z.mod_pos_bound N U HU).
  assert (q <= N / U) by (apply Z.div_le_lower_bound; lia). nia.
Qed.

Definition keeps_last (i : nat) (d : list Z) : Z := if (i + 2 =? n)%nat then nth (n - 1) d 0 else 0.

Lemma round_self_int x : normal c x -> iszero x = false -> edc c <= max_digits10 c ->
  exists (z : dec) (k : Z) (i : nat) (pos : Z),
  let N := V (data x) in let U := P (n - 1 - i) * 10 ^ pos in
  let N' := N - N mod U + (if 2 * (N mod U) >=? U then U else 0) in
  round_self c x = Some z /\
  1 <= k <= edc c /\ 10 ^ (k - 1) <= nth 0 (data x) 0 < 10 ^ k /\ 
  (i < n)%nat /\ 0 <= pos < edc c /\ edc c * Z.of_nat i - pos = max_digits10 c - k /\
  dneg z = dneg x /\ dprec z = n /\ length (data z) = n /\ digits_ok B (data z) /\
  ((dexp z = dexp x /\ V (data z) = N' + keeps_last i (data x)) \/
   (N' = P n /\ dexp z = scast E (dexp x + edc c) /\ V (data z) = P (n - 1))).
Proof.
  intros Hx Zx Hm. destruct (normal_facts c Hc x Hx) as (Lx & Ox & Px & _).
  pose proof (edc_pos c) as He. pose proof (nel_ge4 c Hc) as Hn. pose proof (mask_fits L) as HF. pose proof (lbits_ge L) as HLb.
  assert (Hd0 : 0 < nth 0 (data x) 0 < B).
  { pose proof (digits_ok_nth B (data x) 0 HB Ox). unfold iszero in Zx. lia. }
  destruct (limb_digits_spec 10 (nth 0 (data x) 0)) as (K1 & K2).
  { split; [lia|]. apply Z.lt_le_trans with B; [lia|]. destruct L; cbn; lia. }
  set (k := limb_digits 10 (nth 0 (data x) 0)) in *.
  assert (K3 : k <= edc c).
  { assert (10 ^ (k - 1) < 10 ^ edc c) by (unfold edc; rewrite <- mask_pow; lia). apply Z.pow_lt_mono_r_iff in H; lia. }
  pose proof (round_position k ltac:(lia) Hm) as RP. cbv zeta in RP.
  unfold round_self. rewrite Zx. cbv zeta. fold k. rewrite Lx.
  set (md := Z.rem (max_digits10 c - k) (ed L)) in *.
  set (idx := Z.quot (max_digits10 c - k) (ed L) + (if md =? 0 then 0 else 1)) in *.
  set (pos := if md =? 0 then 0 else ed L - md) in *.
  set (ridx := if md =? 0 then idx + 1 else idx) in *.
  set (rpos := if pos =? 0 then ed L - 1 else pos - 1) in *.
  destruct RP as (R1 & R2 & R3 & R4 & R5 & R6).
  set (i := Z.to_nat idx). assert (Hi : (i < n)%nat) by lia. assert (Hri : (Z.to_nat ridx < n)%nat) by lia.
  rewrite !nth_error_nth' by lia. 
  pose proof (digits_ok_nth B (data x) i HB Ox) as Hl. pose proof (digits_ok_nth B (data x) (Z.to_nat ridx) HB Ox) as Hrl.
  rewrite digit_at_spec by auto.
  fold i. set (l := nth i (data x) 0) in *.
  rewrite pow10_rt_small by lia.
  assert (Hpp : 0 < 10 ^ pos) by (apply Z.pow_pos_nonneg; lia).
  assert (HpB : 10 ^ pos < B). { rewrite mask_pow. apply Z.pow_lt_mono_r; unfold edc in *; lia. }
  rewrite (ucast_id _ (10 ^ pos)) by lia.
  pose proof (Z.mod_pos_bound l (10 ^ pos) Hpp) as Hlm. pose proof (Z.mod_le l (10 ^ pos) ltac:(lia) Hpp) as Hlm2.
  rewrite (ucast_id _ (l mod 10 ^ pos)) by lia. rewrite (ucast_id _ (l - l mod 10 ^ pos)) by lia.
  set (l1 := l - l mod 10 ^ pos).
  assert (Hl1 : 0 <= l1 /\ l1 + 10 ^ pos <= B).
  { split; [unfold l1; lia|]. unfold l1. pose proof (Z.div_mod l (10 ^ pos) ltac:(lia)).
    rewrite (p10_divides_B pos) by lia. rewrite (p10_divides_B pos) in Hl by lia.
    assert (l / 10 ^ pos < 10 ^ (edc c - pos)) by (apply Z.div_lt_upper_bound; lia). nia. }
  set (lower := if idx + 1 <? Z.of_nat n - 1 then repeat 0 (n - (i + 1)) else skipn (i + 1) (data x)).
  assert (Hlow : length lower = (n - 1 - i)%nat /\ digits_ok B lower /\ V lower = keeps_last i (data x)).
  { unfold lower, keeps_last. destruct (idx + 1 <? Z.of_nat n - 1) eqn:El.
    - rewrite repeat_length. split; [lia|]. split; [apply digits_ok_repeat0; auto|]. rewrite limbs_value_repeat0.
      replace (i + 2 =? n)%nat with false by lia. auto.
    - rewrite skipn_length. split; [lia|]. split; [apply digits_ok_skipn; auto|]. destruct (i + 2 =? n)%nat eqn:E2.
      + replace (i + 1)%nat with (n - 1)%nat by lia. rewrite (split_at (data x) (n - 1)) at 1 by lia.
        rewrite skipn_app_exact by (rewrite firstn_length; lia). rewrite skipn_all2 by lia. cbn. lia.
      + rewrite skipn_all2 by lia. reflexivity. }
  destruct Hlow as (Lo1 & Lo2 & Lo3).
  set (N := V (data x)). set (W := P (n - 1 - i)). set (U := W * 10 ^ pos).
  assert (HW : 0 < W) by (apply pow_pos_nat; auto). assert (HU : 0 < U) by (unfold U; nia).
  pose proof (mod_unit (data x) i pos Ox ltac:(lia) ltac:(lia)) as MU. rewrite Lx in MU. fold W N l U in MU.
  pose proof (V_split (data x) i ltac:(lia)) as VS. rewrite Lx in VS. fold W N l in VS.
  assert (HU10 : U = 10 * (P (n - 1 - Z.to_nat ridx) * 10 ^ rpos)).
  { unfold U, W. rewrite !Bpow by lia. change (ed L) with (edc c). change 10 with (10 ^ 1) at 3. rewrite <- !Z.pow_add_r by nia.
    f_equal. rewrite !Nat2Z.inj_sub by lia. unfold i. rewrite !Z2Nat.id by lia. lia. }
  assert (Hround : ((nth (Z.to_nat ridx) (data x) 0 / 10 ^ rpos) mod 10 >=? 5) = (2 * (N mod U) >=? U)).
  { pose proof (digit_extract (data x) (Z.to_nat ridx) rpos Ox ltac:(lia) R3) as DE. rewrite Lx in DE. fold N in DE. rewrite <- DE.
    pose proof (half_digit N (P (n - 1 - Z.to_nat ridx) * 10 ^ rpos)) as HD. rewrite <- HU10 in HD.
    destruct HD as (D1 & D2). { unfold N. pose proof (limbs_value_bound B _ HB Ox). lia. } { lia. }
    destruct (_ >=? 5) eqn:E1; destruct (2 * (N mod U) >=? U) eqn:E2; auto.
    - exfalso. specialize (D1 ltac:(lia)). lia.
    - exfalso. specialize (D2 ltac:(lia)). lia. }
  rewrite Hround.
  assert (Hpre : digits_ok B (firstn i (data x))) by (apply digits_ok_firstn; auto).
  assert (Lpre : length (firstn i (data x)) = i) by (rewrite firstn_length; lia).
  assert (HA : forall pre t, length pre = i -> V (pre ++ t :: lower) = (V pre * B + t) * W + keeps_last i (data x)).
  { intros pre t Hp. rewrite limbs_value_app. cbn [limbs_value length]. rewrite Lo1, Lo3, pow_succ_nat. fold W. ring. }
  destruct (2 * (N mod U) >=? U) eqn:Er.
  - rewrite (ucast_id _ (l1 + 10 ^ pos)) by lia. destruct (l1 + 10 ^ pos >=? B) eqn:Et.
    + assert (Et' : l1 + 10 ^ pos = B) by lia. rewrite Et', Z.sub_diag. rewrite ucast_id by (pose proof (Z.pow_pos_nonneg 2 (lbits L)); lia).
      destruct (round_carry_spec L (firstn i (data x)) 1 Hpre ltac:(lia)) as (C1 & C2 & C3 & C4).
      destruct (round_carry L (firstn i (data x)) 1) as [pre cy]. cbn [fst snd] in *. rewrite Lpre in C2, C4.
      destruct (cy =? 0) eqn:Ec.
      * eexists _, k, i, pos. cbv zeta. split; [reflexivity|]. cbn [dneg dprec data dexp].
        do 7 (split; [first [lia|auto]|]). split. { rewrite app_length. cbn. lia. }
        split. { apply digits_ok_app. split; auto. apply digits_ok_cons. split; [lia|auto]. }
        left. split; [auto|]. rewrite HA by auto. fold N W U. rewrite Er. rewrite MU. rewrite VS at 1. unfold U, l1 in *. assert (cy = 0) by lia. subst cy. nia.
      * assert (cy = 1) by lia. subst cy.
        assert (Hpre0 : V (firstn i (data x)) < P i) by (pose proof (limbs_value_bound B _ HB Hpre) as Hb; rewrite Lpre in Hb; lia).
        assert (Vp0 : V pre = 0) by (pose proof (limbs_value_bound B _ HB C1); lia).
        assert (HN' : N - N mod U + U = P n).
        { rewrite MU. rewrite VS at 1. unfold U. replace n with (i + S (n - 1 - i))%nat by lia. rewrite Nat2Z.inj_add, Z.pow_add_r, pow_succ_nat by lia.
          replace (i + S (n - 1 - i) - 1 - i)%nat with (n - 1 - i)%nat by lia. fold W. unfold l1 in *. nia. }
        set (d' := pre ++ 0 :: lower). 
        assert (Ld' : length d' = n) by (unfold d'; rewrite app_length; cbn; lia).
        assert (Od' : digits_ok B d') by (unfold d'; apply digits_ok_app; split; auto; apply digits_ok_cons; split; [lia|auto]).
        assert (Vf : V (firstn (n - 1) d') = 0).
        { replace (n - 1)%nat with (length d' - 1)%nat by lia. rewrite (limbs_value_firstn B d' 1 HB Od') by lia. unfold d'. rewrite HA by auto. rewrite Vp0.
          change (Z.of_nat 1) with 1. rewrite Z.pow_1_r.
          apply Z.div_small. cbn. unfold keeps_last. destruct (i + 2 =? n)%nat; [|lia]. pose proof (digits_ok_nth B (data x) (n - 1) HB Ox). lia. }
        eexists _, k, i, pos. cbv zeta. split; [reflexivity|]. cbn [dneg dprec data dexp].
        do 7 (split; [first [lia|auto]|]). split. { cbn. rewrite firstn_length. lia. }
        split. { apply digits_ok_cons. split; [lia|]. apply digits_ok_firstn; auto. }
        right. fold N W U. rewrite Er. split; [auto|]. split; [reflexivity|]. cbn [limbs_value]. rewrite Vf, firstn_length, Ld', Nat.min_l by lia. lia.
    + eexists _, k, i, pos. cbv zeta. split; [reflexivity|]. cbn [dneg dprec data dexp].
      do 7 (split; [first [lia|auto]|]). split. { rewrite app_length. cbn. lia. }
      split. { apply digits_ok_app. split; auto. apply digits_ok_cons. split; [lia|auto]. }
      left. split; [auto|]. rewrite HA by auto. fold N W U. rewrite Er. rewrite MU. rewrite VS at 1. unfold U, l1 in *. nia.
  - eexists _, k, i, pos. cbv zeta. split; [reflexivity|]. cbn [dneg dprec data dexp].
    do 7 (split; [first [lia|auto]|]). split. { rewrite app_length. cbn. lia. }
    split. { apply digits_ok_app. split; auto. apply digits_ok_cons. split; [lia|auto]. }
    left. split; [auto|]. rewrite HA by auto. fold N W U. rewrite Er. rewrite MU. rewrite VS at 1. unfold U, l1 in *. nia.
Qed.


Lemma half_up_intro N N' U F s : 0 < U -> 0 <= N -> (U | N') -> 0 <= N' -> 2 * N' - U <= 2 * N < 2 * N' + U ->
  rounds_half_up (inject_Z U * p10 F) (inject_Z (sgn s * N) * p10 F) (inject_Z (sgn s * N') * p10 F).
Proof.
  intros HU HN [k Hk] HN' Hb. pose proof (p10_pos F) as HF. split.
  - setoid_replace (inject_Z (sgn s * N) * p10 F * (inject_Z (sgn s * N') * p10 F))%Q
      with (inject_Z (sgn s * N * (sgn s * N')) * (p10 F * p10 F))%Q by (rewrite (inject_Z_mult (sgn s * N)); ring).
    apply Qmult_le_0_compat; [|apply Qmult_le_0_compat; lra]. change 0%Q with (inject_Z 0). rewrite <- Zle_Qle. destruct s; cbn [sgn]; nia.
  - exists k. rewrite !sc_abs, !sgn_abs by auto.
    assert (H1 : (inject_Z k * (inject_Z U * p10 F) == inject_Z N' * p10 F)%Q) by (rewrite Hk, inject_Z_mult; ring).
    split; [rewrite H1; reflexivity|]. rewrite H1.
    assert (A : forall a, (inject_Z (2 * a) == 2 * inject_Z a)%Q) by (intros; rewrite inject_Z_mult; reflexivity).
    split.
    + assert (H2 : (inject_Z (2 * N' - U) * p10 F <= inject_Z (2 * N) * p10 F)%Q) by (apply sc_le; lia).
      unfold Z.sub in H2. rewrite inject_Z_plus, inject_Z_opp, !A in H2. unfold Qdiv. change (/ 2)%Q with (1 # 2)%Q. lra.
    + assert (H2 : (inject_Z (2 * N) * p10 F < inject_Z (2 * N' + U) * p10 F)%Q) by (apply sc_lt; lia).
      rewrite inject_Z_plus, !A in H2. unfold Qdiv. change (/ 2)%Q with (1 # 2)%Q. lra.
Qed.

Notation guard_limb_kept := (guard_limb_kept c).
Lemma round_self_spec x : normal c x -> iszero x = false -> edc c <= max_digits10 c -> dexp x + edc c < 2 ^ (E - 1) ->
  exists z r kk, round_self c x = Some z /\ normal c z /\ iszero z = false /\ dneg z = dneg x /\ 
    leading_exponent (value c x) kk /\ rounds_half_up (p10 (kk - (c_digits10 c + 3))) (value c x) r /\
    (0 <= r * value c z)%Q /\ (Qabs r <= Qabs (value c z))%Q /\ (Qabs (value c z) < Qabs r + p10 (kk - (c_digits10 c + 3)))%Q /\
    (~ guard_limb_kept kk -> value c z == r)%Q /\
    ((exists m : Z, value c x == inject_Z m * p10 (kk - (c_digits10 c + 3)))%Q -> (value c z == value c x)%Q) /\ dexp x <= dexp z /\
    dexp x <= kk /\ kk < dexp x + edc c /\
    (exists m : Z, 0 < m /\ (r == inject_Z (sgn (dneg x) * m) * p10 (kk - (c_digits10 c + 3)))%Q) /\
    (dexp z = dexp x \/ (value c z == r /\ Qabs r == p10 (dexp z))%Q).
Proof.
  intros Hx Zx Hm Hhi. destruct (normal_facts c Hc x Hx) as (Lx & Ox & Px & _ & _ & _ & Vx & Top).
  destruct (round_self_int x Hx Zx Hm) as (z & k & i & pos & HI). cbv zeta in HI.
  destruct HI as (HS & Hk & Hd0 & Hi & Hpos & Hip & Hneg & Hpr & Lz & Oz & HC).
  pose proof (edc_pos c) as He. pose proof (nel_ge4 c Hc) as Hn. pose proof (E_ge8 c) as HE.
  assert (HEn : 0 <= edc c * (Z.of_nat n - 1)) by (apply Z.mul_nonneg_nonneg; lia).
  assert (HEi : 0 <= edc c * Z.of_nat (n - 1 - i)) by (apply Z.mul_nonneg_nonneg; lia).
  set (N := V (data x)) in *. set (U := P (n - 1 - i) * 10 ^ pos) in *.
  set (N' := N - N mod U + (if 2 * (N mod U) >=? U then U else 0)) in *.
  assert (HU10 : U = 10 ^ (edc c * Z.of_nat (n - 1 - i) + pos)).
  { unfold U. rewrite Bpow by lia. change (ed L) with (edc c). rewrite <- Z.pow_add_r; lia. }
  assert (HU : 0 < U) by (rewrite HU10; apply Z.pow_pos_nonneg; lia).
  pose proof (Z.mod_pos_bound N U HU) as HNm. pose proof (Z.div_mod N U ltac:(lia)) as DM.
  assert (HN : 0 < N) by (apply Vx; auto).
  assert (Hdiv : (U | N')).
  { unfold N'. destruct (2 * (N mod U) >=? U); [exists (N / U + 1)|exists (N / U)]; lia. }
  assert (Hb : 2 * N' - U <= 2 * N < 2 * N' + U).
  { unfold N'. destruct (2 * (N mod U) >=? U) eqn:Er; lia. }
  set (kk := dexp x + k - 1). assert (Hkk : kk = dexp x + k - 1) by reflexivity.
  assert (HPn : P (n - 1) = 10 ^ (edc c * (Z.of_nat n - 1))).
  { rewrite Bpow by lia. f_equal. unfold edc. lia. }
  assert (Hge : P (n - 1) <= N - N mod U).
  { apply Z.le_trans with (10 ^ (k - 1) * P (n - 1)).
    - pose proof (pow_pos_nat B (n - 1) HB) as G1. assert (G2 : 0 < 10 ^ (k - 1)) by (apply Z.pow_pos_nonneg; lia). clear - G1 G2. nia.
    - apply floor_unit; auto.
      + rewrite HU10, HPn, <- Z.pow_add_r by lia.
        exists (10 ^ (k - 1 + edc c * (Z.of_nat n - 1) - (edc c * Z.of_nat (n - 1 - i) + pos))).
        assert (HX : 0 <= k - 1 + edc c * (Z.of_nat n - 1) - (edc c * Z.of_nat (n - 1 - i) + pos)).
        { rewrite !Nat2Z.inj_sub by lia. unfold max_digits10 in *. destruct Hc as [Hdg _]. lia. }
        rewrite <- Z.pow_add_r by lia. f_equal. ring.
      + apply Z.le_trans with (nth 0 (data x) 0 * P (n - 1)); [|unfold N; lia].
        apply Z.mul_le_mono_nonneg_r; [pose proof (pow_pos_nat B (n - 1) HB); lia|lia]. }
  assert (Hlast : 0 <= keeps_last i (data x) < B).
  { unfold keeps_last. destruct (i + 2 =? n)%nat; [apply digits_ok_nth; auto|lia]. }
  assert (HVz : P (n - 1) <= V (data z)).
  { destruct HC as [(_ & ->)|(_ & _ & ->)]; [|lia]. unfold N'. destruct (2 * (N mod U) >=? U); lia. }
  assert (Hnz : nth 0 (data z) 0 <> 0).
  { intros H0. destruct (data z) as [|a t] eqn:Ez; [cbn in Lz; lia|]. cbn [nth] in H0. subst a. cbn [limbs_value] in HVz.
    apply digits_ok_cons in Oz. destruct Oz as [_ Ot]. pose proof (limbs_value_bound B t HB Ot) as Hbt.
    cbn in Lz. replace (length t) with (n - 1)%nat in * by lia. lia. }
  assert (Hxe : (edc c | dexp x)) by (destruct Hx as (_ & _ & _ & ? & _); auto).
  assert (Hxr : - 2 ^ (E - 1) <= dexp x < 2 ^ (E - 1)) by (destruct Hx as (_ & _ & _ & _ & ? & _); auto).
  assert (Hsc : scast E (dexp x + edc c) = dexp x + edc c) by (apply scast_id; lia).
  assert (Hez : (dexp z = dexp x \/ dexp z = dexp x + edc c)).
  { destruct HC as [(? & _)|(_ & ? & _)]; [left; auto|right; congruence]. }
  assert (Nz : normal c z).
  { split; [auto|]. split; [apply ok_mask; auto|]. split; [intros; contradiction|].
    split; [destruct Hez as [->| ->]; auto; apply Z.divide_add_r; auto; apply Z.divide_refl|].
    split; [destruct Hez; lia|auto]. }
  assert (Zz : iszero z = false) by (unfold iszero; lia).
  set (F := low c (dexp x)).
  assert (HF : F = dexp x - edc c * (Z.of_nat n - 1)) by reflexivity.
  assert (Hunit : (inject_Z U * p10 F == p10 (kk - (c_digits10 c + 3)))%Q).
  { rewrite HU10. rewrite <- p10_Z by lia. rewrite <- p10_add. unfold F, low, max_digits10 in *.
    replace (edc c * Z.of_nat (n - 1 - i) + pos + (dexp x - edc c * (Z.of_nat n - 1))) with (kk - (c_digits10 c + 3)); [reflexivity|].
    rewrite !Nat2Z.inj_sub by lia. clear - Hip Hkk. lia. }
  assert (HVx : (value c x == inject_Z (sgn (dneg x) * N) * p10 F)%Q) by (apply value_low; auto).
  set (r := (inject_Z (sgn (dneg x) * N') * p10 F)%Q).
  assert (HN'pos : P (n - 1) <= N') by (unfold N'; destruct (2 * (N mod U) >=? U); lia).
  assert (HPpos : 0 < P (n - 1)) by (apply pow_pos_nat; auto).
  clearbody kk N' U.
  (* value of z in units of F *)
  assert (HVz2 : exists e, (value c z == inject_Z (sgn (dneg x) * (N' + e)) * p10 F)%Q /\ 0 <= e < B /\
      (e = keeps_last i (data x) \/ e = 0) /\ (dexp z = dexp x \/ e = 0)).
  { destruct HC as [(Ee & EV)|(EN & Ee & EV)].
    - exists (keeps_last i (data x)). split; [|split; [auto|split; auto]]. rewrite value_low, Hneg, EV, Ee by auto. reflexivity.
    - exists 0. split; [|split; [lia|split; auto]]. rewrite (value_scaled c z F) by (auto; unfold F; rewrite Ee, Hsc; apply low_le; lia).
      rewrite Hneg, EV, Ee, Hsc, Z.add_0_r, EN. unfold F. rewrite low_sub. replace (dexp x + edc c - dexp x) with (edc c) by lia.
      replace (10 ^ edc c) with B by (unfold edc; rewrite mask_pow; auto). replace n with (S (n - 1)) at 2 by lia. rewrite pow_succ_nat.
      replace (sgn (dneg x) * P (n - 1) * B) with (sgn (dneg x) * (B * P (n - 1))) by ring. reflexivity. }
  destruct HVz2 as (e & HVz2 & He1 & He2 & He3).
  assert (He4 : e < U).
  { destruct He2 as [He2|He2]; [|rewrite He2; exact HU]. unfold keeps_last in He2. destruct (i + 2 =? n)%nat eqn:Ei; [|rewrite He2; exact HU].
    apply Nat.eqb_eq in Ei. apply Z.lt_le_trans with B; [apply He1|]. rewrite HU10. replace B with (10 ^ edc c) by (unfold edc; rewrite mask_pow; auto). apply Z.pow_le_mono_r; [lia|].
    replace (n - 1 - i)%nat with 1%nat by (clear - Ei; lia). clear - Hpos; lia. }
  assert (He5 : (U | N) -> e = 0).
  { intros HUN. destruct He2 as [He2|He2]; auto. unfold keeps_last in He2. destruct (i + 2 =? n)%nat eqn:Ei; auto.
    apply Nat.eqb_eq in Ei. assert (HBN : (B | N)).
    { apply Z.divide_trans with U; auto. rewrite HU10. replace B with (10 ^ edc c) by (unfold edc; rewrite mask_pow; auto).
      replace (n - 1 - i)%nat with 1%nat by (clear - Ei; lia).
      exists (10 ^ pos). rewrite <- Z.pow_add_r by (clear - Hpos He; lia). f_equal. clear; lia. }
    unfold N in HBN. clear - HBN He2 He1 Lx HB Hn Ox.
    destruct (exists_last (l := data x)) as (l & a & El); [intros El; rewrite El in Lx; cbn in Lx; lia|].
    rewrite El in HBN, He2, Lx. rewrite app_length in Lx. cbn [length] in Lx.
    rewrite limbs_value_app in HBN. cbn [limbs_value length] in HBN. change (Z.of_nat 0) with 0 in HBN. rewrite Z.pow_1_r, Z.pow_0_r, Z.mul_1_r, Z.add_0_r in HBN.
    rewrite app_nth2 in He2 by lia. replace (n - 1 - length l)%nat with 0%nat in He2 by lia. cbn [nth] in He2. subst e.
    destruct HBN as [q Hq]. assert (a = (q - V l) * B) by lia. assert (q - V l = 0) by nia. nia. }
  exists z, r, kk. split; [auto|]. split; [auto|]. split; [auto|]. split; [auto|]. split.
  { (* leading exponent *)
    unfold leading_exponent. rewrite HVx, sc_abs, sgn_abs by (clear - HN; lia).
    assert (Hub : N < 10 ^ k * P (n - 1)).
    { destruct (data x) as [|a t] eqn:Ex; [cbn in Lx; clear - Lx Hn; lia|]. cbn [nth] in Hd0. unfold N. cbn [limbs_value].
      apply digits_ok_cons in Ox. destruct Ox as [_ Ot]. pose proof (limbs_value_bound B t HB Ot) as Hbt.
      cbn in Lx. replace (length t) with (n - 1)%nat in * by (clear - Lx; lia). clear - Hd0 Hbt HPpos. nia. }
    assert (Hlb : 10 ^ (k - 1) * P (n - 1) <= N).
    { apply Z.le_trans with (nth 0 (data x) 0 * P (n - 1)); [|rewrite Z.mul_comm; exact Top]. apply Z.mul_le_mono_nonneg_r; [clear - HPpos; lia|tauto]. }
    rewrite HPn, <- Z.pow_add_r in Hub, Hlb by lia. split.
    - rewrite (p10_scale kk F) by (clear - Hk He HEn HF Hkk; lia). apply sc_le. replace (kk - F) with (k - 1 + edc c * (Z.of_nat n - 1)) by (clear - Hk He HEn HF Hkk; lia). auto.
    - rewrite (p10_scale (kk + 1) F) by (clear - Hk He HEn HF Hkk; lia). apply sc_lt. replace (kk + 1 - F) with (k + edc c * (Z.of_nat n - 1)) by (clear - Hk He HEn HF Hkk; lia). auto. }
  split.
  { assert (HN0 : 0 <= N) by (clear - HN; lia). assert (HN0' : 0 <= N') by (clear - HN'pos HPpos; lia).
    assert (HR := half_up_intro N N' U F (dneg x) HU HN0 Hdiv HN0' Hb).
    destruct HR as (R1 & kq & R2 & R3 & R4). split; [rewrite HVx; exact R1|]. exists kq. rewrite <- Hunit. rewrite HVx. auto. }
  split.
  { rewrite HVz2. unfold r.
    setoid_replace (inject_Z (sgn (dneg x) * N') * p10 F * (inject_Z (sgn (dneg x) * (N' + e)) * p10 F))%Q
      with (inject_Z (sgn (dneg x) * N' * (sgn (dneg x) * (N' + e))) * (p10 F * p10 F))%Q by (rewrite (inject_Z_mult (sgn (dneg x) * N')); ring).
    pose proof (p10_pos F). apply Qmult_le_0_compat; [|apply Qmult_le_0_compat; lra]. change 0%Q with (inject_Z 0). rewrite <- Zle_Qle.
    clear - HN'pos HPpos He1. destruct (dneg x); cbn [sgn]; nia. }
  split. { rewrite HVz2. unfold r. rewrite !sc_abs, !sgn_abs by (clear - HN'pos HPpos He1; lia). apply sc_le. clear - He1; lia. }
  split.
  { rewrite HVz2. unfold r. rewrite !sc_abs, !sgn_abs by (clear - HN'pos HPpos He1; lia). rewrite <- Hunit.
    rewrite sc_add. apply sc_lt. clear - He4; lia. }
  split.
  { intros NG. rewrite HVz2. unfold r. assert (e = 0); [|subst e; rewrite Z.add_0_r; reflexivity].
    destruct He2 as [He2|?]; auto. unfold keeps_last in He2. destruct (i + 2 =? n)%nat eqn:Ei; auto. exfalso. apply NG.
    unfold guard_limb_kept. rewrite <- (nel_Z c Hc). destruct Hxe as [q Hq]. rewrite Hkk, Hq.
    replace (q * edc c + k - 1) with ((k - 1) + q * edc c) by ring. rewrite Z.mod_add by lia. rewrite Z.mod_small by lia.
    unfold max_digits10 in Hip. 
    assert (HQ : (c_digits10 c + 3 - (k - 1) + (edc c - 1)) / edc c = Z.of_nat i).
    { symmetry. apply Z.div_unique with (edc c - 1 - pos); [left; lia|]. lia. }
    rewrite HQ. lia. }
  split.
  { intros [m Hm']. assert (HUN : (U | N)).
    { rewrite HVx, <- Hunit in Hm'. assert (HX : (inject_Z (sgn (dneg x) * N) * p10 F == inject_Z (m * U) * p10 F)%Q) by (rewrite Hm', inject_Z_mult; ring).
      apply sc_eq in HX. exists (sgn (dneg x) * m). rewrite <- Z.mul_assoc, <- HX. clear. destruct (dneg x); cbn [sgn]; ring. }
    rewrite HVz2, HVx. rewrite (He5 HUN). assert (HNN : N' = N); [|rewrite HNN, Z.add_0_r; reflexivity].
    clear - HUN Hdiv Hb HU. destruct HUN as [a Ha]. destruct Hdiv as [b Hb']. assert (a = b) by nia. lia. }
  split; [clear - Hez He; destruct Hez; lia|]. split; [clear - Hk Hkk; lia|]. split; [clear - Hk Hkk; lia|].
  split.
  { destruct Hdiv as [m Hm']. exists m. assert (0 < m) by (clear - Hm' HU HN'pos HPpos; nia). split; [auto|]. rewrite <- Hunit. unfold r. rewrite Hm', !inject_Z_mult. ring. }
  destruct HC as [(Ee & _)|(EN & Ee & EV)]; [left; auto|right].
  assert (e = 0) by (destruct He3; [lia|auto]). subst e. rewrite Z.add_0_r in HVz2. split; [exact HVz2|].
  unfold r. rewrite sc_abs, sgn_abs by lia. rewrite EN, Ee, Hsc. rewrite Bpow by lia. change (ed L) with (edc c).
  rewrite <- p10_Z by lia. rewrite <- p10_add. replace (edc c * Z.of_nat n + F) with (dexp x + edc c) by lia. reflexivity.
Qed.

End R.
