(** ToInt_proofs.v - conversion to 64-bit built-in integers. *)
From Verif Require Export Floor_proofs.
From Coq Require Import Lqa ZifyBool.
Local Open Scope Z_scope.

Section R.
Variable c : cfg.
Hypothesis Hc : cfg_ok c.
Notation L := (c_limb c).
Notation B := (mask L).
Notation E := (ebits (c_expo c)).
Notation n := (nel c).
Notation V := (limbs_value B).
Notation P k := (B ^ Z.of_nat k).
Let HB : 0 < B := mask_pos L.

Lemma ull_acc_spec l : forall val, ull_acc c l val mod 2 ^ 64 = (val * P (length l) + V l) mod 2 ^ 64 /\
  (0 <= val < 2 ^ 64 -> 0 <= ull_acc c l val < 2 ^ 64).
Proof.
  induction l as [|x l IH]; intros val; cbn [ull_acc limbs_value length].
  - rewrite Z.pow_0_r, Z.add_0_r, Z.mul_1_r. auto.
  - destruct (IH (ucast 64 (ucast 64 (val * B) + x))) as [I1 I2].
    assert (HU : 0 <= ucast 64 (ucast 64 (val * B) + x) < 2 ^ 64) by (unfold ucast; apply Z.mod_pos_bound; reflexivity).
    split; [|intros _; auto]. rewrite I1. rewrite pow_succ_nat.
    assert (MM : forall a p v M, M <> 0 -> (a mod M * p + v) mod M = (a * p + v) mod M).
    { intros a p v M HM. rewrite <- (Z.add_mod_idemp_l (a mod M * p)), Z.mul_mod_idemp_l, Z.add_mod_idemp_l by auto. auto. }
    unfold ucast. rewrite MM, Z.mul_add_distr_r, <- Z.add_assoc, MM by discriminate. f_equal. ring.
Qed.

Lemma ull_acc_zero l : (forall x, In x l -> x = 0) -> ull_acc c l 0 = 0.
Proof.
  induction l as [|x l IH]; intros H; cbn [ull_acc]; [auto|]. rewrite (H x) by (left; auto). rewrite Z.mul_0_l.
  change (ucast 64 (ucast 64 0 + 0)) with 0. apply IH. intros; apply H; right; auto.
Qed.

Lemma abs_trunc x : normal c x -> low c (dexp x) <= 0 -> Z.abs (truncZ (value c x)) = V (data x) / 10 ^ (- low c (dexp x)).
Proof.
  intros Hx Hl. destruct (normal_facts c Hc x Hx) as (Lx & Ox & _). rewrite trunc_low by auto.
  pose proof (limbs_value_bound B (data x) HB Ox) as Hb. assert (HP : 0 < 10 ^ (- low c (dexp x))) by (apply Z.pow_pos_nonneg; lia).
  pose proof (Z.div_pos (V (data x)) (10 ^ (- low c (dexp x))) ltac:(lia) HP). destruct (dneg x); cbn [sgn]; lia.
Qed.

Lemma ull_of_limbs_spec x : normal c x -> 0 <= dexp x <= edc c * (Z.of_nat n - 1) -> dexp x < 2 ^ 31 ->
  ull_of_limbs c x = Some (Z.abs (truncZ (value c x)) mod 2 ^ 64).
Proof.
  intros Hx Hd Hd31. destruct (normal_facts c Hc x Hx) as (Lx & Ox & _). pose proof (edc_pos c) as He. pose proof (nel_ge4 c Hc) as Hn.
  assert (Hlow : low c (dexp x) <= 0) by (unfold low; lia).
  rewrite abs_trunc by auto. unfold ull_of_limbs. rewrite scast_id by (change (2 ^ (32 - 1)) with (2 ^ 31); lia).
  change (ed L) with (edc c).
  assert (HD : (edc c | dexp x)) by (destruct Hx as (_ & _ & _ & ? & _); auto).
  destruct HD as [q Hq]. assert (Hqr : 0 <= q <= Z.of_nat n - 1) by nia.
  assert (Eq : Z.quot (dexp x) (edc c) = q) by (rewrite Hq; apply Z.quot_mul; lia).
  rewrite Eq. rewrite <- (nel_Z c Hc). rewrite Z.min_l by lia. replace (q <? 0) with false by lia. f_equal.
  assert (HP : P (n - (Z.to_nat q + 1)) = 10 ^ (- low c (dexp x))).
  { rewrite <- (pos_P c x Hx) by (rewrite ?Eq; lia). rewrite Eq. reflexivity. }
  rewrite <- HP, <- Lx, <- firstn_value by (auto; lia). clear HP.
  destruct (data x) as [|a t] eqn:Ex; [cbn in Lx; lia|]. cbn [nth skipn].
  replace (Z.to_nat q + 1)%nat with (S (Z.to_nat q)) by lia. cbn [firstn limbs_value].
  apply digits_ok_cons in Ox. destruct Ox as [Oa Ot]. cbn [length] in Lx.
  destruct (ull_acc_spec (firstn (Z.to_nat q) t) a) as [A1 A2].
  pose proof (mask_fits L) as HF. assert (HL : 2 ^ lbits L <= 2 ^ 64) by (apply Z.pow_le_mono_r; [lia|destruct L; cbn; lia]).
  rewrite <- A1. symmetry. apply Z.mod_small. apply A2. lia.
Qed.

Lemma data_fabs x : data (fabs x) = data x /\ dexp (fabs x) = dexp x.
Proof. unfold fabs, negate. destruct (dneg x), (iszero x); auto. Qed.
Lemma ull_fabs x : ull_of_limbs c (fabs x) = ull_of_limbs c x.
Proof. unfold ull_of_limbs. destruct (data_fabs x) as [-> ->]. auto. Qed.

Lemma truncZ_Z k : truncZ (inject_Z k) = k.
Proof. unfold truncZ. rewrite Qfloor_Z, Qceiling_Z. destruct (Qle_bool 0 (inject_Z k)); auto. Qed.

Lemma trunc_small q : (Qabs q < 1)%Q -> truncZ q = 0.
Proof.
  intros H. apply Qabs_Qlt_condition in H. destruct (Qlt_le_dec q 0).
  - rewrite truncZ_neg by lra. unfold Qceiling. rewrite (Qfloor_unique _ 0); [auto|change (inject_Z 0) with 0%Q; lra|change (inject_Z (0 + 1)) with 1%Q; lra].
  - rewrite truncZ_pos by lra. apply Qfloor_unique; [change (inject_Z 0) with 0%Q; lra|change (inject_Z (0 + 1)) with 1%Q; lra].
Qed.

Lemma below_one x : normal c x -> iszero x = false -> dexp x < 0 -> (Qabs (value c x) < 1)%Q.
Proof.
  intros Hx Zx Hd. destruct (value_bracket c Hc x Hx Zx) as [_ H]. pose proof (edc_pos c) as He.
  assert (HD : (edc c | dexp x)) by (destruct Hx as (_ & _ & _ & ? & _); auto). destruct HD as [q Hq].
  assert (Hle : dexp x + edc c <= 0) by (clear - Hq He Hd; assert (q < 0) by nia; nia).
  pose proof (p10_le _ _ Hle) as H0. rewrite p10_0 in H0. lra.
Qed.

(** The integer part of a rounded value, as accumulated by the conversion. *)
Lemma eip_ull z : normal c z -> iszero z = false -> 0 <= dexp z <= edc c * (Z.of_nat n - 1) -> dexp z < 2 ^ 31 ->
  ull_of_limbs c (extract_integer_part c z) = Some (Z.abs (truncZ (value c z)) mod 2 ^ 64).
Proof.
  intros Hz Zz Hd H31. pose proof (dg_range c Hc) as Hr. pose proof (E_ge8 c) as HE.
  destruct (Z.lt_ge_cases (dexp z) (c_digits10 c - 1)) as [Hlt|Hge].
  - destruct (eip_spec c Hc z Hz Zz Hlt) as (I1 & I2 & I3). destruct (I3 ltac:(lia)) as [I4 I5].
    rewrite ull_of_limbs_spec by (auto; rewrite I5; auto). rewrite (truncZ_comp _ _ I2), truncZ_Z. reflexivity.
  - assert (HE1 : extract_integer_part c z = z).
    { unfold extract_integer_part. rewrite scast_id by lia. replace (dexp z <? 0) with false by lia. replace (dexp z >=? c_digits10 c - 1) with true by lia. reflexivity. }
    rewrite HE1. apply ull_of_limbs_spec; auto.
Qed.

Lemma nearly_refl x : normal c x -> iszero x = false -> dexp x + edc c <= 2 ^ (E - 1) -> nearly c (value c x) (value c x).
Proof.
  intros Hx Zx Hh. destruct (ilogb_spec c Hc x Hx Zx Hh) as [H1 H2]. exists (ilogb c x). split; [split; auto|]. split; [|reflexivity].
  setoid_replace (value c x - value c x)%Q with 0%Q by ring. change (Qabs 0) with 0%Q. pose proof (p10_pos (ilogb c x - (c_digits10 c + 3))). lra.
Qed.

Hypothesis Hdg : 16 <= c_digits10 c.

Lemma big_enough : 10 ^ 20 <= 10 ^ (edc c * elem_number c) /\ 20 <= edc c * (Z.of_nat n - 1).
Proof.
  pose proof (dg_small c Hc) as H. pose proof (edc_pos c) as He. rewrite <- (nel_Z c Hc). split; [|lia].
  apply Z.pow_le_mono_r; [lia|]. nia.
Qed.
Lemma sll_limits : normal c (sll_max c) /\ (value c (sll_max c) == inject_Z (2 ^ 63 - 1))%Q /\
  normal c (sll_min c) /\ (value c (sll_min c) == inject_Z (- 2 ^ 63))%Q /\
  normal c (ull_max c) /\ (value c (ull_max c) == inject_Z (2 ^ 64 - 1))%Q.
Proof.
  destruct big_enough as [H _]. assert (H20 : 2 ^ 64 < 10 ^ 20) by reflexivity.
  destruct (from_sll_exact c Hc (2 ^ 63 - 1)) as [A1 A2]; [split; [discriminate|reflexivity]|assert (Z.abs (2 ^ 63 - 1) < 2 ^ 64) by reflexivity; lia|].
  destruct (from_sll_exact c Hc (- 2 ^ 63)) as [B1 B2]; [split; [discriminate|reflexivity]|assert (Z.abs (- 2 ^ 63) < 2 ^ 64) by reflexivity; lia|].
  split; [auto|]. split; [auto|]. split; [auto|]. split; [auto|]. unfold ull_max.
  split; [apply from_ull_normal; auto; split; [discriminate|reflexivity]|]. apply from_ull_exact; auto; [split; [discriminate|reflexivity]|]. lia.
Qed.

Lemma inj_lt a b : a < b -> (inject_Z a < inject_Z b)%Q. Proof. rewrite <- Zlt_Qlt. auto. Qed.
Lemma inj_le a b : a <= b -> (inject_Z a <= inject_Z b)%Q. Proof. rewrite <- Zle_Qle. auto. Qed.

Lemma exp_of_bound x k : normal c x -> iszero x = false -> 0 <= k -> (Qabs (value c x) < inject_Z (10 ^ k))%Q -> dexp x < k.
Proof. intros Hx Zx Hk H. apply (exp_below c Hc); auto. rewrite p10_Z by auto. auto. Qed.

(** Rounding a value below 10^20: the unit is at most 0.1 wherever the integer part has at most 19
    digits, at most one for 20 digits. *)
Lemma near_unit x kk j : leading_exponent (value c x) kk -> (Qabs (value c x) < inject_Z (10 ^ j))%Q -> 0 <= j ->
  (p10 (kk - (c_digits10 c + 3)) <= p10 (j - 1 - 19))%Q /\ kk <= j - 1.
Proof.
  intros [H1 _] H2 Hj. rewrite <- p10_Z in H2 by auto. assert (kk < j) by (apply p10_lt_inv; lra). split; [apply p10_le; lia|lia].
Qed.

Lemma to_sll_spec x : normal c x -> iszero x = false ->
  ((inject_Z (2 ^ 63 - 1) < value c x)%Q -> to_sll c x = Some (2 ^ 63 - 1)) /\
  ((value c x < inject_Z (- 2 ^ 63))%Q -> to_sll c x = Some (- 2 ^ 63)) /\
  ((inject_Z (- 2 ^ 63) <= value c x)%Q -> (value c x <= inject_Z (2 ^ 63 - 1))%Q ->
     exists r, nearly c (value c x) r /\ to_sll c x = Some (truncZ r) /\ - 2 ^ 63 <= truncZ r <= 2 ^ 63 - 1).
Proof.
  intros Hx Zx. destruct sll_limits as (M1 & M2 & m1 & m2 & _).
  destruct (ops_spec c Hc x (sll_max c) Hx M1) as (_ & _ & _ & _ & _ & G). rewrite M2 in G.
  destruct (ops_spec c Hc x (sll_min c) Hx m1) as (Lt & _). rewrite m2 in Lt.
  pose proof (value_sign c Hc x Hx Zx) as Sx. pose proof (below_one x Hx Zx) as BO.
  assert (K1 : (1 < inject_Z (2 ^ 63 - 1))%Q) by reflexivity. assert (K2 : (inject_Z (- 2 ^ 63) < -1)%Q) by reflexivity.
  assert (Kd : forall q, (Qabs q < 1)%Q -> (-1 < q < 1)%Q) by (intros q Hq; apply Qabs_Qlt_condition in Hq; exact Hq).
  unfold to_sll. split; [|split].
  - intros H. destruct (dexp x >=? 0) eqn:Ed; [|specialize (BO ltac:(lia)); apply Kd in BO; lra].
    destruct (dneg x); [lra|]. cbn [negb andb]. apply G in H. rewrite H. reflexivity.
  - intros H. destruct (dexp x >=? 0) eqn:Ed; [|specialize (BO ltac:(lia)); apply Kd in BO; lra].
    destruct (dneg x); [|lra]. cbn [negb andb]. apply Lt in H. rewrite H. reflexivity.
  - intros Hlo Hhi. pose proof (edc_pos c) as He. pose proof (E_ge8 c) as HE. destruct big_enough as [_ B20].
    assert (HA : (Qabs (value c x) < inject_Z (10 ^ 19))%Q).
    { apply Qabs_Qlt_condition. pose proof (inj_lt (2 ^ 63 - 1) (10 ^ 19) eq_refl). pose proof (inj_lt (- 10 ^ 19) (- 2 ^ 63) eq_refl) as HH.
      rewrite inject_Z_opp in HH. split; lra. }
    assert (Hd : dexp x < 19) by (apply exp_of_bound; auto; lia).
    assert (HN : edc c * Z.of_nat n < 2 ^ (E - 1)) by (destruct Hc as [_ Hc2]; rewrite <- (nel_Z c Hc) in Hc2; lia).
    assert (Hh : dexp x + edc c < 2 ^ (E - 1)) by lia.
    destruct (dexp x >=? 0) eqn:Ed.
    2:{ exists (value c x). split; [apply nearly_refl; auto; lia|]. rewrite trunc_small by (apply BO; lia). split; [auto|]. split; [discriminate|discriminate]. }
    replace (negb (dneg x) && op_gt x (sll_max c)) with false.
    2:{ destruct (op_gt x (sll_max c)) eqn:Eg; [|rewrite andb_false_r; auto]. destruct G as [G _]. specialize (G eq_refl). lra. }
    replace (dneg x && op_lt x (sll_min c)) with false.
    2:{ destruct (op_lt x (sll_min c)) eqn:Eg; [|rewrite andb_false_r; auto]. destruct Lt as [Lt _]. specialize (Lt eq_refl). lra. }
    destruct (round_near c Hc x Hx Zx) as (z & kk & H1 & H2 & H3 & H4 & H5 & H6 & H7 & H8 & H9); [unfold max_digits10; lia|auto|].
    rewrite H1. exists (value c z). split; [exists kk; auto|].
    destruct (near_unit x kk 19 H5 HA ltac:(lia)) as [U1 _]. change (p10 (19 - 1 - 19)) with (1 # 10)%Q in U1.
    apply Qabs_Qlt_condition in H6. destruct H6 as [N1 N2].
    assert (Z1 : (value c z < inject_Z (2 ^ 63 - 1) + 1)%Q) by lra. assert (Z2 : (inject_Z (- 2 ^ 63) - 1 < value c z)%Q) by lra.
    assert (HAz : (Qabs (value c z) < inject_Z (10 ^ 19))%Q).
    { apply Qabs_Qlt_condition. assert (A1 : (inject_Z (2 ^ 63 - 1) + 1 < inject_Z (10 ^ 19))%Q) by reflexivity.
      assert (A2 : (- inject_Z (10 ^ 19) < inject_Z (- 2 ^ 63) - 1)%Q) by reflexivity. split; lra. }
    assert (Hdz : dexp z < 19) by (apply exp_of_bound; auto; lia).
    pose proof (value_sign c Hc z H2 H3) as Sz. rewrite H4 in Sz.
    rewrite ull_fabs, eip_ull by (auto; try lia; change (2 ^ 31) with 2147483648; lia).
    rewrite inject_Z_opp in Z2.
    change (2 ^ 63) with 9223372036854775808 in *. change (2 ^ 64) with 18446744073709551616 in *.
    destruct (dneg x); cbn [negb].
    + assert (HT : - 9223372036854775808 <= truncZ (value c z) <= 0).
      { rewrite truncZ_neg by lra. unfold Qceiling. pose proof (Qfloor_le (- value c z)) as F1. pose proof (Qlt_floor (- value c z)) as F2.
        assert (A1 : (inject_Z (Qfloor (- value c z)) < inject_Z (9223372036854775808 + 1))%Q) by (rewrite inject_Z_plus; change (inject_Z 1) with 1%Q; lra).
        assert (A2 : (inject_Z 0 < inject_Z (Qfloor (- value c z) + 1))%Q) by (change (inject_Z 0) with 0%Q; lra).
        rewrite <- Zlt_Qlt in A1, A2. lia. }
      split; [|lia]. f_equal. rewrite Z.mod_small by lia. unfold negate_u, scast, ucast. change (2 ^ 64) with 18446744073709551616. change (2 ^ (64 - 1)) with 9223372036854775808.
      rewrite Z.add_mod_idemp_l by lia. rewrite Z.mod_small by lia. lia.
    + assert (HT : 0 <= truncZ (value c z) <= 9223372036854775807).
      { rewrite truncZ_pos by lra. pose proof (Qfloor_le (value c z)) as F1. pose proof (Qlt_floor (value c z)) as F2.
        assert (A1 : (inject_Z (Qfloor (value c z)) < inject_Z (9223372036854775808 - 1 + 1))%Q) by (rewrite inject_Z_plus; change (inject_Z 1) with 1%Q; lra).
        assert (A2 : (inject_Z 0 < inject_Z (Qfloor (value c z) + 1))%Q) by (change (inject_Z 0) with 0%Q; lra).
        rewrite <- Zlt_Qlt in A1, A2. lia. }
      split; [|lia]. f_equal. rewrite Z.mod_small by lia. unfold scast. change (2 ^ 64) with 18446744073709551616. change (2 ^ (64 - 1)) with 9223372036854775808.
      rewrite Z.mod_small by lia. lia.
Qed.

Lemma eip_normal z : normal c z -> iszero z = false -> 0 <= dexp z ->
  normal c (extract_integer_part c z) /\
  (extract_integer_part c z = z \/ value c (extract_integer_part c z) == inject_Z (truncZ (value c z)))%Q.
Proof.
  intros Hz Zz Hd. pose proof (dg_range c Hc) as Hr. pose proof (E_ge8 c) as HE.
  destruct (Z.lt_ge_cases (dexp z) (c_digits10 c - 1)) as [Hlt|Hge].
  - destruct (eip_spec c Hc z Hz Zz Hlt) as (I1 & I2 & I3). auto.
  - assert (HE1 : extract_integer_part c z = z).
    { unfold extract_integer_part. rewrite scast_id by lia. replace (dexp z <? 0) with false by lia. replace (dexp z >=? c_digits10 c - 1) with true by lia. reflexivity. }
    rewrite HE1. auto.
Qed.

Lemma to_ull_spec x : normal c x -> iszero x = false -> dneg x = false -> dexp x + edc c < 2 ^ (E - 1) ->
  exists r, nearly c (value c x) r /\ to_ull c x = Some (clamp 0 (2 ^ 64 - 1) (truncZ r)).
Proof.
  intros Hx Zx Dx Hh. destruct sll_limits as (_ & _ & _ & _ & M1 & M2). pose proof (edc_pos c) as He. pose proof (E_ge8 c) as HE. destruct big_enough as [_ B20].
  unfold to_ull, clamp. rewrite Dx. destruct (dexp x >=? 0) eqn:Ed.
  2:{ exists (value c x). split; [apply nearly_refl; auto; lia|]. rewrite trunc_small by (apply below_one; auto; lia). reflexivity. }
  destruct (round_near c Hc x Hx Zx) as (z & kk & H1 & H2 & H3 & H4 & H5 & H6 & H7 & H8 & H9); [unfold max_digits10; lia|auto|].
  rewrite H1. exists (value c z). split; [exists kk; auto|]. 
  destruct (eip_normal z H2 H3 ltac:(lia)) as [I1 I2].
  destruct (ops_spec c Hc _ (ull_max c) I1 M1) as (_ & _ & _ & _ & _ & G). rewrite M2 in G.
  pose proof (value_sign c Hc z H2 H3) as Sz. rewrite H4, Dx in Sz.
  assert (T0 : (inject_Z (truncZ (value c z)) <= value c z)%Q /\ (value c z < inject_Z (truncZ (value c z)) + 1)%Q).
  { rewrite truncZ_pos by lra. split; [apply Qfloor_le|]. pose proof (Qlt_floor (value c z)) as F. rewrite inject_Z_plus in F. exact F. }
  assert (Tp : 0 <= truncZ (value c z)).
  { rewrite truncZ_pos in * by lra. assert (A : (inject_Z 0 < inject_Z (Qfloor (value c z) + 1))%Q) by (rewrite inject_Z_plus; change (inject_Z 0) with 0%Q; change (inject_Z 1) with 1%Q; lra).
    rewrite <- Zlt_Qlt in A. lia. }
  set (t := truncZ (value c z)) in *.
  destruct (op_gt (extract_integer_part c z) (ull_max c)) eqn:Eg.
  - f_equal. destruct G as [G _]. specialize (G eq_refl).
    assert (A : (inject_Z (2 ^ 64 - 1) < inject_Z (t + 1))%Q) by (rewrite inject_Z_plus; change (inject_Z 1) with 1%Q; destruct I2 as [I2|I2]; rewrite I2 in G; lra).
    rewrite <- Zlt_Qlt in A. change (2 ^ 64) with 18446744073709551616 in *. lia.
  - assert (G' : (value c (extract_integer_part c z) <= inject_Z (2 ^ 64 - 1))%Q).
    { destruct (Qlt_le_dec (inject_Z (2 ^ 64 - 1)) (value c (extract_integer_part c z))) as [Q1|Q1]; auto. apply G in Q1. discriminate. }
    assert (Ht : t <= 2 ^ 64 - 1).
    { assert (A : (inject_Z t <= inject_Z (2 ^ 64 - 1))%Q) by (destruct I2 as [I2|I2]; rewrite I2 in G'; lra). rewrite <- Zle_Qle in A. exact A. }
    assert (HAz : (Qabs (value c z) < inject_Z (10 ^ 20))%Q).
    { rewrite Qabs_pos by lra. assert (A1 : (inject_Z (2 ^ 64 - 1) + 1 < inject_Z (10 ^ 20))%Q) by reflexivity. apply inj_le in Ht. lra. }
    assert (Hdz : dexp z < 20) by (apply exp_of_bound; auto; lia).
    rewrite eip_ull by (auto; try lia; change (2 ^ 31) with 2147483648; lia). fold t. change (2 ^ 64) with 18446744073709551616 in *.
    f_equal. rewrite Z.mod_small by lia. lia.
Qed.

Lemma to_ull_neg x : dneg x = true -> to_ull c x = match to_sll c x with Some v => Some (v mod 2 ^ 64) | None => None end.
Proof. intros H. unfold to_ull. rewrite H. destruct (to_sll c x); reflexivity. Qed.

Lemma In_firstn (d : Z) k l : In d (firstn k l) -> In d l.
Proof. intros H. rewrite <- (firstn_skipn k l). apply in_or_app; auto. Qed.

Lemma ull_zero x : normal c x -> iszero x = true -> 0 <= dexp x < 2 ^ 31 -> ull_of_limbs c (extract_integer_part c x) = Some 0.
Proof.
  intros Hx Zx Hd0. destruct (normal_facts c Hc x Hx) as (Lx & _ & _ & _ & _ & Hz & _). destruct (Hz Zx) as [D0 _].
  assert (HZ : forall d, In d (data (extract_integer_part c x)) -> d = 0).
  { unfold extract_integer_part. destruct (dexp x <? 0); [cbn [zero data]; intros d Hd; apply repeat_spec in Hd; auto|].
    destruct (dexp x >=? _); [rewrite D0; intros d Hd; apply repeat_spec in Hd; auto|]. cbn [data]. intros d Hd. apply in_app_or in Hd.
    destruct Hd as [Hd|Hd]; [|apply repeat_spec in Hd; auto]. rewrite D0 in Hd.
    apply In_firstn in Hd. apply repeat_spec in Hd. auto. }
  assert (HE1 : dexp (extract_integer_part c x) = dexp x).
  { unfold extract_integer_part. replace (dexp x <? 0) with false by lia. destruct (dexp x >=? _); reflexivity. }
  unfold ull_of_limbs. rewrite HE1. rewrite scast_id by (change (2 ^ (32 - 1)) with (2 ^ 31); lia).
  assert (Hi : 0 <= Z.min (Z.quot (dexp x) (ed L)) (elem_number c - 1)).
  { pose proof (nel_ge4 c Hc). rewrite <- (nel_Z c Hc). pose proof (edc_pos c) as He. unfold edc in He. pose proof (Z.quot_pos (dexp x) (ed L)). lia. }
  replace (Z.min (Z.quot (dexp x) (ed L)) (elem_number c - 1) <? 0) with false by lia. f_equal.
  set (k := Z.to_nat _). clearbody k. destruct (data (extract_integer_part c x)) as [|a t]; [cbn; destruct k; reflexivity|].
  cbn [nth skipn]. rewrite (HZ a) by (left; auto). apply ull_acc_zero. intros d Hd.
  apply HZ. right. apply In_firstn in Hd; auto.
Qed.

Lemma to_int_zero x : normal c x -> iszero x = true -> dexp x < 2 ^ 31 -> to_sll c x = Some 0 /\ (dneg x = false -> to_ull c x = Some 0).
Proof.
  intros Hx Zx Hd31. destruct sll_limits as (M1 & M2 & m1 & m2 & U1 & U2). pose proof (value_zero c Hc x Hx Zx) as V0.
  assert (HR : round_self c x = Some x) by (unfold round_self; rewrite Zx; auto).
  destruct (ops_spec c Hc x (sll_max c) Hx M1) as (_ & _ & _ & _ & _ & G). rewrite M2, V0 in G.
  destruct (ops_spec c Hc x (sll_min c) Hx m1) as (Lt & _). rewrite m2, V0 in Lt.
  assert (G0 : op_gt x (sll_max c) = false) by (destruct (op_gt x (sll_max c)); auto; destruct G as [G _]; specialize (G eq_refl); discriminate).
  assert (L0 : op_lt x (sll_min c) = false) by (destruct (op_lt x (sll_min c)); auto; destruct Lt as [Lt _]; specialize (Lt eq_refl); discriminate).
  split.
  - unfold to_sll. rewrite G0, L0, HR, !andb_false_r, ull_fabs. destruct (dexp x >=? 0) eqn:Ed; auto. rewrite (ull_zero x Hx Zx) by lia. destruct (dneg x); reflexivity.
  - intros D. unfold to_ull. rewrite D, HR. destruct (dexp x >=? 0) eqn:Ed; auto. rewrite (ull_zero x Hx Zx) by lia.
    assert (OG : op_gt (extract_integer_part c x) (ull_max c) = false); [|rewrite OG; auto].
    assert (NV : normal c (extract_integer_part c x) /\ iszero (extract_integer_part c x) = true).
    { destruct (normal_facts c Hc x Hx) as (Lx & _ & _ & _ & _ & Hz & _). destruct (Hz Zx) as [D0 _]. pose proof (nel_ge4 c Hc) as Hn.
      unfold extract_integer_part. destruct (dexp x <? 0); [split; [apply zero_normal; auto|apply zero_iszero; auto]|].
      destruct (dexp x >=? scast E (c_digits10 c - 1)) eqn:Eg; [auto|]. assert (HD : forall k, (k + 1 <= n)%nat -> firstn (k + 1) (data x) ++ repeat 0 (n - (k + 1)) = data x).
      { intros k Hk. rewrite D0. replace n with ((k + 1) + (n - (k + 1)))%nat at 1 by lia. rewrite repeat_app, firstn_app, repeat_length, Nat.sub_diag.
        rewrite firstn_all2 by (rewrite repeat_length; lia). cbn [firstn]. rewrite app_nil_r, <- repeat_app. f_equal. lia. }
      rewrite HD; [split; [destruct x; exact Hx|exact Zx]|]. pose proof (dg_small c Hc) as Hs. pose proof (dg_range c Hc) as Hr. pose proof (E_ge8 c) as HE. pose proof (edc_pos c) as He.
      rewrite scast_id in Eg by lia. change (ed L) with (edc c). pose proof (Z.quot_le_mono (dexp x) (edc c * (Z.of_nat n - 1)) (edc c) ltac:(lia) ltac:(lia)) as Q.
      rewrite (Z.mul_comm (edc c)), Z.quot_mul in Q by lia. lia. }
    destruct NV as [NV ZV]. destruct (ops_spec c Hc _ (ull_max c) NV U1) as (_ & _ & _ & _ & _ & GG). rewrite U2, (value_zero c Hc _ NV ZV) in GG.
    destruct (op_gt (extract_integer_part c x) (ull_max c)); auto. destruct GG as [GG _]. specialize (GG eq_refl). discriminate.
Qed.

Lemma nearly_int x r m : nearly c (value c x) r -> (value c x == inject_Z m)%Q -> Z.abs m < 10 ^ 20 -> (r == inject_Z m)%Q.
Proof.
  intros (kk & H1 & _ & H3) Hm Hb. rewrite H3; auto. exists (m * 10 ^ (c_digits10 c + 3 - kk)).
  destruct (near_unit x kk 20 H1) as [_ Hk]; [rewrite Hm; change (Qabs (inject_Z m)) with (inject_Z (Z.abs m)); apply inj_lt; exact Hb|lia|].
  rewrite inject_Z_mult, <- p10_Z, <- Qmult_assoc, <- p10_add by lia.
  replace (c_digits10 c + 3 - kk + (kk - (c_digits10 c + 3))) with 0 by lia. rewrite p10_0, Hm. ring.
Qed.

Lemma from_ull_exp u : 0 <= u < 2 ^ 64 -> dexp (from_ull c u) <= 32.
Proof.
  intros Hu. destruct (from_ull_int c Hc u Hu) as (i & A1 & A2 & A3 & A4 & A5 & A6). cbv zeta in *.
  destruct (Z.eq_dec u 0) as [H0|H0]; [rewrite A5 by auto; cbn [zero dexp]; lia|]. destruct (A6 ltac:(lia)) as (_ & _ & _ & H & _). auto.
Qed.
Lemma set_neg_exp x s : dexp (set_neg x s) = dexp x. Proof. reflexivity. Qed.

Lemma roundtrip_sll m : - 2 ^ 63 <= m < 2 ^ 63 -> to_sll c (from_sll c m) = Some m.
Proof.
  intros Hm. destruct big_enough as [H20 _]. assert (Hf : Z.abs m < 10 ^ 20) by (change (2 ^ 63) with 9223372036854775808 in *; change (10 ^ 20) with 100000000000000000000; lia).
  destruct (from_sll_exact c Hc m Hm ltac:(lia)) as [N Hv]. destruct (iszero (from_sll c m)) eqn:Zx.
  - destruct (to_int_zero _ N Zx) as [-> _]; [rewrite (proj1 (from_sll_u c m Hm)), set_neg_exp; pose proof (from_ull_exp _ (proj2 (from_sll_u c m Hm))); change (2 ^ 31) with 2147483648; lia|]. f_equal. pose proof (value_zero c Hc _ N Zx) as V0. rewrite Hv in V0. unfold Qeq in V0. cbn in V0. clear - V0; lia.
  - destruct (to_sll_spec _ N Zx) as (_ & _ & H). destruct H as (r & R1 & R2 & _).
    + rewrite Hv. apply inj_le. tauto.
    + rewrite Hv. apply inj_le. lia.
    + rewrite R2. rewrite (truncZ_comp r (inject_Z m)) by (apply (nearly_int _ _ _ R1 Hv Hf)). rewrite truncZ_Z. auto.
Qed.

Lemma from_ull_dneg u : 0 <= u < 2 ^ 64 -> dneg (from_ull c u) = false.
Proof. intros H. destruct (from_ull_int c Hc u H) as (i & A1 & A2 & A3 & A4 & _). cbv zeta in *. auto. Qed.

Lemma roundtrip_ull u : 0 <= u < 2 ^ 64 -> to_ull c (from_ull c u) = Some u.
Proof.
  intros Hu. destruct big_enough as [H20 B20]. assert (Hf : Z.abs u < 10 ^ 20) by (change (2 ^ 64) with 18446744073709551616 in *; change (10 ^ 20) with 100000000000000000000; lia).
  pose proof (from_ull_normal c Hc u Hu) as N. pose proof (from_ull_exact c Hc u Hu ltac:(lia)) as Hv. pose proof (from_ull_dneg u Hu) as Dn.
  destruct (iszero (from_ull c u)) eqn:Zx.
  - destruct (to_int_zero _ N Zx) as [_ ->]; auto; [pose proof (from_ull_exp _ Hu); change (2 ^ 31) with 2147483648; lia|]. f_equal. pose proof (value_zero c Hc _ N Zx) as V0. rewrite Hv in V0. unfold Qeq in V0. cbn in V0. clear - V0; lia.
  - assert (HA : (Qabs (value c (from_ull c u)) < inject_Z (10 ^ 20))%Q) by (rewrite Hv; change (Qabs (inject_Z u)) with (inject_Z (Z.abs u)); apply inj_lt; exact Hf).
    assert (Hd : dexp (from_ull c u) < 20) by (apply exp_of_bound; auto; lia).
    destruct (to_ull_spec _ N Zx Dn) as (r & R1 & R2).
    { destruct Hc as [_ Hc2]. rewrite <- (nel_Z c Hc) in Hc2. pose proof (edc_pos c). lia. }
    rewrite R2, (truncZ_comp r (inject_Z u)) by (apply (nearly_int _ _ _ R1 Hv Hf)). rewrite truncZ_Z. unfold clamp. f_equal. lia.
Qed.
End R.
