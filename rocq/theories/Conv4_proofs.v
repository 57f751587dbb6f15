(** Conv4_proofs.v - conversion to the built-in floating-point types. *)
From Verif Require Export Conv3_proofs Print_proofs.
From Coq Require Import Lqa.
Local Open Scope Z_scope.

Section TX.
Variable c : cfg.
Notation L := (c_limb c).
Notation B := (mask L).
Notation n := (nel c).
Notation E := (ebits (c_expo c)).
Hypothesis Hc : cfg_ok c.

Lemma elems_facts : 2 <= ldbl_elems c <= elem_number c /\ (21 <= edc c * (ldbl_elems c - 1) \/ ldbl_elems c = elem_number c).
Proof.
  pose proof (elem_number_ge4 c Hc) as H. unfold ldbl_elems, edc in *.
  destruct L; cbn [ed];
    [change (21 / 2 + (if 21 mod 2 =? 0 then 0 else 1) + 1) with 12
    |change (21 / 4 + (if 21 mod 4 =? 0 then 0 else 1) + 1) with 7
    |change (21 / 8 + (if 21 mod 8 =? 0 then 0 else 1) + 1) with 4]; lia.
Qed.
Lemma width_facts : 1 <= exp_width c < 20.
Proof. unfold exp_width. destruct (c_expo c); lia. Qed.

Lemma digits_len l k : digits_ok 10 l -> (0 < length l)%nat -> 0 <= k -> limbs_value 10 l < 10 ^ k -> (limbs_value 10 l <> 0 -> hd 0 l <> 0) -> (limbs_value 10 l = 0 -> (length l <= 1)%nat) -> 1 <= k ->
  Z.of_nat (length l) <= k.
Proof.
  intros Ok Hl Hk Hv Hh H0 Hk1. destruct (Z.eq_dec (limbs_value 10 l) 0) as [E0|E0]; [specialize (H0 E0); lia|].
  assert (Hne : l <> []) by (intros ->; cbn in Hl; lia).
  pose proof (proj1 (V10_lead l Ok Hne) (Hh E0)) as Hb.
  assert (P : 10 ^ (Z.of_nat (length l) - 1) < 10 ^ k) by lia. apply Z.pow_lt_mono_r_iff in P; lia.
Qed.

Lemma cast0 cap : (0 < cap)%nat -> baselexical_cast 10 extract10 cap 0 = Some [48].
Proof. intros H. unfold baselexical_cast. cbn [Z.eqb]. destruct cap; [lia|]. reflexivity. Qed.

Theorem ldbl_text_spec x : normal c x -> text_room c x ->
  exists l, ldbl_text c x = Some (lit_text l) /\ lit_ok l /\ l_int l <> [] /\
    l_sign l = Some (dneg x) /\ (exists lead, l_exp l = Some (true, Some (dexp x <? 0), lead) /\ lead <> []) /\
    (Qabs (lit_value l) <= Qabs (value c x))%Q /\
    (Qabs (value c x) < Qabs (lit_value l) + p10 (dexp x - edc c * (ldbl_elems c - 1)))%Q /\
    (ldbl_elems c = elem_number c -> (lit_value l == value c x)%Q) /\
    (value c x == (if dneg x then -(1) else 1) * Qabs (value c x))%Q /\
    (lit_value l == (if dneg x then -(1) else 1) * Qabs (lit_value l))%Q.
Proof.
  intros Nx (Re & Rw & Rm). destruct (normal_facts c Hc x Nx) as (Lx & Ox & _). pose proof (nel_ge4 c Hc) as Hn. pose proof (nel_Z c Hc) as HnZ.
  destruct elems_facts as [[K1 K2] _]. pose proof width_facts as Hw. pose proof (edc_pos c) as He. pose proof (E_ge8 c) as HE.
  unfold ldbl_text. set (k := Z.to_nat (ldbl_elems c)). assert (Hk : (2 <= k <= n)%nat) by lia.
  destruct (data x) as [|u r] eqn:Dx; [cbn in Lx; lia|]. destruct k as [|k'] eqn:Ek; [lia|]. cbn [firstn].
  assert (Lr : length r = (n - 1)%nat) by (clear - Lx; cbn in Lx; lia).
  assert (Hk' : (1 <= k' <= n - 1)%nat) by (clear - Hk; lia).
  assert (Zk : Z.of_nat k' = ldbl_elems c - 1) by (clear - Ek K1; lia).
  apply digits_ok_cons in Ox. destruct Ox as [Ou Or].
  destruct (limb_text_spec c u Ou) as (l0 & A1 & A2 & A3 & A4 & A5).
  destruct (concat_texts_spec c (firstn k' r) (digits_ok_firstn _ _ _ Or)) as (t & T1 & T2 & T3 & T4).
  assert (Lk : length (firstn k' r) = k') by (rewrite firstn_length, Lr; clear - Hk'; lia). rewrite Lk in T4.
  rewrite A1, T1. cbn beta iota.
  assert (Hmin : (dexp x =? - 2 ^ (E - 1)) && (32 <=? E) = false).
  { replace (dexp x =? - 2 ^ (E - 1)) with false by lia. reflexivity. }
  rewrite Hmin.
  assert (A64 : Z.abs (dexp x) < 2 ^ 64).
  { eapply Z.lt_le_trans; [exact Rw|]. eapply Z.le_trans; [apply Z.pow_le_mono_r; [lia|]; instantiate (1 := 19); lia|]. vm_compute. discriminate. }
  destruct (dec_text (Z.abs (dexp x)) (Z.to_nat (exp_width c))) as (es & B1 & B2 & B3 & B4 & B5); [lia|rewrite Z2Nat.id by (clear - Hw; lia); lia|lia|].
  rewrite B1. cbn beta iota.
  assert (es0 : limbs_value 10 es = 0 -> (length es <= 1)%nat).
  { intros K. rewrite B3 in K. assert (Kd : dexp x = 0) by lia. rewrite Kd in B1. change (Z.abs 0) with 0 in B1.
    rewrite cast0 in B1 by lia. injection B1 as B1. rewrite <- (dch_length es), <- B1. cbn. lia. }
  assert (l00 : limbs_value 10 l0 = 0 -> (length l0 <= 1)%nat).
  { intros K. rewrite A3 in K. rewrite K in A1. unfold limb_text in A1. rewrite cast0 in A1 by (change (ed L) with (edc c); lia).
    injection A1 as A1. rewrite <- (dch_length l0), <- A1. cbn. lia. }
  set (lit := mkLit (Some (dneg x)) l0 (Some t) (Some (true, Some (dexp x <? 0), es))).
  assert (TX : (if dneg x then 45 else 43) :: dch l0 ++ 46 :: dch t ++ 69 :: (if dexp x <? 0 then 45 else 43) :: dch es = lit_text lit).
  { unfold lit_text, lit. cbn [l_sign l_int l_frac l_exp sign_text]. destruct (dneg x), (dexp x <? 0); cbn [app sign_text]; rewrite <- ?app_assoc; cbn [app]; reflexivity. }
  rewrite TX.
  assert (LEN : Z.of_nat (length (lit_text lit)) = 1 + Z.of_nat (length l0) + 1 + edc c * (ldbl_elems c - 1) + 2 + Z.of_nat (length es)).
  { rewrite <- TX. cbn [length]. rewrite !app_length. cbn [length]. rewrite app_length. cbn [length]. rewrite !dch_length, T4.
    assert (Z.of_nat (k' * Z.to_nat (edc c)) = edc c * (ldbl_elems c - 1)).
    { rewrite Nat2Z.inj_mul, Z2Nat.id by (clear - He; lia). rewrite Zk. ring. }
    lia. }
  (* the value of the digits kept *)
  assert (V1 : limbs_value B (data x) = limbs_value B (u :: firstn k' r) * B ^ Z.of_nat (n - 1 - k') + limbs_value B (skipn k' r)).
  { rewrite Dx. rewrite <- (firstn_skipn k' r) at 1. change (u :: firstn k' r ++ skipn k' r) with ((u :: firstn k' r) ++ skipn k' r).
    rewrite limbs_value_app. f_equal. f_equal. f_equal. rewrite skipn_length, Lr. reflexivity. }
  assert (SB : 0 <= limbs_value B (skipn k' r) < B ^ Z.of_nat (n - 1 - k')).
  { pose proof (limbs_value_bound B (skipn k' r) (mask_pos L) (digits_ok_skipn _ _ _ Or)) as X. rewrite skipn_length in X.
    rewrite Lr in X. exact X. }
  set (T := limbs_value B (u :: firstn k' r)) in *. set (S := limbs_value B (skipn k' r)) in *.
  assert (T0 : 0 <= T).
  { pose proof (limbs_value_bound B (u :: firstn k' r) (mask_pos L)) as X. apply X. constructor; [exact Ou|apply digits_ok_firstn; exact Or]. }
  assert (EB : B ^ Z.of_nat (n - 1 - k') = 10 ^ (edc c * (Z.of_nat n - ldbl_elems c))).
  { replace B with (10 ^ edc c) by (unfold edc; rewrite mask_pow; reflexivity). rewrite <- Z.pow_mul_r by (clear - He; lia). f_equal. f_equal. clear - Zk Hk'. lia. }
  set (lo := dexp x - edc c * (ldbl_elems c - 1)).
  assert (G0 : 0 <= edc c * (Z.of_nat n - ldbl_elems c)) by (apply Z.mul_nonneg_nonneg; clear - He K1 K2 HnZ Hn; lia).
  assert (Lo : low c (dexp x) = lo - edc c * (Z.of_nat n - ldbl_elems c)) by (unfold low, lo; ring).
  assert (LV : (lit_value lit == (if dneg x then -(1) else 1) * (inject_Z T * p10 lo))%Q).
  { unfold lit_value, lit_exp, lit, frac_digits. cbn [l_sign l_int l_frac l_exp].
    assert (TT : limbs_value 10 (l0 ++ t) = T).
    { rewrite limbs_value_app, A3, T3, T4. unfold T. cbn [limbs_value]. rewrite Lk. f_equal. f_equal.
      replace B with (10 ^ edc c) by (unfold edc; rewrite mask_pow; reflexivity). rewrite <- Z.pow_mul_r by (clear - He; lia). f_equal.
      rewrite Nat2Z.inj_mul, Z2Nat.id by (clear - He; lia). ring. }
    rewrite TT, B3, T4. rewrite inject_Z_mult.
    assert (X1 : (if dexp x <? 0 then -1 else 1) * Z.abs (dexp x) = dexp x) by (clear; destruct (Z.ltb_spec (dexp x) 0); lia).
    assert (X2 : Z.of_nat (k' * Z.to_nat (edc c)) = edc c * (ldbl_elems c - 1)).
    { rewrite Nat2Z.inj_mul, Z2Nat.id by (clear - He; lia). rewrite Zk. ring. }
    assert (X3 : match (if dexp x <? 0 then true else false) with true => -1 | false => 1 end = if dexp x <? 0 then -1 else 1) by (destruct (dexp x <? 0); reflexivity).
    assert (X4 : match dexp x <? 0 with true => -1 | false => 1 end * Z.abs (dexp x) - Z.of_nat (k' * Z.to_nat (edc c)) = lo) by (rewrite X2; unfold lo; rewrite X1; reflexivity).
    rewrite X4. destruct (dneg x); change (inject_Z (-1)) with (-(1))%Q; change (inject_Z 1) with 1%Q; ring. }
  assert (VV : (value c x == (if dneg x then -(1) else 1) * (inject_Z (limbs_value B (data x)) * p10 (low c (dexp x))))%Q).
  { rewrite value_low by (rewrite Dx; exact Lx). rewrite inject_Z_mult. destruct (dneg x); cbn [sgn]; change (inject_Z (-1)) with (-(1))%Q; change (inject_Z 1) with 1%Q; ring. }
  assert (X0 : 0 <= limbs_value B (data x)).
  { rewrite V1. pose proof (Z.mul_nonneg_nonneg T (B ^ Z.of_nat (n - 1 - k')) T0). pose proof (Z.pow_nonneg B (Z.of_nat (n - 1 - k'))). pose proof (mask_pos L). clear - H H0 SB H1; lia. }
  assert (abs_s : forall a, (0 <= a)%Q -> (Qabs ((if dneg x then -(1) else 1) * a) == a)%Q).
  { intros a Ha. rewrite Qabs_Qmult, (Qabs_pos a) by auto. destruct (dneg x); [change (Qabs (-(1))) with 1%Q|change (Qabs 1) with 1%Q]; ring. }
  assert (PP : forall i e, 0 <= i -> (0 <= inject_Z i * p10 e)%Q).
  { intros i e Hi. apply Qmult_le_0_compat; [|apply Qlt_le_weak, p10_pos]. change 0%Q with (inject_Z 0). rewrite <- Zle_Qle. auto. }
  assert (AL : (Qabs (lit_value lit) == inject_Z T * p10 lo)%Q) by (rewrite LV; apply abs_s, PP; auto).
  assert (AV : (Qabs (value c x) == inject_Z (limbs_value B (data x)) * p10 (low c (dexp x)))%Q) by (rewrite VV; apply abs_s, PP; auto).
  assert (PL : (p10 lo == inject_Z (B ^ Z.of_nat (n - 1 - k')) * p10 (low c (dexp x)))%Q).
  { rewrite EB, <- p10_Z, <- p10_add by auto. rewrite Lo. replace (edc c * (Z.of_nat n - ldbl_elems c) + (lo - edc c * (Z.of_nat n - ldbl_elems c))) with lo by ring. reflexivity. }
  assert (ROOM : Z.of_nat (length l0) + Z.of_nat (length es) < edc c + exp_width c).
  { destruct Rm as [Rm|Rm].
    - assert (U : u < 10 ^ (edc c - 1)).
      { apply Z.nle_gt. intros C. apply (Qlt_irrefl (Qabs (value c x))). eapply Qlt_le_trans; [exact Rm|]. rewrite AV.
        assert (EV : limbs_value B (data x) = u * B ^ Z.of_nat (n - 1) + limbs_value B r).
        { rewrite Dx. cbn [limbs_value]. f_equal. f_equal. f_equal. rewrite Lr. reflexivity. }
        pose proof (limbs_value_bound B r (mask_pos L) Or) as Br.
        assert (EB1 : B ^ Z.of_nat (n - 1) = 10 ^ (edc c * (Z.of_nat n - 1))).
        { replace B with (10 ^ edc c) by (unfold edc; rewrite mask_pow; reflexivity). rewrite <- Z.pow_mul_r by (clear - He; lia). f_equal. f_equal. clear - Hn. lia. }
        assert (G1 : 0 <= edc c * (Z.of_nat n - 1)) by (apply Z.mul_nonneg_nonneg; clear - He K1 K2 HnZ Hn; lia).
        replace (dexp x + edc c - 1) with (edc c - 1 + edc c * (Z.of_nat n - 1) + low c (dexp x)) by (unfold low; ring).
        rewrite p10_add. apply Qmult_le_compat_r; [|apply Qlt_le_weak, p10_pos]. rewrite p10_Z by (clear - G1 He; lia). rewrite <- Zle_Qle. rewrite EV, Z.pow_add_r by (clear - G1 He; lia). rewrite <- EB1.
        assert (10 ^ (edc c - 1) * B ^ Z.of_nat (n - 1) <= u * B ^ Z.of_nat (n - 1)) by (apply Z.mul_le_mono_nonneg_r; [apply Z.pow_nonneg, Z.lt_le_incl, mask_pos|exact C]). clear - H Br. lia. }
      assert (Z.of_nat (length l0) <= edc c - 1).
      { apply digits_len; [exact A2|apply A4|clear - He; lia|rewrite A3; exact U|rewrite A3; exact A5|exact l00|clear - He; lia]. }
      clear - H B4 Hw. lia.
    - assert (Z.of_nat (length es) <= exp_width c - 1).
      { destruct (Z.eq_dec (exp_width c) 1) as [W1|W1].
        - exfalso. clear - W1. unfold exp_width in W1. destruct (c_expo c); discriminate.
        - apply digits_len; [exact B2|apply B4|clear - Hw; lia|rewrite B3; exact Rm|rewrite B3; exact B5|exact es0|clear - Hw W1; lia]. }
      clear - H A4 He. lia. }
  assert (FIN : (Z.of_nat (length (lit_text lit)) <? 1 + ldbl_elems c * ed L + 1 + 2 + exp_width c) = true).
  { apply Z.ltb_lt. rewrite LEN. change (ed L) with (edc c).
    replace (ldbl_elems c * edc c) with (edc c * (ldbl_elems c - 1) + edc c) by ring. clear - ROOM. lia. }
  rewrite FIN. exists lit. split; [reflexivity|]. split; [split; [exact A2|split; [exact T2|exact B2]]|].
  split; [intros K; change (l_int lit) with l0 in K; rewrite K in A4; cbn in A4; lia|]. split; [reflexivity|].
  split; [exists es; split; [reflexivity|intros K; rewrite K in B4; cbn in B4; lia]|].
  split; [|split; [|split; [|split]]].
  - rewrite AL, AV, PL, Qmult_assoc, <- inject_Z_mult. apply Qmult_le_compat_r; [|apply Qlt_le_weak, p10_pos]. rewrite <- Zle_Qle. rewrite V1. clear - SB. lia.
  - fold lo. rewrite AL, AV, PL. setoid_replace (inject_Z T * (inject_Z (B ^ Z.of_nat (n - 1 - k')) * p10 (low c (dexp x))) + inject_Z (B ^ Z.of_nat (n - 1 - k')) * p10 (low c (dexp x)))%Q
      with ((inject_Z T * inject_Z (B ^ Z.of_nat (n - 1 - k')) + inject_Z (B ^ Z.of_nat (n - 1 - k'))) * p10 (low c (dexp x)))%Q by ring.
    rewrite <- inject_Z_mult, <- inject_Z_plus. apply Qmult_lt_compat_r; [apply p10_pos|]. rewrite <- Zlt_Qlt. rewrite V1. clear - SB. lia.
  - intros Kf. assert (n - 1 - k' = 0)%nat as Z0 by (clear - Kf Zk HnZ; lia). rewrite Z0 in *. change (B ^ Z.of_nat 0) with 1 in *. assert (S = 0) by (clear - SB; lia).
    rewrite LV, VV, PL. rewrite V1, H, Z.mul_1_r, Z.add_0_r. change (inject_Z 1) with 1%Q. destruct (dneg x); ring.
  - rewrite AV. exact VV.
  - rewrite AL. exact LV.
Qed.
End TX.
