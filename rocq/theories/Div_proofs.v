(** Div_proofs.v - division: product of the dividend by the reciprocal. *)
From Verif Require Export Estimate3_proofs Topr_proofs.
From Coq Require Import Lqa.
Local Open Scope Z_scope.

Section DV.
Variable c : cfg.
Notation L := (c_limb c).
Notation B := (mask L).
Notation V := (limbs_value B).
Notation ok := (digits_ok B).
Notation P n := (B ^ Z.of_nat n).
Notation E := (ebits (c_expo c)).
Notation n := (nel c).
Notation M := (max_exp10_of (c_expo c)).
Notation wk := (wk c).
Notation mag := (mag c).
Notation eta := (eta c).
Hypothesis Hc : cfg_ok c.
Hypothesis Hk : newton_ok c.
Let HB : 0 < B := mask_pos L.

Lemma memory_pool mem i : memory_ok mem -> pool_ok c (fst (mem i n)) (snd (mem i n)).
Proof.
  intros Hm. destruct (Hm i n) as [H1 H2]. cbv zeta in *. unfold pool_ok. rewrite (nel_Z c Hc) in *. auto.
Qed.

Notation top := (B :: repeat 0 (n - 1)).

Lemma top_value : V top = P n.
Proof.
  pose proof (nel_ge4 c Hc). cbn [limbs_value]. rewrite limbs_value_repeat0, repeat_length, Z.add_0_r.
  rewrite <- pow_succ_nat. do 2 f_equal. lia.
Qed.
Lemma top_isone s e p : isone_sign_neutral c (mkDec top e s p) = false.
Proof.
  unfold isone_sign_neutral. pose proof (B_gt9 c) as H9. cbn [data nth].
  replace (B =? 1) with false by lia. replace (B =? B - 1) with false by lia. cbn [andb]. reflexivity.
Qed.

(** A full-length product whose right factor may be an un-normalised power of the base. *)
Lemma dispatch_okA m x r e : pool_at n m -> length (data x) = n -> ok (data x) -> length (data r) = n -> okA L (data r) ->
  exists res k, mul_dispatch c (fst m) (snd m) x r e n = Some (store_product c x e res n) /\
    (n <= k)%nat /\ length res = (2 * k)%nat /\ ok res /\ V res = V (data x) * V (data r) * P (2 * k - 2 * n).
Proof.
  intros Hp Lx Okx Lr OkA. destruct Hp as [Hp1 Hp2]. cbv zeta in Hp1, Hp2. pose proof (nel_ge4 c Hc) as Hn4. pose proof (nel_Z c Hc) as HnZ.
  destruct Hk as [Hk1 Hk2].
  unfold mul_dispatch. rewrite !firstn_all2 by lia.
    destruct (Z.of_nat n <? elems_for_kara) eqn:Ek.
    - destruct (school_okB_spec L (data x) (data r)) as (rr & E1 & E2 & E3 & E4); auto; try lia.
      { rewrite Lx. unfold school_fits, elems_for_kara in *. destruct L eqn:EL; auto; right; cbn [mask dbits].
        - specialize (Hk2 eq_refl). change (2 ^ 32) with 4294967296. lia.
        - change (2 ^ 64) with 18446744073709551616. lia. }
      rewrite E1. exists rr, n. split; [reflexivity|]. split; [lia|]. split; [lia|]. split; [auto|].
      rewrite E4. rewrite Nat.sub_diag. change (P 0) with 1. lia.
    - replace (Z.of_nat n <? elems_for_fft) with true by lia.
      destruct (a029750_range (Z.of_nat n)) as (R1 & R2 & R3); [unfold elems_for_kara in Ek; lia|].
      set (k := Z.to_nat (a029750 (Z.of_nat n))) in *.
      assert (Hnk : (n <= k)%nat) by lia. cbv zeta.
      destruct (kara_okB_spec L k R3 k (fst m) (data x ++ repeat 0 (k - n)) (data r ++ repeat 0 (k - n)) (snd m))
        as (rr & t & E1 & E2 & E3 & E4 & E5); auto; try lia.
      { rewrite app_length, repeat_length; lia. }
      { rewrite app_length, repeat_length; lia. }
      { apply digits_ok_app; split; auto; apply digits_ok_repeat0; auto. }
      { apply okA_pad; auto. lia. }
      rewrite E1. exists rr, k. split; [reflexivity|]. split; [auto|]. split; [auto|]. split; [auto|].
      rewrite E5, !limbs_value_app, !limbs_value_repeat0, !repeat_length.
      replace (2 * k - 2 * n)%nat with ((k - n) + (k - n))%nat by lia. rewrite Nat2Z.inj_add, Z.pow_add_r by lia. ring.
Qed.

(** Multiplying by an un-normalised power of the base is exact. *)
Lemma mul_top mem i x r : memory_ok mem -> normal c x -> iszero x = false -> isone_sign_neutral c x = false ->
  data r = top -> dprec r = n -> (edc c | dexp r) -> - 2 ^ (E - 1) <= dexp r < 2 ^ (E - 1) -> - M < dexp x + dexp r < M ->
  mul c (fst (mem i n)) (snd (mem i n)) x r =
    Some (mkDec (data x) (dexp x + dexp r + edc c) (xorb (dneg x) (dneg r)) n).
Proof.
  intros Hm Hx Zx Ox Dr Pr Dvr Rr Hs. unfold mul. rewrite Zx.
  pose proof (B_gt9 c) as H9. pose proof (nel_ge4 c Hc) as Hn4. pose proof (nel_Z c Hc) as HnZ.
  assert (Zr : iszero r = false) by (unfold iszero; rewrite Dr; cbn [nth]; lia).
  rewrite Zr. cbn [orb]. change (isone_sign_neutral c (set_neg x false)) with (isone_sign_neutral c x). rewrite Ox.
  assert (Or : isone_sign_neutral c r = false).
  { destruct r as [dr er sr pr]. cbn [data] in Dr. subst dr. apply top_isone. }
  rewrite Or. change (dexp (set_neg x false)) with (dexp x). change (dprec (set_neg x false)) with (dprec x).
  destruct (normal_facts c Hc x Hx) as (Lx & Okx & Px & _). pose proof Hx as (_ & _ & _ & Dx & Rx & _).
  destruct (exp_sum c Hc x r Rx Rr Dx Dvr Hs) as (M1 & M2 & M3). rewrite M1, M2, M3. rewrite Px, Pr, Nat.min_id.
  destruct (Hm i n) as [Hp1 Hp2]. cbv zeta in Hp1, Hp2.
  set (m := mem i n) in *. clearbody m.
  assert (Lr : length (data r) = n) by (rewrite Dr; cbn [length]; rewrite repeat_length; lia).
  assert (OkA : okA L (data r)) by (right; rewrite Lr; exact Dr).
  destruct Hk as [Hk1 Hk2].
  destruct (dispatch_okA m (set_neg x false) r (dexp x + dexp r)) as (res & k & D1 & D2 & D3 & D4 & D5); auto.
  { split; auto. }
  cbn [set_neg data] in D5.
  rewrite D1. clear D1.
  assert (Zlx : nth 0 (data x) 0 <> 0) by (unfold iszero in Zx; lia).
  pose proof (lead_range c _ Lx Okx Zlx) as LR.
  rewrite Dr, top_value in D5. rewrite (Z.mul_comm (V (data x))) in D5.
  destruct (storep_spec c Hc (set_neg x false) (dexp x + dexp r) res k n ltac:(lia) D2 D3 D4 (P n) (V (data x))) as (S1 & S2 & S3 & S4 & S5 & S6 & S7).
  { split; [|lia]. apply Z.pow_le_mono_r; lia. }
  { exact LR. }
  { exact D5. }
  { exact Lx. }
  { cbn [set_neg data]. rewrite skipn_all2 by lia. constructor. }
  pose proof (edc_pos c) as He. pose proof (max_exp10_bounds c) as (HM & HM2 & HM3). pose proof (E_ge8 c) as HE8.
  rewrite scast_id in S7 by (clear - HE8 He HM HM2 Hs; lia).
  set (z := store_product c (set_neg x false) (dexp x + dexp r) res n) in *.
  pose proof (pow_pos_nat B n HB) as HPn.
  destruct S7 as [(_ & _ & S9)|(S7 & S8 & _)].
  { exfalso. rewrite (P_split c n) in S9 by lia. apply Z.mul_lt_mono_pos_l in S9; lia. }
  rewrite firstn_all2 in S8 by lia. rewrite Z.mul_comm, Z.div_mul in S8 by lia.
  assert (Dz : data z = data x) by (apply (limbs_value_inj B); auto; lia).
  assert (Pz : dprec z = n) by (rewrite S4; exact Px).
  f_equal. unfold set_neg. rewrite Dz, S7, Pz. reflexivity.
Qed.

(** The relative error bound of division. *)
Definition div_eps : Q := (9 * p10 (- (c_digits10 c + 2 * edc c)))%Q.

Lemma eta_n_eps : (eta n <= p10 (- (c_digits10 c + 2 * edc c)))%Q.
Proof.
  unfold Newton_proofs.eta. apply (proj2 (p10_le _ _)). rewrite (nel_Z c Hc). pose proof (elem_digits c). lia.
Qed.
Lemma eps_small : (0 < p10 (- (c_digits10 c + 2 * edc c)) /\ p10 (- (c_digits10 c + 2 * edc c)) <= 1 # 10000)%Q.
Proof.
  split; [apply p10_pos|]. change (1 # 10000)%Q with (p10 (-4)). apply (proj2 (p10_le _ _)). pose proof (edc_pos c). destruct Hc. lia.
Qed.

(** From an approximate reciprocal to an approximate quotient. *)
Lemma quotient_error (x v r z e : Q) : (~ v == 0 -> 0 < e -> e <= 1 # 10000 -> Qabs (1 - r * v) <= 7 * e ->
  Qabs (z - x * r) <= Qabs (x * r) * e -> Qabs (z - x / v) <= 9 * e * Qabs (x / v))%Q.
Proof.
  intros Hv He He2 H1 H2.
  set (q := (x / v)%Q). assert (Ex : (x == q * v)%Q) by (unfold q; field; auto).
  assert (Exr : (x * r == q * (r * v))%Q) by (rewrite Ex; ring).
  rewrite Exr in H2. set (s := (r * v)%Q) in *.
  setoid_replace (z - q)%Q with ((z - q * s) + q * (s - 1))%Q by ring.
  eapply Qle_trans; [apply Qabs_triangle|]. rewrite Qabs_Qmult. rewrite Qabs_Qmult in H2. rewrite (Qabs_Qminus s 1).
  assert (Hq : (0 <= Qabs q)%Q) by apply Qabs_nonneg.
  assert (S1 : (Qabs s <= 1 + 7 * e)%Q) by (apply Qabs_Qle_condition in H1; apply Qabs_Qle_condition; lra).
  assert (T1 : (Qabs q * Qabs (1 - s) <= Qabs q * (7 * e))%Q) by (rewrite !(Qmult_comm (Qabs q)); apply Qmult_le_compat_r; auto).
  assert (T2 : (Qabs q * Qabs s * e <= Qabs q * (1 + 7 * e) * e)%Q).
  { apply Qmult_le_compat_r; [|lra]. rewrite !(Qmult_comm (Qabs q)). apply Qmult_le_compat_r; auto. }
  assert (T3 : (Qabs q * ((1 + 7 * e) * e) <= Qabs q * (2 * e))%Q).
  { rewrite !(Qmult_comm (Qabs q)). apply Qmult_le_compat_r; auto. apply Qmult_le_compat_r; lra. }
  lra.
Qed.

Variable F : ftype.
Hypothesis HF : float_fits c F.
Hypothesis HJ : (digit_loops c F <= n)%nat.

Lemma compare_eq_data x v : normal c x -> normal c v -> compare_ranges (data x) (data v) =? 0 = true -> data x = data v.
Proof.
  clear HJ HF. intros Hx Hv H. destruct (normal_facts c Hc x Hx) as (Lx & Okx & _). destruct (normal_facts c Hc v Hv) as (Lv & Okv & _).
  rewrite (compare_ranges_spec L) in H by (auto; lia).
  destruct (Z.compare_spec (V (data x)) (V (data v))) as [K|K|K]; try discriminate.
  apply (limbs_value_inj B); auto. lia.
Qed.

Theorem div_spec mem x v : memory_ok mem -> normal c x -> normal c v -> iszero x = false -> iszero v = false ->
  - M < dexp v < M - 3 * edc c -> - M + 2 * edc c < dexp x - dexp v < M ->
  exists z, divide c F mem x v = Some z /\ dneg z = xorb (dneg x) (dneg v) /\ wk z /\
    (Qabs (value c z - value c x / value c v) <= div_eps * Qabs (value c x / value c v))%Q /\
    (normal c z \/ (isone_sign_neutral c x = true /\ V (data v) = P (n - 1) /\ data z = top)).
Proof.
  intros Hm Hx Hv Zx Zv Rv Rq. pose proof (nel_ge4 c Hc) as Hn4. pose proof (edc_pos c) as He.
  pose proof (max_exp10_bounds c) as (HM & HM2 & HM3).
  destruct (normal_facts c Hc x Hx) as (Lx & Okx & Px & _). destruct (normal_facts c Hc v Hv) as (Lv & Okv & Pv & _).
  pose proof (value_nonzero c Hc v Hv Zv) as Nv. pose proof (value_nonzero c Hc x Hx Zx) as Nx.
  destruct eps_small as [Ep1 Ep2].
  unfold divide, div. rewrite Px, Pv, Nat.min_id.
  destruct ((dexp x =? dexp v) && (compare_ranges (data x) (data v) =? 0)) eqn:Eq.
  - apply andb_prop in Eq. destruct Eq as [Eq1 Eq2]. pose proof (compare_eq_data x v Hx Hv Eq2) as Ed. 
    assert (Ee : dexp x = dexp v) by lia.
    assert (Vx : (value c x / value c v == if xorb (dneg x) (dneg v) then -(1) else 1)%Q).
    { setoid_replace (value c x) with ((if xorb (dneg x) (dneg v) then -(1) else 1) * value c v)%Q; [field; auto|].
      rewrite !value_low by auto. rewrite Ed, Ee. rewrite !inject_Z_mult. destruct (dneg x), (dneg v); cbn [xorb sgn];
        change (inject_Z (-1)) with (-(1))%Q; change (inject_Z 1) with 1%Q; ring. }
    pose proof (one_normal c Hc) as On. 
    assert (Nn : normal c (if xorb (dneg x) (dneg v) then negate (one c) else one c)).
    { destruct (xorb _ _); auto. apply (negate_normal c); auto. }
    assert (V1 : (value c (one c) == 1)%Q) by (destruct (max_min_values c Hc) as (_ & _ & _ & H & _); exact H).
    eexists. split; [reflexivity|].
    assert (I1 : iszero (one c) = false) by (destruct (iszero (one c)) eqn:K; auto; apply (value_zero_iff c Hc) in K; auto; rewrite V1 in K; discriminate).
    split; [destruct (xorb (dneg x) (dneg v)); unfold negate; rewrite ?I1; reflexivity|].
    split; [apply normal_wk; auto; destruct (xorb (dneg x) (dneg v)); unfold negate; rewrite ?I1; first [reflexivity|exact I1]|].
    split; [|left; auto]. rewrite Vx.
    assert (Ez : (value c (if xorb (dneg x) (dneg v) then negate (one c) else one c) == if xorb (dneg x) (dneg v) then -(1) else 1)%Q).
    { destruct (xorb (dneg x) (dneg v)); auto. rewrite (value_negate c Hc) by auto. rewrite V1. reflexivity. }
    rewrite Ez. set (t := (if xorb (dneg x) (dneg v) then - (1) else 1)%Q). setoid_replace (t - t)%Q with 0%Q by ring.
    change (Qabs 0) with 0%Q. unfold div_eps. apply Qmult_le_0_compat; [lra|apply Qabs_nonneg].
  - clear Eq.
    assert (Hm1 : memory_ok (later mem 1)) by (intros i p; apply Hm).
    destruct (inv_spec c F Hc HF HJ Hk (later mem 1) v Hm1 Hv Zv Rv) as (r & Er & Sr & Wr & Shp & Acc & Rr).
    rewrite Er. clear Er. pose proof eta_n_eps as Een. destruct (eta_n c Hc) as [En1 En2].
    set (e := p10 (- (c_digits10 c + 2 * edc c))) in *.
    assert (Acc2 : (Qabs (1 - value c r * value c v) <= 7 * e)%Q) by lra.
    (* exponent of the reciprocal *)
    destruct (normal_wk c Hc v Hv Zv) as (_ & _ & _ & Dv). 
    assert (Wv : wk v) by (apply normal_wk; auto).
    destruct (mag_bracket c Hc r Wr) as [Br1 Br2]. destruct (mag_bracket c Hc v Wv) as [Bx1 Bx2].
    pose proof (mag_pos c Hc r Wr) as Mr. pose proof (mag_pos c Hc v Wv) as Mvp.
    assert (Vr : (value c r * value c v == mag r * mag v)%Q).
    { rewrite !value_low by (auto; apply Wr). unfold Prec_proofs.mag. rewrite Sr.
      rewrite !inject_Z_mult. destruct (dneg v); cbn [sgn]; ring. }
    assert (Acc3 : ((9 # 10) <= mag r * mag v /\ mag r * mag v <= (11 # 10))%Q).
    { rewrite <- Vr. apply Qabs_Qle_condition in Acc2. lra. }
    assert (X1 : dexp r + dexp v < 1).
    { apply (proj1 (p10_lt _ _)). rewrite p10_add. apply Qle_lt_trans with (mag r * mag v)%Q.
      - apply Qmult_le_compat_nonneg; split; auto; apply Qlt_le_weak, p10_pos.
      - rewrite p10_one. lra. }
    assert (X2 : -1 < dexp r + edc c + (dexp v + edc c)).
    { apply (proj1 (p10_lt _ _)). apply Qlt_le_trans with (mag r * mag v)%Q; [rewrite p10_m1; lra|].
      rewrite (p10_add (dexp r + edc c)). apply Qmult_le_compat_nonneg; split; auto; lra. }
    assert (Rs : - M < dexp x + dexp r < M) by lia.
    destruct Wr as (Lr & OAr & Zlr & Ddr). 
    assert (Zr : iszero r = false) by (unfold iszero; lia).
    destruct Shp as [Nr|(S1 & S2 & S3 & S4)].
    + destruct (mul_rel c Hc (fst (mem 0%nat n)) (snd (mem 0%nat n)) x r (newton_mul_ok c Hc Hk) (memory_pool mem 0 Hm) Hx Nr Zx Zr Rs)
        as (z & Ez & Nz & Zz & Sz & Az).
      exists z. split; [exact Ez|]. rewrite Sz, Sr. split; [reflexivity|]. split; [apply normal_wk; auto|]. split; [|left; auto].
      unfold div_eps. fold e. apply (quotient_error _ _ (value c r)); auto. apply Qlt_le_weak. exact Az.
    + destruct (isone_sign_neutral c x) eqn:Ox.
      * (* one or nines divided by a power of the base: the reciprocal itself *)
        unfold mul. rewrite Zx, Zr. cbn [orb]. change (isone_sign_neutral c (set_neg x false)) with (isone_sign_neutral c x). rewrite Ox.
        eexists. split; [reflexivity|]. cbn [set_neg dneg data]. rewrite Sr. split; [reflexivity|].
        split; [split; [auto|]; split; [auto|]; split; auto|]. split; [|right; auto].
        unfold div_eps. fold e. apply (quotient_error _ _ (value c r)); auto.
        assert (Ez : (value c (set_neg r (xorb (dneg x) (dneg v))) == (if dneg x then -(1) else 1) * value c r)%Q).
        { rewrite !value_low by auto. cbn [set_neg data dexp dneg]. rewrite Sr, !inject_Z_mult. destruct (dneg x), (dneg v); cbn [xorb sgn];
            change (inject_Z (-1)) with (-(1))%Q; change (inject_Z 1) with 1%Q; ring. }
        change (dneg (set_neg x false)) with false. cbn [xorb].
        assert (Ez' : (value c (mkDec (data r) (dexp r) (xorb (dneg x) (dneg v)) (dprec r)) == (if dneg x then -(1) else 1) * value c r)%Q) by exact Ez.
        rewrite Ez'.
        apply (isone_iff c Hc x Hx Zx) in Ox.
        pose proof (value_sign c Hc x Hx Zx) as Sx.
        assert (Xs : (value c x == (if dneg x then -(1) else 1) * Qabs (value c x))%Q).
        { destruct (dneg x); [rewrite Qabs_neg by lra|rewrite Qabs_pos by lra]; ring. }
        set (t := (if dneg x then -(1) else 1)%Q) in *.
        assert (Ht : (Qabs t == 1)%Q) by (unfold t; destruct (dneg x); reflexivity).
        setoid_replace (t * value c r - value c x * value c r)%Q with (t * value c r * (1 - Qabs (value c x)))%Q by (rewrite Xs at 1; ring).
        rewrite !Qabs_Qmult, Ht, Qmult_1_l.
        pose proof (Qabs_nonneg (value c r)) as Rn.
        destruct Ox as [Ox|Ox].
        -- unfold is_one in Ox. rewrite Ox. setoid_replace (1 - 1)%Q with 0%Q by ring. change (Qabs 0) with 0%Q.
           rewrite Qmult_0_r, Qmult_1_l. apply Qmult_le_0_compat; lra.
        -- unfold is_nines in Ox. rewrite Ox. set (w := p10 (- (edc c * elem_number c))) in *.
           assert (W0 : (0 < w)%Q) by apply p10_pos.
           assert (W1 : (w * 10 <= e)%Q).
           { unfold w, e. rewrite <- p10_one, <- p10_add. apply (proj2 (p10_le _ _)). pose proof (elem_digits c). lia. }
           setoid_replace (1 - (1 - w))%Q with w by ring. rewrite (Qabs_pos w) by lra.
           setoid_replace ((1 - w) * Qabs (value c r) * e)%Q with (Qabs (value c r) * ((1 - w) * e))%Q by ring.
           rewrite !(Qmult_comm (Qabs (value c r))). apply Qmult_le_compat_r; auto.
           assert (w * e <= (1 # 2) * e)%Q by (apply Qmult_le_compat_r; lra). lra.
      * rewrite (mul_top mem 0 x r) by (auto; lia). 
        assert (Nz : normal c (mkDec (data x) (dexp x + dexp r + edc c) (xorb (dneg x) (dneg r)) n)).
        { destruct Hx as (N1 & N2 & N3 & N4 & N5 & N6). split; [auto|]. split; [auto|]. split; [auto|].
          split; [repeat apply Z.divide_add_r; auto; apply Z.divide_refl|]. split; [cbn [dexp]; lia|reflexivity]. }
        eexists. split; [reflexivity|]. cbn [dneg]. rewrite Sr in *. split; [reflexivity|].
        split; [apply normal_wk; auto|]. split; [|left; auto].
        unfold div_eps. fold e. apply (quotient_error _ _ (value c r)); auto.
        assert (Ez : (value c (mkDec (data x) (dexp x + dexp r + edc c) (xorb (dneg x) (dneg v)) n) == value c x * value c r)%Q).
        { rewrite !value_low by auto. cbn [data dexp dneg]. rewrite S1, top_value, Sr, !inject_Z_mult, Bp10.
          assert (Ep : (p10 (low c (dexp x + dexp r + edc c)) == p10 (low c (dexp x)) * p10 (low c (dexp r)) * p10 (edc c * Z.of_nat n))%Q).
          { rewrite <- !p10_add. replace (low c (dexp x + dexp r + edc c)) with (low c (dexp x) + low c (dexp r) + edc c * Z.of_nat n) by (unfold low; ring). reflexivity. }
          rewrite Ep. destruct (dneg x), (dneg v); cbn [xorb sgn]; change (inject_Z (-1)) with (-(1))%Q; change (inject_Z 1) with 1%Q; ring. }
        rewrite Ez. setoid_replace (value c x * value c r - value c x * value c r)%Q with 0%Q by ring.
        change (Qabs 0) with 0%Q. apply Qmult_le_0_compat; [apply Qabs_nonneg|lra].
Qed.
End DV.
