(** Int2_proofs.v - multiplication by any 64-bit integer, division by small integers. *)
From Verif Require Export Int_proofs.
From Coq Require Import Lqa.
Local Open Scope Z_scope.

Lemma split_last2 (l : list Z) : (3 <= length l)%nat ->
  exists d0 m a b, l = d0 :: m ++ [a; b] /\ length m = (length l - 3)%nat.
Proof.
  intros H. destruct l as [|d0 l]; [cbn in H; lia|]. cbn [length] in *.
  assert (E : l = firstn (length l - 2) l ++ skipn (length l - 2) l) by (symmetry; apply firstn_skipn).
  assert (Hs : length (skipn (length l - 2) l) = 2%nat) by (rewrite skipn_length; lia).
  destruct (skipn (length l - 2) l) as [|a [|b [|? ?]]]; cbn in Hs; try lia.
  exists d0, (firstn (length l - 2) l), a, b. split; [rewrite <- E; auto|]. rewrite firstn_length. lia.
Qed.

Section I.
Variable c : cfg.
Notation L := (c_limb c).
Notation B := (mask L).
Notation V := (limbs_value B).
Notation P n := (B ^ Z.of_nat n).
Notation E := (ebits (c_expo c)).
Notation n := (nel c).
Hypothesis Hc : cfg_ok c.
Let HB : 0 < B := mask_pos L.

Lemma B_64 : B <= 2 ^ 32 /\ B < 2 ^ 64 /\ 100 <= B.
Proof. destruct L; cbn; lia. Qed.

(** Saturation test of mul_unsigned_long_long. *)
Lemma mul_ull_sat x u : normal c x -> 0 < u < 2 ^ 64 ->
  let r := uw_add E (uw_make E (dexp x)) (uw_make E (scast E (order_of_builtin_integer u))) in
  negb (uw_neg r) && (uw_val r >=? max_exp10_of (c_expo c)) =
  (max_exp10_of (c_expo c) <=? dexp x + order_of_builtin_integer u).
Proof.
  intros Hx Hu. cbv zeta. pose proof Hx as (_ & _ & _ & Dx & Rx & _).
  destruct (order_spec u Hu) as [Or1 Or2]. set (k := order_of_builtin_integer u) in *.
  pose proof (E_ge8 c) as HE. pose proof (pow2E c) as H2E. pose proof (max_exp10_bounds c) as (HM & HM2 & HM3).
  assert (H128 : 128 <= 2 ^ (E - 1)) by (change 128 with (2 ^ 7); apply Z.pow_le_mono_r; lia).
  rewrite (scast_id E k) by lia.
  destruct (uw_make_spec E (dexp x) ltac:(lia) Rx) as [E1 O1].
  destruct (uw_make_spec E k ltac:(lia) ltac:(lia)) as [E2 O2].
  destruct (uw_add_spec E _ _ O1 O2) as [E3 O3]; [rewrite E1, E2; lia|].
  rewrite E1, E2 in E3. set (r := uw_add _ _ _) in *. destruct O3 as [O3 O4]. unfold uw_value in E3.
  destruct (uw_neg r); cbn [negb andb]; lia.
Qed.

Lemma truncates_exact z q : length (data z) = n -> (value c z == q)%Q -> truncates c z q.
Proof.
  intros Hl H. unfold truncates. rewrite H. split; [|split].
  - destruct (Qlt_le_dec q 0) as [Hq|Hq].
    + setoid_replace (q * q)%Q with ((-q) * (-q))%Q by ring. apply Qmult_le_0_compat; lra.
    + apply Qmult_le_0_compat; auto.
  - apply Qle_refl.
  - pose proof (ulp_low c z Hl) as U. rewrite U. pose proof (p10_pos (low c (dexp z))). lra.
Qed.

Lemma truncates_compat z q q' : (q == q')%Q -> truncates c z q -> truncates c z q'.
Proof. intros H. unfold truncates. rewrite H. auto. Qed.

Hypothesis Hm : mul_ok c.

Lemma from_ull_exp u : 0 < u < 2 ^ 64 ->
  iszero (from_ull c u) = false /\ 0 <= dexp (from_ull c u) < order_of_builtin_integer u.
Proof.
  intros Hu. destruct (from_ull_int c Hc u ltac:(lia)) as (i & A1 & A2 & A3 & A4 & A5 & A6). cbv zeta in *.
  destruct (A6 ltac:(lia)) as (B1 & B2 & B3 & B4 & B5 & B6).
  split; [unfold iszero; lia|]. pose proof (edc_pos c). rewrite B3. split; [nia|].
  destruct (order_spec u Hu) as [Or1 Or2].
  apply Z.nle_gt. intros Hge.
  assert (10 ^ order_of_builtin_integer u <= P (i - 1)); [|lia].
  rewrite Bpow by lia. apply Z.pow_le_mono_r; [lia|]. unfold edc in *.
  rewrite Nat2Z.inj_sub by lia. lia.
Qed.

Lemma mul_ull_trunc rmem scratch x u : pool_ok c rmem scratch -> normal c x -> iszero x = false ->
  0 < u < 2 ^ 64 -> u < 10 ^ (edc c * elem_number c) ->
  - max_exp10_of (c_expo c) < dexp x -> dexp x + order_of_builtin_integer u < max_exp10_of (c_expo c) ->
  (u < 10 ^ edc c \/ ~ is_nines c x) ->
  exists z, mul_ull c rmem scratch x u = Some z /\ normal c z /\ iszero z = false /\
    truncates c z (value c x * inject_Z u).
Proof.
  intros Hp Hx Zx Hu Hfit Hlo Hhi Hnn. destruct B_64 as (B1 & B2 & B3).
  assert (HmB : 10 ^ edc c = B) by (unfold edc; rewrite mask_pow; auto). rewrite HmB in Hnn.
  destruct (Z.lt_ge_cases u B) as [HuB|HuB].
  - destruct (Z.eq_dec u 1) as [H1|H1].
    + subst u. unfold mul_ull. rewrite (mul_ull_sat (set_neg x false)) by (try apply set_neg_normal; auto).
      change (iszero (set_neg x false)) with (iszero x). rewrite Zx. cbn [orb Z.eqb].
      change (dexp (set_neg x false)) with (dexp x).
      replace (max_exp10_of (c_expo c) <=? dexp x + order_of_builtin_integer 1) with false by lia.
      replace (1 >=? B) with false by lia. eexists; split; [reflexivity|].
      split; [apply set_neg_normal, set_neg_normal; auto|]. split; [auto|].
      destruct (normal_facts c Hc x Hx) as (Lx & _). apply truncates_exact; [auto|].
      rewrite !value_low by auto. cbn [set_neg data dexp dneg]. change (inject_Z 1) with 1%Q. ring.
    + destruct (mul_ull_small c Hc rmem scratch x u Hx Zx) as (z & E1 & E2 & E3 & E4 & _); [lia|auto|].
      exists z. auto.
  - assert (Hnn' : ~ is_nines c x) by (destruct Hnn; [lia|auto]). clear Hnn.
    unfold mul_ull. rewrite (mul_ull_sat (set_neg x false)) by (try apply set_neg_normal; auto).
    change (iszero (set_neg x false)) with (iszero x). rewrite Zx. replace (u =? 0) with false by lia. cbn [orb].
    change (dexp (set_neg x false)) with (dexp x).
    replace (max_exp10_of (c_expo c) <=? dexp x + order_of_builtin_integer u) with false by lia.
    replace (u >=? B) with true by lia.
    replace (set_neg (set_neg x false) (dneg x)) with x by (destruct x; reflexivity).
    destruct (from_ull_exp u Hu) as [Zf Ef]. pose proof (from_ull_normal c Hc u ltac:(lia)) as Hf.
    pose proof (from_ull_exact c Hc u ltac:(lia) Hfit) as Vf.
    assert (NO : ~ is_one c (from_ull c u)).
    { unfold is_one. rewrite Vf. intros H. rewrite Qabs_pos in H by (change 0%Q with (inject_Z 0); rewrite <- Zle_Qle; lia).
      change 1%Q with (inject_Z 1) in H. rewrite (inject_Z_injective u 1) in H. lia. }
    assert (NN : ~ is_nines c (from_ull c u)).
    { unfold is_nines. rewrite Vf. intros H. rewrite Qabs_pos in H by (change 0%Q with (inject_Z 0); rewrite <- Zle_Qle; lia).
      pose proof (p10_pos (- (edc c * elem_number c))) as Hp10.
      assert (Hlt : (inject_Z u < inject_Z 1)%Q) by (change (inject_Z 1) with 1%Q; lra). rewrite <- Zlt_Qlt in Hlt. lia. }
    destruct (mul_nonzero_spec c Hc Hm rmem scratch x (from_ull c u) Hp Hx Hf Zx Zf) as (z & E1 & E2).
    { pose proof (max_exp10_bounds c). pose proof (pow2E c). lia. }
    destruct (isone_sign_neutral c x) eqn:Ox.
    + assert (U1 : is_one c x) by (apply (isone_iff c Hc) in Ox; tauto). unfold is_one in U1.
      destruct E2 as [A1 A2|A1|A1|A1|]; try congruence.
      eexists; split; [exact E1|]. split; [apply set_neg_normal; auto|]. split; [auto|].
      destruct (normal_facts c Hc _ Hf) as (Lf & _).
      apply truncates_exact; [auto|]. pose proof (value_sign c Hc x Hx Zx) as Sx.
      destruct (from_ull_int c Hc u ltac:(lia)) as (i & C1 & C2 & C3 & C4 & _). cbv zeta in *.
      rewrite value_low in Vf by auto. rewrite C4 in Vf. cbn [sgn] in Vf. rewrite Z.mul_1_l in Vf.
      rewrite value_low by auto. cbn [set_neg data dexp dneg]. rewrite C4, xorb_false_r, inject_Z_mult, <- Qmult_assoc, Vf.
      destruct (dneg x); cbn [sgn].
      * rewrite Qabs_neg in U1 by lra. assert (HX : (value c x == -(1))%Q) by lra. rewrite HX. reflexivity.
      * rewrite Qabs_pos in U1 by lra. rewrite U1. reflexivity.
    + assert (U1 : ~ is_one c x).
      { intros H. assert (isone_sign_neutral c x = true) by (apply (isone_iff c Hc); auto). congruence. }
      destruct (mul_trunc c Hc Hm rmem scratch x (from_ull c u) Hp Hx Hf Zx Zf U1 Hnn' NO NN) as (z' & F1 & F2 & F3 & F4); [lia|].
      exists z'. split; [auto|]. split; [auto|]. split; [auto|].
      eapply truncates_compat; [|exact F4]. rewrite Vf. reflexivity.
Qed.

Lemma mul_ull_normal rmem scratch x u : pool_ok c rmem scratch -> normal c x -> 0 <= u < 2 ^ 64 ->
  exists z, mul_ull c rmem scratch x u = Some z /\ normal c z.
Proof.
  intros Hp Hx Hu. destruct (iszero x || (u =? 0)) eqn:Ez.
  { exists (zero c). split; [|apply zero_normal; auto]. unfold mul_ull. change (iszero (set_neg x false)) with (iszero x). rewrite Ez. auto. }
  apply orb_false_iff in Ez. destruct Ez as [Zx Zu].
  destruct (Z.lt_ge_cases (dexp x + order_of_builtin_integer u) (max_exp10_of (c_expo c))) as [Hs|Hs].
  2:{ unfold mul_ull. rewrite (mul_ull_sat (set_neg x false)) by (try apply set_neg_normal; auto; lia).
      change (iszero (set_neg x false)) with (iszero x). rewrite Zx, Zu. cbn [orb].
      change (dexp (set_neg x false)) with (dexp x).
      replace (max_exp10_of (c_expo c) <=? dexp x + order_of_builtin_integer u) with true by lia.
      eexists; split; [reflexivity|]. destruct (negb (dneg x)); [|apply negate_normal]; apply value_max_normal; auto. }
  destruct (Z.lt_ge_cases u B) as [HuB|HuB].
  - destruct (Z.eq_dec u 1) as [H1|H1].
    + subst u. unfold mul_ull. rewrite (mul_ull_sat (set_neg x false)) by (try apply set_neg_normal; auto; lia).
      change (iszero (set_neg x false)) with (iszero x). rewrite Zx. cbn [orb Z.eqb].
      change (dexp (set_neg x false)) with (dexp x).
      replace (max_exp10_of (c_expo c) <=? dexp x + order_of_builtin_integer 1) with false by lia.
      destruct B_64 as (_ & _ & B3). replace (1 >=? B) with false by lia. eexists; split; [reflexivity|].
      apply set_neg_normal, set_neg_normal; auto.
    + destruct (mul_ull_small c Hc rmem scratch x u Hx Zx) as (z & E1 & E2 & E3 & E4 & _); [lia|auto|]. eauto.
  - unfold mul_ull. rewrite (mul_ull_sat (set_neg x false)) by (try apply set_neg_normal; auto; lia).
    change (iszero (set_neg x false)) with (iszero x). rewrite Zx, Zu. cbn [orb].
    change (dexp (set_neg x false)) with (dexp x).
    replace (max_exp10_of (c_expo c) <=? dexp x + order_of_builtin_integer u) with false by lia.
    replace (u >=? B) with true by lia.
    apply (mul_normal c Hc Hm); [auto|repeat apply set_neg_normal; auto|apply from_ull_normal; auto].
Qed.

(** Signed argument. *)
Lemma abs_ucast m : - 2 ^ 63 <= m < 2 ^ 63 ->
  (if negb (m <? 0) then ucast 64 m else negate_u 64 (ucast 64 m)) = Z.abs m.
Proof.
  intros Hm'. change (2 ^ 63) with 9223372036854775808 in *.
  destruct (m <? 0) eqn:Es; cbn [negb].
  - unfold negate_u, ucast. change (2 ^ 64) with 18446744073709551616.
    rewrite <- (Z_mod_plus_full m 1). rewrite (Z.mod_small (m + _)) by lia. rewrite Z.abs_neq by lia.
    rewrite <- (Z_mod_plus_full _ 1). rewrite Z.mod_small by lia. lia.
  - rewrite ucast_id by (change (2 ^ 64) with 18446744073709551616; lia). lia.
Qed.

Lemma truncates_opp z q : normal c z -> truncates c z q -> truncates c (negate z) (- q).
Proof.
  intros Hz (T1 & T2 & T3). unfold truncates.
  assert (U : (ulp c (negate z) == ulp c z)%Q).
  { unfold ulp. rewrite negate_data, negate_exp. reflexivity. }
  rewrite (value_negate c Hc z Hz), U, !Qabs_opp. split; [|auto].
  setoid_replace (- q * - value c z)%Q with (q * value c z)%Q by ring. auto.
Qed.

Lemma mul_sll_trunc rmem scratch x m : pool_ok c rmem scratch -> normal c x -> iszero x = false ->
  - 2 ^ 63 <= m < 2 ^ 63 -> m <> 0 -> Z.abs m < 10 ^ (edc c * elem_number c) ->
  - max_exp10_of (c_expo c) < dexp x -> dexp x + order_of_builtin_integer (Z.abs m) < max_exp10_of (c_expo c) ->
  (Z.abs m < 10 ^ edc c \/ ~ is_nines c x) ->
  exists z, mul_sll c rmem scratch x m = Some z /\ normal c z /\ iszero z = false /\
    truncates c z (value c x * inject_Z m).
Proof.
  intros Hp Hx Zx Hm1 Hm0 Hfit Hlo Hhi Hnn. unfold mul_sll. rewrite abs_ucast by auto.
  destruct (mul_ull_trunc rmem scratch x (Z.abs m) Hp Hx Zx) as (z & E1 & E2 & E3 & E4); auto.
  { change (2 ^ 63) with 9223372036854775808 in *. change (2 ^ 64) with 18446744073709551616. lia. }
  rewrite E1. eexists; split; [reflexivity|]. destruct (m <? 0) eqn:Es; cbn [negb].
  - split; [apply negate_normal; auto|]. split; [rewrite iszero_negate; auto|].
    eapply truncates_compat; [|apply truncates_opp; eauto]. rewrite Z.abs_neq, inject_Z_opp by lia. ring.
  - split; [auto|]. split; [auto|]. eapply truncates_compat; [|exact E4]. rewrite Z.abs_eq by lia. reflexivity.
Qed.

Lemma mul_sll_normal rmem scratch x m : pool_ok c rmem scratch -> normal c x -> - 2 ^ 63 <= m < 2 ^ 63 ->
  exists z, mul_sll c rmem scratch x m = Some z /\ normal c z.
Proof.
  intros Hp Hx Hm1. unfold mul_sll. rewrite abs_ucast by auto.
  destruct (mul_ull_normal rmem scratch x (Z.abs m) Hp Hx) as (z & E1 & E2).
  { change (2 ^ 63) with 9223372036854775808 in *. change (2 ^ 64) with 18446744073709551616. lia. }
  rewrite E1. eexists; split; [reflexivity|]. destruct (negb (m <? 0)); auto. apply negate_normal; auto.
Qed.

(** * Division by an integer below the limb base *)
Lemma div_ull_int bd x u : normal c x -> iszero x = false -> 1 < u < B ->
  let z0 := mkDec (data x) (dexp x) false n in
  exists z1, length (data z1) = n /\ digits_ok B (data z1) /\ nth 0 (data z1) 0 <> 0 /\ dprec z1 = n /\ dneg z1 = false /\
    div_ull c bd x u = Some (if dexp z1 <? - max_exp10_of (c_expo c) then zero c else set_neg z1 (dneg x)) /\
    ((u <= nth 0 (data x) 0 /\ dexp z1 = dexp x /\ V (data z1) = V (data x) / u) \/
     (nth 0 (data x) 0 < u /\ dexp z1 = scast E (dexp x - edc c) /\
      Z.abs (V (data z1) - V (data x) * B / u) <= (B - 1) * B)).
Proof.
  intros Hx Zx Hu z0. unfold div_ull. replace (u =? 0) with false by lia.
  change (iszero (set_neg x false)) with (iszero x). rewrite Zx. replace (u >=? B) with false by lia.
  change (dexp (set_neg x false)) with (dexp x). change (dprec (set_neg x false)) with (dprec x).
  change (data (set_neg x false)) with (data x).
  pose proof (mask_fits L) as Hmf. rewrite (ucl L u) by lia. replace (u >? 1) with true by lia.
  destruct (normal_facts c Hc x Hx) as (Lx & Ox & Px & Fx & Sx & _ & Nx & _). specialize (Nx Zx).
  rewrite Px, Fx, Sx. pose proof (div_loop_n_spec L (data x) u 0 Ox ltac:(lia) ltac:(lia)) as HD.
  destruct (div_loop_n L (data x) u 0) as [r prev]. destruct HD as (Hr & Hok & Hl & ED).
  rewrite Z.mul_0_l, Z.add_0_l in ED. rewrite app_nil_r.
  assert (Hdiv : V (data x) / u = V r) by (symmetry; apply (Z.div_unique _ _ _ prev); lia).
  pose proof (nel_ge4 c Hc) as Hn4. pose proof (edc_pos c) as He.
  assert (Zlx : nth 0 (data x) 0 <> 0) by (unfold iszero in Zx; lia).
  pose proof (lead_range c _ Lx Ox Zlx) as Rgx.
  assert (HPn : P n = B * P (n - 1)) by (rewrite <- pow_succ_nat; do 2 f_equal; lia).
  assert (HPn1 : P (n - 1) = B * P (n - 2)) by (rewrite <- pow_succ_nat; do 2 f_equal; lia).
  pose proof (pow_pos_nat B (n - 2) HB) as HP2.
  assert (Hlead : nth 0 r 0 = 0 <-> nth 0 (data x) 0 < u).
  { destruct (data x) as [|x0 xs] eqn:Edx; [cbn in Lx; lia|]. destruct r as [|r0 rs]; [cbn in Hr, Lx; lia|].
    apply digits_ok_cons in Ox. apply digits_ok_cons in Hok. cbn [nth limbs_value length] in *.
    pose proof (limbs_value_bound B xs HB (proj2 Ox)). pose proof (limbs_value_bound B rs HB (proj2 Hok)).
    replace (length xs) with (n - 1)%nat in * by lia. replace (length rs) with (n - 1)%nat in * by lia.
    set (q := P (n - 1)) in *. set (vx := V xs) in *. set (vr := V rs) in *.
    split; intros H1.
    - subst r0. apply Z.nle_gt. intros Hge. nia.
    - destruct (Z.eq_dec r0 0); auto. exfalso. assert (1 <= r0) by lia.
      assert (F1 : (x0 + 1) * q <= u * q) by (apply Z.mul_le_mono_nonneg_r; lia).
      assert (F2 : 1 * (q * u) <= r0 * (q * u)) by (apply Z.mul_le_mono_nonneg_r; [apply Z.mul_nonneg_nonneg; lia|lia]).
      assert (F3 : 0 <= vr * u) by (apply Z.mul_nonneg_nonneg; lia).
      replace ((r0 * q + vr) * u + prev) with (r0 * (q * u) + vr * u + prev) in ED by ring. lia. }
  destruct (nth 0 r 0 =? 0) eqn:E0.
  - assert (E0' : nth 0 r 0 = 0) by lia. apply Hlead in E0'.
    assert (Hpb : 0 <= prev * B < 2 ^ 64).
    { destruct B_64 as (B1 & B2 & B3). change (2 ^ 64) with (2 ^ 32 * 2 ^ 32). nia. }
    rewrite (ucast_id 64) by lia.
    assert (Hval : 0 <= prev * B / u < B).
    { split; [apply Z.div_pos; lia|apply Z.div_lt_upper_bound; nia]. }
    rewrite ucl by lia. set (vp := prev * B / u) in *.
    destruct (split_last2 r ltac:(lia)) as (d0 & m & a & b & Er & Hlm).
    assert (Hd0 : d0 = 0) by (rewrite Er in E0; cbn [nth] in E0; lia).
    assert (Hlist : firstn (n - 1) (firstn (n - 2) (skipn 1 r) ++ skipn (n - 2) r) ++ vp :: skipn n (firstn (n - 2) (skipn 1 r) ++ skipn (n - 2) r)
                    = m ++ [a; a; vp]).
    { rewrite Er. cbn [skipn].
      assert (A1 : firstn (n - 2) (m ++ [a; b]) = m ++ [a]).
      { replace (m ++ [a; b]) with ((m ++ [a]) ++ [b]) by (rewrite <- app_assoc; auto). apply firstn_app_exact. rewrite app_length. cbn; lia. }
      assert (A2 : skipn (n - 2) (d0 :: m ++ [a; b]) = [a; b]).
      { change (d0 :: m ++ [a; b]) with ((d0 :: m) ++ [a; b]). apply skipn_app_exact. cbn [length]. lia. }
      rewrite A1, A2.
      assert (A3 : firstn (n - 1) ((m ++ [a]) ++ [a; b]) = m ++ [a; a]).
      { replace ((m ++ [a]) ++ [a; b]) with ((m ++ [a; a]) ++ [b]) by (rewrite <- !app_assoc; auto). apply firstn_app_exact. rewrite app_length. cbn; lia. }
      assert (A4 : skipn n ((m ++ [a]) ++ [a; b]) = []).
      { apply skipn_all2. rewrite !app_length. cbn; lia. }
      rewrite A3, A4. rewrite <- app_assoc. reflexivity. }
    rewrite Hlist. clear Hlist.
    rewrite Er in Hok. apply digits_ok_cons in Hok. destruct Hok as [_ Hok]. apply digits_ok_app in Hok. destruct Hok as [Hokm Hokab].
    apply digits_ok_cons in Hokab. destruct Hokab as [Ha Hb]. apply digits_ok_cons in Hb. destruct Hb as [Hb _].
    assert (HVr : V r = V m * (B * B) + a * B + b).
    { rewrite Er, Hd0. cbn [limbs_value]. rewrite limbs_value_app. cbn [length limbs_value]. change (P 0) with 1. change (P 1) with (B ^ 1).
      change (P 2) with (B ^ 2). rewrite Z.pow_1_r, Z.pow_2_r. ring. }
    exists (mkDec (m ++ [a; a; vp]) (scast E (dexp x - ed L)) false n). cbn [data dexp dneg dprec].
    assert (Hm1 : (1 <= length m)%nat) by lia.
    assert (Hm0 : nth 0 (m ++ [a; a; vp]) 0 <> 0).
    { rewrite app_nth1 by lia. intros H0. destruct m as [|m0 m]; [cbn in Hm1; lia|]. cbn [nth] in H0. subst m0.
      apply digits_ok_cons in Hokm. pose proof (limbs_value_bound B m HB (proj2 Hokm)) as Hbm. cbn [length limbs_value] in *.
      assert (HP3 : P (length m) * (B * B) = P (n - 2)).
      { rewrite <- Z.pow_2_r. change 2 with (Z.of_nat 2) at 1. rewrite <- Z.pow_add_r, <- Nat2Z.inj_add by lia. do 2 f_equal. lia. }
      (* V r < P(n-2) but V r >= P(n-1)/u *)
      assert (V r < P (n - 2)) by nia. nia. }
    split; [rewrite app_length; cbn [length]; lia|].
    split; [apply digits_ok_app; split; auto; repeat constructor; lia|].
    split; [auto|]. split; [auto|]. split; [auto|]. split.
    { destruct (scast E (dexp x - ed L) <? - max_exp10_of (c_expo c)); reflexivity. }
    right. split; [auto|]. split; [auto|].
    assert (HV : V (data x) * B / u = V r * B + vp).
    { unfold vp. rewrite <- ED. replace ((V r * u + prev) * B) with (V r * B * u + prev * B) by ring. rewrite Z.div_add_l by lia. auto. }
    rewrite HV, HVr, limbs_value_app. cbn [length limbs_value]. change (P 0) with 1. change (P 1) with (B ^ 1).
    change (P 2) with (B ^ 2). change (P 3) with (B ^ 3). rewrite Z.pow_1_r, Z.pow_2_r.
    replace (B ^ 3) with (B * (B * B)) by ring.
    match goal with |- Z.abs ?t <= _ => replace t with ((a - b) * B) by ring end.
    rewrite Z.abs_mul, (Z.abs_eq B) by lia. apply Z.mul_le_mono_nonneg_r; lia.
  - assert (E0' : nth 0 r 0 <> 0) by lia.
    exists (mkDec r (dexp x) false n). cbn [data dexp dneg dprec].
    split; [lia|]. split; [auto|]. split; [auto|]. split; [auto|]. split; [auto|].
    split; [destruct (dexp x <? - max_exp10_of (c_expo c)); reflexivity|].
    left. split; [|split; [auto|lia]]. apply Z.nlt_ge. intros H. apply Hlead in H. lia.
Qed.

Lemma div_ull_spec bd x u : normal c x -> iszero x = false -> 1 < u < 10 ^ edc c ->
  - max_exp10_of (c_expo c) <= dexp x - edc c ->
  exists z, div_ull c bd x u = Some z /\ normal c z /\ iszero z = false /\
    (u <= nth 0 (data x) 0 -> truncates c z (value c x / inject_Z u)) /\
    (Qabs (value c z - value c x / inject_Z u) < ulp c z * p10 (2 * edc c))%Q.
Proof.
  intros Hx Zx Hu Hlo. assert (HmB : 10 ^ edc c = B) by (unfold edc; rewrite mask_pow; auto). rewrite HmB in Hu.
  destruct (div_ull_int bd x u Hx Zx Hu) as (z1 & A1 & A2 & A3 & A4 & A5 & A6 & A7).
  pose proof (max_exp10_bounds c) as (HM & HM2 & HM3). pose proof (edc_pos c) as He. pose proof (E_ge8 c) as HE.
  pose proof Hx as (_ & _ & _ & Dx & Rx & _). destruct (normal_facts c Hc x Hx) as (Lx & Ox & Px & _ & _ & _ & Nx & _). specialize (Nx Zx).
  assert (Hs : scast E (dexp x - edc c) = dexp x - edc c) by (apply scast_id; lia).
  replace (dexp z1 <? - max_exp10_of (c_expo c)) with false in A6 by (destruct A7 as [(_ & -> & _)|(_ & -> & _)]; lia).
  exists (set_neg z1 (dneg x)). split; [auto|].
  assert (Hz : normal c (set_neg z1 (dneg x))).
  { apply set_neg_normal, normal_intro; auto.
    - destruct A7 as [(_ & -> & _)|(_ & -> & _)]; auto. rewrite Hs. apply Z.divide_sub_r; auto. apply Z.divide_refl.
    - destruct A7 as [(_ & -> & _)|(_ & -> & _)]; lia. }
  split; [auto|]. split; [unfold iszero; cbn [set_neg data]; lia|].
  assert (Hq : (0 < inject_Z u)%Q) by (change 0%Q with (inject_Z 0); rewrite <- Zlt_Qlt; lia).
  assert (Hxu : (value c x / inject_Z u == value c x * / inject_Z u)%Q) by reflexivity.
  assert (Hzl : (value c (set_neg z1 (dneg x)) == inject_Z (sgn (dneg x) * V (data z1)) * p10 (low c (dexp z1)))%Q) by (rewrite value_low by auto; reflexivity).
  assert (Hul : (ulp c (set_neg z1 (dneg x)) == p10 (low c (dexp z1)))%Q) by (rewrite ulp_low by auto; reflexivity).
  pose proof (value_low c x Lx) as Hxl.
  (* |z*u - x| in integer units *)
  assert (Gen : forall (X Z0 D F G : Z), F <= G -> 0 <= X -> 0 <= Z0 ->
     (value c x == inject_Z (sgn (dneg x) * X) * p10 F)%Q ->
     (value c (set_neg z1 (dneg x)) == inject_Z (sgn (dneg x) * Z0) * p10 F)%Q ->
     Z.abs (Z0 * u - X) < D * u -> (Qabs (value c (set_neg z1 (dneg x)) - value c x / inject_Z u) < inject_Z D * p10 F)%Q).
  { intros X Z0 D F G HFG HX HZ EX EZ HD.
    apply Qmult_lt_r with (z := inject_Z u); auto.
    setoid_replace (Qabs (value c (set_neg z1 (dneg x)) - value c x / inject_Z u) * inject_Z u)%Q
      with (Qabs (value c (set_neg z1 (dneg x)) * inject_Z u - value c x))%Q.
    - rewrite EX, EZ. setoid_replace (inject_Z (sgn (dneg x) * Z0) * p10 F * inject_Z u)%Q with (inject_Z (sgn (dneg x) * Z0 * u) * p10 F)%Q by (rewrite !inject_Z_mult; ring).
      rewrite sc_sub, sc_abs. setoid_replace (inject_Z D * p10 F * inject_Z u)%Q with (inject_Z (D * u) * p10 F)%Q by (rewrite !inject_Z_mult; ring).
      apply sc_lt. destruct (dneg x); cbn [sgn]; lia.
    - rewrite <- (Qabs_pos (inject_Z u)) at 2 by lra. rewrite <- Qabs_Qmult. 
      assert (Heq : ((value c (set_neg z1 (dneg x)) - value c x / inject_Z u) * inject_Z u == value c (set_neg z1 (dneg x)) * inject_Z u - value c x)%Q) by (field; lra).
      rewrite Heq. reflexivity. }
  pose proof (limbs_value_bound B (data z1) HB A2) as Hbz.
  destruct A7 as [(C1 & C2 & C3)|(C1 & C2 & C3)].
  - assert (Htr : truncates c (set_neg z1 (dneg x)) (value c x / inject_Z u)).
    { unfold truncates. rewrite Hul.
      assert (HQx : (value c x / inject_Z u == inject_Z (sgn (dneg x)) * (inject_Z (V (data x)) / inject_Z u * p10 (low c (dexp x))))%Q).
      { rewrite Hxl, inject_Z_mult. field. lra. }
      rewrite HQx, Hzl. rewrite C2, C3. set (F := low c (dexp x)). pose proof (p10_pos F) as HF.
      pose proof (Z.div_mod (V (data x)) u ltac:(lia)) as Hdm. pose proof (Z.mod_pos_bound (V (data x)) u ltac:(lia)) as Hmb.
      set (q := V (data x) / u) in *.
      assert (Q1 : (inject_Z q <= inject_Z (V (data x)) / inject_Z u)%Q).
      { apply Qle_shift_div_l; auto. rewrite <- inject_Z_mult, <- Zle_Qle. lia. }
      assert (Q2 : (inject_Z (V (data x)) / inject_Z u < inject_Z (q + 1))%Q).
      { apply Qlt_shift_div_r; auto. rewrite <- inject_Z_mult, <- Zlt_Qlt. lia. }
      set (y := (inject_Z (V (data x)) / inject_Z u)%Q) in *.
      assert (Hq0 : 0 <= q) by (apply Z.div_pos; lia).
      assert (Q0 : (0 <= inject_Z q)%Q) by (change 0%Q with (inject_Z 0); rewrite <- Zle_Qle; auto).
      rewrite inject_Z_plus in Q2. change (inject_Z 1) with 1%Q in Q2.
      assert (S1 : (Qabs (inject_Z (sgn (dneg x)) * (y * p10 F)) == y * p10 F)%Q).
      { rewrite Qabs_Qmult. rewrite (Qabs_pos (y * p10 F)) by (apply Qmult_le_0_compat; lra). destruct (dneg x); cbn [sgn]; change (Qabs (inject_Z (-1))) with 1%Q; change (Qabs (inject_Z 1)) with 1%Q; ring. }
      assert (S2 : (Qabs (inject_Z (sgn (dneg x) * q) * p10 F) == inject_Z q * p10 F)%Q).
      { rewrite sc_abs, sgn_abs by auto. reflexivity. }
      rewrite S1, S2. split; [|split].
      - setoid_replace (inject_Z (sgn (dneg x)) * (y * p10 F) * (inject_Z (sgn (dneg x) * q) * p10 F))%Q with (y * inject_Z q * (p10 F * p10 F))%Q.
        + apply Qmult_le_0_compat; [apply Qmult_le_0_compat; lra|apply Qmult_le_0_compat; lra].
        + rewrite inject_Z_mult. destruct (dneg x); cbn [sgn]; change (inject_Z (-1)) with (-(1))%Q; change (inject_Z 1) with 1%Q; ring.
      - apply Qmult_le_compat_r; lra.
      - setoid_replace (inject_Z q * p10 F + p10 F)%Q with ((inject_Z q + 1) * p10 F)%Q by ring. apply Qmult_lt_r; auto. }
    split; [auto|].
    apply Qlt_le_trans with (inject_Z 1 * p10 (low c (dexp x)))%Q.
    + apply (Gen (V (data x)) (V (data z1)) 1 (low c (dexp x)) (low c (dexp x))); try lia; auto.
      * rewrite Hzl, C2. reflexivity.
      * rewrite C3. pose proof (Z.div_mod (V (data x)) u ltac:(lia)). pose proof (Z.mod_pos_bound (V (data x)) u ltac:(lia)).
        rewrite Z.abs_neq; lia.
    + rewrite Hul, C2, <- p10_add. change (inject_Z 1) with 1%Q. rewrite Qmult_1_l. apply (proj2 (p10_le _ _)). lia.
  - split; [intros; exfalso; lia|].
    rewrite Hs in C2. rewrite Hul, C2.
    apply Qlt_le_trans with (inject_Z (B * B) * p10 (low c (dexp x - edc c)))%Q.
    + apply (Gen (V (data x) * B) (V (data z1)) (B * B) (low c (dexp x - edc c)) (low c (dexp x))); try lia.
      * unfold low; lia.
      * rewrite Hxl. rewrite (scaleZ _ (low c (dexp x)) (low c (dexp x - edc c))) by (unfold low; lia).
        apply sc_eq. rewrite low_sub. replace (dexp x - (dexp x - edc c)) with (edc c) by lia. rewrite HmB. ring.
      * rewrite Hzl, C2. reflexivity.
      * pose proof (Z.div_mod (V (data x) * B) u ltac:(lia)) as Hdm. pose proof (Z.mod_pos_bound (V (data x) * B) u ltac:(lia)) as Hmb.
        set (q := V (data x) * B / u) in *. set (zz := V (data z1)) in *.
        assert (Z.abs ((zz - q) * u) <= (B - 1) * B * u) by (rewrite Z.abs_mul, (Z.abs_eq u) by lia; apply Z.mul_le_mono_nonneg_r; lia).
        replace (zz * u - V (data x) * B) with ((zz - q) * u - (V (data x) * B) mod u) by lia.
        assert (u < B * u) by nia.
        assert ((B - 1) * B * u + u <= B * B * u) by nia. lia.
    + apply Qle_lteq. right. rewrite <- HmB, inject_Z_mult, <- p10_Z by lia. rewrite <- !p10_add.
      replace (edc c + edc c + low c (dexp x - edc c)) with (low c (dexp x - edc c) + 2 * edc c) by ring. reflexivity.
Qed.

Lemma div_ull_normal bd x u : normal c x -> 0 <= u ->
  (forall y w, normal c y -> 10 ^ edc c <= w -> exists z, bd y w = Some z /\ normal c z) ->
  exists z, div_ull c bd x u = Some z /\ normal c z.
Proof.
  intros Hx Hu Hbd. assert (HmB : 10 ^ edc c = B) by (unfold edc; rewrite mask_pow; auto). rewrite HmB in Hbd.
  destruct (Z.eq_dec u 0) as [H0|H0].
  { subst u. exists (zero c). split; [reflexivity|apply zero_normal; auto]. }
  destruct (iszero x) eqn:Zx.
  { exists (set_neg x false). split; [|apply set_neg_normal; auto]. unfold div_ull. replace (u =? 0) with false by lia.
    change (iszero (set_neg x false)) with (iszero x). rewrite Zx. auto. }
  destruct (Z.lt_ge_cases u B) as [HuB|HuB].
  2:{ unfold div_ull. replace (u =? 0) with false by lia. change (iszero (set_neg x false)) with (iszero x). rewrite Zx.
      replace (u >=? B) with true by lia. apply Hbd; auto. }
  destruct (Z.eq_dec u 1) as [H1|H1].
  { subst u. unfold div_ull. change (iszero (set_neg x false)) with (iszero x). rewrite Zx. cbn [Z.eqb].
    replace (1 >=? B) with false by lia. pose proof (mask_fits L). rewrite ucl by lia. cbn [Z.gtb Z.compare Pos.compare Pos.compare_cont].
    eexists. split; [match goal with |- (if ?b then Some ?p else Some ?q) = _ => instantiate (1 := if b then p else q); destruct b; reflexivity end|].
    destruct (_ <? _); [apply zero_normal; auto|repeat apply set_neg_normal; auto]. }
  destruct (div_ull_int bd x u Hx Zx ltac:(lia)) as (z1 & A1 & A2 & A3 & A4 & A5 & A6 & A7).
  rewrite A6. eexists; split; [reflexivity|]. destruct (_ <? _); [apply zero_normal; auto|].
  pose proof Hx as (_ & _ & _ & Dx & Rx & _).
  apply set_neg_normal, normal_intro; auto.
  - destruct A7 as [(_ & -> & _)|(_ & -> & _)]; auto. apply scast_divides, Z.divide_sub_r; auto. apply Z.divide_refl.
  - destruct A7 as [(_ & -> & _)|(_ & -> & _)]; auto. apply scast_range.
Qed.

End I.
