(** Newton2_proofs.v - "2 - q" at a reduced working precision. *)
From Verif Require Export Newton_proofs.
From Coq Require Import Lqa.
Local Open Scope Z_scope.

Section N2.
Variable c : cfg.
Notation L := (c_limb c).
Notation B := (mask L).
Notation V := (limbs_value B).
Notation ok := (digits_ok B).
Notation P n := (B ^ Z.of_nat n).
Notation E := (ebits (c_expo c)).
Notation n := (nel c).
Notation M := (max_exp10_of (c_expo c)).
Notation wk := (wk c).
Notation mag := (mag c).
Notation eta := (eta c).
Hypothesis Hc : cfg_ok c.
Let HB : 0 < B := mask_pos L.

Lemma not_all_zero l : nth 0 l 0 <> 0 -> forallb (fun x => x =? 0) l = false.
Proof. destruct l as [|l0 l]; intros Hl; [cbn in Hl; lia|]. cbn in *. destruct (l0 =? 0) eqn:El; auto. lia. Qed.

Lemma lead_pos r p : length r = S p -> ok r -> P p <= V r -> nth 0 r 0 <> 0.
Proof.
  intros Hl Ho Hv. destruct r as [|d r]; [discriminate|]. cbn [nth]. intros ->. apply digits_ok_cons in Ho.
  pose proof (limbs_value_bound B r HB (proj2 Ho)) as Hb. cbn [limbs_value length] in *. replace (length r) with p in * by lia. lia.
Qed.
Lemma lead_zero r p : length r = S p -> ok r -> V r < P p -> nth 0 r 0 = 0.
Proof.
  intros Hl Ho Hv. destruct r as [|d r]; [discriminate|]. cbn [nth]. apply digits_ok_cons in Ho.
  pose proof (limbs_value_bound B r HB (proj2 Ho)) as Hb. cbn [limbs_value length] in *. replace (length r) with p in * by lia.
  pose proof (pow_pos_nat B p HB). assert (d < 1) by (apply Z.nle_gt; intros C; apply (Z.mul_le_mono_nonneg_r _ _ (P p)) in C; lia). lia.
Qed.

Lemma scast_ed : scast E (0 - scast E (scast E (Z.of_nat 1) * ed L)) = - edc c.
Proof. unfold edc. destruct L, (c_expo c); reflexivity. Qed.

Lemma justp_spec r p s k : (2 <= p <= n)%nat -> length r = p -> ok r -> P (p - 2) <= V r ->
  let z := justify c (mkDec (r ++ repeat 0 (n - p)) 0 s k) p in
  wk z /\ ok (data z) /\ dneg z = s /\ dprec z = k /\
  (dexp z = 0 /\ P (p - 1) <= V r /\ data z = r ++ repeat 0 (n - p) \/ dexp z = - edc c /\ V r < P (p - 1) /\ data z = tl r ++ repeat 0 (n - p) ++ [0]) /\
  (mag z == inject_Z (V r) * p10 (lowp c p 0))%Q.
Proof.
  intros Hp Hl Ho Hv. cbv zeta. unfold justify. cbn [data dexp dneg dprec]. rewrite firstn_app_exact by auto.
  assert (Od : ok (r ++ repeat 0 (n - p))) by (apply digits_ok_app; split; auto; apply digits_ok_repeat0; auto).
  assert (Ld : length (r ++ repeat 0 (n - p)) = n) by (rewrite app_length, repeat_length; lia).
  pose proof (edc_pos c) as He.
  assert (Mr : (inject_Z (V r) * p10 (lowp c p 0) == inject_Z (V r * P (n - p)) * p10 (low c 0))%Q).
  { destruct (low_lowp c p 0 ltac:(lia)) as [H1 H2]. rewrite (scaleZ _ _ _ H1), H2, Bpow by lia. reflexivity. }
  assert (Vd : V (r ++ repeat 0 (n - p)) = V r * P (n - p)) by (rewrite limbs_value_app, limbs_value_repeat0, repeat_length; lia).
  destruct (Z_le_gt_dec (P (p - 1)) (V r)) as [C|C].
  - assert (Z0 : nth 0 r 0 <> 0) by (apply (lead_pos r (p - 1)); auto; lia).
    assert (S0 : count_lead0 r = 0%nat).
    { destruct r as [|d r]; [reflexivity|]. cbn [nth count_lead0] in *. replace (d =? 0) with false by lia. reflexivity. }
    rewrite S0. cbn [Nat.eqb]. cbn [data].
    assert (Z1 : nth 0 (r ++ repeat 0 (n - p)) 0 <> 0) by (rewrite app_nth1; auto; lia).
    rewrite not_all_zero by auto. cbn [data dexp dneg dprec].
    split; [split; [auto|]; split; [left; auto|]; split; [auto|apply Z.divide_0_r]|].
    split; auto. split; auto. split; auto. split; [left; auto|].
    unfold mag. cbn [data dexp]. rewrite Vd, Mr. reflexivity.
  - assert (Z0 : nth 0 r 0 = 0) by (apply (lead_zero r (p - 1)); auto; lia).
    destruct r as [|d r]; [cbn in Hl; lia|]. cbn [nth] in Z0. subst d. cbn [length] in Hl.
    cbn [limbs_value] in *. rewrite Z.mul_0_l, Z.add_0_l in *. pose proof Ho as Ho2. apply digits_ok_cons in Ho2. destruct Ho2 as [_ Or].
    assert (Z1 : nth 0 r 0 <> 0) by (apply (lead_pos r (p - 2)); auto; lia).
    assert (S1 : count_lead0 (0 :: r) = 1%nat).
    { cbn [count_lead0 Z.eqb]. destruct r as [|d r]; [cbn in Z1; lia|]. cbn [nth count_lead0] in *. replace (d =? 0) with false by lia. reflexivity. }
    rewrite S1. change (1 =? 0)%nat with false. cbv iota. cbn [length]. replace (1 =? S (length r))%nat with false by (symmetry; apply Nat.eqb_neq; lia).
    cbn [data]. rewrite scast_ed. cbn [skipn app repeat]. rewrite <- app_assoc.
    assert (Z2 : nth 0 (r ++ repeat 0 (n - p) ++ [0]) 0 <> 0) by (rewrite app_nth1; auto; lia).
    rewrite not_all_zero by auto. cbn [data dexp dneg dprec].
    assert (Od2 : ok (r ++ repeat 0 (n - p) ++ [0])).
    { apply digits_ok_app. split; auto. apply digits_ok_app. split; [apply digits_ok_repeat0; auto|]. apply (digits_ok_repeat0 B 1); auto. }
    split; [split; [cbn [data]; rewrite !app_length, repeat_length; cbn [length]; lia|]; split; [left; auto|]; split; [auto|apply Z.divide_opp_r, Z.divide_refl]|].
    split; auto. split; auto. split; auto. split; [right; split; auto; split; auto; cbn [length] in *; lia|].
    unfold mag. cbn [data dexp]. rewrite Mr. rewrite limbs_value_app, app_length, repeat_length. cbn [length].
    rewrite limbs_value_app, limbs_value_repeat0. cbn [limbs_value length]. rewrite Z.mul_0_l, !Z.add_0_r.
    replace (low c (- edc c)) with (low c 0 - edc c) by (unfold low; ring).
    rewrite (scaleZ (V r * P (n - p)) (low c 0) (low c 0 - edc c)) by lia.
    replace (low c 0 - (low c 0 - edc c)) with (edc c) by ring. rewrite Nat.add_comm. cbn [Nat.add]. rewrite pow_succ_nat.
    replace (10 ^ edc c) with B by (rewrite mask_pow; reflexivity).
    replace (V r * (B * P (n - p))) with (V r * P (n - p) * B) by ring. reflexivity.
Qed.

Lemma ofs_two0 : uw_sub E (uw_make E 0) (uw_make E 0) = mkUW false 0.
Proof. destruct (c_expo c); reflexivity. Qed.
Lemma ofs_two1 : uw_sub E (uw_make E 0) (uw_make E (- edc c)) = mkUW false (edc c).
Proof. unfold edc. destruct L, (c_expo c); reflexivity. Qed.

Lemma delta_p p : (2 <= p <= n)%nat -> ucast E (scast E (scast E (Z.of_nat p) * ed L)) = Z.of_nat p * edc c.
Proof.
  intros Hp. destruct Hc as [_ H]. pose proof (nel_Z c Hc). pose proof (E_ge8 c). pose proof (edc_pos c). pose proof (pow2E c).
  fold (edc c). assert (Z.of_nat p * edc c <= elem_number c * edc c) by nia. assert (Z.of_nat p <= Z.of_nat p * edc c) by nia.
  rewrite (scast_id E (Z.of_nat p)) by lia. rewrite scast_id by lia. rewrite ucast_id by lia. auto.
Qed.

Lemma sub_two_spec q p : wk q -> ok (data q) -> dneg q = false -> dprec q = p -> (2 <= p <= n)%nat ->
  (dexp q = 0 \/ dexp q = - edc c) -> (mag q <= 3 # 2)%Q ->
  let s := sub c (two c) q in
  wk s /\ ok (data s) /\ dneg s = false /\ dprec s = n /\ (dexp s = 0 \/ dexp s = - edc c) /\
  (2 - mag q <= mag s)%Q /\ (mag s < 2 - mag q + eta p)%Q /\
  (isone_sign_neutral c s = true -> dexp q = 0 /\ V (firstn p (data q)) = P (p - 1)).
Proof.
  intros Hq Oq Nq Pq Hp Dq Mq. cbv zeta. pose proof (nel_ge4 c Hc) as Hn4. pose proof (edc_pos c) as He. pose proof (B_gt9 c) as H9.
  pose proof Hq as (Lq & _ & Zq & _).
  set (d2 := 2 :: repeat 0 (n - 1)).
  assert (E2 : two c = mkDec d2 0 false n).
  { unfold two, from_lst. cbn [length]. replace (1 <? n)%nat with true by (symmetry; apply Nat.ltb_lt; lia). reflexivity. }
  assert (Ld2 : length d2 = n) by (unfold d2; cbn [length]; rewrite repeat_length; lia).
  assert (Od2 : ok d2) by (apply digits_ok_cons; split; [lia|apply digits_ok_repeat0; auto]).
  assert (Fd2 : firstn p d2 = 2 :: repeat 0 (p - 1) /\ skipn p d2 = repeat 0 (n - p)).
  { unfold d2. destruct p as [|p']; [lia|]. cbn [firstn skipn]. replace (S p' - 1)%nat with p' by lia.
    replace (n - 1)%nat with (p' + (n - S p'))%nat by lia. rewrite repeat_app, firstn_app_exact, skipn_app_exact by apply repeat_length. auto. }
  destruct Fd2 as [Fd Sd].
  assert (Vd : V (firstn p d2) = 2 * P (p - 1)) by (rewrite Fd; cbn [limbs_value]; rewrite limbs_value_repeat0, repeat_length; lia).
  assert (Of : ok (firstn p d2)) by (apply digits_ok_firstn; auto).
  assert (Lf : length (firstn p d2) = p) by (rewrite firstn_length; lia).
  pose proof (pow_pos_nat B (p - 2) HB) as HP2. assert (HP1 : P (p - 1) = B * P (p - 2)) by (rewrite <- pow_succ_nat; do 2 f_equal; lia).
  (* the truncated q as an integer over 10^lowp *)
  assert (K : exists m a, length m = n /\ ok m /\ a = V (firstn p m) /\
     add c (negate (two c)) q = justify c (mkDec (fst (sub_n L (firstn p d2) (firstn p m)) ++ repeat 0 (n - p)) 0 true n) p /\
     (inject_Z a * p10 (lowp c p 0) <= mag q)%Q /\ (mag q < inject_Z (a + 1) * p10 (lowp c p 0))%Q /\
     (2 * a <= 3 * P (p - 1)) /\ (a = P (p - 1) -> dexp q = 0 /\ V (firstn p (data q)) = P (p - 1))).
  { rewrite E2. unfold negate, iszero. cbn [data nth d2]. change (2 =? 0) with false. cbv iota. cbn [dexp dneg dprec negb]. fold d2.
    unfold add. rewrite (wk_iszero c q Hq). unfold iszero. cbn [data dexp dneg dprec nth d2]. change (2 =? 0) with false. cbv iota. fold d2.
    rewrite Pq, Nat.min_r by lia. rewrite delta_p by auto. rewrite Nq. cbn [eqb].
    assert (A32 : forall a, (inject_Z a * p10 (lowp c p 0) <= mag q)%Q -> 2 * a <= 3 * P (p - 1)).
    { intros a Ha. assert (H : (inject_Z (2 * a) * p10 (lowp c p 0) <= inject_Z (3 * P (p - 1)) * p10 (lowp c p 0))%Q).
      { rewrite !inject_Z_mult, Bp10. rewrite <- (Qmult_assoc (inject_Z 3)), <- p10_add. replace (edc c * Z.of_nat (p - 1) + lowp c p 0) with 0.
        - rewrite p10_0. change (inject_Z 2) with 2%Q. change (inject_Z 3) with 3%Q. lra.
        - unfold lowp. rewrite Nat2Z.inj_sub by (clear - Hp; lia). change (Z.of_nat 1) with 1. ring. }
      apply sc_le in H. auto. }
    destruct Dq as [Dq|Dq]; rewrite Dq.
    - rewrite ofs_two0. cbn [uw_neg uw_val negb andb orb]. replace (0 >=? Z.of_nat p * edc c) with false by nia.
      cbv iota. change (0 / ed L) with 0. unfold add_diff_sign. cbn [data dexp dneg dprec]. change (0 >? 0) with false. change (0 =? 0) with true. cbn [orb andb].
      destruct (mag_prefix c q p Hq ltac:(lia)) as (A1 & A2 & A3 & _). rewrite Dq in *.
      pose proof (A32 _ A2) as A4.
      rewrite (compare_ranges_spec L) by (auto; try (apply digits_ok_firstn; auto); rewrite !firstn_length; lia).
      rewrite Vd. replace (2 * P (p - 1) ?= V (firstn p (data q))) with Gt by (symmetry; apply Z.compare_gt_iff; nia). cbv iota.
      change (1 >? 0) with true. cbv iota.
      change (Z.to_nat 0) with 0%nat. unfold shift_down. cbn [repeat app]. rewrite Nat.sub_0_r, (firstn_all (data q)).
      rewrite Sd. exists (data q), (V (firstn p (data q))). repeat split; auto.
    - rewrite ofs_two1. cbn [uw_neg uw_val negb andb orb]. replace (edc c >=? Z.of_nat p * edc c) with false by nia.
      cbv iota. change (edc c / ed L) with (ed L / ed L). rewrite Z.div_same by (pose proof (ed_pos L); lia).
      unfold add_diff_sign. cbn [data dexp dneg dprec]. change (1 >? 0) with true. cbn [orb]. rewrite Sd.
      change (Z.to_nat 1) with 1%nat. destruct (shift_down_spec B 1 (data q) HB Oq ltac:(lia)) as (S1 & S2 & _).
      exists (shift_down 1 (data q)), (V (firstn p (shift_down 1 (data q)))).
      split; [lia|]. split; [auto|]. split; [auto|]. split; [reflexivity|].
      assert (Fs : V (firstn p (shift_down 1 (data q))) = V (firstn (p - 1) (data q))).
      { unfold shift_down. cbn [repeat app]. destruct p as [|p']; [lia|]. cbn [firstn limbs_value]. rewrite Z.mul_0_l, Z.add_0_l.
        rewrite firstn_firstn, Nat.min_l by lia. do 2 f_equal. lia. }
      rewrite Fs. destruct (mag_prefix c q (p - 1) Hq ltac:(lia)) as (A1 & A2 & A3 & _). rewrite Dq in *.
      assert (El : lowp c (p - 1) (- edc c) = lowp c p 0).
      { unfold lowp. rewrite Nat2Z.inj_sub by (clear - Hp; lia). change (Z.of_nat 1) with 1. ring. }
      rewrite El in *. split; [auto|]. split; [auto|]. split; [apply A32; auto|].
      intros Ha. exfalso. pose proof (limbs_value_bound B _ HB (digits_ok_firstn B (p - 1) _ Oq)) as Hb. rewrite firstn_length, Nat.min_l in Hb by lia. lia. }
  destruct K as (m & a & Lm & Om & Ea & EA & A2 & A3 & A4 & A5).
  assert (Lfm : length (firstn p m) = p) by (rewrite firstn_length; lia).
  destruct (sub_n_ge L (firstn p d2) (firstn p m)) as (R1 & R2 & R3 & _); [lia|auto|apply digits_ok_firstn; auto|lia|].
  set (r := fst (sub_n L (firstn p d2) (firstn p m))) in *.
  destruct (justp_spec r p true n Hp) as (J1 & J2 & J3 & J4 & J5 & J6); [lia|auto|nia|].
  rewrite <- EA in *. set (y := add c (negate (two c)) q) in *.
  assert (Sy : sub c (two c) q = mkDec (data y) (dexp y) false (dprec y)).
  { unfold sub. fold y. unfold negate. rewrite (wk_iszero c y J1). rewrite J3. reflexivity. }
  rewrite Sy. cbn [data dexp dneg dprec].
  assert (My : (mag (mkDec (data y) (dexp y) false (dprec y)) == 2 - inject_Z a * p10 (lowp c p 0))%Q).
  { change (mag (mkDec (data y) (dexp y) false (dprec y))) with (mag y). rewrite J6. rewrite R1, Vd, <- Ea.
    unfold Z.sub. rewrite inject_Z_plus, inject_Z_opp, inject_Z_mult, Bp10. 
    setoid_replace ((inject_Z 2 * p10 (edc c * Z.of_nat (p - 1)) + - inject_Z a) * p10 (lowp c p 0))%Q
      with (inject_Z 2 * (p10 (edc c * Z.of_nat (p - 1)) * p10 (lowp c p 0)) - inject_Z a * p10 (lowp c p 0))%Q by ring.
    rewrite <- p10_add. replace (edc c * Z.of_nat (p - 1) + lowp c p 0) with 0.
    - rewrite p10_0. change (inject_Z 2) with 2%Q. ring.
    - unfold lowp. rewrite Nat2Z.inj_sub by (clear - Hp; lia). change (Z.of_nat 1) with 1. ring. }
  assert (Ee : (p10 (lowp c p 0) == eta p)%Q) by (unfold eta, lowp; rewrite Z.sub_0_l; reflexivity).
  rewrite inject_Z_plus in A3. change (inject_Z 1) with 1%Q in A3.
  split; [exact J1|]. split; [auto|]. split; [auto|]. split; [auto|]. split; [tauto|].
  rewrite My. split; [lra|]. split; [lra|].
  intros Hi. change (isone_sign_neutral c y = true) in Hi.
  destruct (isone_mag c Hc y J1) as [_ [[I1 I2]|[I1 I2]]]; auto.
  - destruct J5 as [[-> _]|[-> _]]; pose proof (E_ge8 c); pose proof (Z.pow_le_mono_r 2 7 (E - 1)); lia.
  - apply A5. rewrite J6, R1, Vd, <- Ea in I1. rewrite <- p10_0 in I1. destruct (low_lowp c p 0 ltac:(lia)) as [H1 H2].
    rewrite (p10_scale 0 (lowp c p 0)) in I1 by (unfold lowp; nia). apply sc_eq in I1.
    replace (0 - lowp c p 0) with (ed L * Z.of_nat (p - 1)) in I1; [rewrite <- Bpow in I1 by lia; lia|].
    unfold lowp, edc. rewrite Nat2Z.inj_sub by (clear - Hp; lia). change (Z.of_nat 1) with 1. ring.
  - exfalso. (* all nines needs a full last limb, but the last limb is zero *)
    destruct J5 as [[J5 _]|(J5 & J7 & J8)]; [lia|].
    unfold isone_sign_neutral in Hi. rewrite J5, J8 in Hi. change (ed L) with (edc c) in Hi.
    replace (- edc c =? 0) with false in Hi by lia. rewrite andb_false_r in Hi.
    replace (- edc c =? - edc c) with true in Hi by lia. rewrite andb_true_r in Hi.
    destruct (nth 0 (tl r ++ repeat 0 (n - p) ++ [0]) 0 =? B - 1); [|discriminate].
    destruct r as [|r0 [|r1 r]]; [cbn in R2; lia|cbn in R2; lia|]. cbn [tl app] in Hi. rewrite !forallb_app in Hi. cbn [forallb] in Hi.
    replace (0 =? B - 1) with false in Hi by lia. rewrite !andb_false_r in Hi. discriminate.
Qed.
End N2.
