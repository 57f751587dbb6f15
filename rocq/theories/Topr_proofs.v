(** Topr_proofs.v - limb multiplication when the right factor is the un-normalised array
    [B; 0; ...; 0]: the product of a number by a reciprocal that was left un-normalised. *)
From Verif Require Export Top_proofs.
Local Open Scope Z_scope.

Section T.
Variable L : limb_t.
Notation B := (mask L).
Notation V := (limbs_value B).
Notation ok := (digits_ok B).
Notation P n := (B ^ Z.of_nat n).
Let HB : 0 < B := mask_pos L.

Lemma row_loop_zero d k w : 0 <= d < B -> ok w -> length w = k -> row_loop L d (repeat 0 k) w = (w, 0).
Proof.
  intros Hd Hw <-. induction w as [|y w IH]; [reflexivity|]. apply digits_ok_cons in Hw. cbn [length repeat row_loop].
  rewrite IH by tauto. rewrite Z.mul_0_r. assert (U0 : ucast (dbits L) 0 = 0) by (apply Bsq; nia).
  rewrite U0. change (0 + 0) with 0. rewrite U0. rewrite Z.add_0_l. rewrite (Bsq L y) by nia.
  rewrite Z.mod_small, Z.div_small by lia. rewrite U0, ucl by lia. reflexivity.
Qed.

Lemma row_loop_right d m w : 0 <= d < B -> ok w -> length w = S m -> row_loop L d (B :: repeat 0 m) w = (w, d).
Proof.
  intros Hd Hw Hl. destruct w as [|y w]; [discriminate|]. apply digits_ok_cons in Hw. cbn [length row_loop] in *.
  rewrite row_loop_zero by (try tauto; lia). rewrite Z.add_0_l. rewrite (Bsq L (d * B)) by nia. rewrite (Bsq L (d * B)) by nia.
  rewrite (Bsq L (d * B + y)) by nia. rewrite Z.div_add_l, (Z.div_small y B) by lia. rewrite Z.add_0_r.
  replace (d * B + y) with (y + d * B) by ring. rewrite Z.mod_add, Z.mod_small by lia. rewrite (Bsq L d) by nia. rewrite ucl by lia. reflexivity.
Qed.

Lemma rows_right a m : ok a -> length a = S m -> forall k, (k <= S m)%nat ->
  mul_rows L a (B :: repeat 0 m) k (repeat 0 k ++ skipn k a ++ repeat 0 (S m)) = Some (a ++ repeat 0 (S m)).
Proof.
  intros Ha Hl. induction k as [|k IH]; intros Hk; [reflexivity|]. cbn [mul_rows].
  rewrite (nth_error_nth' a 0) by lia. cbn [length]. rewrite !app_length, !repeat_length, skipn_length.
  replace (k + 1 + S m <=? S k + (length a - S k + S m))%nat with true by (symmetry; apply Nat.leb_le; lia).
  assert (Sk : skipn (k + 1) (repeat 0 (S k) ++ skipn (S k) a ++ repeat 0 (S m)) = skipn (S k) a ++ repeat 0 (S m)).
  { apply skipn_app_exact. rewrite repeat_length. lia. }
  rewrite Sk.
  assert (Hd : 0 <= nth k a 0 < B) by (eapply Forall_forall in Ha; [exact Ha|]; apply nth_In; lia).
  assert (Ow : ok (firstn (S m) (skipn (S k) a ++ repeat 0 (S m)))).
  { apply digits_ok_firstn, digits_ok_app. split; [apply digits_ok_skipn; auto|apply digits_ok_repeat0; auto]. }
  rewrite row_loop_right by (auto; rewrite firstn_length, app_length, repeat_length, skipn_length; lia).
  rewrite ucl by lia.
  replace (repeat 0 (S k)) with (repeat 0 k ++ [0]) by (rewrite <- repeat_cons; reflexivity).
  rewrite <- app_assoc, firstn_app_exact by apply repeat_length.
  assert (Sk2 : skipn (k + 1 + S m) (repeat 0 k ++ [0] ++ skipn (S k) a ++ repeat 0 (S m)) = skipn (S m) (skipn (S k) a ++ repeat 0 (S m))).
  { rewrite app_assoc, skipn_app. rewrite skipn_all2 by (rewrite app_length, repeat_length; cbn [length]; lia).
    rewrite app_length, repeat_length. cbn [length app]. f_equal. lia. }
  rewrite Sk2, firstn_skipn.
  specialize (IH ltac:(lia)). 
  assert (Sa : skipn k a = nth k a 0 :: skipn (S k) a).
  { clear - Hl Hk. revert k m Hl Hk. induction a as [|x a IHa]; intros k m Hl Hk; [cbn in *; lia|]. destruct k as [|k]; [reflexivity|].
    cbn [skipn nth length] in *. destruct m; [lia|]. apply IHa with m; lia. }
  rewrite Sa in IH. cbn [app] in IH. exact IH.
Qed.

Lemma rows_right_spec a m : ok a -> length a = S m ->
  exists r, mul_school_rows L a (B :: repeat 0 m) = Some r /\ length r = (2 * S m)%nat /\ ok r /\ V r = V a * V (B :: repeat 0 m).
Proof.
  intros Ha Hl. unfold mul_school_rows. pose proof (rows_right a m Ha Hl (S m) ltac:(lia)) as R.
  rewrite skipn_all2 in R by lia. cbn [app] in R. rewrite <- repeat_app in R. rewrite Hl.
  replace (S m + S m)%nat with (2 * S m)%nat in R by lia. rewrite R. eexists. split; [reflexivity|].
  split; [rewrite app_length, repeat_length; lia|]. split; [apply digits_ok_app; split; auto; apply digits_ok_repeat0; auto|].
  rewrite limbs_value_app, limbs_value_repeat0, repeat_length. cbn [limbs_value]. rewrite limbs_value_repeat0, repeat_length, pow_succ_nat. ring.
Qed.

Lemma psum_swap a b ps : psum a b ps = psum b a (map (fun p => (snd p, fst p)) ps).
Proof. induction ps as [|[i k] q IH]; [reflexivity|]. cbn [psum map fold_right fst snd]. fold (psum a b q). fold (psum b a (map (fun p => (snd p, fst p)) q)). rewrite IH. ring. Qed.

Lemma cols_right_spec a m : ok a -> length a = S m ->
  exists r, mul_school_cols L a (B :: repeat 0 m) = Some r /\ length r = (2 * S m)%nat /\ ok r /\ V r = V a * V (B :: repeat 0 m).
Proof.
  intros Ok La. set (b := B :: repeat 0 m).
  assert (Lb : length b = S m) by (unfold b; cbn [length]; rewrite repeat_length; auto).
  unfold mul_school_cols. fold (all_cols (length a)).
  destruct (col_columns_gen L a b (all_cols (length a)) 0 [])
    as (acc & carry & E & Hok & Hc & Hlen & HV); auto; try lia.
  - eapply Forall_impl; [|exact Ok]. cbn. intros; lia.
  - unfold b. constructor; [lia|]. apply Forall_forall. intros x Hx. apply repeat_spec in Hx. lia.
  - intros ps i k Hin Hik. unfold all_cols in Hin. apply in_app_or in Hin.
    destruct Hin as [Hin|Hin]; apply in_map_iff in Hin; destruct Hin as (j & <- & Hj);
      apply in_rev, in_seq in Hj.
    + unfold low_pairs in Hik. apply in_map_iff in Hik. destruct Hik as (i' & [= <- <-] & Hi').
      apply in_rev, in_seq in Hi'. rewrite La in *. cbv beta in *. lia.
    + unfold high_pairs in Hik. apply in_map_iff in Hik. destruct Hik as (i' & [= <- <-] & Hi').
      apply in_rev, in_seq in Hi'. rewrite La in *. cbv beta in *. lia.
  - intros ps Hin. rewrite psum_swap. apply (psum_top L m a _ Ok). rewrite map_map. cbn [fst snd].
    unfold all_cols in Hin. apply in_app_or in Hin.
    destruct Hin as [Hin|Hin]; apply in_map_iff in Hin; destruct Hin as (j & <- & Hj); apply in_rev, in_seq in Hj.
    + unfold low_pairs. rewrite map_map. cbn [snd]. rewrite map_rev. apply NoDup_rev.
      rewrite La in *.
      assert (forall q s, (j <= s)%nat -> (s + q <= S m)%nat -> NoDup (map (fun i => (S m - 1 - (i - j))%nat) (seq s q))) as H.
      { induction q as [|q IH]; intros s Hs0 Hs; cbn [seq map]; constructor; [|apply IH; lia].
        intros H. apply in_map_iff in H. destruct H as (x & Hx & Hx2). apply in_seq in Hx2. lia. }
      apply H; lia.
    + unfold high_pairs. rewrite map_map. cbn [snd]. rewrite map_id. apply NoDup_rev, seq_NoDup.
  - constructor.
  - rewrite E. rewrite all_cols_sum in HV by lia. cbn [limbs_value length] in *.
    assert (Hlc : length (all_cols (length a)) = (2 * length a - 1)%nat).
    { unfold all_cols. rewrite app_length, !map_length, !rev_length, !seq_length. lia. }
    rewrite Hlc in Hlen. rewrite ucl by lia. exists (carry :: acc).
    split; [reflexivity|]. split; [cbn [length]; lia|]. split; [apply digits_ok_cons; auto|].
    cbn [limbs_value]. change (B ^ Z.of_nat 0) with 1 in HV. lia.
Qed.

Lemma school_okB_spec a b : ok a -> okA L b -> length a = length b -> (1 <= length a)%nat ->
  (L = U8 \/ school_fits L (length a)) ->
  exists r, mul_school L a b = Some r /\ length r = (2 * length a)%nat /\ ok r /\ V r = V a * V b.
Proof.
  intros Ha [Hb|Hb] Hl Hn Hf; [apply mul_school_spec; auto|].
  remember (length b - 1)%nat as m. assert (Hm : length a = S m) by lia. rewrite Hm in *. rewrite Hb.
  unfold mul_school. destruct L eqn:EL; rewrite <- EL in *;
    [apply rows_right_spec|apply cols_right_spec|apply cols_right_spec]; auto; lia.
Qed.

Lemma absdiff_okB t p w s off x y : t = p ++ w ++ s -> length p = off -> length w = length x ->
  length x = length y -> okA L (y ++ x) -> (1 <= length x)%nat -> ok w ->
  exists w', kara_absdiff L t off x y = Some (p ++ w' ++ s) /\ length w' = length w /\ okA L w' /\
   (compare_ranges x y <> 0 -> V w' * compare_ranges x y = V x - V y) /\
   (compare_ranges x y = 0 -> V x = V y).
Proof.
  intros Ht Hp Hw Hxy Ha Hx1 Ho. destruct Ha as [Ha|Ha].
  - apply digits_ok_app in Ha. destruct Ha as [Oy Ox].
    destruct (kara_absdiff_spec L t p w s off x y) as (w' & E1 & E2 & E3 & E4); auto.
    exists w'. split; auto. split; auto. split; [left; auto|auto].
  - rewrite app_length, Hxy in Ha. set (m := (length x - 1)%nat).
    replace (length y + length y - 1)%nat with (m + S m)%nat in Ha by lia. rewrite repeat_app in Ha.
    change (B :: repeat 0 m ++ repeat 0 (S m)) with ((B :: repeat 0 m) ++ repeat 0 (S m)) in Ha.
    assert (E0 : y = B :: repeat 0 m /\ x = repeat 0 (S m)).
    { apply app_inj_len in Ha; auto. cbn [length]. rewrite repeat_length. unfold m. lia. }
    destruct E0 as [Ey Ex]; clearbody m; subst x y. cbn [length] in *. rewrite repeat_length in *.
    assert (C : compare_ranges (repeat 0 (S m)) (B :: repeat 0 m) = -1).
    { cbn [repeat compare_ranges]. replace (0 =? B) with false by lia. replace (0 >? B) with false by lia. reflexivity. }
    unfold kara_absdiff. rewrite C. change (-1 =? 1) with false. change (-1 =? -1) with true. cbv iota. rewrite sub_n_top. cbn [fst].
    rewrite Ht, wrsl_app by (auto; cbn [length]; rewrite repeat_length; lia).
    exists (B :: repeat 0 m). split; [auto|]. split; [cbn [length]; rewrite repeat_length; lia|].
    split; [right; cbn [length]; rewrite repeat_length; do 2 f_equal; lia|]. rewrite limbs_value_repeat0. split; lia.
Qed.

Theorem kara_okB_spec n : kara_size n -> forall fuel r a b t,
  (n <= fuel)%nat -> length r = (2 * n)%nat -> length a = n -> length b = n -> ok a -> okA L b ->
  (4 * n <= length t)%nat ->
  exists r' t', kara fuel L r a b n t = Some (r', t') /\ length r' = (2 * n)%nat /\ ok r' /\
                length t' = length t /\ V r' = V a * V b.
Proof.
  induction 1 as [n Hn|nh Hnh Hks IH]; intros fuel r a b t Hfuel Hr Hla Hlb Ha Hb Ht.
  - destruct fuel as [|fuel]; [lia|]. cbn [kara].
    replace (n <=? 32)%nat with true by (symmetry; apply Nat.leb_le; lia).
    rewrite !rdsl_all by auto.
    destruct (school_okB_spec a b) as (p & E & Hlp & Hokp & HV); auto; try lia.
    { apply school_fits_32. lia. }
    rewrite E. rewrite wrsl_all by lia. exists p, t. repeat split; auto. lia.
  - set (n := (2 * nh)%nat) in *.
    destruct fuel as [|fuel]; [lia|]. cbn [kara].
    replace (n <=? 32)%nat with false by (symmetry; apply Nat.leb_gt; lia).
    replace (n / 2)%nat with nh by (unfold n; rewrite (Nat.mul_comm 2 nh), Nat.div_mul; auto).
    cbv zeta.
    assert (Sa : exists a1 a0, a = a1 ++ a0 /\ length a1 = nh /\ length a0 = nh).
    { exists (firstn nh a), (skipn nh a). rewrite firstn_skipn, firstn_length, skipn_length. repeat split; auto; lia. }
    assert (Sb : exists b1 b0, b = b1 ++ b0 /\ length b1 = nh /\ length b0 = nh).
    { exists (firstn nh b), (skipn nh b). rewrite firstn_skipn, firstn_length, skipn_length. repeat split; auto; lia. }
    destruct Sa as (a1 & a0 & -> & Ha1 & Ha0). destruct Sb as (b1 & b0 & -> & Hb1 & Hb0).
    apply digits_ok_app in Ha. pose proof Hb as HBB. apply okA_split in Hb; [|lia]. destruct Ha as [Oa1 Oa0]. destruct Hb as [Ob1 Ob0]. assert (OB0 : okA L b0) by (left; auto).
    rewrite (rdsl_pre a1), (rdsl_suf a1), (rdsl_pre b1), (rdsl_suf b1) by auto.
    assert (Sr : exists rA rB, r = rA ++ rB /\ length rA = n /\ length rB = n).
    { exists (firstn n r), (skipn n r). rewrite firstn_skipn, firstn_length, skipn_length. repeat split; auto; lia. }
    destruct Sr as (rA & rB & -> & HrA & HrB).
    rewrite rdsl_pre by auto.
    destruct (IH fuel rA a1 b1 t) as (rA' & tA & EA & HlA & OA & HtA & VA); auto; try lia.
    rewrite EA. rewrite wrsl_pre by lia. rewrite (rdsl_suf rA') by lia.
    destruct (IH fuel rB a0 b0 tA) as (rB' & tB & EB & HlB & OB & HtB & VB); auto; try lia.
    rewrite EB. rewrite wrsl_suf by lia.
    rewrite rdsl_all by (rewrite app_length; lia).
    assert (St : exists tX tY, tB = tX ++ tY /\ length tX = (n + n)%nat /\ length tY = (length t - (n + n))%nat).
    { exists (firstn (n + n) tB), (skipn (n + n) tB). rewrite firstn_skipn, firstn_length, skipn_length. repeat split; auto; lia. }
    destruct St as (tX & tY & -> & HtX & HtY).
    rewrite wrsl_pre by (rewrite app_length; lia).
    rewrite <- !app_assoc. rewrite rdsl_pre by lia.
    destruct (kara_add_mid_spec L (rA' ++ rB') nh n rA') as (r1 & k1 & E1 & Hl1 & O1 & V1);
      auto; try (rewrite app_length; lia); try (apply digits_ok_app; auto); try lia.
    rewrite E1. rewrite (rdsl_app rA') by lia.
    destruct (kara_add_mid_spec L r1 nh n rB') as (r2 & k2 & E2 & Hl2 & O2 & V2);
      auto; try (rewrite Hl1, app_length; lia); try lia.
    rewrite E2.
    (* scratch: t0 | t1 | t2 | rest *)
    assert (SA : exists t0 t1, rA' = t0 ++ t1 /\ length t0 = nh /\ length t1 = nh).
    { exists (firstn nh rA'), (skipn nh rA'). rewrite firstn_skipn, firstn_length, skipn_length. repeat split; auto; lia. }
    destruct SA as (t0 & t1 & -> & Ht0 & Ht1).
    pose proof OA as OA'. apply digits_ok_app in OA'. destruct OA' as [Ot0 Ot1].
    destruct (kara_absdiff_spec L ((t0 ++ t1) ++ rB' ++ tY) [] t0 (t1 ++ rB' ++ tY) 0 a1 a0)
      as (t0' & E3 & Hl3 & O3 & V3 & V3z); auto; try lia.
    { rewrite <- app_assoc. reflexivity. }
    rewrite E3. cbn [app].
    destruct (absdiff_okB (t0' ++ t1 ++ rB' ++ tY) t0' t1 (rB' ++ tY) nh b0 b1)
      as (t1' & E4 & Hl4 & O4 & V4 & V4z); auto; try lia.
    rewrite E4.
    rewrite rdsl_pre by lia. rewrite rdsl_app by lia.
    replace (t0' ++ t1' ++ rB' ++ tY) with ((t0' ++ t1') ++ rB' ++ tY) by (rewrite <- app_assoc; auto).
    rewrite (rdsl_app (t0' ++ t1')) by (try rewrite app_length; lia).
    replace (length ((t0' ++ t1') ++ rB' ++ tY) - (n + n))%nat with (length tY) by (rewrite !app_length; lia).
    rewrite (app_assoc (t0' ++ t1')). rewrite rdsl_suf by (try rewrite !app_length; lia).
    destruct (IH fuel rB' t0' t1' tY) as (t2' & t4' & E5 & Hl5 & O5 & Hl5t & V5); auto; try lia.
    rewrite E5. rewrite <- app_assoc. rewrite wrsl_app by (try rewrite !app_length; lia).
    rewrite (app_assoc (t0' ++ t1')). rewrite wrsl_suf by (try rewrite !app_length; lia).
    rewrite <- (app_assoc (t0' ++ t1')). rewrite rdsl_app by (try rewrite !app_length; lia).
    (* values *)
    set (H := P nh) in *.
    assert (HN : P n = H * H) by (subst n H; replace (2 * nh)%nat with (nh + nh)%nat by lia; rewrite Nat2Z.inj_add, Z.pow_add_r by lia; auto).
    assert (Va : V (a1 ++ a0) = V a1 * H + V a0) by (rewrite limbs_value_app, Ha0; auto).
    assert (Vb : V (b1 ++ b0) = V b1 * H + V b0) by (rewrite limbs_value_app, Hb0; auto).
    assert (Vr : V ((t0 ++ t1) ++ rB') = V a1 * V b1 * (H * H) + V a0 * V b0).
    { rewrite limbs_value_app, VA, VB. replace (length rB') with n by lia. rewrite HN. ring. }
    rewrite VA in V1. rewrite Vr in V1. rewrite VB in V2.
    assert (Bab : 0 <= V (a1 ++ a0) * V (b1 ++ b0) < P (2 * n)).
    { pose proof (okA_bound L _ HBB) as B2.
      pose proof (limbs_value_bound B (a1 ++ a0) HB (proj2 (digits_ok_app _ _ _) (conj Oa1 Oa0))) as B1.
      rewrite app_length in B1, B2. rewrite Ha1, Ha0 in B1. rewrite Hb1, Hb0 in B2.
      replace (2 * n)%nat with ((nh + nh) + (nh + nh))%nat by lia.
      rewrite (Nat2Z.inj_add (nh + nh)), Z.pow_add_r by lia. nia. }
    rewrite Va, Vb in Bab |- *.
    assert (Fin : forall r3 k, length r3 = (2 * n)%nat -> ok r3 ->
       V r3 = (V a1 * H + V a0) * (V b1 * H + V b0) + k * P (2 * n) ->
       V r3 = (V a1 * H + V a0) * (V b1 * H + V b0)).
    { intros r3 k Hl3' Ok3 E. pose proof (limbs_value_bound B r3 HB Ok3) as B3. rewrite Hl3' in B3.
      assert (k = 0) by nia. subst k. lia. }
    assert (Lt : length ((t0' ++ t1') ++ t2' ++ t4') = length t) by (rewrite !app_length; lia).
    assert (HL2 : length r2 = (2 * n)%nat) by (rewrite Hl2, Hl1, !app_length; lia).
    assert (Cx : forall x y, compare_ranges x y = 1 \/ compare_ranges x y = 0 \/ compare_ranges x y = -1)
      by (intros; apply compare_ranges_range).
    destruct (compare_ranges a1 a0 * compare_ranges b0 b1 =? 1) eqn:S1;
      [|destruct (compare_ranges a1 a0 * compare_ranges b0 b1 =? -1) eqn:S2].
    + destruct (kara_add_mid_spec L r2 nh n t2') as (r3 & k3 & E6 & Hl6 & O6 & V6); auto; try lia.
      rewrite E6. eexists _, _. split; [reflexivity|].
      split; [rewrite Hl6; auto|]. split; [auto|]. split; [rewrite !app_length in *; lia|].
      apply (Fin r3 (k1 + k2 + k3)); auto; [lia|].
      fold H in V6. rewrite V6, V2, V1, V5.
      assert (V t0' * V t1' = (V a1 - V a0) * (V b0 - V b1)) as ->.
      { rewrite <- V3, <- V4 by lia.
        transitivity (V t0' * V t1' * (compare_ranges a1 a0 * compare_ranges b0 b1)); [|ring].
        replace (compare_ranges a1 a0 * compare_ranges b0 b1) with 1 by lia. ring. }
      ring.
    + destruct (kara_sub_mid_spec L r2 nh n t2') as (r3 & k3 & E6 & Hl6 & O6 & V6); auto; try lia.
      rewrite E6. eexists _, _. split; [reflexivity|].
      split; [rewrite Hl6; auto|]. split; [auto|]. split; [rewrite !app_length in *; lia|].
      apply (Fin r3 (k1 + k2 + k3)); auto; [lia|].
      fold H in V6. rewrite V6, V2, V1, V5.
      assert (V t0' * V t1' = - ((V a1 - V a0) * (V b0 - V b1))) as ->.
      { rewrite <- V3, <- V4 by lia.
        transitivity (- (V t0' * V t1' * (compare_ranges a1 a0 * compare_ranges b0 b1))); [|ring].
        replace (compare_ranges a1 a0 * compare_ranges b0 b1) with (-1) by lia. ring. }
      ring.
    + eexists _, _. split; [reflexivity|].
      split; [auto|]. split; [auto|]. split; [rewrite !app_length in *; lia|].
      apply (Fin r2 (k1 + k2)); auto.
      rewrite V2, V1.
      assert ((V a1 - V a0) * (V b0 - V b1) = 0) as HZ.
      { destruct (Cx a1 a0) as [C|[C|C]]; destruct (Cx b0 b1) as [D|[D|D]]; rewrite C, D in S1, S2;
          try discriminate; try (rewrite (V3z C)); try (rewrite (V4z D)); ring. }
      transitivity (V a1 * V b1 * (H * H) + V a0 * V b0 + V a1 * V b1 * H + V a0 * V b0 * H
                    + (V a1 - V a0) * (V b0 - V b1) * H + (k1 + k2) * P (2 * n)); [rewrite HZ; ring|ring].
Qed.



End T.
