(** Top_proofs.v - limb multiplication when the left factor is the un-normalised array
    [B; 0; ...; 0] (leading limb equal to the limb base), which the floating-point estimate of a
    reciprocal can produce. *)
From Verif Require Export Kara_proofs.
Local Open Scope Z_scope.

Section T.
Variable L : limb_t.
Notation B := (mask L).
Notation V := (limbs_value B).
Notation ok := (digits_ok B).
Notation P n := (B ^ Z.of_nat n).
Let HB : 0 < B := mask_pos L.

(** Base-B digits, except that the array may be exactly [B; 0; ...; 0]. *)
Definition okA (a : list Z) : Prop := ok a \/ a = B :: repeat 0 (length a - 1).

Lemma okA_bound a : okA a -> 0 <= V a <= P (length a).
Proof.
  intros [H|H].
  - pose proof (limbs_value_bound B a HB H). lia.
  - rewrite H. cbn [limbs_value length]. rewrite limbs_value_repeat0, repeat_length, pow_succ_nat. pose proof (pow_pos_nat B (length a - 1) HB). nia.
Qed.

Lemma Bsq t : 0 <= t <= B * B - 1 -> ucast (dbits L) t = t.
Proof. intros; apply row_fits; lia. Qed.

Lemma row_loop_top b : ok b ->
  let '(r, c) := row_loop L B b (repeat 0 (length b)) in
  length r = length b /\ ok r /\ 0 <= c < B /\ V r + c * P (length b) = B * V b.
Proof.
  induction b as [|x b IH]; intros Hb.
  - cbn. repeat split; auto; try lia; constructor.
  - apply digits_ok_cons in Hb. cbn [row_loop length repeat]. specialize (IH (proj2 Hb)).
    destruct (row_loop L B b (repeat 0 (length b))) as [r c]. destruct IH as (Hr & Hok & Hc & Ev).
    rewrite (Bsq (B * x)) by nia. rewrite (Bsq (c + B * x)) by nia. rewrite Z.add_0_r. rewrite (Bsq (c + B * x)) by nia.
    replace (c + B * x) with (x * B + c) by ring. rewrite Z.div_add_l by lia. rewrite (Z.div_small c B) by lia.
    replace (x * B + c) with (c + x * B) by ring. rewrite Z.mod_add, (Z.mod_small c B) by lia.
    rewrite Z.add_0_r. rewrite Bsq by nia. rewrite ucl by lia.
    cbn [length limbs_value]. rewrite pow_succ_nat, Hr. split; [lia|]. split; [apply digits_ok_cons; split; auto|]. split; [lia|]. nia.
Qed.

Lemma row_loop_0 b k : length b = k -> ok b -> row_loop L 0 b (repeat 0 k) = (repeat 0 k, 0).
Proof.
  intros <- Hb. induction b as [|x b IH]; [reflexivity|]. apply digits_ok_cons in Hb. cbn [row_loop length repeat].
  rewrite IH by tauto. change (0 * x) with 0. assert (U0 : ucast (dbits L) 0 = 0) by (apply Bsq; nia).
  repeat (rewrite U0 || change (0 + 0) with 0). rewrite Z.mod_0_l, Z.div_0_l by lia. rewrite U0. rewrite ucl by lia. reflexivity.
Qed.

Lemma skipn_repeat0 i k : skipn i (repeat 0 k) = repeat 0 (k - i).
Proof. revert i; induction k as [|k IH]; intros [|i]; cbn [skipn repeat Nat.sub]; auto. Qed.
Lemma firstn_repeat0 i k j : (i <= k - j)%nat -> firstn i (skipn j (repeat 0 k)) = repeat 0 i.
Proof.
  rewrite skipn_repeat0. generalize (k - j)%nat as q. clear. induction i as [|i IH]; intros [|q] H; cbn [firstn repeat]; auto; try lia.
  f_equal. apply IH. lia.
Qed.

Lemma rows_zero m b k : length b = S m -> ok b -> (k <= m)%nat ->
  mul_rows L (B :: repeat 0 m) b (S k) (repeat 0 (2 * S m)) = mul_rows L (B :: repeat 0 m) b 1 (repeat 0 (2 * S m)).
Proof.
  intros Hb Ok. induction k as [|k IH]; intros Hk; [reflexivity|]. rewrite <- IH by lia.
  remember (S k) as k1 eqn:Ek. cbn [mul_rows]. rewrite Ek at 1. cbn [nth_error].
  rewrite (nth_error_nth' (repeat 0 m) 0) by (rewrite repeat_length; lia). rewrite nth_repeat.
  rewrite repeat_length. replace (k1 + 1 + length b <=? 2 * S m)%nat with true by (symmetry; apply Nat.leb_le; lia).
  set (N := (2 * S m)%nat) in *. assert (HN : (k1 + 1 + length b <= N)%nat) by (unfold N; lia).
  rewrite (firstn_repeat0 (length b)), row_loop_0; [|auto|auto|lia].
  rewrite ucl by lia. f_equal.
  rewrite <- (skipn_O (repeat 0 N)) at 1. rewrite (firstn_repeat0 k1) by lia. rewrite skipn_repeat0.
  change (0 :: repeat 0 (length b) ++ repeat 0 (N - (k1 + 1 + length b))) with (repeat 0 1 ++ repeat 0 (length b) ++ repeat 0 (N - (k1 + 1 + length b))).
  rewrite <- !repeat_app. f_equal. lia.
Qed.

Lemma rows_top_spec m b : length b = S m -> ok b ->
  exists r, mul_school_rows L (B :: repeat 0 m) b = Some r /\ length r = (2 * S m)%nat /\ ok r /\ V r = V (B :: repeat 0 m) * V b.
Proof.
  intros Hb Ok. unfold mul_school_rows. cbn [length]. rewrite repeat_length. rewrite rows_zero by (auto; lia).
  cbn [mul_rows nth_error]. rewrite repeat_length. replace (0 + 1 + length b <=? 2 * S m)%nat with true by (symmetry; apply Nat.leb_le; lia).
  replace (2 * S m)%nat with (1 + (length b + (2 * S m - (1 + length b))))%nat by lia. rewrite (repeat_app 0 1), (repeat_app 0 (length b)).
  rewrite skipn_app_exact by reflexivity. rewrite firstn_app_exact by apply repeat_length.
  pose proof (row_loop_top b Ok) as R. destruct (row_loop L B b (repeat 0 (length b))) as [w cc]. destruct R as (R1 & R2 & R3 & R4).
  rewrite ucl by lia. rewrite (app_assoc (repeat 0 1)). rewrite skipn_app_exact by (rewrite app_length, !repeat_length; lia).
  eexists. split; [reflexivity|]. cbn [firstn app]. set (z := (2 * S m - (1 + length b))%nat).
  split; [cbn [length]; rewrite app_length, repeat_length; unfold z; lia|].
  split; [apply digits_ok_cons; split; auto; apply digits_ok_app; split; auto; apply digits_ok_repeat0; auto|].
  cbn [limbs_value]. rewrite limbs_value_app, !limbs_value_repeat0, app_length, !repeat_length, R1.
  rewrite Nat2Z.inj_add, Z.pow_add_r by lia. replace z with m by (unfold z; lia). nia.
Qed.

(** Column-wise version: any non-negative arrays whose column sums stay below B^2 - B. *)
Lemma col_loop_gen a b ps sum : Forall (fun x => 0 <= x) a -> Forall (fun x => 0 <= x) b -> 0 <= sum ->
  (forall i k, In (i, k) ps -> (i < length a)%nat /\ (k < length b)%nat) ->
  sum + psum a b ps < 2 ^ dbits L -> col_loop L a b ps sum = Some (sum + psum a b ps) /\ 0 <= psum a b ps.
Proof.
  intros Ha Hb; revert sum; induction ps as [|[i k] ps IH]; intros sum Hs Hin Hfit;
    cbn [col_loop]; [split; [f_equal; cbn|cbn]; lia|].
  change (psum a b ((i, k) :: ps)) with (nth i a 0 * nth k b 0 + psum a b ps) in *.
  destruct (Hin i k (or_introl eq_refl)) as [Hi Hk].
  rewrite (nth_error_nth' a 0 Hi), (nth_error_nth' b 0 Hk).
  assert (0 <= nth i a 0) by (eapply Forall_forall in Ha; [exact Ha|]; apply nth_In; auto).
  assert (0 <= nth k b 0) by (eapply Forall_forall in Hb; [exact Hb|]; apply nth_In; auto).
  assert (0 <= nth i a 0 * nth k b 0) by nia. 
  assert (N : 0 <= psum a b ps).
  { destruct (IH 0) as [_ N0]; [lia|intros; apply Hin; right; auto| |exact N0]. lia. }
  rewrite (ucast_id _ (nth i a 0 * nth k b 0)) by lia. rewrite ucast_id by lia.
  destruct (IH (sum + nth i a 0 * nth k b 0)) as [E _]; [lia|intros; apply Hin; right; auto|lia|].
  rewrite E. split; [f_equal; lia|lia].
Qed.

Lemma col_columns_gen a b cols carry acc : Forall (fun x => 0 <= x) a -> Forall (fun x => 0 <= x) b ->
  (forall ps i k, In ps cols -> In (i, k) ps -> (i < length a)%nat /\ (k < length b)%nat) ->
  (forall ps, In ps cols -> psum a b ps <= B * (B - 1)) ->
  0 <= carry < B -> ok acc ->
  exists acc' carry', col_columns L a b cols carry acc = Some (acc', carry') /\
    ok acc' /\ 0 <= carry' < B /\ length acc' = (length cols + length acc)%nat /\
    V acc' + carry' * P (length acc') =
      V acc + P (length acc) * (carry + fold_right (fun ps s => psum a b ps + B * s) 0 cols).
Proof.
  intros Ha Hb; revert carry acc; induction cols as [|ps cols IH];
    intros carry acc Hin HM Hc Hacc; cbn [col_columns].
  - exists acc, carry. repeat split; auto; try lia. cbn. ring_simplify. lia.
  - pose proof (HM ps (or_introl eq_refl)) as HMps.
    assert (B2 : B * B <= 2 ^ dbits L) by (destruct L; cbn; lia).
    destruct (col_loop_gen a b ps carry) as [E0 N0]; auto; [lia|intros; eapply Hin; [left; eauto|auto]|lia|].
    rewrite E0. set (sum := carry + psum a b ps).
    assert (Hsum : 0 <= sum <= B * B - 1) by (subst sum; nia).
    pose proof (Z.div_mod sum B ltac:(lia)) as Hdm. pose proof (Z.mod_pos_bound sum B HB) as Hmb.
    assert (Hq : 0 <= sum / B < B).
    { split; [apply Z.div_pos; lia|]. apply Z.div_lt_upper_bound; lia. }
    rewrite ucast_id by nia. rewrite ucl by lia.
    destruct (IH (sum / B) (sum mod B :: acc)) as (acc' & carry' & E & Hok & Hc' & Hlen & HV); auto.
    { intros. eapply Hin; [right; eauto|auto]. }
    { intros; apply HM; right; auto. }
    { apply digits_ok_cons; auto. }
    exists acc', carry'. repeat split; auto; try lia; [cbn [length] in *; lia|].
    rewrite HV. cbn [limbs_value length fold_right]. rewrite pow_succ_nat.
    set (F := fold_right _ 0 cols).
    assert (Es : carry + (psum a b ps + B * F) = sum + B * F) by (subst sum; ring).
    rewrite Es. transitivity (V acc + P (length acc) * (B * (sum / B) + sum mod B + B * F)); [ring|].
    rewrite <- Hdm. ring.
Qed.

Lemma psum_top m b ps : ok b -> NoDup (map fst ps) -> 0 <= psum (B :: repeat 0 m) b ps <= B * (B - 1).
Proof.
  intros Hb.
  assert (N : forall j, 0 <= nth j b 0 <= B - 1).
  { intros j. destruct (Nat.lt_ge_cases j (length b)) as [Hj|Hj].
    - assert (0 <= nth j b 0 < B); [|lia]. eapply Forall_forall in Hb; [exact Hb|]. apply nth_In; auto.
    - rewrite nth_overflow by auto. lia. }
  assert (Z0 : forall i, nth (S i) (B :: repeat 0 m) 0 = 0) by (intros; cbn [nth]; apply nth_repeat).
  assert (G : forall ps, ~ In 0%nat (map fst ps) -> psum (B :: repeat 0 m) b ps = 0).
  { induction ps0 as [|[i k] q IH]; intros H; cbn [psum fold_right fst snd map In] in *; [auto|].
    fold (psum (B :: repeat 0 m) b q). destruct i as [|i]; [tauto|]. rewrite Z0, IH by tauto. lia. }
  induction ps as [|[i k] q IH]; intros ND; cbn [psum fold_right fst snd map] in *; [nia|].
  fold (psum (B :: repeat 0 m) b q). inversion ND as [|? ? ND1 ND2]; subst.
  destruct i as [|i].
  - rewrite G by auto. cbn [nth]. pose proof (N k). nia.
  - rewrite Z0. specialize (IH ND2). lia.
Qed.

Lemma cols_top_spec m b : length b = S m -> ok b ->
  exists r, mul_school_cols L (B :: repeat 0 m) b = Some r /\ length r = (2 * S m)%nat /\ ok r /\ V r = V (B :: repeat 0 m) * V b.
Proof.
  intros Hb Ok. set (a := B :: repeat 0 m).
  assert (La : length a = S m) by (unfold a; cbn [length]; rewrite repeat_length; auto).
  unfold mul_school_cols. fold (all_cols (length a)).
  destruct (col_columns_gen a b (all_cols (length a)) 0 [])
    as (acc & carry & E & Hok & Hc & Hlen & HV); auto; try lia.
  - unfold a. constructor; [lia|]. apply Forall_forall. intros x Hx. apply repeat_spec in Hx. lia.
  - eapply Forall_impl; [|exact Ok]. cbn. intros; lia.
  - intros ps i k Hin Hik. unfold all_cols in Hin. apply in_app_or in Hin.
    destruct Hin as [Hin|Hin]; apply in_map_iff in Hin; destruct Hin as (j & <- & Hj);
      apply in_rev, in_seq in Hj.
    + unfold low_pairs in Hik. apply in_map_iff in Hik. destruct Hik as (i' & [= <- <-] & Hi').
      apply in_rev, in_seq in Hi'. rewrite La in *. cbv beta in *. rewrite repeat_length. lia.
    + unfold high_pairs in Hik. apply in_map_iff in Hik. destruct Hik as (i' & [= <- <-] & Hi').
      apply in_rev, in_seq in Hi'. rewrite La in *. cbv beta in *. lia.
  - intros ps Hin. apply (psum_top m b ps Ok). unfold all_cols in Hin. apply in_app_or in Hin.
    destruct Hin as [Hin|Hin]; apply in_map_iff in Hin; destruct Hin as (j & <- & Hj); apply in_rev, in_seq in Hj.
    + unfold low_pairs. rewrite map_map. cbn [fst]. rewrite map_id. apply NoDup_rev, seq_NoDup.
    + unfold high_pairs. rewrite map_map. cbn [fst]. rewrite map_rev. apply NoDup_rev.
      assert (forall q s, (s + q <= j + 1)%nat -> NoDup (map (fun i => (j - i)%nat) (seq s q))) as H.
      { induction q as [|q IH]; intros s Hs; cbn [seq map]; constructor; [|apply IH; lia].
        intros H. apply in_map_iff in H. destruct H as (x & Hx & Hx2). apply in_seq in Hx2. lia. }
      apply H. lia.
  - constructor.
  - rewrite E. rewrite all_cols_sum in HV by lia. cbn [limbs_value length] in *.
    assert (Hlc : length (all_cols (length a)) = (2 * length a - 1)%nat).
    { unfold all_cols. rewrite app_length, !map_length, !rev_length, !seq_length. lia. }
    rewrite Hlc in Hlen. rewrite ucl by lia. exists (carry :: acc).
    split; [reflexivity|]. split; [cbn [length]; lia|]. split; [apply digits_ok_cons; auto|].
    cbn [limbs_value]. change (B ^ Z.of_nat 0) with 1 in HV. lia.
Qed.

Lemma school_okA_spec a b : okA a -> ok b -> length a = length b -> (1 <= length a)%nat ->
  (L = U8 \/ school_fits L (length a)) ->
  exists r, mul_school L a b = Some r /\ length r = (2 * length a)%nat /\ ok r /\ V r = V a * V b.
Proof.
  intros [Ha|Ha] Hb Hl Hn Hf; [apply mul_school_spec; auto|].
  remember (length a - 1)%nat as m. assert (Hm : length a = S m) by lia. rewrite Hm in *. rewrite Ha.
  unfold mul_school. destruct L eqn:EL; rewrite <- EL in *;
    [apply rows_top_spec|apply cols_top_spec|apply cols_top_spec]; auto; lia.
Qed.

Lemma sub_n_zero x k : ok x -> length x = k -> sub_n L x (repeat 0 k) = (x, false).
Proof.
  intros Hx <-. induction x as [|d x IH]; [reflexivity|]. apply digits_ok_cons in Hx. cbn [length repeat sub_n].
  rewrite IH by tauto. rewrite Z.add_0_l. rewrite (ucl L 0) by lia. change (- 0) with 0. rewrite (ucl L 0) by lia. rewrite Z.add_0_r.
  pose proof (mask_fits_half L). pose proof (lbits_ge L). rewrite ucl by lia. rewrite scast_id by lia. replace (d <? 0) with false by lia. rewrite ucl by lia. reflexivity.
Qed.

Lemma sub_n_top m : sub_n L (B :: repeat 0 m) (repeat 0 (S m)) = (B :: repeat 0 m, false).
Proof.
  cbn [repeat sub_n]. rewrite sub_n_zero by (try apply repeat_length; apply digits_ok_repeat0; auto).
  rewrite Z.add_0_l. rewrite (ucl L 0) by lia. change (- 0) with 0. rewrite (ucl L 0) by lia. rewrite Z.add_0_r.
  rewrite ucl by lia. rewrite scast_id; [|pose proof (lbits_ge L); lia|destruct L; cbn; lia].
  replace (B <? 0) with false by lia. rewrite ucl by lia. reflexivity.
Qed.

Lemma absdiff_top t p w s off m : t = p ++ w ++ s -> length p = off -> length w = S m ->
  kara_absdiff L t off (B :: repeat 0 m) (repeat 0 (S m)) = Some (p ++ (B :: repeat 0 m) ++ s) /\
  compare_ranges (B :: repeat 0 m) (repeat 0 (S m)) = 1.
Proof.
  intros -> Hp Hw. assert (C : compare_ranges (B :: repeat 0 m) (repeat 0 (S m)) = 1).
  { cbn [repeat compare_ranges]. replace (B =? 0) with false by lia. replace (B >? 0) with true by lia. reflexivity. }
  split; [|auto]. unfold kara_absdiff. rewrite C. cbn [Z.eqb]. change (1 =? 1) with true. cbv iota. rewrite sub_n_top. cbn [fst].
  apply wrsl_app; auto. cbn [length]. rewrite repeat_length. lia.
Qed.

Lemma app_inj_len (a b x y : list Z) : length a = length x -> a ++ b = x ++ y -> a = x /\ b = y.
Proof.
  revert x; induction a as [|z a IH]; intros [|z' x] Hl H; cbn in *; try discriminate; auto.
  injection H as -> H. apply IH in H; [|lia]. destruct H as [-> ->]. auto.
Qed.

Lemma absdiff_okA t p w s off x y : t = p ++ w ++ s -> length p = off -> length w = length x ->
  length x = length y -> okA (x ++ y) -> (1 <= length x)%nat -> ok w ->
  exists w', kara_absdiff L t off x y = Some (p ++ w' ++ s) /\ length w' = length w /\ okA w' /\
   (compare_ranges x y <> 0 -> V w' * compare_ranges x y = V x - V y) /\
   (compare_ranges x y = 0 -> V x = V y).
Proof.
  intros Ht Hp Hw Hxy Ha Hx1 Ho. destruct Ha as [Ha|Ha].
  - apply digits_ok_app in Ha. destruct Ha as [Ox Oy].
    destruct (kara_absdiff_spec L t p w s off x y) as (w' & E1 & E2 & E3 & E4); auto.
    exists w'. split; auto. split; auto. split; [left; auto|auto].
  - rewrite app_length, Hxy in Ha. set (m := (length x - 1)%nat).
    replace (length y + length y - 1)%nat with (m + S m)%nat in Ha by lia. rewrite repeat_app in Ha.
    change (B :: repeat 0 m ++ repeat 0 (S m)) with ((B :: repeat 0 m) ++ repeat 0 (S m)) in Ha.
    assert (E0 : x = B :: repeat 0 m /\ y = repeat 0 (S m)).
    { apply app_inj_len in Ha; auto. cbn [length]. rewrite repeat_length. unfold m. lia. }
    destruct E0 as [Ex Ey]; clearbody m; subst x y; destruct (absdiff_top t p w s off m) as [E1 E2]; auto; [cbn [length] in *; rewrite repeat_length in *; lia|].
    exists (B :: repeat 0 m). split; [auto|]. split; [lia|].
    split; [right; cbn [length]; rewrite repeat_length; do 2 f_equal; lia|]. rewrite E2, limbs_value_repeat0. split; lia.
Qed.

Lemma okA_split x y : okA (x ++ y) -> (1 <= length x)%nat -> okA x /\ ok y.
Proof.
  intros [H|H] Hx.
  - apply digits_ok_app in H. split; [left|]; tauto.
  - rewrite app_length in H. set (m := (length x - 1)%nat).
    replace (length x + length y - 1)%nat with (m + length y)%nat in H by lia. rewrite repeat_app in H.
    change (B :: repeat 0 m ++ repeat 0 (length y)) with ((B :: repeat 0 m) ++ repeat 0 (length y)) in H.
    apply app_inj_len in H; [|cbn [length]; rewrite repeat_length; unfold m; lia].
    destruct H as [H1 H2]. split; [right; auto|]. rewrite H2. apply digits_ok_repeat0; auto.
Qed.
Theorem kara_okA_spec n : kara_size n -> forall fuel r a b t,
  (n <= fuel)%nat -> length r = (2 * n)%nat -> length a = n -> length b = n -> okA a -> ok b ->
  (4 * n <= length t)%nat ->
  exists r' t', kara fuel L r a b n t = Some (r', t') /\ length r' = (2 * n)%nat /\ ok r' /\
                length t' = length t /\ V r' = V a * V b.
Proof.
  induction 1 as [n Hn|nh Hnh Hks IH]; intros fuel r a b t Hfuel Hr Hla Hlb Ha Hb Ht.
  - destruct fuel as [|fuel]; [lia|]. cbn [kara].
    replace (n <=? 32)%nat with true by (symmetry; apply Nat.leb_le; lia).
    rewrite !rdsl_all by auto.
    destruct (school_okA_spec a b) as (p & E & Hlp & Hokp & HV); auto; try lia.
    { apply school_fits_32. lia. }
    rewrite E. rewrite wrsl_all by lia. exists p, t. repeat split; auto. lia.
  - set (n := (2 * nh)%nat) in *.
    destruct fuel as [|fuel]; [lia|]. cbn [kara].
    replace (n <=? 32)%nat with false by (symmetry; apply Nat.leb_gt; lia).
    replace (n / 2)%nat with nh by (unfold n; rewrite (Nat.mul_comm 2 nh), Nat.div_mul; auto).
    cbv zeta.
    assert (Sa : exists a1 a0, a = a1 ++ a0 /\ length a1 = nh /\ length a0 = nh).
    { exists (firstn nh a), (skipn nh a). rewrite firstn_skipn, firstn_length, skipn_length. repeat split; auto; lia. }
    assert (Sb : exists b1 b0, b = b1 ++ b0 /\ length b1 = nh /\ length b0 = nh).
    { exists (firstn nh b), (skipn nh b). rewrite firstn_skipn, firstn_length, skipn_length. repeat split; auto; lia. }
    destruct Sa as (a1 & a0 & -> & Ha1 & Ha0). destruct Sb as (b1 & b0 & -> & Hb1 & Hb0).
    apply digits_ok_app in Hb. pose proof Ha as HA. apply okA_split in Ha; [|lia]. destruct Ha as [Oa1 Oa0]. assert (OA0 : okA a0) by (left; auto). destruct Hb as [Ob1 Ob0].
    rewrite (rdsl_pre a1), (rdsl_suf a1), (rdsl_pre b1), (rdsl_suf b1) by auto.
    assert (Sr : exists rA rB, r = rA ++ rB /\ length rA = n /\ length rB = n).
    { exists (firstn n r), (skipn n r). rewrite firstn_skipn, firstn_length, skipn_length. repeat split; auto; lia. }
    destruct Sr as (rA & rB & -> & HrA & HrB).
    rewrite rdsl_pre by auto.
    destruct (IH fuel rA a1 b1 t) as (rA' & tA & EA & HlA & OA & HtA & VA); auto; try lia.
    rewrite EA. rewrite wrsl_pre by lia. rewrite (rdsl_suf rA') by lia.
    destruct (IH fuel rB a0 b0 tA) as (rB' & tB & EB & HlB & OB & HtB & VB); auto; try lia.
    rewrite EB. rewrite wrsl_suf by lia.
    rewrite rdsl_all by (rewrite app_length; lia).
    assert (St : exists tX tY, tB = tX ++ tY /\ length tX = (n + n)%nat /\ length tY = (length t - (n + n))%nat).
    { exists (firstn (n + n) tB), (skipn (n + n) tB). rewrite firstn_skipn, firstn_length, skipn_length. repeat split; auto; lia. }
    destruct St as (tX & tY & -> & HtX & HtY).
    rewrite wrsl_pre by (rewrite app_length; lia).
    rewrite <- !app_assoc. rewrite rdsl_pre by lia.
    destruct (kara_add_mid_spec L (rA' ++ rB') nh n rA') as (r1 & k1 & E1 & Hl1 & O1 & V1);
      auto; try (rewrite app_length; lia); try (apply digits_ok_app; auto); try lia.
    rewrite E1. rewrite (rdsl_app rA') by lia.
    destruct (kara_add_mid_spec L r1 nh n rB') as (r2 & k2 & E2 & Hl2 & O2 & V2);
      auto; try (rewrite Hl1, app_length; lia); try lia.
    rewrite E2.
    (* scratch: t0 | t1 | t2 | rest *)
    assert (SA : exists t0 t1, rA' = t0 ++ t1 /\ length t0 = nh /\ length t1 = nh).
    { exists (firstn nh rA'), (skipn nh rA'). rewrite firstn_skipn, firstn_length, skipn_length. repeat split; auto; lia. }
    destruct SA as (t0 & t1 & -> & Ht0 & Ht1).
    pose proof OA as OA'. apply digits_ok_app in OA'. destruct OA' as [Ot0 Ot1].
    destruct (absdiff_okA ((t0 ++ t1) ++ rB' ++ tY) [] t0 (t1 ++ rB' ++ tY) 0 a1 a0)
      as (t0' & E3 & Hl3 & O3 & V3 & V3z); auto; try lia.
    { rewrite <- app_assoc. reflexivity. }
    rewrite E3. cbn [app].
    destruct (kara_absdiff_spec L (t0' ++ t1 ++ rB' ++ tY) t0' t1 (rB' ++ tY) nh b0 b1)
      as (t1' & E4 & Hl4 & O4 & V4 & V4z); auto; try lia.
    rewrite E4.
    rewrite rdsl_pre by lia. rewrite rdsl_app by lia.
    replace (t0' ++ t1' ++ rB' ++ tY) with ((t0' ++ t1') ++ rB' ++ tY) by (rewrite <- app_assoc; auto).
    rewrite (rdsl_app (t0' ++ t1')) by (try rewrite app_length; lia).
    replace (length ((t0' ++ t1') ++ rB' ++ tY) - (n + n))%nat with (length tY) by (rewrite !app_length; lia).
    rewrite (app_assoc (t0' ++ t1')). rewrite rdsl_suf by (try rewrite !app_length; lia).
    destruct (IH fuel rB' t0' t1' tY) as (t2' & t4' & E5 & Hl5 & O5 & Hl5t & V5); auto; try lia.
    rewrite E5. rewrite <- app_assoc. rewrite wrsl_app by (try rewrite !app_length; lia).
    rewrite (app_assoc (t0' ++ t1')). rewrite wrsl_suf by (try rewrite !app_length; lia).
    rewrite <- (app_assoc (t0' ++ t1')). rewrite rdsl_app by (try rewrite !app_length; lia).
    (* values *)
    set (H := P nh) in *.
    assert (HN : P n = H * H) by (subst n H; replace (2 * nh)%nat with (nh + nh)%nat by lia; rewrite Nat2Z.inj_add, Z.pow_add_r by lia; auto).
    assert (Va : V (a1 ++ a0) = V a1 * H + V a0) by (rewrite limbs_value_app, Ha0; auto).
    assert (Vb : V (b1 ++ b0) = V b1 * H + V b0) by (rewrite limbs_value_app, Hb0; auto).
    assert (Vr : V ((t0 ++ t1) ++ rB') = V a1 * V b1 * (H * H) + V a0 * V b0).
    { rewrite limbs_value_app, VA, VB. replace (length rB') with n by lia. rewrite HN. ring. }
    rewrite VA in V1. rewrite Vr in V1. rewrite VB in V2.
    assert (Bab : 0 <= V (a1 ++ a0) * V (b1 ++ b0) < P (2 * n)).
    { pose proof (okA_bound _ HA) as B1.
      pose proof (limbs_value_bound B (b1 ++ b0) HB (proj2 (digits_ok_app _ _ _) (conj Ob1 Ob0))) as B2.
      rewrite app_length in B1, B2. rewrite Ha1, Ha0 in B1. rewrite Hb1, Hb0 in B2.
      replace (2 * n)%nat with ((nh + nh) + (nh + nh))%nat by lia.
      rewrite (Nat2Z.inj_add (nh + nh)), Z.pow_add_r by lia. nia. }
    rewrite Va, Vb in Bab |- *.
    assert (Fin : forall r3 k, length r3 = (2 * n)%nat -> ok r3 ->
       V r3 = (V a1 * H + V a0) * (V b1 * H + V b0) + k * P (2 * n) ->
       V r3 = (V a1 * H + V a0) * (V b1 * H + V b0)).
    { intros r3 k Hl3' Ok3 E. pose proof (limbs_value_bound B r3 HB Ok3) as B3. rewrite Hl3' in B3.
      assert (k = 0) by nia. subst k. lia. }
    assert (Lt : length ((t0' ++ t1') ++ t2' ++ t4') = length t) by (rewrite !app_length; lia).
    assert (HL2 : length r2 = (2 * n)%nat) by (rewrite Hl2, Hl1, !app_length; lia).
    assert (Cx : forall x y, compare_ranges x y = 1 \/ compare_ranges x y = 0 \/ compare_ranges x y = -1)
      by (intros; apply compare_ranges_range).
    destruct (compare_ranges a1 a0 * compare_ranges b0 b1 =? 1) eqn:S1;
      [|destruct (compare_ranges a1 a0 * compare_ranges b0 b1 =? -1) eqn:S2].
    + destruct (kara_add_mid_spec L r2 nh n t2') as (r3 & k3 & E6 & Hl6 & O6 & V6); auto; try lia.
      rewrite E6. eexists _, _. split; [reflexivity|].
      split; [rewrite Hl6; auto|]. split; [auto|]. split; [rewrite !app_length in *; lia|].
      apply (Fin r3 (k1 + k2 + k3)); auto; [lia|].
      fold H in V6. rewrite V6, V2, V1, V5.
      assert (V t0' * V t1' = (V a1 - V a0) * (V b0 - V b1)) as ->.
      { rewrite <- V3, <- V4 by lia.
        transitivity (V t0' * V t1' * (compare_ranges a1 a0 * compare_ranges b0 b1)); [|ring].
        replace (compare_ranges a1 a0 * compare_ranges b0 b1) with 1 by lia. ring. }
      ring.
    + destruct (kara_sub_mid_spec L r2 nh n t2') as (r3 & k3 & E6 & Hl6 & O6 & V6); auto; try lia.
      rewrite E6. eexists _, _. split; [reflexivity|].
      split; [rewrite Hl6; auto|]. split; [auto|]. split; [rewrite !app_length in *; lia|].
      apply (Fin r3 (k1 + k2 + k3)); auto; [lia|].
      fold H in V6. rewrite V6, V2, V1, V5.
      assert (V t0' * V t1' = - ((V a1 - V a0) * (V b0 - V b1))) as ->.
      { rewrite <- V3, <- V4 by lia.
        transitivity (- (V t0' * V t1' * (compare_ranges a1 a0 * compare_ranges b0 b1))); [|ring].
        replace (compare_ranges a1 a0 * compare_ranges b0 b1) with (-1) by lia. ring. }
      ring.
    + eexists _, _. split; [reflexivity|].
      split; [auto|]. split; [auto|]. split; [rewrite !app_length in *; lia|].
      apply (Fin r2 (k1 + k2)); auto.
      rewrite V2, V1.
      assert ((V a1 - V a0) * (V b0 - V b1) = 0) as HZ.
      { destruct (Cx a1 a0) as [C|[C|C]]; destruct (Cx b0 b1) as [D|[D|D]]; rewrite C, D in S1, S2;
          try discriminate; try (rewrite (V3z C)); try (rewrite (V4z D)); ring. }
      transitivity (V a1 * V b1 * (H * H) + V a0 * V b0 + V a1 * V b1 * H + V a0 * V b0 * H
                    + (V a1 - V a0) * (V b0 - V b1) * H + (k1 + k2) * P (2 * n)); [rewrite HZ; ring|ring].
Qed.


End T.
