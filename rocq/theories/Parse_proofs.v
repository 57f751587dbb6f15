(** Parse_proofs.v - rd_string computes the value of a literal. *)
From Verif Require Import Base Add_proofs Value_proofs.
From Verif Require Export Spec_Str.
From Coq Require Import Lia Lqa.
Local Open Scope Z_scope.
Ltac Zify.zify_post_hook ::= Z.to_euclidean_division_equations.

Notation dch := digit_text.
Notation V10 := (limbs_value 10).

Lemma find_ch_none ch s : Forall (fun x => x <> ch) s -> find_ch ch s = None.
Proof. induction 1 as [|x s Hx Hs IH]; cbn; auto. replace (x =? ch) with false by lia. rewrite IH. auto. Qed.
Lemma find_ch_app ch a b : Forall (fun x => x <> ch) a -> find_ch ch (a ++ ch :: b) = Some (length a).
Proof.
  induction 1 as [|x s Hx Hs IH]; cbn; [rewrite Z.eqb_refl; auto|].
  replace (x =? ch) with false by lia. rewrite IH. auto.
Qed.
Lemma dch_ne ch l : digits_ok 10 l -> (ch < 48 \/ 57 < ch) -> Forall (fun x => x <> ch) (dch l).
Proof. intros H Hc. unfold dch. induction H as [|x l Hx Hl IH]; cbn [map]; constructor; auto. cbn beta in *. lia. Qed.
Lemma dch_app a b : dch (a ++ b) = dch a ++ dch b.
Proof. apply map_app. Qed.
Lemma dch_length a : length (dch a) = length a.
Proof. apply map_length. Qed.
Lemma dch_repeat0 k : dch (repeat 0 k) = repeat 48 k.
Proof. induction k; cbn; f_equal; auto. Qed.
Lemma dch_firstn k a : firstn k (dch a) = dch (firstn k a).
Proof. apply firstn_map. Qed.
Lemma dch_skipn k a : skipn k (dch a) = dch (skipn k a).
Proof. apply skipn_map. Qed.

(** drop0 on digit text = dropping leading zero digits. *)
Fixpoint dropz (l : list Z) : list Z := match l with x :: t => if x =? 0 then dropz t else l | [] => [] end.
Lemma dropz_split l : l = repeat 0 (length l - length (dropz l)) ++ dropz l /\ (length (dropz l) <= length l)%nat.
Proof.
  induction l as [|x l [IH1 IH2]]; cbn [dropz length]; [cbn; auto|].
  destruct (x =? 0) eqn:E.
  - split; [|lia]. replace (S (length l) - length (dropz l))%nat with (S (length l - length (dropz l))) by lia.
    cbn. f_equal; [lia|auto].
  - cbn [length]. rewrite Nat.sub_diag. auto.
Qed.
Lemma dropz_hd l : dropz l <> [] -> hd 0 (dropz l) <> 0.
Proof. induction l as [|x l IH]; cbn; [tauto|]. destruct (x =? 0) eqn:E; auto. cbn. lia. Qed.
Lemma dropz_value l : V10 (dropz l) = V10 l.
Proof.
  destruct (dropz_split l) as [H _]. rewrite H at 2. rewrite limbs_value_app, limbs_value_repeat0. lia.
Qed.
Lemma dropz_ok l : digits_ok 10 l -> digits_ok 10 (dropz l).
Proof. intros H. destruct (dropz_split l) as [E _]. rewrite E in H. apply digits_ok_app in H. tauto. Qed.
Lemma dropz_nil_value l : dropz l = [] -> V10 l = 0.
Proof. intros H. rewrite <- dropz_value, H. auto. Qed.
Lemma drop0_dch l r : (hd 0 r <> 48) -> drop0 (dch l ++ r) = dch (dropz l) ++ r.
Proof.
  intros Hr. induction l as [|x l IH]; cbn [dch map app dropz drop0].
  - destruct r as [|y r]; cbn in *; auto. replace (y =? 48) with false by lia. auto.
  - destruct (x =? 0) eqn:E.
    + replace (48 + x =? 48) with true by lia. auto.
    + replace (48 + x =? 48) with false by lia. auto.
Qed.
Lemma rev_repeat (k : nat) : rev (repeat 0 k) = repeat 0 k.
Proof.
  induction k as [|k IH]; cbn [repeat rev]; auto. rewrite IH. clear. induction k; cbn; f_equal; auto.
Qed.
Lemma rev_dch l : rev (dch l) = dch (rev l).
Proof. unfold dch. rewrite map_rev. auto. Qed.
Lemma strip0_dch s l : (last s 0 <> 48) -> 
  exists l', strip0 (s ++ dch l) = s ++ dch l' /\ l = l' ++ repeat 0 (length l - length l') /\ (length l' <= length l)%nat
    /\ (l' <> [] -> last l' 0 <> 0).
Proof.
  intros Hs. exists (rev (dropz (rev l))). unfold strip0. rewrite rev_app_distr, rev_dch, drop0_dch.
  - rewrite rev_app_distr, rev_involutive, rev_dch. split; auto.
    destruct (dropz_split (rev l)) as [H1 H2]. rewrite rev_length in H1, H2. split; [|split].
    + rewrite rev_length. rewrite <- (rev_involutive l) at 1. rewrite H1 at 1. rewrite rev_app_distr. f_equal. apply rev_repeat.
    + rewrite rev_length. auto.
    + intros H3. assert (dropz (rev l) <> []) by (intros E; apply H3; rewrite E; auto).
      destruct (dropz (rev l)) as [|a t] eqn:Ed; [tauto|]. cbn. rewrite last_last.
      pose proof (dropz_hd (rev l)) as Hh. rewrite Ed in Hh. cbn in Hh. apply Hh. discriminate.
  - destruct s as [|a s'] using rev_ind; [cbn; lia|]. rewrite rev_app_distr. cbn. rewrite last_last in Hs. auto.
Qed.

Lemma digits_num_gen l v : fold_left (fun v d => 10 * v + d) l v = v * 10 ^ Z.of_nat (length l) + V10 l.
Proof.
  revert v; induction l as [|x l IH]; intros v; cbn [fold_left limbs_value length]; [cbn; lia|].
  rewrite IH, pow_succ_nat. ring.
Qed.
Lemma digits_num_V l : digits_num l = V10 l.
Proof. unfold digits_num. rewrite digits_num_gen. lia. Qed.
Lemma digit_prefix_dch l : digits_ok 10 l -> digit_prefix (dch l) = l.
Proof.
  induction 1 as [|x l Hx Hl IH]; cbn [dch map digit_prefix]; auto.
  replace ((48 <=? 48 + x) && (48 + x <=? 57)) with true by lia. unfold digit_text in IH. rewrite IH. f_equal. lia.
Qed.
Lemma skip_ws_dch l : digits_ok 10 l -> skip_ws (dch l) = dch l.
Proof. destruct 1; cbn [dch map skip_ws]; auto. replace (is_ws (48 + x)) with false by (unfold is_ws; lia). auto. Qed.
Lemma strtoul_dch l : digits_ok 10 l -> V10 l < 2 ^ 64 -> strtoul (dch l) = V10 l.
Proof.
  intros H Hv. unfold strtoul. rewrite skip_ws_dch by auto.
  assert (E : split_sign (dch l) = (false, dch l)).
  { destruct H; cbn [dch map split_sign]; auto.
    replace (48 + x =? 45) with false by lia. replace (48 + x =? 43) with false by lia. auto. }
  rewrite E. rewrite digit_prefix_dch, digits_num_V by auto.
  replace (V10 l >? 2 ^ 64 - 1) with false; auto. lia.
Qed.
Lemma strtoll_dch s l : digits_ok 10 l -> V10 l < 2 ^ 63 ->
  strtoll (sign_text s ++ dch l) = (match s with Some true => -1 | _ => 1 end) * V10 l.
Proof.
  intros H Hv. pose proof (limbs_value_bound 10 l ltac:(lia) H) as Hb. unfold strtoll.
  assert (E : split_sign (skip_ws (sign_text s ++ dch l)) = (match s with Some true => true | _ => false end, dch l)).
  { destruct s as [[]|]; cbn [sign_text app]; try reflexivity. rewrite skip_ws_dch by auto.
    destruct H; cbn [dch map split_sign]; auto.
    replace (48 + x =? 45) with false by lia. replace (48 + x =? 43) with false by lia. auto. }
  rewrite E, digit_prefix_dch, digits_num_V by auto. change (2 ^ 63) with 9223372036854775808 in *.
  destruct s as [[]|]; lia.
Qed.

Lemma insert_mid a b ch : sze (a ++ b) < 2 ^ 62 -> insert_at (a ++ b) (sze a) 1 ch = Some (a ++ ch :: b).
Proof.
  intros H. unfold insert_at, sze, str_max in *. change (2 ^ 62) with 4611686018427387904 in *. change (2 ^ 63) with 9223372036854775808.
  rewrite app_length in *. replace (_ || _) with false by lia. replace (_ || _) with false by lia.
  rewrite Nat2Z.id. rewrite firstn_app_exact, skipn_app_exact by auto. auto.
Qed.

(** mantissa digits I . F with exponent e *)
Definition mval (I F : list Z) (e : Z) : Q := (inject_Z (V10 (I ++ F)) * p10 (e - Z.of_nat (length F)))%Q.
Definition mtext (I F : list Z) : list Z := dch I ++ 46 :: dch F.
Definition good (I F : list Z) : Prop := (hd 0 I <> 0) \/ V10 (I ++ F) = 0.

Lemma find_mtext I F : digits_ok 10 I -> find_ch 46 (mtext I F) = Some (length I).
Proof. intros H. unfold mtext. rewrite find_ch_app by (apply dch_ne; auto; lia). rewrite dch_length. auto. Qed.
Lemma mtext_sze I F : sze (mtext I F) = Z.of_nat (length I) + 1 + Z.of_nat (length F).
Proof. unfold sze, mtext. rewrite app_length. cbn [length]. rewrite !dch_length. lia. Qed.

Lemma inject_pow10 k : 0 <= k -> (inject_Z (10 ^ k) == p10 k)%Q.
Proof. intros. rewrite p10_Z by auto. reflexivity. Qed.

(** Appending zeros to the fraction and moving the point do not change the value. *)
Lemma mval_zeros I F k e : Qeq (mval I (F ++ repeat 0 k) e) (mval I F e).
Proof.
  unfold mval. rewrite app_assoc, limbs_value_app, limbs_value_repeat0, app_length, repeat_length.
  rewrite Z.add_0_r, inject_Z_mult, inject_pow10, <- Qmult_assoc, <- p10_add by lia.
  setoid_replace (p10 (Z.of_nat k + (e - Z.of_nat (length F + k)))) with (p10 (e - Z.of_nat (length F))); [reflexivity|].
  replace (Z.of_nat k + (e - Z.of_nat (length F + k))) with (e - Z.of_nat (length F)) by lia. reflexivity.
Qed.
Lemma mval_move I F G e : Qeq (mval (I ++ F) G (e - Z.of_nat (length F))) (mval I (F ++ G) e).
Proof.
  unfold mval. rewrite <- app_assoc, app_length.
  replace (e - Z.of_nat (length F) - Z.of_nat (length G)) with (e - Z.of_nat (length F + length G)) by lia. reflexivity.
Qed.

Section P.
Variable c : cfg.
Hypothesis Hc : cfg_ok c.
Notation E := (ebits (c_expo c)).
Notation ED := (edc c).

Lemma sE x : - 2 ^ (E - 1) <= x < 2 ^ (E - 1) -> scast E x = x.
Proof. intros. apply scast_id; auto. destruct (c_expo c); cbn; lia. Qed.

Lemma rd_point_spec I Fo e :
  let F := match Fo with Some f => f | None => [] end in
  digits_ok 10 I -> digits_ok 10 F ->
  Z.of_nat (length (I ++ F)) < 2 ^ 61 ->
  Z.abs e + Z.of_nat (length (I ++ F)) + 2 < 2 ^ (E - 1) ->
  (rd_point c (dch I ++ match Fo with Some f => 46 :: dch f | None => [] end) e = Some None /\ V10 (I ++ F) = 0)
  \/ exists I' F' e', rd_point c (dch I ++ match Fo with Some f => 46 :: dch f | None => [] end) e = Some (Some (mtext I' F', e'))
     /\ digits_ok 10 I' /\ digits_ok 10 F' /\ good I' F' /\ (mval I' F' e' == mval I F e)%Q
     /\ e - Z.of_nat (length F) <= e' - Z.of_nat (length F') /\ e' <= e
     /\ Z.of_nat (length (I' ++ F')) <= Z.of_nat (length (I ++ F)).
Proof.
  intros F HI HF HL He. unfold rd_point.
  destruct Fo as [f|]; subst F.
  - (* with point *)
    rewrite drop0_dch by (cbn; lia). rewrite app_length. cbn [length].
    replace (length (dch (dropz I)) + S (length (dch f)) =? 0)%nat with false by lia. rewrite andb_false_r.
    rewrite find_ch_app by (apply dch_ne; [apply dropz_ok; auto|lia]).
    destruct (strip0_dch (dch (dropz I) ++ [46]) f) as (f' & Es & Ef & Hl & Hlast); [rewrite last_last; lia|].
    rewrite <- app_assoc in Es. cbn [app] in Es. rewrite Es. rewrite <- app_assoc. cbn [app].
    assert (Hf' : digits_ok 10 f') by (rewrite Ef in HF; apply digits_ok_app in HF; tauto).
    assert (EV : V10 (I ++ f') * 10 ^ (Z.of_nat (length f - length f')) = V10 (I ++ f)).
    { transitivity (V10 (I ++ f' ++ repeat 0 (length f - length f'))); [|rewrite <- Ef; auto]. rewrite app_assoc, (limbs_value_app 10 (I ++ f')), limbs_value_repeat0, repeat_length. lia. }
    assert (EQ : (mval I f' e == mval I f e)%Q) by (transitivity (mval I (f' ++ repeat 0 (length f - length f')) e); [rewrite mval_zeros; reflexivity|rewrite <- Ef; reflexivity]).
    pose proof (dropz_split I) as [Hd1 Hd2].
    assert (EV2 : V10 (dropz I ++ f') = V10 (I ++ f')) by (rewrite !limbs_value_app, dropz_value; auto).
    rewrite app_length in *.
    destruct (dropz I) as [|a t] eqn:Ed.
    + cbn [dch map app]. destruct f' as [|b f''].
      * left. cbn [length hd]. split; [reflexivity|]. cbn in EV2. rewrite app_nil_r in *. nia.
      * change (length (46 :: dch (b :: f''))) with (S (S (length (dch f'')))). cbn [Nat.eqb andb dch map].
        change (48 + b :: map (fun d => 48 + d) f'') with (dch (b :: f'')).
        assert (Hdrop : drop0 (dch (b :: f'')) = dch (dropz (b :: f'')))
          by (rewrite <- (app_nil_r (dch (b :: f''))); rewrite drop0_dch by (cbn; lia); apply app_nil_r).
        pose proof (dropz_split (b :: f'')) as [Hz1 Hz2]. set (g := dropz (b :: f'')) in *.
        assert (Hg : g <> []).
        { intros Eg. apply (Hlast ltac:(discriminate)). rewrite Hz1, Eg, app_nil_r.
          clear. cbn [length]. generalize (S (length f'')). intros m. rewrite Nat.sub_0_r. induction m as [|[|m] IH]; auto. }
        pose proof (dropz_hd (b :: f'') Hg) as Hh. assert (Hgo : digits_ok 10 g) by (apply dropz_ok; auto). fold g in Hh.
        destruct g as [|g0 g'] eqn:Eg; [tauto|].
        change (dch (g0 :: g')) with ([48 + g0] ++ dch g') in Hdrop.
        assert (Hl63 : sze ([48 + g0] ++ dch g') < 2 ^ 62).
        { unfold sze. rewrite app_length, dch_length. cbn [length] in *. change (2 ^ 62) with (2 * 2 ^ 61). lia. }
        pose proof (insert_mid [48 + g0] (dch g') 46 Hl63) as Hins. change (sze [48 + g0]) with 1 in Hins. rewrite <- Hdrop in Hins.
        assert (Ez : sze (dch (b :: f'')) - sze (drop0 (dch (b :: f''))) = Z.of_nat (length (b :: f'') - length (g0 :: g'))).
        { rewrite Hdrop. unfold sze. rewrite app_length, !dch_length. cbn [length] in *. lia. }
        right. exists [g0], g', (e - (Z.of_nat (length (b :: f'') - length (g0 :: g')) + 1)).
        apply digits_ok_cons in Hgo. destruct Hgo as [Hg0 Hgo].
        split; [|split; [|split; [|split; [|split; [|split; [|split]]]]]].
        -- cbn [length app Nat.add Nat.eqb andb hd tl Z.eqb Pos.eqb dch map]. cbn [length] in Ez. change (48 + b :: map (fun d => 48 + d) f'') with (dch (b :: f'')). rewrite Hins, Ez.
           assert (Hk : 0 <= Z.of_nat (S (length f'') - S (length g')) <= Z.of_nat (length f)) by (cbn [length] in *; lia).
           revert Hk. generalize (Z.of_nat (S (length f'') - S (length g'))). intros k Hk.
           rewrite (sE k), (sE (k + 1)), (sE (e - (k + 1))) by lia. reflexivity.
        -- constructor; auto.
        -- auto.
        -- left. cbn in *. auto.
        -- cbn [app] in EV2, Hd1. rewrite <- EQ. unfold mval. cbn [app].
           assert (HV : V10 (g0 :: g') = V10 (I ++ b :: f'')).
           { rewrite <- EV2. rewrite <- Eg. unfold g. apply dropz_value. }
           rewrite HV. cbn [length] in *.
           replace (e - (Z.of_nat (S (length f'') - S (length g')) + 1) - Z.of_nat (length g'))
             with (e - Z.of_nat (S (length f''))) by lia. reflexivity.
        -- cbn [length] in *. lia.
        -- lia.
        -- rewrite !app_length. cbn [length] in *. lia.
    + right. exists (a :: t), f', e.
      assert (Ha : a <> 0) by (pose proof (dropz_hd I) as Hh; rewrite Ed in Hh; apply Hh; discriminate).
      assert (Hai : digits_ok 10 (a :: t)) by (rewrite <- Ed; apply dropz_ok; auto).
      pose proof Hai as Hai0. apply digits_ok_cons in Hai0.
      split; [|split; [|split; [|split; [|split; [|split; [|split]]]]]]; auto.
      * cbn [dch map app hd]. replace (48 + a =? 46) with false by lia. rewrite andb_false_r. reflexivity.
      * left. cbn. auto.
      * rewrite <- EQ. unfold mval. rewrite EV2. reflexivity.
      * lia.
      * lia.
      * rewrite !app_length. cbn [length] in *. lia.
  - (* no point *)
    rewrite !app_nil_r in *.
    rewrite <- (app_nil_r (dch I)). rewrite drop0_dch by (cbn; lia). rewrite !app_nil_r, !dch_length.
    pose proof (dropz_split I) as [Hd1 Hd2].
    destruct (negb (length (dropz I) =? length I)%nat && (length (dropz I) =? 0)%nat) eqn:E0.
    + left. split; auto. apply dropz_nil_value. destruct (dropz I); cbn in *; auto. lia.
    + right. rewrite find_ch_none by (apply dch_ne; [apply dropz_ok; auto|lia]).
      exists (dropz I), [], e. split; [reflexivity|]. split; [apply dropz_ok; auto|]. split; [constructor|].
      split.
      * destruct (dropz I) as [|a t] eqn:Ed; [right; reflexivity|left].
        rewrite <- Ed. apply dropz_hd. rewrite Ed; discriminate.
      * split; [unfold mval; rewrite !app_nil_r, dropz_value; reflexivity|]. rewrite app_nil_r. cbn [length]. lia.
Qed.

Lemma ED_bounds : 2 <= ED <= 8.
Proof. apply ed_pos. Qed.

Lemma erase_mid (a b : list Z) x : erase1 (a ++ x :: b) (length a) = a ++ b.
Proof.
  unfold erase1. rewrite firstn_app_exact by auto. f_equal.
  replace (a ++ x :: b) with ((a ++ [x]) ++ b) by (rewrite <- app_assoc; auto).
  apply skipn_app_exact. rewrite app_length. cbn. lia.
Qed.

Lemma good_app I F G k : good I F -> V10 (I ++ G) = V10 (I ++ F) * k -> good I G.
Proof. intros [H|H] EG; [left; auto|right; rewrite EG, H; lia]. Qed.
Lemma V10_zeros I F k : V10 (I ++ F ++ repeat 0 k) = V10 (I ++ F) * 10 ^ Z.of_nat k.
Proof. rewrite app_assoc, (limbs_value_app 10 (I ++ F)), limbs_value_repeat0, repeat_length. lia. Qed.

Lemma rd_shift_spec I F e : digits_ok 10 I -> digits_ok 10 F -> good I F ->
  Z.of_nat (length (I ++ F)) < 2 ^ 61 -> Z.abs e + ED < 2 ^ (E - 1) ->
  exists I' F' e', rd_shift c (mtext I F) e = Some (mtext I' F', e')
    /\ digits_ok 10 I' /\ digits_ok 10 F' /\ good I' F' /\ (mval I' F' e' == mval I F e)%Q
    /\ (ED | e') /\ e - ED < e' <= e
    /\ Z.of_nat (length I') < Z.of_nat (length I) + ED
    /\ Z.of_nat (length (I' ++ F')) < Z.of_nat (length (I ++ F)) + ED.
Proof.
  intros HI HF HG HL He. pose proof ED_bounds as Hed. unfold rd_shift.
  change (ed (c_limb c)) with ED.
  assert (Ens : (if Z.rem e ED =? 0 then 0 else if e <? 0 then Z.rem e ED + ED else Z.rem e ED) = e mod ED).
  { clear - Hed. destruct (Z.rem e ED =? 0) eqn:E0.
    - symmetry. apply Z.mod_divide; [lia|]. apply Z.rem_divide; lia.
    - destruct (e <? 0) eqn:E1.
      + apply Z.mod_unique with (Z.quot e ED - 1).
        * left. pose proof (Z.rem_bound_neg_pos e ED). lia.
        * pose proof (Z.quot_rem e ED). lia.
      + apply Z.rem_mod_nonneg; lia. }
  rewrite Ens. clear Ens. set (ns := e mod ED).
  assert (Hns : 0 <= ns < ED) by (apply Z.mod_pos_bound; lia).
  assert (Hdv : (ED | e - ns)) by (exists (e / ED); unfold ns; pose proof (Z.div_mod e ED); lia).
  rewrite find_mtext by auto. rewrite mtext_sze.
  replace (Z.of_nat (length I) + 1 + Z.of_nat (length F) - (Z.of_nat (length I) + 1)) with (Z.of_nat (length F)) by lia.
  set (F1 := F ++ repeat 0 (Z.to_nat (ns - Z.of_nat (length F)))).
  assert (Es1 : (if Z.of_nat (length F) <? ns then mtext I F ++ repeat 48 (Z.to_nat (ns - Z.of_nat (length F))) else mtext I F) = mtext I F1).
  { unfold F1, mtext. rewrite dch_app, dch_repeat0. destruct (Z.of_nat (length F) <? ns) eqn:El.
    - rewrite <- app_assoc. auto.
    - replace (Z.to_nat (ns - Z.of_nat (length F))) with O by lia. cbn [repeat]. rewrite app_nil_r. auto. }
  rewrite Es1. clear Es1. rewrite app_length in *.
  assert (HF1l : Z.of_nat (length F1) = Z.max ns (Z.of_nat (length F))).
  { unfold F1. rewrite app_length, repeat_length. lia. }
  assert (HF1 : digits_ok 10 F1) by (apply digits_ok_app; split; auto; apply digits_ok_repeat0; lia).
  assert (Hm : (mval I F1 e == mval I F e)%Q) by apply mval_zeros.
  assert (HG1 : good I F1) by (eapply good_app; [eauto|apply V10_zeros]).
  destruct (ns =? 0) eqn:E0.
  - exists I, F1, e. rewrite app_length. repeat (split; [auto; try lia|]); try lia.
    replace e with (e - ns) by lia. auto.
  - set (a := firstn (Z.to_nat ns) F1). set (b := skipn (Z.to_nat ns) F1).
    assert (Eab : F1 = a ++ b) by (symmetry; apply firstn_skipn).
    assert (Hla : Z.of_nat (length a) = ns) by (unfold a; rewrite firstn_length; lia).
    assert (Hdab : digits_ok 10 a /\ digits_ok 10 b) by (apply digits_ok_app; rewrite <- Eab; auto).
    assert (Et : mtext I F1 = mtext I a ++ dch b).
    { rewrite Eab. unfold mtext. rewrite dch_app, <- app_assoc. auto. }
    rewrite Et. replace (Z.of_nat (length I) + 1 + ns) with (sze (mtext I a)) by (rewrite mtext_sze; lia).
    assert (Hlb : Z.of_nat (length a) + Z.of_nat (length b) = Z.of_nat (length F1)) by (rewrite Eab, app_length; lia).
    rewrite insert_mid.
    2:{ unfold sze. rewrite app_length, dch_length. pose proof (mtext_sze I a) as Hz. unfold sze in Hz. change (2 ^ 62) with (2 * 2 ^ 61). lia. }
    unfold mtext at 1. rewrite <- app_assoc. cbn [app]. replace (length I) with (length (dch I)) by apply dch_length. rewrite erase_mid.
    exists (I ++ a), b, (e - ns). rewrite (sE (e - ns)) by lia.
    split; [unfold mtext; rewrite dch_app, <- app_assoc; auto|].
    split; [apply digits_ok_app; tauto|]. split; [tauto|].
    split. { rewrite Eab in HG1. destruct HG1 as [Hh|Hv]; [left|right; rewrite <- app_assoc; auto]. destruct I; cbn in *; auto. }
    split. { rewrite <- Hla at 1. rewrite mval_move, <- Eab. auto. }
    split; [auto|]. rewrite !app_length, ?dch_length. lia.
Qed.

Lemma rd_reduce_spec I F e : digits_ok 10 I -> digits_ok 10 F -> good I F ->
  Z.of_nat (length I) + Z.of_nat (length F) < 2 ^ 31 - 1 ->
  (ED | e) -> - 2 ^ (E - 1) <= e -> e + Z.of_nat (length I) < 2 ^ (E - 1) -> Z.of_nat (length I) < 2 ^ (E - 1) ->
  exists I' F' e', rd_reduce c (mtext I F) e = Some (mtext I' F', e')
    /\ digits_ok 10 I' /\ digits_ok 10 F' /\ good I' F' /\ (mval I' F' e' == mval I F e)%Q
    /\ (ED | e') /\ e <= e' <= e + Z.of_nat (length I)
    /\ Z.of_nat (length I') <= ED
    /\ length (I' ++ F') = length (I ++ F).
Proof.
  intros HI HF HG HL Hd He1 He2 He3. pose proof ED_bounds as Hed. unfold rd_reduce.
  change (ed (c_limb c)) with ED. rewrite find_mtext by auto.
  destruct (Z.of_nat (length I) >? ED) eqn:El.
  2:{ exists I, F, e. split; [auto|]. split; [auto|]. split; [auto|]. split; [auto|]. split; [reflexivity|]. split; [auto|]. split; [lia|]. split; [lia|auto]. }
  rewrite (scast_id 32) by (change (2 ^ (32 - 1)) with (2 ^ 31); change (2 ^ 31) with 2147483648 in *; lia).
  set (p := Z.of_nat (length I)) in *. set (k := Z.quot p ED - (if Z.rem p ED =? 0 then 1 else 0)).
  assert (Hk : 1 <= k <= p /\ 1 <= p - k * ED <= ED).
  { unfold k. rewrite Z.quot_div_nonneg, Z.rem_mod_nonneg by lia.
    pose proof (Z.div_mod p ED ltac:(lia)). pose proof (Z.mod_pos_bound p ED ltac:(lia)).
    destruct (p mod ED =? 0) eqn:Em; nia. }
  destruct Hk as [Hk1 Hk2].
  assert (Hcast : ucast 64 (ucast 64 p - ucast 64 (ucast 64 k * ED)) = p - k * ED).
  { change (2 ^ 31) with 2147483648 in *. rewrite (ucast_id 64 p), (ucast_id 64 k) by (change (2 ^ 64) with 18446744073709551616; lia).
    rewrite (ucast_id 64 (k * ED)) by (change (2 ^ 64) with 18446744073709551616; lia). apply ucast_id. change (2 ^ 64) with 18446744073709551616; lia. }
  rewrite Hcast. clear Hcast.
  set (a := firstn (Z.to_nat (p - k * ED)) I). set (b := skipn (Z.to_nat (p - k * ED)) I).
  assert (Eab : I = a ++ b) by (symmetry; apply firstn_skipn).
  assert (Hla : Z.of_nat (length a) = p - k * ED) by (unfold a; rewrite firstn_length; lia).
  assert (Hlb : Z.of_nat (length b) = k * ED) by (unfold b; rewrite skipn_length; lia).
  assert (Hdab : digits_ok 10 a /\ digits_ok 10 b) by (apply digits_ok_app; rewrite <- Eab; auto).
  assert (Et : mtext I F = dch a ++ (dch b ++ 46 :: dch F)).
  { rewrite Eab. unfold mtext. rewrite dch_app, <- app_assoc. auto. }
  rewrite Et. replace (p - k * ED) with (sze (dch a)) by (unfold sze; rewrite dch_length; lia).
  rewrite insert_mid.
  2:{ rewrite <- Et, mtext_sze. change (2 ^ 62) with 4611686018427387904. change (2 ^ 31) with 2147483648 in *. lia. }
  replace (dch a ++ 46 :: dch b ++ 46 :: dch F) with ((dch a ++ 46 :: dch b) ++ 46 :: dch F) by (rewrite <- app_assoc; auto).
  assert (Hpos : (length I + 1)%nat = length (dch a ++ 46 :: dch b)).
  { rewrite app_length. cbn [length]. rewrite !dch_length. rewrite Eab at 1. rewrite app_length. lia. }
  replace (sze ((dch a ++ 46 :: dch b) ++ 46 :: dch F) <? p + 1) with false.
  2:{ unfold sze. rewrite app_length, <- Hpos. unfold p. cbn [length]. lia. }
  rewrite Hpos, erase_mid.
  rewrite (sE k), (sE (k * ED)), (sE (e + k * ED)) by (fold p in He2, He3; lia).
  exists a, (b ++ F), (e + k * ED).
  split; [unfold mtext; rewrite dch_app, <- app_assoc; auto|].
  split; [tauto|]. split; [apply digits_ok_app; tauto|].
  split. { rewrite Eab in HG. destruct HG as [Hh|Hv]; [left|right; rewrite app_assoc; auto]. destruct a; cbn in *; auto; lia. }
  split. { rewrite <- mval_move, <- Eab, Hlb. replace (e + k * ED - k * ED) with e by lia. reflexivity. }
  split; [apply Z.divide_add_r; auto; exists k; lia|]. split; [lia|]. split; [lia|].
  rewrite app_assoc, <- Eab. auto.
Qed.

End P.
Ltac Zify.zify_post_hook ::= idtac.
