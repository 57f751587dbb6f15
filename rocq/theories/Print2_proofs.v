(** Print2_proofs.v - layout of the printed text. *)
From Verif Require Import Base Add_proofs Value_proofs Sum_proofs Mul_proofs.
From Verif Require Export Print_proofs.
From Coq Require Import Lia Lqa.
Local Open Scope Z_scope.

Definition trimz (l : list Z) : list Z := rev (dropz (rev l)).
Lemma trimz_split l : l = trimz l ++ repeat 0 (length l - length (trimz l)) /\ (length (trimz l) <= length l)%nat.
Proof.
  unfold trimz. destruct (dropz_split (rev l)) as [H1 H2]. rewrite rev_length in *. split; [|lia].
  rewrite <- (rev_involutive l) at 1. rewrite H1 at 1. rewrite rev_app_distr. f_equal. apply rev_repeat.
Qed.
Lemma trimz_last l : trimz l <> [] -> last (trimz l) 0 <> 0.
Proof.
  unfold trimz. intros H. assert (H0 : dropz (rev l) <> []) by (intros E; apply H; rewrite E; auto).
  pose proof (dropz_hd (rev l) H0) as Hh. destruct (dropz (rev l)) as [|a t]; [tauto|]. cbn. rewrite last_last. auto.
Qed.
Lemma trimz_ok l : digits_ok 10 l -> digits_ok 10 (trimz l).
Proof. intros H. unfold trimz. apply digits_ok_rev, dropz_ok, digits_ok_rev. auto. Qed.
Lemma trimz_zeros l k : trimz (l ++ repeat 0 k) = trimz l.
Proof.
  unfold trimz. rewrite rev_app_distr, rev_repeat. f_equal. induction k; cbn; auto.
Qed.
Lemma strip0_mtext I F : strip0 (mtext I F) = mtext I (trimz F).
Proof.
  unfold strip0, mtext. replace (dch I ++ 46 :: dch F) with ((dch I ++ [46]) ++ dch F) by (rewrite <- app_assoc; auto).
  rewrite rev_app_distr, rev_dch, drop0_dch.
  - rewrite rev_app_distr, rev_involutive, rev_dch. rewrite <- app_assoc. auto.
  - rewrite rev_app_distr. cbn. lia.
Qed.

Definition ftext (Fo : option (list Z)) : list Z := match Fo with Some f => 46 :: dch f | None => [] end.
Definition fdig (Fo : option (list Z)) : list Z := match Fo with Some f => f | None => [] end.

Lemma insert_end s k : 0 <= k -> sze s + k < 2 ^ 63 -> insert_at s (sze s) k 48 = Some (s ++ repeat 48 (Z.to_nat k)).
Proof.
  intros Hk Hl. unfold insert_at, sze, str_max in *. change (2 ^ 63) with 9223372036854775808 in *.
  replace (_ || _) with false by lia. replace (_ || _) with false by lia.
  rewrite Nat2Z.id, firstn_all, skipn_all, app_nil_r. auto.
Qed.
Lemma insert_front s k ch : 0 <= k -> sze s + k < 2 ^ 63 -> insert_at s 0 k ch = Some (repeat ch (Z.to_nat k) ++ s).
Proof.
  intros Hk Hl. unfold insert_at, sze, str_max in *. change (2 ^ 63) with 9223372036854775808 in *.
  replace (_ || _) with false by lia. replace (_ || _) with false by lia. reflexivity.
Qed.

(** Condition under which showpoint's zero extension is possible. *)
Definition ext_ok (I F : list Z) (prec : Z) : Prop :=
  if (hd 0 I =? 0) && (length I =? 1)%nat then Z.of_nat (length (dropz (trimz F))) <= prec
  else Z.of_nat (length I) + Z.of_nat (length (trimz F)) <= prec.

Lemma mtext_zeros I F k : mtext I F ++ repeat 48 k = mtext I (F ++ repeat 0 k).
Proof. unfold mtext. rewrite dch_app, dch_repeat0, <- app_assoc. auto. Qed.

Lemma special_extend_spec I F prec : I <> [] -> digits_ok 10 I -> digits_ok 10 F -> 0 <= prec < 2 ^ 62 -> F = trimz F ->
  Z.of_nat (length I) + Z.of_nat (length F) < 2 ^ 61 -> ext_ok I F prec ->
  exists k, Z.of_nat k <= prec /\ special_extend (mtext I F) prec = Some (mtext I (F ++ repeat 0 k)).
Proof.
  intros Hne HI HF Hp Ht HL Hx. unfold ext_ok in Hx. rewrite <- Ht in Hx.
  change (2 ^ 61) with 2305843009213693952 in *. change (2 ^ 62) with 4611686018427387904 in *.
  destruct I as [|a t]; [tauto|]. apply digits_ok_cons in HI. destruct HI as [Ha HIt].
  unfold special_extend. pose proof (mtext_sze (a :: t) F) as Hsz.
  assert (Hgen : Z.of_nat (length (a :: t)) + Z.of_nat (length F) <= prec ->
     exists k, Z.of_nat k <= prec /\ insert_at (mtext (a :: t) F) (sze (mtext (a :: t) F)) (ucast 64 (prec - (sze (mtext (a :: t) F) - 1))) 48
             = Some (mtext (a :: t) (F ++ repeat 0 k))).
  { intros Hle. rewrite ucast_id by (change (2 ^ 64) with 18446744073709551616; lia).
    rewrite insert_end by (change (2 ^ 63) with 9223372036854775808; lia). eexists. rewrite mtext_zeros. split; [|reflexivity]. rewrite Z2Nat.id; lia. }
  assert (N0 : nth_error (mtext (a :: t) F) 0 = Some (48 + a)) by reflexivity. rewrite N0. cbn [hd length] in *.
  destruct (a =? 0) eqn:Ea; cbn [andb] in Hx.
  - replace (48 + a =? 48) with true by lia. 
    destruct t as [|b t'].
    + assert (N1 : nth_error (mtext [a] F) 1 = Some 46) by reflexivity. rewrite N1. cbn [Z.eqb Pos.eqb andb Nat.eqb length] in *.
      destruct F as [|f0 F'].
      * change (length (mtext [a] []) =? 2)%nat with true. rewrite insert_end by (change (2 ^ 63) with 9223372036854775808; lia).
        eexists. rewrite mtext_zeros. split; [|reflexivity]. rewrite Z2Nat.id; lia.
      * change (length (mtext [a] (f0 :: F')) =? 2)%nat with false. cbv iota.
        change (skipn 2 (mtext [a] (f0 :: F'))) with (dch (f0 :: F')).
        assert (Hdrop : drop0 (dch (f0 :: F')) = dch (dropz (f0 :: F')))
          by (rewrite <- (app_nil_r (dch (f0 :: F'))); rewrite drop0_dch by (cbn; lia); apply app_nil_r).
        rewrite Hdrop. unfold sze at 2. rewrite dch_length.
        rewrite ucast_id by (change (2 ^ 64) with 18446744073709551616; lia).
        rewrite insert_end by (change (2 ^ 63) with 9223372036854775808; cbn [length] in *; lia).
        eexists. rewrite mtext_zeros. split; [|reflexivity]. rewrite Z2Nat.id; lia.
    + assert (N1 : nth_error (mtext (a :: b :: t') F) 1 = Some (48 + b)) by reflexivity. rewrite N1.
      apply digits_ok_cons in HIt. replace (48 + b =? 46) with false by lia. rewrite andb_false_r.
      cbn [length Nat.eqb andb] in Hx. apply Hgen. cbn [length]. lia.
  - replace (48 + a =? 48) with false by lia. cbn [andb] in *. apply Hgen. cbn [length]. lia.
Qed.

Lemma last_mtext I F : digits_ok 10 F -> (last (mtext I F) 0 =? 46) = match F with [] => true | _ => false end.
Proof.
  intros HF. unfold mtext. replace (dch I ++ 46 :: dch F) with ((dch I ++ [46]) ++ dch F) by (rewrite <- app_assoc; auto).
  destruct F as [|f0 F'] using rev_ind.
  - cbn [dch map]. rewrite app_nil_r, last_last. reflexivity.
  - rewrite dch_app. cbn [dch map]. rewrite app_assoc, last_last. apply digits_ok_app in HF. destruct HF as [_ HF].
    apply digits_ok_cons in HF. replace (48 + f0 =? 46) with false by lia. destruct F'; reflexivity.
Qed.

Lemma finish_spec I F prec sp trim : I <> [] -> digits_ok 10 I -> digits_ok 10 F -> 0 <= prec < 2 ^ 62 ->
  Z.of_nat (length I) + Z.of_nat (length F) < 2 ^ 61 -> (sp && trim = true -> ext_ok I F prec) ->
  exists Fo, finish_digits (mtext I F) prec sp trim = Some (dch I ++ ftext Fo) /\ digits_ok 10 (fdig Fo) /\
    (forall e, (mval I (fdig Fo) e == mval I F e)%Q) /\ Z.of_nat (length (fdig Fo)) <= Z.of_nat (length F) + prec /\
    (trim = false -> Fo = if negb sp && (length F =? 0)%nat then None else Some F) /\
    (trim = true -> sp = false -> Fo = if (length (trimz F) =? 0)%nat then None else Some (trimz F)) /\
    (trim = true -> sp = true -> exists k, Fo = Some (trimz F ++ repeat 0 k)).
Proof.
  intros Hne HI HF Hp HL Hx. unfold finish_digits. destruct (trimz_split F) as [Ht1 Ht2].
  assert (Hm : forall e, Qeq (mval I (trimz F) e) (mval I F e)).
  { intros e. rewrite Ht1 at 2. rewrite mval_zeros. reflexivity. }
  assert (Hnn : forall G, mtext I G <> []) by (intros G E0; apply (f_equal (@length Z)) in E0; unfold mtext in E0; rewrite app_length in E0; cbn in E0; lia).
  assert (Hrm : removelast (mtext I []) = dch I) by (unfold mtext; cbn [dch map]; apply removelast_last).
  destruct trim.
  - rewrite strip0_mtext. destruct sp.
    + destruct (special_extend_spec I (trimz F) prec) as (k & Hk & ->); auto.
      * apply trimz_ok; auto.
      * pose proof (trimz_zeros (trimz F) (length F - length (trimz F))) as Hz. rewrite <- Ht1 in Hz. auto.
      * lia.
      * specialize (Hx eq_refl). unfold ext_ok in *.
        pose proof (trimz_zeros (trimz F) (length F - length (trimz F))) as Hz. rewrite <- Ht1 in Hz. rewrite <- Hz. auto.
      * exists (Some (trimz F ++ repeat 0 k)). split; [reflexivity|]. split.
        { cbn. apply digits_ok_app. split; [apply trimz_ok; auto|apply digits_ok_repeat0; lia]. }
        split; [intros e; cbn [fdig]; rewrite mval_zeros; apply Hm|]. split; [cbn [fdig]; rewrite app_length, repeat_length; lia|]. split; [discriminate|]. split; [discriminate|eauto].
    + pose proof (Hnn (trimz F)) as Hn1. destruct (mtext I (trimz F)) as [|y ys] eqn:Em; [tauto|]. rewrite <- Em.
      rewrite last_mtext by (apply trimz_ok; auto). destruct (trimz F) as [|f0 F'] eqn:Etz.
      * exists None. rewrite Hrm. cbn [ftext fdig]. rewrite app_nil_r. split; [auto|]. split; [constructor|].
        split; [auto|]. split; [cbn [fdig length] in *; lia|]. split; [discriminate|]. split; [auto|discriminate].
      * exists (Some (f0 :: F')). split; [reflexivity|]. split; [cbn [fdig]; rewrite <- Etz; apply trimz_ok; auto|].
        split; [auto|]. split; [cbn [fdig] in *; lia|]. split; [discriminate|]. split; [auto|discriminate].
  - destruct sp.
    + exists (Some F). split; [reflexivity|]. split; [auto|]. split; [reflexivity|]. split; [cbn [fdig]; lia|]. split; [auto|]. split; discriminate.
    + pose proof (Hnn F) as Hn1. destruct (mtext I F) as [|y ys] eqn:Em; [tauto|]. rewrite <- Em.
      rewrite last_mtext by auto. destruct F as [|f0 F'] eqn:EF.
      * exists None. rewrite Hrm. cbn [ftext fdig]. rewrite app_nil_r. split; [auto|]. split; [constructor|].
        split; [reflexivity|]. split; [cbn [fdig length]; lia|]. split; [auto|]. split; discriminate.
      * exists (Some (f0 :: F')). split; [reflexivity|]. split; [auto|]. split; [reflexivity|]. split; [cbn [fdig]; lia|]. split; [auto|]. split; discriminate.
Qed.

Section P.
Variable c : cfg.
Hypothesis Hc : cfg_ok c.
Notation E := (ebits (c_expo c)).

Lemma E_le63 : 2 ^ (E - 1) <= 2 ^ 63.
Proof. apply Z.pow_le_mono_r; [lia|]. destruct (c_expo c); cbn; lia. Qed.

Lemma mval_head d r k e : Qeq (mval [d] (r ++ repeat 0 k) e) (inject_Z (V10 (d :: r)) * p10 (e - Z.of_nat (length r))).
Proof. rewrite mval_zeros. reflexivity. Qed.

Lemma wr_scientific_spec ds e prec sp up trim : ds <> [] -> digits_ok 10 ds -> 0 <= prec < 2 ^ 60 ->
  Z.of_nat (length ds) < 2 ^ 60 -> - 2 ^ (E - 1) < e < 2 ^ (E - 1) ->
  (sp && trim = true -> hd 0 ds <> 0 /\ Z.of_nat (length ds) <= prec) ->
  exists Fo ts, let l := mkLit None [hd 0 ds] Fo (Some (up, Some (e <? 0), ts)) in
    wr_scientific c (dch ds) e prec sp up trim = Some (lit_text l) /\ lit_ok l /\ lit_exp l = e /\
    (lit_value l == inject_Z (V10 ds) * p10 (e - (Z.of_nat (length ds) - 1)))%Q /\
    (Z.of_nat (length ts) mod 3 = 0 /\ 0 < Z.of_nat (length ts) <= 21) /\
    Z.of_nat (length (fdig Fo)) <= Z.of_nat (length ds) + 2 * prec /\
    let F := tl ds ++ repeat 0 (Z.to_nat (prec - (Z.of_nat (length ds) - 1))) in
    (trim = false -> Fo = if negb sp && (length F =? 0)%nat then None else Some F) /\
    (trim = true -> sp = false -> Fo = if (length (trimz F) =? 0)%nat then None else Some (trimz F)) /\
    (trim = true -> sp = true -> exists k, Fo = Some (trimz F ++ repeat 0 k)).
Proof.
  intros Hne Hok Hp HL He Hx. destruct ds as [|d r]; [tauto|]. clear Hne. cbn [hd tl length] in *.
  apply digits_ok_cons in Hok. destruct Hok as [Hd Hr].
  change (2 ^ 60) with 1152921504606846976 in *.
  unfold wr_scientific. assert (Hsz : sze (dch (d :: r)) = Z.of_nat (length r) + 1) by (unfold sze; rewrite dch_length; cbn [length]; lia).
  rewrite Hsz. replace (Z.of_nat (length r) + 1 - 1) with (Z.of_nat (length r)) by lia.
  rewrite (ucast_id 64 (Z.of_nat (length r))) by (change (2 ^ 64) with 18446744073709551616; lia).
  replace (Z.of_nat (S (length r)) - 1) with (Z.of_nat (length r)) in * by lia.
  set (k := Z.to_nat (prec - Z.of_nat (length r))).
  assert (Es1 : (if prec >? Z.of_nat (length r) then insert_at (dch (d :: r)) (Z.of_nat (length r) + 1) (prec - Z.of_nat (length r)) 48 else Some (dch (d :: r)))
                = Some (dch ([d] ++ (r ++ repeat 0 k)))).
  { rewrite app_assoc, dch_app, dch_repeat0. unfold k. destruct (prec >? Z.of_nat (length r)) eqn:Eg.
    - rewrite <- Hsz. rewrite insert_end by (change (2 ^ 63) with 9223372036854775808; lia). reflexivity.
    - replace (Z.to_nat (prec - Z.of_nat (length r))) with O by lia. cbn [repeat]. rewrite app_nil_r. reflexivity. }
  rewrite Es1. clear Es1. rewrite dch_app.
  assert (Hlk : Z.of_nat (length (r ++ repeat 0 k)) <= Z.of_nat (length r) + prec) by (rewrite app_length, repeat_length; unfold k; lia).
  pose proof (insert_mid (dch [d]) (dch (r ++ repeat 0 k)) 46) as Hins. change (sze (dch [d])) with 1 in Hins. rewrite Hins.
  2:{ unfold sze. rewrite app_length, !dch_length. change (2 ^ 62) with 4611686018427387904. cbn [length]. lia. }
  fold (mtext [d] (r ++ repeat 0 k)).
  destruct (finish_spec [d] (r ++ repeat 0 k) prec sp trim) as (Fo & -> & F1 & F2 & FL & F3 & F4 & F5).
  { discriminate. } { repeat constructor; lia. } { apply digits_ok_app. split; auto. apply digits_ok_repeat0; lia. }
  { change (2 ^ 62) with 4611686018427387904; lia. } { change (2 ^ 61) with 2305843009213693952; cbn [length]; lia. }
  { intros Hst. destruct (Hx Hst) as [Hd0 Hl]. unfold ext_ok. cbn [hd length]. replace (d =? 0) with false by lia. cbn [andb].
    rewrite trimz_zeros. destruct (trimz_split r) as [_ Ht]. lia. }
  pose proof E_le63 as HE.
  replace ((e <? 0) && (E =? 64) && (e =? - 2 ^ 63)) with false by lia.
  assert (Hu : ucast 64 (if e <? 0 then scast E (- e) else e) = Z.abs e).
  { destruct (e <? 0) eqn:En; [rewrite sE by lia|]; rewrite ucast_id by (change (2 ^ 63) with 9223372036854775808 in *; change (2 ^ 64) with 18446744073709551616; lia); lia. }
  rewrite Hu.
  destruct (dec_text (Z.abs e) 20) as (t & -> & T1 & T2 & T3 & _).
  { change (2 ^ 64) with 18446744073709551616; change (2 ^ 63) with 9223372036854775808 in *; lia. }
  { change (10 ^ Z.of_nat 20) with 100000000000000000000; change (2 ^ 63) with 9223372036854775808 in *; lia. } { lia. }
  rewrite dch_length. set (m := (if (length t mod 3 =? 0)%nat then O else (3 - length t mod 3)%nat)).
  exists Fo, (repeat 0 m ++ t). cbv zeta.
  assert (Hts : V10 (repeat 0 m ++ t) = Z.abs e) by (rewrite limbs_value_app, limbs_value_repeat0, T2; lia).
  assert (Hlm : (length t mod 3 < 3)%nat) by (apply Nat.mod_upper_bound; lia).
  assert (Hdm : (length t = 3 * (length t / 3) + length t mod 3)%nat) by (apply Nat.div_mod; lia).
  assert (Hle : lit_exp (mkLit None [d] Fo (Some (up, Some (e <? 0), repeat 0 m ++ t))) = e).
  { unfold lit_exp. cbn [l_exp]. rewrite Hts. destruct (e <? 0) eqn:En; lia. }
  split; [|split; [|split; [|split; [|split; [|split; [|split; [|split]]]]]]]; auto.
  - unfold lit_text. cbn [l_sign l_int l_frac l_exp sign_text app]. f_equal. rewrite <- app_assoc. f_equal.
    f_equal. rewrite dch_app, dch_repeat0. destruct (e <? 0); reflexivity.
  - unfold lit_ok, frac_digits. cbn [l_int l_frac l_exp]. split; [repeat constructor; lia|]. split; [exact F1|].
    apply digits_ok_app. split; auto. apply digits_ok_repeat0; lia.
  - unfold lit_value. rewrite Hle. unfold frac_digits. cbn [l_sign l_int l_frac]. rewrite Z.mul_1_l.
    change (match Fo with Some f => f | None => [] end) with (fdig Fo).
    change (inject_Z (V10 ([d] ++ fdig Fo)) * p10 (e - Z.of_nat (length (fdig Fo))))%Q with (mval [d] (fdig Fo) e).
    rewrite F2, mval_head. reflexivity.
  - rewrite app_length, repeat_length. split; [|unfold m; destruct (length t mod 3 =? 0)%nat; lia].
    apply Z.mod_divide; [lia|]. unfold m. destruct (length t mod 3 =? 0)%nat eqn:E3.
    + exists (Z.of_nat (length t / 3)). lia.
    + exists (Z.of_nat (length t / 3) + 1). lia.
  - lia.
Qed.

(** Integer and fraction digits of the fixed layout. *)
Definition fixI (ds : list Z) (e : Z) : list Z :=
  if e <? 0 then [0] else firstn (Z.to_nat (e + 1)) (ds ++ repeat 0 (Z.to_nat (e + 1) - length ds)).
Definition fixF (ds : list Z) (e prec : Z) : list Z :=
  if e <? 0 then repeat 0 (Z.to_nat (- (e + 1))) ++ ds ++ repeat 0 (Z.to_nat (prec - (Z.of_nat (length ds) - (e + 1))))
  else skipn (Z.to_nat (e + 1)) ds ++ repeat 0 (Z.to_nat (prec - Z.of_nat (length ds - Z.to_nat (e + 1)))).

Lemma negate_s_id x : - 2 ^ (E - 1) <= x <= 0 -> - x < 2 ^ (E - 1) -> negate_s E x = - x.
Proof.
  intros Hx Hx2. pose proof E_le63 as HE. unfold negate_s, negate_u. change (2 ^ 63) with 9223372036854775808 in *.
  destruct (Z.eq_dec x 0) as [->|Hn].
  - cbn. destruct (c_expo c); reflexivity.
  - assert (H1 : ucast 64 x = x + 2 ^ 64).
    { unfold ucast. symmetry. apply Z.mod_unique with (-1); change (2 ^ 64) with 18446744073709551616; lia. }
    assert (H2 : ucast 64 (- ucast 64 x) = - x).
    { rewrite H1. unfold ucast. symmetry. apply Z.mod_unique with (-1); change (2 ^ 64) with 18446744073709551616; lia. }
    rewrite H2. apply sE. lia.
Qed.

Lemma wr_fixed_spec ds e prec sp trim : ds <> [] -> digits_ok 10 ds -> 0 <= prec < 2 ^ 59 ->
  Z.of_nat (length ds) < 2 ^ 59 -> Z.abs e < 2 ^ 59 ->
  Z.abs e + prec + 3 < 2 ^ (E - 1) -> Z.of_nat (length ds) + Z.abs e + 2 < 2 ^ (E - 1) ->
  (sp && trim = true -> ext_ok (fixI ds e) (fixF ds e prec) prec) ->
  exists Fo, let l := mkLit None (fixI ds e) Fo None in
    wr_fixed c (dch ds) e prec sp trim = Some (lit_text l) /\ lit_ok l /\
    (lit_value l == inject_Z (V10 ds) * p10 (e - (Z.of_nat (length ds) - 1)))%Q /\
    Z.of_nat (length (fixI ds e)) + Z.of_nat (length (fdig Fo)) <= Z.of_nat (length ds) + Z.abs e + 2 * prec + 2 /\
    (trim = false -> Fo = if negb sp && (length (fixF ds e prec) =? 0)%nat then None else Some (fixF ds e prec)) /\
    (trim = true -> sp = false -> Fo = if (length (trimz (fixF ds e prec)) =? 0)%nat then None else Some (trimz (fixF ds e prec))) /\
    (trim = true -> sp = true -> exists k, Fo = Some (trimz (fixF ds e prec) ++ repeat 0 k)).
Proof.
  intros Hne Hok Hp HL He He2 He3 Hx. change (2 ^ 59) with 576460752303423488 in *.
  set (len := Z.of_nat (length ds)) in *. assert (Hlen1 : 1 <= len) by (unfold len; destruct ds; [tauto|cbn [length]; lia]).
  pose proof (E_ge8 c) as HE8. assert (H128 : 128 <= 2 ^ (E - 1)) by (change 128 with (2 ^ 7); apply Z.pow_le_mono_r; lia).
  set (I := fixI ds e) in *. set (F := fixF ds e prec) in *.
  (* the text handed to finish_digits *)
  assert (Hcore : wr_fixed c (dch ds) e prec sp trim = finish_digits (mtext I F) prec sp trim /\ I <> [] /\
     digits_ok 10 I /\ digits_ok 10 F /\ Z.of_nat (length I) + Z.of_nat (length F) <= len + Z.abs e + prec + 2 /\
     (mval I F 0 == inject_Z (V10 ds) * p10 (e - (len - 1)))%Q).
  { unfold wr_fixed, I, F, fixI, fixF. replace (sze (dch ds)) with len by (unfold sze; rewrite dch_length; auto).
    destruct (e <? 0) eqn:En.
    - rewrite (sE c (e + 1)), negate_s_id by lia. rewrite (ucast_id 64) by (change (2 ^ 64) with 18446744073709551616; lia).
      rewrite (sE c prec), (sE c len) by lia. rewrite (sE c (len + - (e + 1))), (sE c (prec - (len + - (e + 1)))) by lia.
      set (zn := Z.to_nat (- (e + 1))). set (pd := Z.to_nat (prec - (len - (e + 1)))).
      rewrite insert_front by (unfold sze; rewrite ?dch_length; change (2 ^ 63) with 9223372036854775808; fold len; lia).
      fold zn. rewrite insert_front by (unfold sze; rewrite ?app_length, ?repeat_length, ?dch_length; change (2 ^ 63) with 9223372036854775808; fold len; lia).
      change (repeat 46 (Z.to_nat 1)) with [46]. cbn [app].
      rewrite insert_front by (unfold sze; cbn [length]; rewrite ?app_length, ?repeat_length, ?dch_length; change (2 ^ 63) with 9223372036854775808; fold len; lia).
      change (repeat 48 (Z.to_nat 1)) with [48]. cbn [app].
      assert (Et : 48 :: 46 :: repeat 48 zn ++ dch ds = mtext [0] (repeat 0 zn ++ ds)).
      { unfold mtext. rewrite dch_app, dch_repeat0. reflexivity. }
      rewrite Et.
      assert (Es : (if prec - (len + - (e + 1)) >? 0 then insert_at (mtext [0] (repeat 0 zn ++ ds)) (sze (mtext [0] (repeat 0 zn ++ ds))) (prec - (len + - (e + 1))) 48
                    else Some (mtext [0] (repeat 0 zn ++ ds))) = Some (mtext [0] (repeat 0 zn ++ ds ++ repeat 0 pd))).
      { rewrite (app_assoc (repeat 0 zn)), <- mtext_zeros. destruct (_ >? 0) eqn:Eg.
        - rewrite insert_end.
          + replace (Z.to_nat (prec - (len + - (e + 1)))) with pd by (unfold pd; f_equal; lia). reflexivity.
          + lia.
          + rewrite mtext_sze, app_length, repeat_length. change (2 ^ 63) with 9223372036854775808. cbn [length]. lia.
        - replace pd with O by (unfold pd; lia). cbn [repeat]. rewrite app_nil_r. reflexivity. }
      rewrite Es. split; [reflexivity|]. split; [discriminate|]. split; [repeat constructor; lia|].
      split; [apply digits_ok_app; split; [apply digits_ok_repeat0; lia|apply digits_ok_app; split; [auto|apply digits_ok_repeat0; lia]]|].
      split; [rewrite !app_length, !repeat_length; cbn [length]; lia|].
      rewrite app_assoc, mval_zeros. unfold mval. rewrite app_assoc, limbs_value_app.
      replace (V10 ([0] ++ repeat 0 zn)) with 0 by (cbn [app limbs_value]; rewrite limbs_value_repeat0; lia).
      rewrite Z.add_0_l, app_length, repeat_length. replace (0 - Z.of_nat (zn + length ds)) with (e - (len - 1)) by lia. reflexivity.
    - rewrite (sE c (e + 1)) by lia. rewrite (ucast_id 64) by (change (2 ^ 64) with 18446744073709551616; lia).
      set (e1 := Z.to_nat (e + 1)). set (zn := (e1 - length ds)%nat). set (u := ds ++ repeat 0 zn).
      assert (Es1 : (if len <? e + 1 then insert_at (dch ds) len (e + 1 - len) 48 else Some (dch ds)) = Some (dch u)).
      { unfold u, zn. rewrite dch_app, dch_repeat0. destruct (len <? e + 1) eqn:El.
        - replace len with (sze (dch ds)) at 1 by (unfold sze; rewrite dch_length; auto).
          rewrite insert_end by (unfold sze; rewrite ?dch_length; change (2 ^ 63) with 9223372036854775808; fold len; lia).
          replace (e1 - length ds)%nat with (Z.to_nat (e + 1 - len)) by lia. reflexivity.
        - replace (e1 - length ds)%nat with O by lia. cbn [repeat]. rewrite app_nil_r. reflexivity. }
      rewrite Es1. clear Es1.
      assert (Hlu : (length u = Nat.max e1 (length ds))%nat) by (unfold u, zn; rewrite app_length, repeat_length; lia).
      set (I0 := firstn e1 u). set (R := skipn e1 ds).
      assert (HR : skipn e1 u = R).
      { unfold u, R. rewrite skipn_app. replace (skipn (e1 - length ds) (repeat 0 zn)) with (@nil Z); [apply app_nil_r|].
        symmetry. apply skipn_all2. rewrite repeat_length. unfold zn. lia. }
      assert (Hu : u = I0 ++ R) by (rewrite <- HR; symmetry; apply firstn_skipn).
      assert (HlI : length I0 = e1) by (unfold I0; rewrite firstn_length; lia).
      assert (HlR : length R = (length ds - e1)%nat) by (unfold R; apply skipn_length).
      assert (Hou : digits_ok 10 u) by (apply digits_ok_app; split; auto; apply digits_ok_repeat0; lia).
      rewrite Hu, dch_app.
      pose proof (insert_mid (dch I0) (dch R) 46) as Hins.
      replace (sze (dch I0)) with (e + 1) in Hins by (unfold sze; rewrite dch_length, HlI; lia).
      rewrite Hins by (unfold sze; rewrite app_length, !dch_length, HlI, HlR; change (2 ^ 62) with 4611686018427387904; lia).
      fold (mtext I0 R). rewrite mtext_sze, HlI, HlR.
      rewrite (sE c prec) by lia.
      rewrite (sE c (Z.of_nat e1 + 1 + Z.of_nat (length ds - e1) - 1)) by lia.
      rewrite (sE c (Z.of_nat e1 + 1 + Z.of_nat (length ds - e1) - 1 - (e + 1))) by lia.
      rewrite (sE c (prec - _)) by lia.
      replace (prec - (Z.of_nat e1 + 1 + Z.of_nat (length ds - e1) - 1 - (e + 1))) with (prec - Z.of_nat (length ds - e1)) by lia.
      set (pd := Z.to_nat (prec - Z.of_nat (length ds - e1))).
      assert (Es : (if prec - Z.of_nat (length ds - e1) >? 0 then insert_at (mtext I0 R) (Z.of_nat e1 + 1 + Z.of_nat (length ds - e1)) (prec - Z.of_nat (length ds - e1)) 48
                    else Some (mtext I0 R)) = Some (mtext I0 (R ++ repeat 0 pd))).
      { rewrite <- mtext_zeros. destruct (_ >? 0) eqn:Eg.
        - replace (Z.of_nat e1 + 1 + Z.of_nat (length ds - e1)) with (sze (mtext I0 R)) by (rewrite mtext_sze, HlI, HlR; auto).
          rewrite insert_end; [reflexivity|lia|]. rewrite mtext_sze, HlI, HlR. change (2 ^ 63) with 9223372036854775808. lia.
        - replace pd with O by (unfold pd; lia). cbn [repeat]. rewrite app_nil_r. reflexivity. }
      rewrite Es. split; [reflexivity|].
      split; [intros E0; rewrite E0 in HlI; cbn in HlI; lia|].
      split; [apply digits_ok_firstn; auto|].
      split; [apply digits_ok_app; split; [apply digits_ok_skipn; auto|apply digits_ok_repeat0; lia]|].
      split; [rewrite ?HlI, app_length, HlR, repeat_length; lia|].
      rewrite mval_zeros. unfold mval. rewrite <- Hu. unfold u. rewrite limbs_value_app, limbs_value_repeat0, repeat_length, Z.add_0_r, HlR.
      rewrite (scaleZ (V10 ds) (e - (len - 1)) (0 - Z.of_nat (length ds - e1))) by lia.
      replace (e - (len - 1) - (0 - Z.of_nat (length ds - e1))) with (Z.of_nat zn) by (unfold zn; lia). reflexivity. }
  destruct Hcore as (-> & H1 & H2 & H3 & H4 & H5).
  destruct (finish_spec I F prec sp trim) as (Fo & -> & F1 & F2 & FL & F3 & F4 & F5); auto.
  { change (2 ^ 62) with 4611686018427387904; lia. } { change (2 ^ 61) with 2305843009213693952; lia. }
  exists Fo. cbv zeta. split; [|split; [|split; [|split; [|split]]]]; auto.
  - unfold lit_text. cbn [l_sign l_int l_frac l_exp sign_text app]. rewrite app_nil_r. reflexivity.
  - unfold lit_ok, frac_digits. cbn [l_int l_frac l_exp]. split; [auto|]. split; auto.
  - unfold lit_value, lit_exp, frac_digits. cbn [l_sign l_int l_frac l_exp]. rewrite Z.mul_1_l.
    change (match Fo with Some f => f | None => [] end) with (fdig Fo).
    change (inject_Z (V10 (I ++ fdig Fo)) * p10 (0 - Z.of_nat (length (fdig Fo))))%Q with (mval I (fdig Fo) 0).
    rewrite F2. exact H5.
  - fold I. lia.
Qed.
End P.
