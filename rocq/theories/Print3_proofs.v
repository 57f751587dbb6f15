(** Print3_proofs.v - the whole output routine. *)
From Verif Require Import Base Add_proofs Value_proofs Sum_proofs Mul_proofs Misc_proofs.
From Verif Require Export Parse2_proofs Print2_proofs.
From Coq Require Import Lia Lqa.
Local Open Scope Z_scope.

Section P.
Variable c : cfg.
Hypothesis Hc : cfg_ok c.
Notation E := (ebits (c_expo c)).
Notation ED := (edc c).

Definition wr_layout (f : fmt) (e0 : Z) (s : list Z) (e : Z) : option (list Z) :=
  match f_field f with
  | FScientific => wr_scientific c s e (os_precision f) (f_showpoint f) (f_upper f) false
  | FFixed => wr_fixed c s e (os_precision f) (f_showpoint f) false
  | FNone => if uses_scientific c f e0 then wr_scientific c s e (os_precision f) (f_showpoint f) (f_upper f) true
             else wr_fixed c s e (os_precision f) (f_showpoint f) true
  end.

Lemma fits_facts f k : print_fits c f k ->
  os_precision f = stream_precision f /\ 0 <= stream_precision f <= Z.max 6 (f_prec f) /\
  (f_field f <> FScientific -> 1 <= stream_precision f) /\
  Z.abs k + 2 * Z.max 6 (f_prec f) + elem_number c * ED + 8 < 2 ^ 58 /\
  Z.abs k + 2 * Z.max 6 (f_prec f) + elem_number c * ED + 8 < 2 ^ (E - 1) /\
  c_digits10 c + 6 <= elem_number c * ED /\ 1 <= c_digits10 c.
Proof.
  unfold print_fits. intros H. pose proof (E_ge8 c) as HE. destruct Hc as [Hd _].
  assert (HA : 2 ^ Z.min 58 (E - 1) <= 2 ^ 58) by (apply Z.pow_le_mono_r; lia).
  assert (HB : 2 ^ Z.min 58 (E - 1) <= 2 ^ (E - 1)) by (apply Z.pow_le_mono_r; lia).
  assert (HD : c_digits10 c + 6 <= elem_number c * ED).
  { unfold elem_number, edc. assert (H2 : 2 <= ed (c_limb c)) by (destruct (c_limb c); cbn; lia).
    set (d := ed (c_limb c)) in *. pose proof (Z.div_mod (c_digits10 c) d ltac:(lia)) as Hm.
    pose proof (Z.mod_pos_bound (c_digits10 c) d ltac:(lia)) as Hb.
    destruct (c_digits10 c mod d =? 0) eqn:E0; nia. }
  assert (HN : 0 <= elem_number c * ED) by lia.
  assert (Hp : os_precision f = stream_precision f).
  { unfold os_precision, stream_precision. destruct (f_prec f <=? 0) eqn:E0; [reflexivity|].
    apply ucast_id. change (2 ^ 58) with 288230376151711744 in *. change (2 ^ 64) with 18446744073709551616. lia. }
  split; [exact Hp|]. split; [unfold stream_precision; destruct (f_prec f <=? 0) eqn:E0; destruct (f_field f); lia|].
  split; [unfold stream_precision; destruct (f_prec f <=? 0) eqn:E0; destruct (f_field f); intros; try tauto; lia|].
  lia.
Qed.

Lemma uses_spec f k : print_fits c f k -> uses_scientific c f k = shows_exponent c f k.
Proof.
  intros H. destruct (fits_facts f k H) as (Hp & P1 & P2 & P3 & P4 & P5 & P6). unfold uses_scientific, shows_exponent.
  rewrite Hp. rewrite !sE by lia. destruct (f_field f); auto. f_equal. lia.
Qed.

Lemma wanted_spec f k : print_fits c f k -> digits_wanted c f k = sig_digits c f k /\ 1 <= sig_digits c f k /\
  sig_digits c f k <= c_digits10 c + 5 /\ sig_digits c f k <= 1 + Z.max 0 k + stream_precision f /\
  (f_field f = FNone -> sig_digits c f k <= stream_precision f).
Proof.
  intros H. destruct (fits_facts f k H) as (Hp & P1 & P2 & P3 & P4 & P5 & P6). unfold digits_wanted.
  rewrite (uses_spec f k H), Hp. unfold max_digits10. change (2 ^ 58) with 288230376151711744 in *.
  rewrite (ucast_id 64 (c_digits10 c + 4 + 1)) by (change (2 ^ 64) with 18446744073709551616; lia).
  rewrite (ucast_id 64 (1 + stream_precision f)) by (change (2 ^ 64) with 18446744073709551616; lia).
  assert (He : 0 <= k -> ucast 64 (Z.min (scast E (scast E (k + 1) + scast E (stream_precision f))) (scast E (c_digits10 c + 4 + 1)))
                = Z.min (k + 1 + stream_precision f) (c_digits10 c + 5)).
  { intros Hk. rewrite (sE c (k + 1)), (sE c (stream_precision f)), (sE c (c_digits10 c + 4 + 1)) by lia. rewrite sE by lia.
    rewrite ucast_id by (change (2 ^ 64) with 18446744073709551616; lia). lia. }
  unfold sig_digits, shows_exponent. destruct (f_field f) eqn:Ef.
  - split; [lia|]. split; [lia|]. split; [lia|]. split; [lia|discriminate].
  - specialize (P2 ltac:(discriminate)). destruct (0 <=? k) eqn:Ek.
    + replace (k >=? 0) with true by lia. rewrite He by lia. split; [lia|]. split; [lia|]. split; [lia|]. split; [lia|discriminate].
    + replace (k >=? 0) with false by lia. split; [lia|]. split; [lia|]. split; [lia|]. split; [lia|discriminate].
  - specialize (P2 ltac:(discriminate)). split; [|lia].
    destruct ((k <? -4) || _); [lia|]. destruct (k >=? 0) eqn:Ek; [rewrite He by lia|]; lia.
Qed.

Lemma dropz_zeros j l : dropz (repeat 0 j ++ l) = dropz l.
Proof. induction j; cbn; auto. Qed.
Lemma trimz_app_le a b : (length (trimz (a ++ b)) <= length a + length (trimz b))%nat.
Proof.
  unfold trimz. rewrite !rev_length, rev_app_distr, <- (rev_length a).
  generalize (rev a) (rev b). clear. intros a b. induction b as [|y b IH]; cbn.
  - destruct (dropz_split a). lia.
  - destruct (y =? 0); [exact IH|]. cbn. rewrite app_length. lia.
Qed.
Lemma dropz_len l : (length (dropz l) <= length l)%nat. Proof. apply dropz_split. Qed.
Lemma trimz_len l : (length (trimz l) <= length l)%nat. Proof. apply trimz_split. Qed.

Lemma dropz_trim_zeros j l : (length (dropz (trimz (repeat 0%Z j ++ l))) <= length (trimz l))%nat.
Proof.
  destruct (trimz l) as [|a t] eqn:Et.
  - (* all zero *)
    assert (Hz : trimz (repeat 0 j ++ l) = []).
    { destruct (trimz_split l) as [H1 _]. rewrite Et in H1. cbn in H1. rewrite H1, trimz_zeros.
      replace (repeat 0 j) with ([] ++ repeat 0 j) by auto. rewrite trimz_zeros. reflexivity. }
    rewrite Hz. cbn. lia.
  - destruct (trimz_split l) as [H1 _]. rewrite H1, app_assoc, trimz_zeros, Et.
    assert (Hl : trimz (repeat 0 j ++ a :: t) = repeat 0 j ++ a :: t).
    { pose proof (trimz_last l ltac:(rewrite Et; discriminate)) as Hlast. rewrite Et in Hlast.
      unfold trimz. rewrite rev_app_distr. destruct (rev (a :: t)) as [|b u] eqn:Er.
      - apply (f_equal (@length Z)) in Er. rewrite rev_length in Er. cbn in Er. lia.
      - assert (Hab : a :: t = rev u ++ [b]) by (rewrite <- (rev_involutive (a :: t)), Er; reflexivity).
        rewrite Hab in Hlast. rewrite last_last in Hlast. cbn [app dropz]. replace (b =? 0) with false by lia.
        change (b :: u ++ rev (repeat 0 j)) with ((b :: u) ++ rev (repeat 0 j)). rewrite <- Er, <- rev_app_distr, rev_involutive. reflexivity. }
    rewrite Hl, dropz_zeros. apply dropz_len.
Qed.

Lemma layout_spec f k ds e : print_fits c f k -> digits_ok 10 ds -> 1 <= Z.of_nat (length ds) <= sig_digits c f k ->
  (hd 0 ds <> 0 /\ (e = k \/ e = k + 1) /\ showpoint_ok c f k \/ V10 ds = 0 /\ e = 0 /\ k = 0 /\ ds = repeat 0 (length ds)) ->
  exists l, wr_layout f k (dch ds) e = Some (lit_text l) /\ lit_ok l /\ l_sign l = None /\
    Qeq (lit_value l) (inject_Z (V10 ds) * p10 (e - (Z.of_nat (length ds) - 1))) /\
    Z.abs (lit_exp l) + Z.of_nat (length (l_int l ++ frac_digits l)) <= Z.abs k + 2 * Z.max 6 (f_prec f) + (c_digits10 c + 5) + 3 /\
    Z.of_nat (length (lit_text l)) <= Z.abs k + 2 * Z.max 6 (f_prec f) + (c_digits10 c + 5) + 30 /\
    layout_ok c f k l.
Proof.
  intros Hf Hok Hlen Hcase.
  destruct (fits_facts f k Hf) as (Hp & P1 & P2 & P3 & P4 & P5 & P6).
  destruct (wanted_spec f k Hf) as (_ & W1 & W2 & W3 & W4).
  assert (He : Z.abs e <= Z.abs k + 1) by lia.
  assert (Hne : ds <> []) by (destruct ds; [cbn in Hlen; lia|discriminate]).
  change (2 ^ 58) with 288230376151711744 in *.
  set (p := stream_precision f) in *.
  assert (Hsci : forall trim, shows_exponent c f k = true -> (trim = true <-> f_field f = FNone) ->
    exists l, wr_scientific c (dch ds) e p (f_showpoint f) (f_upper f) trim = Some (lit_text l) /\ lit_ok l /\ l_sign l = None /\
    Qeq (lit_value l) (inject_Z (V10 ds) * p10 (e - (Z.of_nat (length ds) - 1))) /\
    Z.abs (lit_exp l) + Z.of_nat (length (l_int l ++ frac_digits l)) <= Z.abs k + 2 * Z.max 6 (f_prec f) + (c_digits10 c + 5) + 3 /\
    Z.of_nat (length (lit_text l)) <= Z.abs k + 2 * Z.max 6 (f_prec f) + (c_digits10 c + 5) + 30 /\
    layout_ok c f k l).
  { intros trim Hse Htrim.
    destruct (wr_scientific_spec c ds e p (f_showpoint f) (f_upper f) trim) as (Fo & ts & S1 & S2 & S3 & S4 & S5 & S6 & S7 & S8 & S9);
      auto; try (change (2 ^ 60) with 1152921504606846976; lia); try lia.
    { intros Hst. apply andb_true_iff in Hst. destruct Hst as [_ Ht]. apply Htrim in Ht.
      destruct Hcase as [(H1 & H2 & H3)|(H1 & H2 & H3 & H4)]; [split; [auto|specialize (W4 Ht); lia]|].
      exfalso. unfold shows_exponent in Hse. rewrite Ht in Hse. fold p in Hse. lia. }
    set (l := mkLit None [hd 0 ds] Fo (Some (f_upper f, Some (e <? 0), ts))) in *.
    assert (Hfd : frac_digits l = fdig Fo) by reflexivity.
    exists l. split; [exact S1|]. split; [exact S2|]. split; [reflexivity|]. split; [exact S4|].
    assert (HLn : Z.abs (lit_exp l) + Z.of_nat (length (l_int l ++ frac_digits l)) <= Z.abs k + 2 * Z.max 6 (f_prec f) + (c_digits10 c + 5) + 3).
    { rewrite S3, app_length, Hfd. cbn [l_int l length]. lia. }
    split; [exact HLn|]. split.
    { rewrite app_length in HLn. unfold lit_text. rewrite !app_length, dch_length. cbn [l_sign l l_frac l_exp sign_text length l_int] in *.
      rewrite app_length, dch_length. cbn [sign_text]. replace (length (if e <? 0 then [45] else [43])) with 1%nat by (destruct (e <? 0); auto).
      unfold frac_digits in HLn. cbn [l_frac l] in HLn. destruct Fo as [fo|]; cbn [length] in *; rewrite ?dch_length; lia. }
    unfold layout_ok. fold p. rewrite Hfd. cbn [l_exp l_frac l_int l]. split; [split; [discriminate|rewrite Hse; discriminate]|].
    split. { split; [reflexivity|]. split; [reflexivity|]. split; [discriminate|]. split; [lia|]. intros ->. cbn in S5. lia. }
    destruct (f_field f) eqn:Ef.
    - assert (Ht : trim = false) by (destruct trim; [apply proj1 in Htrim; specialize (Htrim eq_refl); discriminate|auto]).
      specialize (S7 Ht). set (F := tl ds ++ _) in *.
      assert (HF : Z.of_nat (length F) = p).
      { unfold F. rewrite app_length, repeat_length. destruct ds as [|d r]; [tauto|]. cbn [tl length] in *.
        unfold sig_digits in Hlen. rewrite Ef in Hlen. fold p in Hlen. lia. }
      rewrite S7. destruct (f_showpoint f); cbn [negb andb fdig].
      + split; [auto|]. split; [discriminate|intros [_ ?]; discriminate].
      + destruct (length F =? 0)%nat eqn:E0; cbn [fdig length].
        * split; [lia|]. split; [intros _; split; lia|auto].
        * split; [auto|]. split; [discriminate|]. intros [? _]. lia.
    - unfold shows_exponent in Hse. rewrite Ef in Hse. discriminate.
    - assert (Ht : trim = true) by (apply Htrim; auto). destruct (f_showpoint f).
      + destruct (S9 Ht eq_refl) as [j ->]. discriminate.
      + rewrite (S8 Ht eq_refl). destruct (trimz _) eqn:Etz; cbn [length Nat.eqb fdig]; [left; auto|right].
        rewrite <- Etz. apply trimz_last. rewrite Etz. discriminate. }
  assert (Hfix : forall trim, shows_exponent c f k = false -> (trim = true <-> f_field f = FNone) ->
    exists l, wr_fixed c (dch ds) e p (f_showpoint f) trim = Some (lit_text l) /\ lit_ok l /\ l_sign l = None /\
    Qeq (lit_value l) (inject_Z (V10 ds) * p10 (e - (Z.of_nat (length ds) - 1))) /\
    Z.abs (lit_exp l) + Z.of_nat (length (l_int l ++ frac_digits l)) <= Z.abs k + 2 * Z.max 6 (f_prec f) + (c_digits10 c + 5) + 3 /\
    Z.of_nat (length (lit_text l)) <= Z.abs k + 2 * Z.max 6 (f_prec f) + (c_digits10 c + 5) + 30 /\
    layout_ok c f k l).
  { intros trim Hse Htrim.
    assert (HIl : Z.of_nat (length (fixI ds e)) = 1 + Z.max 0 e).
    { unfold fixI. destruct (e <? 0) eqn:En; [cbn [length]; lia|]. rewrite firstn_length, app_length, repeat_length. lia. }
    destruct (wr_fixed_spec c ds e p (f_showpoint f) trim) as (Fo & S1 & S2 & S4 & S6 & S7 & S8 & S9);
      auto; try (change (2 ^ 59) with 576460752303423488; lia); try lia.
    { intros Hst. apply andb_true_iff in Hst. destruct Hst as [Hs Ht]. apply Htrim in Ht.
      specialize (W4 Ht). unfold ext_ok, fixI, fixF.
      destruct (e <? 0) eqn:En.
      - cbn [hd length Nat.eqb andb Z.eqb]. pose proof (dropz_trim_zeros (Z.to_nat (- (e + 1))) (ds ++ repeat 0 (Z.to_nat (p - (Z.of_nat (length ds) - (e + 1)))))) as Hdt.
        rewrite trimz_zeros in Hdt. pose proof (trimz_len ds). lia.
      - destruct Hcase as [(H1 & H2 & H3)|(H1 & H2 & H3 & H4)].
        + specialize (H3 Ht Hs). rewrite Hse in H3. destruct H3 as [H3|H3]; [discriminate|]. fold p in H3.
          assert (Hh : hd 0 (firstn (Z.to_nat (e + 1)) (ds ++ repeat 0 (Z.to_nat (e + 1) - length ds))) = hd 0 ds).
          { destruct ds as [|d r]; [tauto|]. replace (Z.to_nat (e + 1)) with (S (Z.to_nat e)) by lia. reflexivity. }
          rewrite Hh. replace (hd 0 ds =? 0) with false by lia. cbn [andb]. rewrite trimz_zeros.
          pose proof (trimz_len (skipn (Z.to_nat (e + 1)) ds)) as Htl. rewrite skipn_length in Htl.
          rewrite firstn_length, app_length, repeat_length. lia.
        + subst e. change (Z.to_nat (0 + 1)) with 1%nat. 
          assert (Hd : hd 0 (firstn 1 (ds ++ repeat 0 (1 - length ds))) = 0).
          { rewrite H4. destruct (length ds) as [|m] eqn:El; [lia|]. reflexivity. }
          rewrite Hd. replace (length (firstn 1 (ds ++ repeat 0 (1 - length ds)))) with 1%nat by (rewrite firstn_length, app_length, repeat_length; lia).
          cbn [Z.eqb Nat.eqb andb]. rewrite trimz_zeros.
          assert (Hsk : trimz (skipn 1 ds) = []).
          { rewrite H4. destruct (length ds) as [|m]; [reflexivity|]. cbn [repeat skipn].
            replace (repeat 0 m) with ([] ++ repeat 0 m) by auto. rewrite trimz_zeros. reflexivity. }
          rewrite Hsk. cbn. lia. }
    set (l := mkLit None (fixI ds e) Fo None) in *.
    assert (Hfd : frac_digits l = fdig Fo) by reflexivity.
    exists l. split; [exact S1|]. split; [exact S2|]. split; [reflexivity|]. split; [exact S4|].
    assert (HLn : Z.abs (lit_exp l) + Z.of_nat (length (l_int l ++ frac_digits l)) <= Z.abs k + 2 * Z.max 6 (f_prec f) + (c_digits10 c + 5) + 3).
    { rewrite app_length, Hfd. cbn [l_int l lit_exp l_exp]. lia. }
    split; [exact HLn|]. split.
    { rewrite app_length in HLn. unfold lit_text. rewrite !app_length, dch_length. cbn [l_sign l l_frac l_exp sign_text length l_int] in *.
      unfold frac_digits in HLn. cbn [l_frac l] in HLn. destruct Fo as [fo|]; cbn [length] in *; rewrite ?dch_length; lia. }
    unfold layout_ok. fold p. rewrite Hfd. cbn [l_exp l_frac l_int l]. split; [split; auto|].
    split. { rewrite HIl. destruct Hcase as [(H1 & [->| ->] & H3)|(H1 & -> & -> & H4)]; auto. }
    destruct (f_field f) eqn:Ef.
    - unfold shows_exponent in Hse. rewrite Ef in Hse. discriminate.
    - assert (Ht : trim = false) by (destruct trim; [apply proj1 in Htrim; specialize (Htrim eq_refl); discriminate|auto]).
      specialize (P2 ltac:(discriminate)). rewrite (S7 Ht).
      assert (HF : (0 <= k -> Z.of_nat (length (fixF ds e p)) = p) /\ (k < 0 -> p <= Z.of_nat (length (fixF ds e p)))).
      { unfold sig_digits in Hlen. rewrite Ef in Hlen. fold p in Hlen. unfold fixF.
        destruct (e <? 0) eqn:En; rewrite ?app_length, ?repeat_length, ?skipn_length; destruct (0 <=? k) eqn:E0; split; intros; lia. }
      replace (negb (f_showpoint f) && (length (fixF ds e p) =? 0)%nat) with false by (destruct (0 <=? k) eqn:E0; destruct (f_showpoint f); cbn [negb andb]; lia).
      cbn [fdig]. exact HF.
    - assert (Ht : trim = true) by (apply Htrim; auto). destruct (f_showpoint f).
      + destruct (S9 Ht eq_refl) as [j ->]. discriminate.
      + rewrite (S8 Ht eq_refl). destruct (trimz _) eqn:Etz; cbn [length Nat.eqb fdig]; [left; auto|right].
        rewrite <- Etz. apply trimz_last. rewrite Etz. discriminate. }
  unfold wr_layout. rewrite Hp, (uses_spec f k Hf). fold p. destruct (f_field f) eqn:Ef.
  - apply Hsci; [unfold shows_exponent; rewrite Ef; auto|]. try rewrite Ef. split; discriminate.
  - apply Hfix; [unfold shows_exponent; rewrite Ef; auto|]. try rewrite Ef. split; discriminate.
  - destruct (shows_exponent c f k) eqn:Es; [apply Hsci|apply Hfix]; auto; try rewrite Ef; tauto.
Qed.
End P.
