(** Print4_proofs.v - printing, and printing followed by parsing. *)
From Verif Require Import Base Add_proofs Value_proofs Sum_proofs Mul_proofs Cmp_proofs Misc_proofs.
From Verif Require Export Print3_proofs.
From Coq Require Import Lia Lqa.
Local Open Scope Z_scope.

Section P.
Variable c : cfg.
Hypothesis Hc : cfg_ok c.
Notation E := (ebits (c_expo c)).
Notation ED := (edc c).

Lemma lead_unique q j k : leading_exponent q j -> leading_exponent q k -> j = k.
Proof.
  intros [A1 A2] [B1 B2].
  assert (p10 j < p10 (k + 1))%Q by lra. assert (p10 k < p10 (j + 1))%Q by lra.
  apply -> p10_lt in H. apply -> p10_lt in H0. lia.
Qed.
Lemma lead_dexp x k : normal c x -> iszero x = false -> leading_exponent (value c x) k -> dexp x <= k < dexp x + ED.
Proof.
  intros Hx Zx [A1 A2]. destruct (value_bracket c Hc x Hx Zx) as [B1 B2].
  assert (p10 (dexp x) < p10 (k + 1))%Q by lra. assert (p10 k < p10 (dexp x + ED))%Q by lra.
  apply -> p10_lt in H. apply -> p10_lt in H0. lia.
Qed.
Lemma lead_ilogb x k : normal c x -> iszero x = false -> leading_exponent (value c x) k -> k + ED <= 2 ^ (E - 1) -> ilogb c x = k.
Proof.
  intros Hx Zx Hl Hk. pose proof (lead_dexp x k Hx Zx Hl) as Hd. apply (lead_unique (value c x)); auto.
  apply ilogb_spec; auto. lia.
Qed.

Lemma wr_body_layout f x : wr_body c f x =
  match get_output_string c x (ilogb c x) (digits_wanted c f (ilogb c x)) with
  | Some (s, e) => wr_layout c f (ilogb c x) s e | None => None end.
Proof. unfold wr_body, wr_layout. destruct (get_output_string _ _ _ _) as [[s e]|]; reflexivity. Qed.

Definition with_sign (l : literal) (s : option bool) : literal := mkLit s (l_int l) (l_frac l) (l_exp l).

(** Everything the layout gives, with the sign and the padding. *)
Lemma wrap f x (k : Z) l : wr_body c f x = Some (lit_text l) -> l_sign l = None ->
  let l' := with_sign l (shown_sign f (dneg x)) in
  exists s, wr_string c f x = Some s /\ padded f (lit_text l') s.
Proof.
  intros Hb Hs l'. unfold wr_string. rewrite Hb.
  assert (Ht : (if dneg x then [45] else if f_showpos f then [43] else []) ++ lit_text l = lit_text l').
  { unfold lit_text, l', with_sign. cbn [l_sign l_int l_frac l_exp]. rewrite Hs. cbn [sign_text app]. f_equal.
    unfold shown_sign, sign_text. destruct (dneg x); auto. destruct (f_showpos f); auto. }
  rewrite Ht. unfold sze. set (t := lit_text l').
  set (w := if f_width f >=? 0 then f_width f else 0).
  destruct (w >? Z.of_nat (length t)) eqn:Ew.
  - eexists. split; [reflexivity|]. exists (Z.to_nat (w - Z.of_nat (length t))). split; [reflexivity|].
    unfold w in *. destruct (f_width f >=? 0) eqn:E0; destruct (f_left f); rewrite app_length, repeat_length; lia.
  - eexists. split; [reflexivity|]. exists O. cbn [repeat]. rewrite app_nil_r. split; [destruct (f_left f); reflexivity|].
    unfold w in *. destruct (f_width f >=? 0) eqn:E0; lia.
Qed.

Lemma with_sign_value l s : l_sign l = None ->
  Qeq (lit_value (with_sign l s)) (inject_Z (match s with Some true => -1 | _ => 1 end) * lit_value l).
Proof.
  intros H. unfold lit_value, with_sign, lit_exp, frac_digits. cbn [l_sign l_int l_frac l_exp]. rewrite H, !inject_Z_mult.
  destruct s as [[|]|]; ring.
Qed.

Definition printed f x k l : Prop :=
  lit_ok l /\ l_sign l = shown_sign f (dneg x) /\ layout_ok c f k l /\
  rounds_half_up (p10 (k - sig_digits c f k + 1)) (value c x) (lit_value l) /\
  Z.abs (lit_exp l) + Z.of_nat (length (l_int l ++ frac_digits l)) <= Z.abs k + 2 * Z.max 6 (f_prec f) + (c_digits10 c + 5) + 3 /\
  Z.of_nat (length (lit_text l)) <= Z.abs k + 2 * Z.max 6 (f_prec f) + (c_digits10 c + 5) + 31 /\
  (exists m j, (Qabs (lit_value l) == inject_Z m * p10 j)%Q /\ m < 10 ^ (c_digits10 c + 5)).

Lemma with_sign_length l s : l_sign l = None -> (length (lit_text (with_sign l s)) <= length (lit_text l) + 1)%nat.
Proof.
  intros H. unfold lit_text, with_sign. cbn [l_sign l_int l_frac l_exp]. rewrite H, !app_length. destruct s as [[|]|]; cbn [sign_text length]; lia.
Qed.

Lemma sgn_Q x : normal c x -> iszero x = false ->
  Qeq (value c x) (inject_Z (if dneg x then -1 else 1) * Qabs (value c x)).
Proof.
  intros Hx Zx. pose proof (value_sign c Hc x Hx Zx) as Hs. destruct (dneg x).
  - rewrite Qabs_neg by lra. change (inject_Z (-1)) with (-1)%Q. ring.
  - rewrite Qabs_pos by lra. change (inject_Z 1) with 1%Q. ring.
Qed.

Lemma print_spec f x k : normal c x -> iszero x = false -> leading_exponent (value c x) k ->
  print_fits c f k -> showpoint_ok c f k ->
  exists l s, wr_string c f x = Some s /\ padded f (lit_text l) s /\ printed f x k l.
Proof.
  intros Hx Zx Hl Hf Hsp. destruct (fits_facts c Hc f k Hf) as (Hp & P1 & P2 & P3 & P4 & P5 & P6).
  destruct (wanted_spec c Hc f k Hf) as (W0 & W1 & W2 & W3 & W4). pose proof (edc_pos c) as He0.
  assert (Hn3 : 3 * ED <= elem_number c * ED).
  { pose proof (nel_Z c Hc). pose proof (nel_ge4 c Hc). nia. }
  pose proof (lead_dexp x k Hx Zx Hl) as Hd. pose proof (lead_ilogb x k Hx Zx Hl ltac:(lia)) as Hi.
  change (2 ^ 58) with 288230376151711744 in *.
  destruct (get_output_string_spec c Hc x (sig_digits c f k)) as (ds & e & G1 & G2 & G3 & G4 & G5 & G6);
    auto; try rewrite Hi; try (change (2 ^ 63) with 9223372036854775808); try lia.
  rewrite Hi in G1, G5, G6.
  destruct (layout_spec c Hc f k ds e Hf G2 G4) as (l & L1 & L2 & L3 & L4 & L5 & L6 & L7); [left; auto|].
  destruct (wrap f x k l) as (s & S1 & S2); auto.
  { rewrite wr_body_layout, Hi, W0, G1. exact L1. }
  exists (with_sign l (shown_sign f (dneg x))), s. split; [exact S1|]. split; [exact S2|].
  assert (Hsg : (match shown_sign f (dneg x) with Some true => -1 | _ => 1 end) = (if dneg x then -1 else 1)).
  { unfold shown_sign. destruct (dneg x); auto. destruct (f_showpos f); auto. }
  assert (Hval := with_sign_value l (shown_sign f (dneg x)) L3). rewrite Hsg in Hval.
  assert (Hp0 : (0 <= lit_value l)%Q).
  { rewrite L4. apply Qmult_le_0_compat; [change 0%Q with (inject_Z 0); rewrite <- Zle_Qle|pose proof (p10_pos (e - (Z.of_nat (length ds) - 1))); lra].
    apply limbs_value_bound; [lia|auto]. }
  assert (Hab : Qabs (lit_value (with_sign l (shown_sign f (dneg x)))) == lit_value l).
  { rewrite Hval, Qabs_Qmult, (Qabs_pos (lit_value l)) by auto. destruct (dneg x); cbn; ring. }
  unfold printed. split; [exact L2|]. split; [reflexivity|]. split; [exact L7|]. split; [|split; [|split]].
  - destruct G6 as (R1 & kk & R2 & R3 & R4).
    assert (Hav : Qabs (Qabs (value c x)) == Qabs (value c x)) by (apply Qabs_pos, Qabs_nonneg).
    rewrite Hav in R3, R4. rewrite Qabs_pos in R2 by (rewrite <- L4; auto). split.
    + rewrite (sgn_Q x Hx Zx), Hval. pose proof (Qabs_nonneg (value c x)) as Hna.
      set (a := Qabs (value c x)) in *. set (b := lit_value l) in *.
      assert (Hab0 : (0 <= a * b)%Q) by (apply Qmult_le_0_compat; auto).
      setoid_replace (inject_Z (if dneg x then -1 else 1) * a * (inject_Z (if dneg x then -1 else 1) * b))%Q with (a * b)%Q; auto.
      destruct (dneg x); change (inject_Z (-1)) with (-1)%Q; change (inject_Z 1) with 1%Q; ring.
    + exists kk. split; [|split; auto]. rewrite Hab, L4. exact R2.
  - exact L5.
  - pose proof (with_sign_length l (shown_sign f (dneg x)) L3). lia.
  - exists (V10 ds), (e - (Z.of_nat (length ds) - 1)). split; [rewrite Hab; exact L4|].
    pose proof (limbs_value_bound 10 ds ltac:(lia) G2) as Hb.
    assert (10 ^ Z.of_nat (length ds) <= 10 ^ (c_digits10 c + 5)) by (apply Z.pow_le_mono_r; lia). lia.
Qed.

Lemma limb_text_0 : limb_text c 0 = Some [48].
Proof. unfold limb_text. destruct (c_limb c); reflexivity. Qed.
Lemma concat_zeros j : concat_texts c (repeat 0 j) = Some (dch (repeat 0 (j * Z.to_nat ED))).
Proof.
  induction j as [|j IH]; [reflexivity|]. cbn [repeat concat_texts Nat.mul]. unfold limb_text_full. rewrite limb_text_0, IH.
  f_equal. rewrite !dch_repeat0. rewrite repeat_app. f_equal. cbn [length]. change (ed (c_limb c)) with ED.
  pose proof (edc_pos c) as He. replace (Z.to_nat ED) with ((Z.to_nat ED - 1) + 1)%nat at 2 by lia. rewrite repeat_app. reflexivity.
Qed.
Lemma get_output_zero x nd : normal c x -> iszero x = true -> 1 <= nd < 2 ^ 62 ->
  exists m, get_output_string c x 0 nd = Some (dch (repeat 0 m), 0) /\ 1 <= Z.of_nat m <= nd.
Proof.
  intros Hx Zx Hnd. destruct (normal_facts c Hc x Hx) as (Lx & _ & _ & _ & _ & Hz & _). destruct (Hz Zx) as [Hd _].
  pose proof (nel_ge4 c Hc) as Hn4. pose proof (nel_Z c Hc) as Hn. pose proof (edc_pos c) as He.
  unfold get_output_string. change (ed (c_limb c)) with ED. change (2 ^ 62) with 4611686018427387904 in *.
  pose proof (Z.div_pos nd ED ltac:(lia) ltac:(lia)) as Hdp.
  assert (Hdl : nd / ED <= nd) by (apply Z.div_le_upper_bound; nia).
  rewrite (ucast_id 64 (nd / ED)), (ucast_id 64 (nd / ED + 2)) by (change (2 ^ 64) with 18446744073709551616; lia).
  set (k := Z.to_nat (Z.min (nd / ED + 2) (elem_number c))).
  unfold get_output_digits. rewrite Hd.
  assert (Hf : firstn k (repeat 0 (nel c)) = 0 :: repeat 0 (k - 1)).
  { rewrite firstn_repeat0. replace (Nat.min k (nel c)) with (S (k - 1)) by lia. reflexivity. }
  rewrite Hf, limb_text_0, concat_zeros.
  assert (Hj : [48] ++ dch (repeat 0 ((k - 1) * Z.to_nat ED)) = dch (repeat 0 (S ((k - 1) * Z.to_nat ED)))) by reflexivity.
  rewrite Hj. set (N := S ((k - 1) * Z.to_nat ED)).
  unfold sze. rewrite dch_length, repeat_length. destruct (Z.of_nat N >? nd) eqn:Eg.
  - assert (Hnth : nth (Z.to_nat nd) (dch (repeat 0 N)) 0 = 48).
    { rewrite dch_repeat0. apply nth_error_nth. rewrite nth_error_repeat; auto. lia. }
    rewrite Hnth. change (ucast 32 (48 - 48) >=? 5) with false. cbv iota.
    exists (Z.to_nat nd). rewrite dch_firstn, firstn_repeat0. replace (Nat.min (Z.to_nat nd) N) with (Z.to_nat nd) by lia.
    split; [reflexivity|lia].
  - exists N. split; [reflexivity|]. assert (1 <= N)%nat by (apply le_n_S, Nat.le_0_l). clearbody N. lia.
Qed.

Lemma print_zero_spec f x : normal c x -> iszero x = true -> dexp x = 0 -> print_fits c f 0 ->
  exists l s, wr_string c f x = Some s /\ padded f (lit_text l) s /\ printed f x 0 l.
Proof.
  intros Hx Zx Hd Hf. destruct (fits_facts c Hc f 0 Hf) as (Hp & P1 & P2 & P3 & P4 & P5 & P6).
  destruct (wanted_spec c Hc f 0 Hf) as (W0 & W1 & W2 & W3 & W4).
  assert (Hi : ilogb c x = 0).
  { unfold ilogb. unfold iszero in Zx. replace (nth 0 (data x) 0) with 0 by lia. rewrite Hd. destruct (c_expo c); reflexivity. }
  change (2 ^ 58) with 288230376151711744 in *.
  destruct (get_output_zero x (sig_digits c f 0) Hx Zx) as (m & G1 & G2); [change (2 ^ 62) with 4611686018427387904; lia|].
  destruct (layout_spec c Hc f 0 (repeat 0 m) 0 Hf) as (l & L1 & L2 & L3 & L4 & L5 & L6 & L7).
  { apply digits_ok_repeat0; lia. } { rewrite repeat_length; auto. }
  { right. rewrite repeat_length, limbs_value_repeat0. auto. }
  destruct (wrap f x 0 l) as (s & S1 & S2); auto.
  { rewrite wr_body_layout, Hi, W0, G1. exact L1. }
  exists (with_sign l (shown_sign f (dneg x))), s. split; [exact S1|]. split; [exact S2|].
  assert (Hl0 : lit_value l == 0) by (rewrite L4, limbs_value_repeat0; ring).
  assert (Hv : lit_value (with_sign l (shown_sign f (dneg x))) == 0) by (rewrite (with_sign_value l _ L3), Hl0; ring).
  assert (Hva : Qabs (lit_value (with_sign l (shown_sign f (dneg x)))) == 0) by (rewrite Hv; reflexivity).
  assert (Hx0 : value c x == 0) by (apply value_zero; auto).
  unfold printed. split; [exact L2|]. split; [reflexivity|]. split; [exact L7|]. split; [|split; [|split]].
  - pose proof (p10_pos (0 - sig_digits c f 0 + 1)) as Hu. set (u := p10 _) in *. split.
    + rewrite Hx0, Hv. lra.
    + exists 0. change (inject_Z 0) with 0%Q. assert (Hq : Qabs (value c x) == 0) by (rewrite Hx0; reflexivity).
      split; [rewrite Hva; ring|]. rewrite Hq. unfold Qdiv. change (/ 2)%Q with (1 # 2)%Q. split; lra.
  - exact L5.
  - pose proof (with_sign_length l (shown_sign f (dneg x)) L3). lia.
  - exists 0, 0. split; [rewrite Hva; reflexivity|]. assert (0 < 10 ^ (c_digits10 c + 5)) by (apply Z.pow_pos_nonneg; lia). lia.
Qed.

(** Reading back what was printed. *)
Lemma reread f x k l : printed f x k l -> print_fits c f k ->
  Z.abs k + 2 * Z.max 6 (f_prec f) + c_digits10 c + 36 < 2 ^ 30 ->
  exists z, rd_string c (lit_text l) = Some z /\ normal c z /\
    rounds_half_up (p10 (k - sig_digits c f k + 1)) (value c x) (value c z).
Proof.
  intros (R1 & R2 & R3 & R4 & R5 & R6 & m & j & R7 & R8) Hf Hs.
  destruct (fits_facts c Hc f k Hf) as (Hp & P1 & P2 & P3 & P4 & P5 & P6).
  assert (Hdd : c_digits10 c + 3 * ED <= elem_number c * ED).
  { unfold elem_number, edc. assert (H2 : 2 <= ed (c_limb c)) by (destruct (c_limb c); cbn; lia).
    set (d := ed (c_limb c)) in *. pose proof (Z.div_mod (c_digits10 c) d ltac:(lia)) as Hm.
    pose proof (Z.mod_pos_bound (c_digits10 c) d ltac:(lia)) as Hb.
    destruct (c_digits10 c mod d =? 0) eqn:E0; nia. }
  pose proof (edc_pos c) as He.
  destruct (rd_string_spec c Hc l) as (z & Z1 & Z2 & Z3 & Z4 & Z5); auto.
  { split; lia. }
  exists z. split; [exact Z1|]. split; [exact Z2|].
  assert (Hm : m < 10 ^ (max_dec c + 1)).
  { assert (10 ^ (c_digits10 c + 5) <= 10 ^ (max_dec c + 1)); [|lia]. apply Z.pow_le_mono_r; [lia|].
    unfold max_dec. pose proof (ED_bounds c). lia. }
  pose proof (truncates_exact c Hc z (lit_value l) m j Z2 Z3 Z4 R7 Hm) as Hv.
  destruct R4 as (A1 & kk & A2 & A3 & A4). split; [rewrite Hv; exact A1|]. exists kk. rewrite Hv. auto.
Qed.

Lemma half_up_exact u q r m : (0 < u)%Q -> (q == inject_Z m * u)%Q -> rounds_half_up u q r -> (r == q)%Q.
Proof.
  intros Hu Hq (A1 & k & A2 & A3 & A4).
  assert (Hqa : (Qabs q == inject_Z (Z.abs m) * u)%Q) by (rewrite Hq, Qabs_Qmult, (Qabs_pos u) by lra; reflexivity).
  rewrite Hqa in A3, A4. unfold Qdiv in *. change (/ 2)%Q with (1 # 2)%Q in *.
  assert (B1 : (inject_Z (2 * k - 1 - 2 * Z.abs m) * u <= 0)%Q).
  { replace (2 * k - 1 - 2 * Z.abs m) with (2 * k + - (1) + - (2 * Z.abs m)) by ring.
    rewrite !inject_Z_plus, !inject_Z_opp, !inject_Z_mult. change (inject_Z 2) with 2%Q. change (inject_Z 1) with 1%Q. lra. }
  assert (B2 : (0 < inject_Z (2 * k + 1 - 2 * Z.abs m) * u)%Q).
  { replace (2 * k + 1 - 2 * Z.abs m) with (2 * k + 1 + - (2 * Z.abs m)) by ring.
    rewrite !inject_Z_plus, !inject_Z_opp, !inject_Z_mult. change (inject_Z 2) with 2%Q. change (inject_Z 1) with 1%Q. lra. }
  assert (C1 : 2 * k - 1 - 2 * Z.abs m <= 0).
  { destruct (Z_le_gt_dec (2 * k - 1 - 2 * Z.abs m) 0); auto. exfalso.
    assert (0 < inject_Z (2 * k - 1 - 2 * Z.abs m))%Q by (change 0%Q with (inject_Z 0); rewrite <- Zlt_Qlt; lia).
    pose proof (Qmult_lt_0_compat _ _ H Hu). lra. }
  assert (C2 : 0 < 2 * k + 1 - 2 * Z.abs m).
  { destruct (Z_lt_le_dec 0 (2 * k + 1 - 2 * Z.abs m)); auto. exfalso.
    assert (inject_Z (2 * k + 1 - 2 * Z.abs m) <= 0)%Q by (change 0%Q with (inject_Z 0); rewrite <- Zle_Qle; lia).
    assert (inject_Z (2 * k + 1 - 2 * Z.abs m) * u <= 0 * u)%Q by (apply Qmult_le_compat_r; lra). lra. }
  assert (k = Z.abs m) by lia. subst k. rewrite <- Hqa in A2.
  revert A1 A2. clear. intros A1 A2. 
  destruct (Qlt_le_dec q 0) as [Hn|Hn]; destruct (Qlt_le_dec r 0) as [Hr|Hr].
  - rewrite !Qabs_neg in A2 by lra. lra.
  - rewrite (Qabs_pos r), (Qabs_neg q) in A2 by lra. assert (r == - q)%Q by lra. rewrite H in A1.
    assert (0 < q * q)%Q by (setoid_replace (q * q)%Q with ((- q) * (- q))%Q by ring; apply Qmult_lt_0_compat; lra). lra.
  - rewrite (Qabs_neg r), (Qabs_pos q) in A2 by lra. assert (r == - q)%Q by lra. rewrite H in A1.
    assert (0 < q)%Q by lra. pose proof (Qmult_lt_0_compat _ _ H0 H0). lra.
  - rewrite !Qabs_pos in A2 by lra. auto.
Qed.
Lemma roundtrip_spec f x k : normal c x -> iszero x = false -> leading_exponent (value c x) k ->
  print_fits c f k -> showpoint_ok c f k -> f_width f <= 0 ->
  Z.abs k + 2 * Z.max 6 (f_prec f) + c_digits10 c + 36 < 2 ^ 30 ->
  exists s z, wr_string c f x = Some s /\ rd_string c s = Some z /\ normal c z /\
    rounds_half_up (p10 (k - sig_digits c f k + 1)) (value c x) (value c z) /\
    ((exists m : Z, value c x == inject_Z m * p10 (k - sig_digits c f k + 1))%Q -> z = x).
Proof.
  intros Hx Zx Hl Hf Hsp Hw Hs. destruct (print_spec f x k Hx Zx Hl Hf Hsp) as (l & s & S1 & (j & S2 & S3) & S4).
  assert (Es : s = lit_text l).
  { assert (Hlen : length s = length (lit_text l)) by lia.
    assert (j = O) by (rewrite S2 in Hlen; destruct (f_left f); rewrite app_length, repeat_length in Hlen; lia).
    subst j. rewrite S2. cbn [repeat]. rewrite app_nil_r. destruct (f_left f); reflexivity. }
  destruct (reread f x k l S4 Hf Hs) as (z & Z1 & Z2 & Z3).
  exists (lit_text l), z. rewrite <- Es at 1. split; [auto|]. split; [auto|]. split; [auto|]. split; [auto|].
  intros [m Hm]. symmetry. apply (value_unique c Hc); auto. symmetry.
  apply (half_up_exact (p10 (k - sig_digits c f k + 1)) (value c x) (value c z) m); auto. apply p10_pos.
Qed.
End P.
