(** Add_proofs.v - addition and subtraction at the integer (mantissa) level. *)
From Verif Require Export Kara_proofs Uwrap_proofs Spec_Dec.
From Coq Require Import Znumtheory.
Local Open Scope Z_scope.

Lemma digits_ok_nth B l i : 0 < B -> digits_ok B l -> 0 <= nth i l 0 < B.
Proof.
  intros HB H. destruct (Nat.lt_ge_cases i (length l)) as [Hi|Hi].
  - eapply Forall_forall in H; [exact H|]. apply nth_In; auto.
  - rewrite nth_overflow by auto. lia.
Qed.

Lemma limbs_value_firstn B l k : 0 < B -> digits_ok B l -> (k <= length l)%nat ->
  limbs_value B (firstn (length l - k) l) = limbs_value B l / B ^ Z.of_nat k.
Proof.
  intros HB H Hk.
  rewrite <- (firstn_skipn (length l - k) l) at 3. rewrite limbs_value_app.
  pose proof (limbs_value_bound B _ HB (digits_ok_skipn B (length l - k) l H)) as Hb.
  rewrite skipn_length in *. replace (length l - (length l - k))%nat with k in * by lia.
  rewrite Z.div_add_l by (pose proof (pow_pos_nat B k HB); lia).
  rewrite (Z.div_small (limbs_value B (skipn _ l))) by lia. lia.
Qed.

Lemma limbs_value_zero_iff B l : 0 < B -> digits_ok B l ->
  (limbs_value B l = 0 <-> l = repeat 0 (length l)).
Proof.
  intros HB H. split.
  - intros E. apply (limbs_value_inj B); auto; [rewrite repeat_length; auto|apply digits_ok_repeat0; auto|].
    rewrite limbs_value_repeat0; auto.
  - intros ->. apply limbs_value_repeat0.
Qed.

Lemma forallb_zero l : forallb (fun d => d =? 0) l = true <-> l = repeat 0 (length l).
Proof.
  induction l as [|x l IH]; cbn; [tauto|]. rewrite andb_true_iff, IH.
  split.
  - intros [H ->]. rewrite repeat_length. f_equal. lia.
  - intros [= -> E]. split; auto.
Qed.

Lemma count_lead0_spec l : exists t, l = repeat 0 (count_lead0 l) ++ t /\
  (t = [] \/ nth 0 t 0 <> 0) /\ (count_lead0 l = length l <-> t = []).
Proof.
  induction l as [|x l IH]; cbn [count_lead0].
  - exists []. cbn. tauto.
  - destruct (x =? 0) eqn:E.
    + destruct IH as (t & E1 & E2 & E3). exists t. replace x with 0 by lia. cbn [repeat app length].
      split; [f_equal; exact E1|]. split; auto. rewrite <- E3. split; lia.
    + exists (x :: l). cbn [repeat app length]. split; auto. split; [right; cbn; lia|].
      split; intros H; [lia|discriminate].
Qed.

Lemma shift_down_spec B k v : 0 < B -> digits_ok B v -> (k <= length v)%nat ->
  length (shift_down k v) = length v /\ digits_ok B (shift_down k v) /\
  limbs_value B (shift_down k v) = limbs_value B v / B ^ Z.of_nat k.
Proof.
  intros HB H Hk. unfold shift_down. split; [rewrite app_length, repeat_length, firstn_length; lia|].
  split; [apply digits_ok_app; split; [apply digits_ok_repeat0; auto|apply digits_ok_firstn; auto]|].
  rewrite limbs_value_app, limbs_value_repeat0, limbs_value_firstn by auto. lia.
Qed.

Definition sgn (b : bool) : Z := if b then -1 else 1.

Section A.
Variable c : cfg.
Notation L := (c_limb c).
Notation B := (mask L).
Notation V := (limbs_value B).
Notation P n := (B ^ Z.of_nat n).
Notation E := (ebits (c_expo c)).
Notation n := (nel c).
Hypothesis Hc : cfg_ok c.
Let HB : 0 < B := mask_pos L.

Lemma edc_pos : 2 <= edc c <= 8.
Proof. apply ed_pos. Qed.

Lemma elem_number_ge4 : 4 <= elem_number c.
Proof.
  destruct Hc as [H1 _]. unfold elem_number. set (e := ed L). pose proof (ed_pos L). fold e in H.
  destruct (c_digits10 c mod e =? 0) eqn:Em.
  - assert (1 <= c_digits10 c / e); [|lia]. apply Z.div_le_lower_bound; [lia|].
    pose proof (Z.div_mod (c_digits10 c) e). assert (0 < c_digits10 c / e); [|nia].
    destruct (Z.eq_dec (c_digits10 c / e) 0); [nia|]. pose proof (Z.div_pos (c_digits10 c) e). lia.
  - pose proof (Z.div_pos (c_digits10 c) e). lia.
Qed.

Lemma nel_Z : Z.of_nat n = elem_number c.
Proof. unfold nel. pose proof elem_number_ge4. lia. Qed.
Lemma nel_ge4 : (4 <= n)%nat.
Proof. pose proof nel_Z. pose proof elem_number_ge4. lia. Qed.

Lemma edc_divides_2E : (edc c | 2 ^ E).
Proof.
  unfold edc. destruct L, (c_expo c); cbn [ed ebits]; apply Z.mod_divide; try lia; reflexivity.
Qed.

Lemma E_ge8 : 8 <= E.
Proof. destruct (c_expo c); cbn; lia. Qed.

Lemma pow2E : 2 ^ E = 2 * 2 ^ (E - 1).
Proof. pose proof E_ge8. rewrite <- Z.pow_succ_r by lia; f_equal; lia. Qed.

(** The signed exponent cast keeps multiples of the limb digits and stays in the type. *)
Lemma scast_divides e : (edc c | e) -> (edc c | scast E e).
Proof.
  intros [k Hk]. unfold scast. pose proof edc_divides_2E as [m Hm]. pose proof E_ge8.
  assert (H2 : (edc c | 2 ^ (E - 1))).
  { unfold edc. destruct L, (c_expo c); cbn [ed ebits]; apply Z.mod_divide; try lia; reflexivity. }
  apply Z.divide_sub_r; auto.
  rewrite Z.mod_eq by (pose proof (Z.pow_pos_nonneg 2 E); lia).
  apply Z.divide_sub_r; [apply Z.divide_add_r; auto; exists k; auto|].
  apply Z.divide_mul_l. exists m; auto.
Qed.

Lemma scast_range e : - 2 ^ (E - 1) <= scast E e < 2 ^ (E - 1).
Proof.
  unfold scast. pose proof pow2E. pose proof E_ge8.
  pose proof (Z.mod_pos_bound (e + 2 ^ (E - 1)) (2 ^ E) ltac:(apply Z.pow_pos_nonneg; lia)). lia.
Qed.

Lemma ok_mask l : digits_ok (10 ^ edc c) l <-> digits_ok B l.
Proof. unfold edc. rewrite mask_pow. tauto. Qed.

(** Unpacked normal form. *)
Lemma normal_facts x : normal c x ->
  length (data x) = n /\ digits_ok B (data x) /\ dprec x = n /\
  firstn n (data x) = data x /\ skipn n (data x) = [] /\
  (iszero x = true -> data x = repeat 0 n /\ V (data x) = 0) /\
  (iszero x = false -> 0 < V (data x)) /\
  P (n - 1) * nth 0 (data x) 0 <= V (data x).
Proof.
  intros (Hl & Hok & Hz & Hd & Hr & Hp). apply ok_mask in Hok.
  split; auto. split; auto. split; auto.
  split; [rewrite <- Hl; apply firstn_all|]. split; [rewrite <- Hl; apply skipn_all|].
  pose proof nel_ge4.
  destruct (data x) as [|d l] eqn:Ed; [cbn in Hl; lia|].
  pose proof (digits_ok_cons B d l) as [Hcons _]. specialize (Hcons Hok).
  pose proof (limbs_value_bound B l HB (proj2 Hcons)) as Hb.
  assert (Hll : length l = (n - 1)%nat) by (cbn in Hl; lia).
  split; [|split].
  - unfold iszero; rewrite Ed; cbn [nth]; intros H0. assert (Hd0 : d = 0) by lia.
    specialize (Hz Hd0). rewrite Hz. split; auto. apply limbs_value_repeat0.
  - unfold iszero; rewrite Ed; cbn [nth limbs_value]; intros H0.
    pose proof (pow_pos_nat B (length l) HB). nia.
  - cbn [nth limbs_value]. rewrite Hll in *. lia.
Qed.

Lemma zero_normal : normal c (zero c).
Proof.
  unfold normal, zero; cbn [data dexp dneg dprec]. pose proof (Z.pow_pos_nonneg 2 (E - 1)). pose proof E_ge8.
  split; [apply repeat_length|]. split; [apply ok_mask, digits_ok_repeat0; auto|].
  split; [auto|]. split; [apply Z.divide_0_r|]. split; [lia|auto].
Qed.

Lemma value_range_nel x : normal c x -> 0 <= V (data x) < P n.
Proof.
  intros Hx. destruct (normal_facts x Hx) as (Hl & Hok & _).
  pose proof (limbs_value_bound B _ HB Hok) as H. rewrite Hl in H. exact H.
Qed.

(** Offset computed by operator+= from the exponents. *)
Lemma ofs_spec x v : normal c x -> normal c v ->
  let o := uw_sub E (uw_make E (dexp x)) (uw_make E (dexp v)) in
  uw_value o = dexp x - dexp v /\ uw_ok E o.
Proof.
  intros (_ & _ & _ & _ & Hx & _) (_ & _ & _ & _ & Hv & _). pose proof E_ge8. pose proof pow2E.
  destruct (uw_make_spec E (dexp x) ltac:(lia) Hx) as [E1 O1].
  destruct (uw_make_spec E (dexp v) ltac:(lia) Hv) as [E2 O2].
  destruct (uw_sub_spec E _ _ O1 O2) as [E3 O3]; [rewrite E1, E2; lia|].
  cbn zeta. split; [lia|auto].
Qed.

Lemma max_delta_spec : ucast E (scast E (scast E (Z.of_nat n) * ed L)) = Z.of_nat n * edc c.
Proof.
  destruct Hc as [_ H]. pose proof nel_Z. pose proof E_ge8. pose proof edc_pos. pose proof pow2E.
  pose proof elem_number_ge4. fold (edc c).
  rewrite (scast_id E (Z.of_nat n)) by nia. rewrite scast_id by nia. rewrite ucast_id by nia. auto.
Qed.

(** Result of the "carry out of the top limb" shift at full precision. *)
Lemma add_carry_shift_full d cy : length d = n ->
  add_carry_shift d n cy = cy :: firstn (n - 1) d.
Proof.
  intros Hd. pose proof nel_ge4. unfold add_carry_shift. f_equal.
  destruct d as [|x d]; [cbn in Hd; lia|].
  rewrite Hd. replace (n - (n - 1))%nat with 1%nat by lia. cbn [firstn app tl]. reflexivity.
Qed.

(** Same-sign addition. *)
Lemma add_same_sign_spec x v o : normal c x -> normal c v -> iszero x = false -> iszero v = false ->
  dexp x - dexp v = o * edc c -> Z.abs o < Z.of_nat n ->
  let e := Z.max (dexp x) (dexp v) in
  let S := V (data x) / B ^ ((e - dexp x) / edc c) + V (data v) / B ^ ((e - dexp v) / edc c) in
  let z := add_same_sign c x v n o in
  length (data z) = n /\ digits_ok B (data z) /\ nth 0 (data z) 0 <> 0 /\
  dprec z = n /\ dneg z = dneg x /\
  ((dexp z = e /\ V (data z) = S) \/
   (dexp z = scast E (e + edc c) /\ V (data z) = S / B /\ P n <= S)).
Proof.
  intros Hx Hv Zx Zv Ho Hob.
  destruct (normal_facts x Hx) as (Lx & Ox & Px & Fx & Sx & _ & Nx & Tx).
  destruct (normal_facts v Hv) as (Lv & Ov & Pv & Fv & Sv & _ & Nv & Tv).
  pose proof edc_pos as He. pose proof nel_ge4 as Hn.
  cbv zeta. unfold add_same_sign.
  assert (Key : forall (u w : list Z) e0 ns,
     length u = n -> length w = n -> digits_ok B u -> digits_ok B w ->
     nth 0 u 0 <> 0 \/ nth 0 w 0 <> 0 ->
     let z := (let '(r, carry) := add_n L u w in
               if carry =? 0 then mkDec (r ++ skipn n (data x)) e0 ns (dprec x)
               else mkDec (add_carry_shift (r ++ skipn n (data x)) n carry) (scast E (e0 + ed L)) ns (dprec x)) in
     length (data z) = n /\ digits_ok B (data z) /\ nth 0 (data z) 0 <> 0 /\
     dprec z = n /\ dneg z = ns /\
     ((dexp z = e0 /\ V (data z) = V u + V w) \/
      (dexp z = scast E (e0 + edc c) /\ V (data z) = (V u + V w) / B /\ P n <= V u + V w))).
  { intros u w e0 ns Hu Hw Ou Ow Hnz.
    pose proof (add_n_spec L u w ltac:(lia) Ou Ow) as HA.
    destruct (add_n L u w) as [r cy]. destruct HA as (Hr & Hok & Hcy & EA).
    rewrite Sx, app_nil_r. rewrite Hu in *.
    cbv zeta. destruct (cy =? 0) eqn:Ecy; cbn [data dexp dneg dprec].
    - split; [lia|]. split; [auto|]. split; [|split; [auto|split; [auto|left; split; [auto|lia]]]].
      (* leading limb non-zero *)
      intros H0. destruct r as [|r0 r]; [cbn in Hr; lia|]. cbn [nth] in H0. subst r0.
      apply digits_ok_cons in Hok. cbn [limbs_value length] in *.
      pose proof (limbs_value_bound B r HB (proj2 Hok)) as Hb.
      destruct u as [|u0 u]; [cbn in Hu; lia|]. destruct w as [|w0 w]; [cbn in Hw; lia|].
      apply digits_ok_cons in Ou, Ow. cbn [nth limbs_value length] in *.
      pose proof (limbs_value_bound B u HB (proj2 Ou)). pose proof (limbs_value_bound B w HB (proj2 Ow)).
      replace (length u) with (n - 1)%nat in * by lia. replace (length w) with (n - 1)%nat in * by lia.
      replace (length r) with (n - 1)%nat in * by lia. nia.
    - assert (cy = 1) by lia. subst cy. rewrite add_carry_shift_full by lia.
      split; [cbn [length]; rewrite firstn_length; lia|].
      split; [apply digits_ok_cons; split; [pose proof (mask_fits L); destruct L; cbn; lia|apply digits_ok_firstn; auto]|].
      split; [cbn; lia|]. split; [auto|]. split; [auto|]. right.
      split; [auto|]. rewrite <- EA. split; [|pose proof (limbs_value_bound B r HB Hok); lia].
      cbn [limbs_value]. rewrite firstn_length, Hr. replace (Nat.min (n - 1) n) with (n - 1)%nat by lia.
      rewrite <- Hr at 2. rewrite limbs_value_firstn by (auto; lia). rewrite Z.pow_1_r.
      replace n with (S (n - 1)) at 2 by lia. rewrite pow_succ_nat.
      replace (V r + 1 * (B * P (n - 1))) with (P (n - 1) * B + V r) by ring.
      rewrite Z.div_add_l by lia. lia. }
  destruct (o >=? 0) eqn:Eo.
  - replace (Z.max (dexp x) (dexp v)) with (dexp x) by nia.
    replace ((dexp x - dexp x) / edc c) with 0 by (rewrite Z.sub_diag, Z.div_0_l; lia).
    rewrite Ho, Z.div_mul by lia. rewrite Z.pow_0_r, Z.div_1_r.
    destruct (shift_down_spec B (Z.to_nat o) (data v) HB Ov ltac:(lia)) as (M1 & M2 & M3).
    rewrite Z2Nat.id in M3 by lia. rewrite Fx.
    rewrite (firstn_all2 (shift_down _ _)) by lia.
    specialize (Key (data x) (shift_down (Z.to_nat o) (data v)) (dexp x) (dneg x) Lx ltac:(lia) Ox M2).
    rewrite M3 in Key.
    destruct (add_n L (data x) (shift_down (Z.to_nat o) (data v))) as [r cy]. cbv zeta beta iota in Key |- *.
    apply Key. left. unfold iszero in Zx. lia.
  - replace (Z.max (dexp x) (dexp v)) with (dexp v) by nia.
    replace ((dexp v - dexp v) / edc c) with 0 by (rewrite Z.sub_diag, Z.div_0_l; lia).
    replace (dexp v - dexp x) with ((- o) * edc c) by lia.
    rewrite Z.div_mul by lia. rewrite Z.pow_0_r, Z.div_1_r.
    destruct (shift_down_spec B (Z.to_nat (- o)) (data x) HB Ox ltac:(lia)) as (M1 & M2 & M3).
    rewrite Z2Nat.id in M3 by lia. rewrite Fv.
    rewrite (firstn_all2 (shift_down _ _)) by lia.
    specialize (Key (shift_down (Z.to_nat (- o)) (data x)) (data v) (dexp v) (dneg x) ltac:(lia) Lv M2 Ov).
    rewrite M3 in Key.
    destruct (add_n L (shift_down (Z.to_nat (- o)) (data x)) (data v)) as [r cy]. cbv zeta beta iota in Key |- *.
    apply Key. right. unfold iszero in Zv. lia.
Qed.

(** Justification at full precision. *)
Lemma justify_spec d e s : length d = n -> digits_ok B d ->
  let z := justify c (mkDec d e s n) n in
  (V d = 0 -> z = zero c) /\
  (V d <> 0 -> exists sj, (sj < n)%nat /\ length (data z) = n /\ digits_ok B (data z) /\
     nth 0 (data z) 0 <> 0 /\ dprec z = n /\ dneg z = s /\
     V (data z) = V d * P sj /\
     (sj = O -> dexp z = e) /\
     dexp z = (if (sj =? 0)%nat then e else scast E (e - Z.of_nat sj * edc c))).
Proof.
  intros Hd Hok. cbv zeta. unfold justify; cbn [data dexp dneg dprec].
  replace (firstn n d) with d by (rewrite <- Hd, firstn_all; auto).
  destruct (count_lead0_spec d) as (t & E1 & E2 & E3). set (sj := count_lead0 d) in *.
  assert (Hlen : length d = (sj + length t)%nat) by (rewrite E1 at 1; rewrite app_length, repeat_length; auto).
  split.
  - intros H0. apply limbs_value_zero_iff in H0; auto.
    assert (Hall : forallb (fun x => x =? 0) d = true) by (apply forallb_zero; auto).
    destruct (sj =? 0)%nat eqn:Es; cbn [data]; [rewrite Hall; auto|].
    destruct (sj =? length d)%nat eqn:Es2; cbn [data]; [rewrite Hall; auto|].
    exfalso. (* t non-empty with non-zero head but everything is zero *)
    apply Nat.eqb_neq in Es2. destruct E2 as [->|Ht]; [apply Es2, E3; auto|].
    apply Ht. destruct t as [|t0 t]; [reflexivity|]. cbn [nth].
    assert (In t0 d) by (rewrite E1; apply in_or_app; right; left; auto).
    rewrite H0 in H. apply repeat_spec in H. auto.
  - intros HV. assert (Hsjn : (sj < n)%nat).
    { destruct (Nat.lt_ge_cases sj n); auto. exfalso. apply HV.
      assert (t = []) by (destruct t; auto; cbn in Hlen; lia). subst t.
      rewrite E1, app_nil_r. apply limbs_value_repeat0. }
    assert (Hnz : nth 0 t 0 <> 0).
    { destruct E2 as [->|]; auto. cbn in Hlen. lia. }
    assert (Vt : V d = V t) by (rewrite E1, limbs_value_app, limbs_value_repeat0; lia).
    assert (Hokt : digits_ok B t) by (rewrite E1 in Hok; apply digits_ok_app in Hok; tauto).
    assert (Hskip : skipn sj d = t) by (rewrite E1 at 1; apply skipn_app_exact, repeat_length).
    assert (NF : forall l, nth 0 l 0 <> 0 -> forallb (fun x => x =? 0) l = false).
    { intros [|l0 l] Hl; [cbn in Hl; lia|]. cbn in *. destruct (l0 =? 0) eqn:El; auto. lia. }
    exists sj. split; auto.
    destruct (sj =? 0)%nat eqn:Es.
    + apply Nat.eqb_eq in Es. rewrite Es in *. cbn [skipn] in Hskip. subst t.
      cbn [data]. rewrite NF by auto. cbn [data dexp dneg dprec].
      repeat split; auto. cbn; lia.
    + replace (sj =? length d)%nat with false by (symmetry; apply Nat.eqb_neq; lia).
      cbn [data]. rewrite Hskip.
      assert (Hnz2 : nth 0 (t ++ repeat 0 sj) 0 <> 0) by (destruct t; [cbn in Hnz; lia|exact Hnz]).
      rewrite NF by exact Hnz2. cbn [data dexp dneg dprec].
      split; [rewrite app_length, repeat_length; lia|].
      split; [apply digits_ok_app; split; auto; apply digits_ok_repeat0; auto|].
      split; [exact Hnz2|]. split; [auto|]. split; [auto|].
      split; [rewrite limbs_value_app, limbs_value_repeat0, repeat_length; lia|].
      split; [intros; apply Nat.eqb_neq in Es; lia|].
      destruct Hc as [_ HcE]. pose proof nel_Z. pose proof edc_pos. pose proof E_ge8. pose proof pow2E.
      fold (edc c).
      rewrite (scast_id E (Z.of_nat sj)) by nia. rewrite (scast_id E (Z.of_nat sj * edc c)) by nia. auto.
Qed.

(** Different-sign addition. *)
Lemma add_diff_sign_spec x v o : normal c x -> normal c v -> iszero x = false -> iszero v = false ->
  dneg v = negb (dneg x) ->
  dexp x - dexp v = o * edc c -> Z.abs o < Z.of_nat n ->
  let e := Z.max (dexp x) (dexp v) in
  let D := sgn (dneg x) * (V (data x) / B ^ ((e - dexp x) / edc c))
         + sgn (dneg v) * (V (data v) / B ^ ((e - dexp v) / edc c)) in
  let z := add_diff_sign c x v n o in
  (D = 0 -> z = zero c) /\
  (D <> 0 -> exists sj, (sj < n)%nat /\ length (data z) = n /\ digits_ok B (data z) /\
     nth 0 (data z) 0 <> 0 /\ dprec z = n /\ dneg z = (D <? 0) /\
     V (data z) = Z.abs D * P sj /\
     dexp z = (if (sj =? 0)%nat then e else scast E (e - Z.of_nat sj * edc c))).
Proof.
  intros Hx Hv Zx Zv Hs Ho Hob.
  destruct (normal_facts x Hx) as (Lx & Ox & Px & Fx & Sx & _ & Nx & Tx).
  destruct (normal_facts v Hv) as (Lv & Ov & Pv & Fv & Sv & _ & Nv & Tv).
  pose proof edc_pos as He. pose proof nel_ge4 as Hn.
  specialize (Nx Zx). specialize (Nv Zv).
  pose proof (value_range_nel x Hx) as Rx. pose proof (value_range_nel v Hv) as Rv.
  assert (HPn : P n = B * P (n - 1)) by (rewrite <- pow_succ_nat; do 2 f_equal; lia).
  pose proof (pow_pos_nat B (n - 1) HB) as HPp.
  (* the two candidates *)
  assert (Key : forall (u w : list Z) e0 s,
     length u = n -> length w = n -> digits_ok B u -> digits_ok B w -> V w <= V u ->
     let z := justify c (mkDec (fst (sub_n L u w)) e0 s n) n in
     (V u - V w = 0 -> z = zero c) /\
     (V u - V w <> 0 -> exists sj, (sj < n)%nat /\ length (data z) = n /\ digits_ok B (data z) /\
       nth 0 (data z) 0 <> 0 /\ dprec z = n /\ dneg z = s /\
       V (data z) = (V u - V w) * P sj /\
       dexp z = (if (sj =? 0)%nat then e0 else scast E (e0 - Z.of_nat sj * edc c)))).
  { intros u w e0 s Hu Hw Ou Ow Hle. cbv zeta.
    destruct (sub_n_ge L u w ltac:(lia) Ou Ow Hle) as (S1 & S2 & S3 & _).
    destruct (justify_spec (fst (sub_n L u w)) e0 s ltac:(lia) S3) as [J1 J2].
    rewrite S1 in J1, J2. split; auto. intros Hne. destruct (J2 Hne) as (sj & J). exists sj. tauto. }
  cbv zeta. unfold add_diff_sign. rewrite Fx, Fv, !Sx.
  rewrite (compare_ranges_spec L (data x) (data v)) by (auto; lia).
  destruct ((o >? 0) || ((o =? 0) && (match V (data x) ?= V (data v) with Lt => -1 | Eq => 0 | Gt => 1 end >? 0))) eqn:Ebr.
  - assert (Ho0 : 0 <= o) by lia.
    replace (Z.max (dexp x) (dexp v)) with (dexp x) by nia.
    replace ((dexp x - dexp x) / edc c) with 0 by (rewrite Z.sub_diag, Z.div_0_l; lia).
    rewrite Ho, Z.div_mul by lia. rewrite Z.pow_0_r, Z.div_1_r.
    destruct (shift_down_spec B (Z.to_nat o) (data v) HB Ov ltac:(lia)) as (M1 & M2 & M3).
    rewrite Z2Nat.id in M3 by lia.
    rewrite (firstn_all2 (shift_down _ _)) by lia. rewrite app_nil_r, Px.
    assert (Hlt : V (data v) / B ^ o < V (data x)).
    { destruct (Z.eq_dec o 0) as [->|Hone].
      - rewrite Z.pow_0_r, Z.div_1_r. destruct (Z.compare_spec (V (data x)) (V (data v))); cbn in Ebr; try discriminate; lia.
      - assert (V (data v) / B ^ o < P (n - 1)).
        { apply Z.div_lt_upper_bound; [apply Z.pow_pos_nonneg; lia|].
          assert (B <= B ^ o) by (replace B with (B ^ 1) at 1 by lia; apply Z.pow_le_mono_r; lia). nia. }
        assert (1 <= nth 0 (data x) 0).
        { pose proof (digits_ok_nth B (data x) 0 HB Ox). unfold iszero in Zx. lia. }
        nia. }
    destruct (Key (data x) (shift_down (Z.to_nat o) (data v)) (dexp x) (dneg x) Lx ltac:(lia) Ox M2 ltac:(lia)) as [K1 K2].
    rewrite M3 in K1, K2.
    set (q := V (data v) / B ^ o) in *.
    rewrite Hs. destruct (dneg x); cbn [negb sgn].
    + split; [intros; exfalso; lia|]. intros _. destruct (K2 ltac:(lia)) as (sj & K). exists sj.
      replace (-1 * V (data x) + 1 * q <? 0) with true by lia.
      replace (Z.abs (-1 * V (data x) + 1 * q)) with (V (data x) - q) by lia. tauto.
    + split; [intros; exfalso; lia|]. intros _. destruct (K2 ltac:(lia)) as (sj & K). exists sj.
      replace (1 * V (data x) + -1 * q <? 0) with false by lia.
      replace (Z.abs (1 * V (data x) + -1 * q)) with (V (data x) - q) by lia. tauto.
  - assert (Ho0 : o <= 0) by lia.
    replace (Z.max (dexp x) (dexp v)) with (dexp v) by nia.
    replace ((dexp v - dexp v) / edc c) with 0 by (rewrite Z.sub_diag, Z.div_0_l; lia).
    replace (dexp v - dexp x) with ((- o) * edc c) by lia.
    rewrite Z.div_mul by lia. rewrite Z.pow_0_r, Z.div_1_r.
    set (dx := if o =? 0 then data x else shift_down (Z.to_nat (- o)) (data x)).
    assert (Hdx : length dx = n /\ digits_ok B dx /\ V dx = V (data x) / B ^ (- o)).
    { subst dx. destruct (o =? 0) eqn:E0.
      - assert (o = 0) by lia. subst o. cbn [Z.opp]. rewrite Z.pow_0_r, Z.div_1_r. auto.
      - destruct (shift_down_spec B (Z.to_nat (- o)) (data x) HB Ox ltac:(lia)) as (M1 & M2 & M3).
        rewrite Z2Nat.id in M3 by lia. split; [lia|auto]. }
    destruct Hdx as (M1 & M2 & M3).
    replace (firstn n dx) with dx by (rewrite <- M1, firstn_all; auto).
    replace (skipn n dx) with (@nil Z) by (rewrite <- M1, skipn_all; auto). rewrite app_nil_r, Px.
    assert (Hlt : V (data x) / B ^ (- o) <= V (data v)).
    { destruct (Z.eq_dec o 0) as [->|Hone].
      - cbn [Z.opp]. rewrite Z.pow_0_r, Z.div_1_r.
        destruct (Z.compare_spec (V (data x)) (V (data v))); cbn in Ebr; try discriminate; lia.
      - assert (V (data x) / B ^ (- o) < P (n - 1)).
        { apply Z.div_lt_upper_bound; [apply Z.pow_pos_nonneg; lia|].
          assert (B <= B ^ (- o)) by (replace B with (B ^ 1) at 1 by lia; apply Z.pow_le_mono_r; lia). nia. }
        assert (1 <= nth 0 (data v) 0).
        { pose proof (digits_ok_nth B (data v) 0 HB Ov). unfold iszero in Zv. lia. }
        nia. }
    destruct (Key (data v) dx (dexp v) (dneg v) Lv M1 Ov M2 ltac:(lia)) as [K1 K2].
    rewrite M3 in K1, K2.
    set (q := V (data x) / B ^ (- o)) in *.
    rewrite Hs in *. destruct (dneg x); cbn [negb sgn] in *.
    + split; [intros; apply K1; lia|]. intros HD. destruct (K2 ltac:(lia)) as (sj & K). exists sj.
      replace (-1 * q + 1 * V (data v) <? 0) with false by lia.
      replace (Z.abs (-1 * q + 1 * V (data v))) with (V (data v) - q) by lia. tauto.
    + split; [intros; apply K1; lia|]. intros HD. destruct (K2 ltac:(lia)) as (sj & K). exists sj.
      replace (1 * q + -1 * V (data v) <? 0) with true by lia.
      replace (Z.abs (1 * q + -1 * V (data v))) with (V (data v) - q) by lia. tauto.
Qed.

End A.
