(** Estimate3_proofs.v - the mantissa/exponent constructor, and the accuracy of the reciprocal. *)
From Verif Require Export Estimate2_proofs Laws_proofs.
From Coq Require Import Lqa.
Local Open Scope Z_scope.

Section E3.
Variable c : cfg.
Variable F : ftype.
Notation L := (c_limb c).
Notation B := (mask L).
Notation V := (limbs_value B).
Notation ok := (digits_ok B).
Notation E := (ebits (c_expo c)).
Notation n := (nel c).
Notation M := (max_exp10_of (c_expo c)).
Notation PF := (f_bits F).
Notation J := (digit_loops c F).
Notation wk := (wk c).
Notation mag := (mag c).
Notation eta := (eta c).
Notation nearP := (near PF).
Notation sumQ := (sumQ c).
Hypothesis Hc : cfg_ok c.
Hypothesis HF : float_fits c F.
Hypothesis HJ : (J <= n)%nat.
Let HB : 0 < B := mask_pos L.
Let HP : 24 <= PF := f_bits_ge c F HF.
Let HP2 : 2 <= PF. Proof. clear - HP. lia. Qed.

(** A stage of the conversion: a representable mantissa [d] and decimal exponent [e] approximating
    the reciprocal of [t]. *)
Definition stage (t : Q) (k : Z) (d : Q) (e : Z) : Prop := rep PF d /\ (0 < d)%Q /\ nearP k d (/ (p10 e * t)).

Lemma recip_pos t e : (0 < t)%Q -> (0 < / (p10 e * t))%Q.
Proof. intros H. apply Qinv_lt_0_compat, Qmult_lt_0_compat; auto. apply p10_pos. Qed.

Lemma fl_positive q : (0 < q)%Q -> rep PF (fl PF q) /\ (0 < fl PF q)%Q.
Proof.
  intros Hq. split; [apply fl_rep; auto; lra|]. destruct (uu_small PF HP) as [U1 U2].
  destruct (fl_bounds PF HP2 q ltac:(lra)) as [K1 _]. fold (uu PF) in K1.
  assert (T1 : (q * (1 # 2) <= q * (1 - uu PF))%Q) by (rewrite !(Qmult_comm q); apply Qmult_le_compat_r; lra). lra.
Qed.

Lemma stage_up t k d e : (0 < t)%Q -> 0 <= k <= 98 -> stage t k d e -> stage t (k + 1) (fl PF (d * 10)) (e - 1).
Proof.
  intros Ht Hk (R & D & N). destruct (fl_positive (d * 10) ltac:(lra)) as [S1 S2]. split; auto. split; auto.
  pose proof (recip_pos t (e - 1) Ht). apply near_fl; auto; try lia; try lra.
  setoid_replace (/ (p10 (e - 1) * t))%Q with (/ (p10 e * t) * 10)%Q; [apply near_scale; auto; lra|].
  replace e with (e - 1 + 1) at 2 by lia. rewrite (p10_add (e - 1) 1). rewrite p10_one.
  field. split; [lra|]. apply p10_nz.
Qed.

Lemma stage_down t k d e : (0 < t)%Q -> 0 <= k <= 98 -> stage t k d e -> stage t (k + 1) (fl PF (d / 10)) (e + 1).
Proof.
  intros Ht Hk (R & D & N). assert (D2 : (d / 10 == d * (1 # 10))%Q) by field.
  destruct (fl_positive (d / 10) ltac:(rewrite D2; lra)) as [S1 S2]. split; auto. split; auto.
  pose proof (recip_pos t (e + 1) Ht). apply near_fl; auto; try lia; try lra.
  setoid_replace (/ (p10 (e + 1) * t))%Q with (/ (p10 e * t) * (1 # 10))%Q.
  - rewrite D2. apply near_scale; auto; lra.
  - rewrite (p10_add e 1). rewrite p10_one. field. split; [lra|]. apply p10_nz.
Qed.

Lemma rep_small m : 0 <= m <= 10 -> rep PF (inject_Z m).
Proof.
  intros Hm. apply rep_Z; auto. split; [lia|]. apply Z.lt_le_trans with (2 ^ 24); [change (2 ^ 24) with 16777216; lia|apply Z.pow_le_mono_r; lia].
Qed.

Lemma fm_down_spec f d e t k : (0 < t)%Q -> 0 <= k <= 97 -> stage t k d e -> (d <= 11)%Q -> scast E (e + 1) = e + 1 ->
  exists d' e', fm_down c F (S (S f)) d e = Some (d', e') /\ stage t (k + 1) d' e' /\ (d' <= 10)%Q /\
    ((d' = d /\ e' = e) \/ ((1 <= d')%Q /\ e' = e + 1)).
Proof.
  intros Ht Hk St Hd He. cbn [fm_down]. destruct (Qle_bool d 10) eqn:C1.
  - apply Qle_bool_iff in C1. exists d, e. split; auto. split; [|auto]. destruct St as (R & D & N). split; auto. split; auto.
    apply (near_mono PF HP k); auto; [lia|]. pose proof (recip_pos t e Ht). lra.
  - assert (C : (10 < d)%Q) by (apply Qnot_le_lt; intros K; apply Qle_bool_iff in K; congruence).
    assert (D2 : (d / 10 == d * (1 # 10))%Q) by field.
    pose proof (stage_down t k d e Ht ltac:(lia) St) as S2. rewrite He.
    assert (U : (fl PF (d / 10) <= inject_Z 2)%Q).
    { apply fl_le_rep; auto; [rewrite D2; lra|apply rep_small; lia|rewrite D2; change (inject_Z 2) with 2%Q; lra]. }
    assert (W : (inject_Z 1 <= fl PF (d / 10))%Q).
    { apply fl_ge_rep; auto; [apply rep_small; lia|rewrite D2; lra|rewrite D2; change (inject_Z 1) with 1%Q; lra]. }
    change (inject_Z 2) with 2%Q in U. change (inject_Z 1) with 1%Q in W.
    assert (C2 : Qle_bool (fl PF (d / 10)) 10 = true) by (apply Qle_bool_iff; lra). rewrite C2.
    exists (fl PF (d / 10)), (e + 1). split; auto. split; auto. split; [lra|]. auto.
Qed.

Lemma fm_up_spec f d e t k : (0 < t)%Q -> 0 <= k <= 97 -> stage t k d e -> ((9 # 10) <= d)%Q -> (d <= 10)%Q -> scast E (e - 1) = e - 1 ->
  exists d' e', fm_up c F (S (S f)) d e = Some (d', e') /\ stage t (k + 1) d' e' /\ (1 <= d')%Q /\ (d' <= 10)%Q /\
    (e' = e \/ e' = e - 1).
Proof.
  intros Ht Hk St Hd Hd2 He. cbn [fm_up]. destruct (Qle_bool 1 d) eqn:C1.
  - apply Qle_bool_iff in C1. exists d, e. split; auto. split; [|auto]. destruct St as (R & D & N). split; auto. split; auto.
    apply (near_mono PF HP k); auto; [lia|]. pose proof (recip_pos t e Ht). lra.
  - assert (C : (d < 1)%Q) by (apply Qnot_le_lt; intros K; apply Qle_bool_iff in K; congruence).
    pose proof (stage_up t k d e Ht ltac:(lia) St) as S2. rewrite He.
    assert (U : (fl PF (d * 10) <= inject_Z 10)%Q).
    { apply fl_le_rep; auto; [lra|apply rep_small; lia|change (inject_Z 10) with 10%Q; lra]. }
    assert (W : (inject_Z 1 <= fl PF (d * 10))%Q).
    { apply fl_ge_rep; auto; [apply rep_small; lia|lra|change (inject_Z 1) with 1%Q; lra]. }
    change (inject_Z 10) with 10%Q in U. change (inject_Z 1) with 1%Q in W.
    assert (C2 : Qle_bool 1 (fl PF (d * 10)) = true) by (apply Qle_bool_iff; lra). rewrite C2.
    exists (fl PF (d * 10)), (e - 1). split; auto.
Qed.

Lemma rem_zero s : (Z.rem s (ed L) =? 0) = true <-> s mod edc c = 0.
Proof.
  pose proof (edc_pos c) as He. unfold edc in *. rewrite Z.eqb_eq. split; intros H.
  - apply Z.rem_divide in H; [|lia]. apply Z.mod_divide; auto; lia.
  - apply Z.rem_divide; [lia|]. apply Z.mod_divide in H; auto; lia.
Qed.

Lemma fm_shift_spec t : (0 < t)%Q -> forall f d e s k j, 0 <= k -> k + edc c <= 98 -> stage t k d e -> (edc c | e - s) ->
  (1 <= d)%Q -> 0 <= j -> (d <= inject_Z (10 ^ j))%Q -> j + s mod edc c <= edc c -> s mod edc c < Z.of_nat f ->
  - 2 ^ (E - 1) + edc c <= e < 2 ^ (E - 1) ->
  exists d' e', fm_shift c F f d e s = Some (d', e') /\ stage t (k + s mod edc c) d' e' /\ (edc c | e') /\
    (1 <= d')%Q /\ (d' <= inject_Z B)%Q /\ e' = e - s mod edc c.
Proof.
  intros Ht f. pose proof (edc_pos c) as He.
  assert (He8 : edc c <= 8) by (unfold edc; destruct L; cbn; lia).
  assert (Gen : forall f d e s k j, 0 <= k -> k + s mod edc c <= 98 -> stage t k d e -> (edc c | e - s) ->
    (1 <= d)%Q -> 0 <= j -> (d <= inject_Z (10 ^ j))%Q -> j + s mod edc c <= edc c -> s mod edc c < Z.of_nat f ->
    - 2 ^ (E - 1) + s mod edc c <= e < 2 ^ (E - 1) ->
    exists d' e', fm_shift c F f d e s = Some (d', e') /\ stage t (k + s mod edc c) d' e' /\ (edc c | e') /\
    (1 <= d')%Q /\ (d' <= inject_Z B)%Q /\ e' = e - s mod edc c).
  { clear f. induction f as [|f IH]; intros d e s k j Hk Hk2 St Hdv D1 Hj Dj Hjs Hf Re; [pose proof (Z.mod_pos_bound s (edc c) ltac:(lia)); lia|].
    cbn [fm_shift]. pose proof (Z.mod_pos_bound s (edc c) ltac:(lia)) as Hm. destruct (Z.rem s (ed L) =? 0) eqn:C.
    - apply rem_zero in C. exists d, e. split; auto. rewrite C, Z.add_0_r, Z.sub_0_r. split; auto. split; [|split; [auto|split; [|auto]]].
      + apply Z.mod_divide in C; [|lia]. replace e with ((e - s) + s) by lia. apply Z.divide_add_r; auto.
      + apply Qle_trans with (inject_Z (10 ^ j)); auto. rewrite mask_pow. rewrite <- Zle_Qle. apply Z.pow_le_mono_r; unfold edc in *; lia.
    - assert (C0 : s mod edc c <> 0) by (intros K; apply rem_zero in K; congruence).
      assert (Es : (s - 1) mod edc c = s mod edc c - 1).
      { symmetry. apply Z.mod_unique with (s / edc c); [left; lia|]. pose proof (Z.div_mod s (edc c) ltac:(lia)). lia. }
      rewrite scast_id by (pose proof (E_ge8 c); lia).
      assert (Q1 : (1 <= fl PF (d * 10))%Q).
      { change 1%Q with (inject_Z 1). apply fl_ge_rep; auto; [apply rep_small; lia|lra|change (inject_Z 1) with 1%Q; lra]. }
      assert (Q2 : (fl PF (d * 10) <= inject_Z (10 ^ (j + 1)))%Q).
      { apply fl_le_rep; auto; [lra|apply rep_pow10; auto; lia|]. rewrite Z.pow_add_r, inject_Z_mult by lia.
        apply Qmult_le_compat_r; auto. discriminate. }
      destruct (IH (fl PF (d * 10)) (e - 1) (s - 1) (k + 1) (j + 1)) as (d' & e' & I1 & I2 & I3 & I4 & I5 & I6); auto; try lia.
      + apply stage_up; auto; lia.
      + replace (e - 1 - (s - 1)) with (e - s) by lia. auto.
      + exists d', e'. split; auto. rewrite Es in *. replace (k + 1 + (s mod edc c - 1)) with (k + s mod edc c) in I2 by lia.
        split; auto. split; auto. split; auto. split; auto. lia. }
  intros d e s k j Hk Hk2 St Hdv D1 Hj Dj Hjs Hf Re. pose proof (Z.mod_pos_bound s (edc c) ltac:(lia)) as Hm.
  eapply Gen; eauto; lia.
Qed.

(** The limbs produced from a mantissa. *)
Lemma fm_limbs d : rep PF d -> (1 <= d)%Q -> (d <= inject_Z B)%Q ->
  let l := fm_digits c F J d in
  length l = J /\ okA L l /\ nth 0 l 0 <> 0 /\ nearP 3 (sumQ l) d.
Proof.
  intros R D1 DB l. pose proof (J_range c F HF) as HJr. pose proof (B_gt9 c) as HB9.
  assert (N0 : nth 0 l 0 = Qfloor d) by (unfold l; destruct J; [lia|reflexivity]).
  assert (N1 : 1 <= Qfloor d) by (change 1 with (Qfloor (inject_Z 1)); apply Qfloor_resp_le; auto).
  destruct (Qlt_le_dec d (inject_Z B)) as [C|C].
  - destruct (fm_digits_spec c F HF HJ J d R ltac:(lra) C) as (A1 & A2 & A3). fold l in A1, A2, A3.
    split; auto. split; [left; auto|]. split; [lia|]. unfold near. rewrite Qabs_Qminus. eapply Qle_trans; [exact A3|].
    pose proof (J_tail c F HF) as JT. unfold Newton_proofs.eta in JT.
    replace (- (edc c * (Z.of_nat J - 1))) with (edc c * (1 - Z.of_nat J)) in JT by ring.
    pose proof (ww_small PF HP) as (W1 & W2 & W3). change (inject_Z 3) with 3%Q.
    assert (3 * ww PF * 1 <= 3 * ww PF * d)%Q by (rewrite !(Qmult_comm (3 * ww PF)); apply Qmult_le_compat_r; lra). lra.
  - assert (Ed : (d == inject_Z B)%Q) by lra. pose proof (fm_digits_top c F HF HJ J d Ed ltac:(lia)) as El. fold l in El.
    assert (Ll : length l = J) by (rewrite El; cbn [length]; rewrite repeat_length; lia).
    split; auto. split; [right; rewrite Ll; auto|]. split; [lia|].
    apply (near_mono PF HP 0); [lia|lra|]. setoid_replace (sumQ l) with d; [apply near_refl|].
    rewrite sumQ_V, Ll, El. cbn [limbs_value]. rewrite repeat_length, limbs_value_repeat0, Z.add_0_r.
    rewrite inject_Z_mult, Bp10, <- Qmult_assoc, <- p10_add.
    replace (edc c * Z.of_nat (J - 1) + edc c * (1 - Z.of_nat J)) with 0 by lia. rewrite Ed. change (p10 0) with 1%Q. ring.
Qed.

Lemma okA_pad l k : okA L l -> (1 <= length l)%nat -> okA L (l ++ repeat 0 k).
Proof.
  clear - HB. intros [H|H] Hl; [left; apply digits_ok_app; split; auto; apply digits_ok_repeat0; auto|right].
  rewrite H at 1. rewrite app_length, repeat_length. cbn [app]. rewrite <- repeat_app. f_equal. f_equal. lia.
Qed.

(** The constructor applied to the reciprocal of a mantissa. *)
Lemma from_mantissa_spec q ne t : rep PF q -> (0 < t)%Q -> ((99 # 100) <= q)%Q -> (q <= 11)%Q -> 
  stage t (8 + Z.of_nat J) q (- ne) -> - M - 10 <= ne <= M + 10 ->
  exists r, from_mantissa c F q (scast E (- ne)) = Some r /\ wk r /\ dneg r = false /\
    (Qabs (1 - mag r * t) <= (1 # 2) * p10 (- (f_digits10 F - 1)))%Q.
Proof.
  intros R Ht Q1 Q2 St Re. pose proof (J_range c F HF) as HJr. pose proof (edc_pos c) as He.
  assert (He8 : edc c <= 8) by (unfold edc; destruct L; cbn; lia).
  destruct (max_exp10_bounds c) as (B1 & B2 & _).
  pose proof (E_ge8 c) as HE8. rewrite scast_id by lia. unfold from_mantissa.
  destruct (Qeq_bool q 0) eqn:C0; [apply Qeq_bool_iff in C0; lra|].
  assert (C1 : Qle_bool 0 q = true) by (apply Qle_bool_iff; lra). rewrite C1. cbn [negb].
  destruct (fm_down_spec 30 q (- ne) t (8 + Z.of_nat J) Ht ltac:(lia) St Q2 ltac:(apply scast_id; lia)) as (d1 & e1 & D1 & D2 & D3 & D4).
  rewrite D1.
  assert (D5 : ((9 # 10) <= d1)%Q) by (destruct D4 as [[-> _]|[? _]]; lra).
  assert (E1 : - ne <= e1 <= - ne + 1) by (destruct D4 as [[_ ->]|[_ ->]]; lia).
  destruct (fm_up_spec 30 d1 e1 t (8 + Z.of_nat J + 1) Ht ltac:(lia) D2 D5 D3 ltac:(apply scast_id; lia)) as (d2 & e2 & U1 & U2 & U3 & U4 & U5).
  rewrite U1.
  assert (E2 : - ne - 1 <= e2 <= - ne + 1) by lia.
  pose proof (Z.mod_pos_bound (Z.rem e2 (ed L)) (edc c) ltac:(lia)) as Hm.
  destruct (fm_shift_spec t Ht 9 d2 e2 (Z.rem e2 (ed L)) (8 + Z.of_nat J + 1 + 1) 1) as (d3 & e3 & S1 & S2 & S3 & S4 & S5 & S6); auto; try lia.
  { unfold edc. exists (Z.quot e2 (ed L)). pose proof (Z.quot_rem' e2 (ed L)). lia. }
  rewrite S1. clear D1 U1 S1.
  assert (CJ : (J <=? n)%nat = true) by (apply Nat.leb_le; auto). rewrite CJ.
  destruct S2 as (R3 & P3 & N3).
  destruct (fm_limbs d3 R3 S4 S5) as (L1 & L2 & L3 & L4). set (l := fm_digits c F J d3) in *.
  eexists. split; [reflexivity|].
  assert (Wr : wk (mkDec (l ++ repeat 0 (n - J)) e3 false n)).
  { split; [|split; [|split]]; cbn [data dexp].
    - rewrite app_length, repeat_length, L1. lia.
    - apply okA_pad; auto. lia.
    - rewrite app_nth1 by lia. auto.
    - auto. }
  split; [exact Wr|]. split; [reflexivity|].
  assert (Em : (mag (mkDec (l ++ repeat 0%Z (n - J)) e3 false n) == sumQ l * p10 e3)%Q).
  { unfold Prec_proofs.mag. cbn [data dexp]. rewrite limbs_value_app, repeat_length, limbs_value_repeat0, Z.add_0_r.
    rewrite inject_Z_mult, Bp10, sumQ_V, L1. rewrite <- !Qmult_assoc, <- !p10_add.
    replace (edc c * Z.of_nat (n - J) + low c e3) with (edc c * (1 - Z.of_nat J) + e3); [reflexivity|].
    unfold low. rewrite Nat2Z.inj_sub by auto. ring. }
  rewrite Em.
  assert (Pt : (0 < p10 e3 * t)%Q) by (apply Qmult_lt_0_compat; auto; apply p10_pos).
  pose proof (recip_pos t e3 Ht) as Pi.
  assert (N4 : nearP (3 + (8 + Z.of_nat J + 1 + 1 + Z.rem e2 (ed L) mod edc c) + 1) (sumQ l) (/ (p10 e3 * t))).
  { apply near_trans with d3; auto; try lia. lra. }
  apply (near_scale PF _ _ _ (p10 e3 * t)) in N4; [|lra].
  apply (near_mono PF HP _ (21 + Z.of_nat J)) in N4; [|lia|apply Qmult_le_0_compat; lra].
  unfold near in N4. 
  assert (One : (/ (p10 e3 * t) * (p10 e3 * t) == 1)%Q) by (field; split; [lra|apply p10_nz]).
  rewrite One, Qmult_1_r in N4. rewrite Qabs_Qminus. rewrite Qmult_assoc in N4.
  eapply Qle_trans; [exact N4|]. apply (J_total c F HF).
Qed.

Hypothesis Hk : newton_ok c.
Notation P n := (B ^ Z.of_nat n).

Lemma estimate_good x : wk x -> ok (data x) -> dneg x = false -> - M < dexp x < M - 3 * edc c ->
  exists r, (let '(dd, ne) := extract_parts c F x in from_mantissa c F (fl PF (1 / dd)) (scast E (- ne))) = Some r /\
    wk r /\ dneg r = false /\ (Qabs (1 - mag r * mag x) <= (1 # 2) * p10 (- (f_digits10 F - 1)))%Q.
Proof.
  intros Hx Ox Nx Rx. pose proof (J_range c F HF) as HJr. pose proof (edc_pos c) as He.
  destruct (max_exp10_bounds c) as (B1 & B2 & _).
  pose proof (extract_spec c F Hc HF HJ x Hx Ox Nx ltac:(lia)) as H. destruct (extract_parts c F x) as [dd ne].
  destruct H as (N1 & R1 & R2 & R3). pose proof (mag_pos c Hc x Hx) as Mp.
  (* dd approximates the mantissa m = mag x * 10^-ne, in [1/10, 1) *)
  set (m := (mag x * p10 (- ne))%Q).
  assert (K : (p10 ne * p10 (- ne) == 1)%Q) by (rewrite <- p10_add, Z.add_opp_diag_r; reflexivity).
  pose proof (p10_pos (- ne)) as Pn.
  assert (M1 : ((1 # 10) <= m)%Q).
  { assert (T : (p10 (ne - 1) * p10 (- ne) <= mag x * p10 (- ne))%Q) by (apply Qmult_le_compat_r; lra).
    rewrite <- p10_add in T. replace (ne - 1 + - ne) with (-1) in T by lia. change (p10 (-1)) with (1 # 10)%Q in T. exact T. }
  assert (M2 : (m <= 1)%Q).
  { assert (T : (mag x * p10 (- ne) <= p10 ne * p10 (- ne))%Q) by (apply Qmult_le_compat_r; lra). rewrite K in T. exact T. }
  assert (N2 : nearP (6 + Z.of_nat J) dd m).
  { apply (near_scale PF _ _ _ (p10 (- ne))) in N1; [|lra]. setoid_replace dd with (dd * p10 ne * p10 (- ne))%Q; [exact N1|].
    rewrite <- Qmult_assoc, K. ring. }
  destruct (near_pos PF HP (6 + Z.of_nat J) dd m ltac:(lia) ltac:(lra) N2) as (D0 & D1 & D2).
  assert (Dp : (0 < dd)%Q) by lra.
  assert (N3 : nearP (6 + Z.of_nat J + 1 + 1) (fl PF (1 / dd)) (1 / m)).
  { assert (0 < / m)%Q by (apply Qinv_lt_0_compat; lra).
    apply near_fl; auto; [lia|unfold Qdiv; rewrite Qmult_1_l; lra|]. apply near_inv; auto; [lia|lra]. }
  assert (I1 : (1 <= 1 / m)%Q) by (apply Qle_shift_div_l; lra).
  assert (I2 : (1 / m <= 10)%Q) by (apply Qle_shift_div_r; lra).
  destruct (near_pos PF HP (6 + Z.of_nat J + 1 + 1) _ (1 / m)%Q ltac:(lia) ltac:(lra) N3) as (G0 & G1 & G2).
  assert (Ip : (0 < 1 / dd)%Q) by (unfold Qdiv; rewrite Qmult_1_l; apply Qinv_lt_0_compat; auto).
  destruct (fl_positive (1 / dd) Ip) as [S1 S2].
  apply from_mantissa_spec; auto; try lra; try lia.
  split; [auto|]. split; [auto|]. replace (8 + Z.of_nat J) with (6 + Z.of_nat J + 1 + 1) by lia.
  setoid_replace (/ (p10 (- ne) * mag x))%Q with (1 / m)%Q; [exact N3|]. unfold m. field. split; [apply p10_nz|lra].
Qed.

(** What a reciprocal looks like: nearly normal, and fully normal unless the argument is a power of
    the limb base. *)
Definition inv_shape (v r : dec) : Prop :=
  normal c r \/ data r = B :: repeat 0 (n - 1) /\ dprec r = n /\ dexp r + dexp v + edc c = 0 /\ V (data v) = P (n - 1).

Theorem inv_spec mem v : memory_ok mem -> normal c v -> iszero v = false -> - M < dexp v < M - 3 * edc c ->
  exists r, calculate_inv c F mem v = Some r /\ dneg r = dneg v /\ wk r /\ inv_shape v r /\
    (Qabs (1 - value c r * value c v) <= 7 * eta n)%Q /\ - M < dexp r < M.
Proof.
  intros Hm Hv Zv Rv. pose proof (edc_pos c) as He. pose proof (nel_ge4 c Hc) as Hn4. pose proof (nel_Z c Hc) as HnZ.
  pose proof (normal_wk c Hc v Hv Zv) as Wv.
  destruct (normal_facts c Hc v Hv) as (Lv & Ov & _).
  destruct (max_exp10_bounds c) as (B1 & B2 & _).
  unfold calculate_inv. rewrite Zv. destruct (isone_sign_neutral c v) eqn:I1.
  - exists v. split; auto. split; auto. split; auto. split; [left; auto|]. split; [|lia].
    destruct (eta_n c Hc) as [En1 En2].
    assert (Sq : (value c v * value c v == Qabs (value c v) * Qabs (value c v))%Q).
    { rewrite <- Qabs_Qmult, Qabs_pos; [reflexivity|]. destruct (Qlt_le_dec (value c v) 0); [setoid_replace (value c v * value c v)%Q with ((- value c v) * (- value c v))%Q by ring|]; apply Qmult_le_0_compat; lra. }
    apply (isone_iff c Hc v Hv Zv) in I1. destruct I1 as [I1|I1].
    + unfold is_one in I1. rewrite Sq, I1. setoid_replace (1 - 1 * 1)%Q with 0%Q by ring. change (Qabs 0) with 0%Q. lra.
    + unfold is_nines in I1. rewrite Sq, I1. set (t := p10 (- (edc c * elem_number c))).
      assert (T0 : (0 < t)%Q) by apply p10_pos.
      assert (T1 : (t <= eta n)%Q). { unfold t, Newton_proofs.eta. apply (proj2 (p10_le _ _)). rewrite HnZ. lia. }
      setoid_replace (1 - (1 - t) * (1 - t))%Q with (t * (2 - t))%Q by ring.
      assert (T2 : (0 <= t * (2 - t))%Q) by (apply Qmult_le_0_compat; lra). rewrite Qabs_pos by auto.
      assert (T3 : (t * (2 - t) <= t * 2)%Q) by (rewrite !(Qmult_comm t); apply Qmult_le_compat_r; lra). lra.
  - set (x := set_neg v false).
    assert (Wx : wk x) by exact Wv. assert (Ox : ok (data x)) by exact Ov.
    assert (Mx : mag x = mag v) by reflexivity.
    destruct (estimate_good x Wx Ox eq_refl Rv) as (est & Ee & We & Ne & Ge).
    destruct (extract_parts c F x) as [dd ne]. rewrite Ee.
    pose proof (F_digits c F HF) as [F1 F2]. destruct Hk as [Hk1 _]. unfold elems_for_fft in Hk1.
    assert (Hnz : Z.of_nat n < 1793) by lia.
    assert (Hprod : Z.of_nat n * edc c <= 1793 * 8) by (apply Z.mul_le_mono_nonneg; lia).
    assert (Hdn : f_digits10 F - 1 < Z.of_nat n * edc c).
    { apply Z.lt_le_trans with (Z.of_nat J * edc c); auto. apply Z.mul_le_mono_nonneg_r; lia. }
    destruct (inv_loop_spec c Hc Hk mem 63 Hm 0%nat (f_digits10 F - 1) est x) as (r & Er & Wr & Nr & Acc & Shp); auto; try lia.
    { left. exact Ge. }
    assert (Dp : dprec v = n) by (destruct Hv as (_ & _ & _ & _ & _ & D); auto). rewrite Dp.
    cbn [Z.add] in Er. rewrite Er. eexists. split; [reflexivity|]. split; [reflexivity|].
    assert (Wr' : wk (mkDec (data r) (dexp r) (dneg v) n)) by exact Wr. split; [exact Wr'|].
    (* exponent of the result *)
    destruct (eta_n c Hc) as [En1 En2].
    assert (Acc2 := Acc). apply Qabs_Qle_condition in Acc2.
    assert (Acc3 : (1 - 7 * (1 # 1000000) <= mag r * mag x /\ mag r * mag x <= 1 + 7 * (1 # 1000000))%Q) by lra.
    destruct (mag_bracket c Hc r Wr) as [Br1 Br2]. destruct (mag_bracket c Hc x Wx) as [Bx1 Bx2].
    pose proof (mag_pos c Hc r Wr) as Mr. pose proof (mag_pos c Hc x Wx) as Mxp.
    assert (X1 : dexp r + dexp x < 1).
    { apply (proj1 (p10_lt _ _)). rewrite p10_add. apply Qle_lt_trans with (mag r * mag x)%Q.
      - apply Qmult_le_compat_nonneg; split; auto; apply Qlt_le_weak, p10_pos.
      - rewrite p10_one. lra. }
    assert (X2 : -1 < dexp r + edc c + (dexp x + edc c)).
    { apply (proj1 (p10_lt _ _)). apply Qlt_le_trans with (mag r * mag x)%Q; [rewrite p10_m1; lra|].
      rewrite (p10_add (dexp r + edc c)). apply Qmult_le_compat_nonneg; split; auto; lra. }
    change (dexp x) with (dexp v) in X1, X2.
    assert (Rr : - M < dexp r < M) by lia.
    split; [|split].
    + destruct Shp as [Okr|(D1 & D2 & D3)].
      * left. destruct Wr as (Lr & _ & Zr & Dr). split; [auto|]. split; [unfold edc; rewrite <- mask_pow; auto|].
        split; [intros K; exfalso; apply Zr; exact K|]. split; [auto|]. split; [cbn [dexp]; lia|reflexivity].
      * right. cbn [data dprec dexp]. split; auto.
    + assert (Vr : (value c (mkDec (data r) (dexp r) (dneg v) n) * value c v == mag r * mag v)%Q).
      { rewrite !value_low by (auto; apply Wr). cbn [data dexp dneg]. unfold Prec_proofs.mag.
        rewrite !inject_Z_mult. destruct (dneg v); cbn [sgn]; ring. }
      rewrite Vr, <- Mx. exact Acc.
    + cbn [dexp]. exact Rr.
Qed.

End E3.
