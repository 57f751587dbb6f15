(** Newton_proofs.v - one Newton step for the reciprocal at a reduced working precision. *)
From Verif Require Export Prec_proofs Misc_proofs.
From Coq Require Import Lqa.
Local Open Scope Z_scope.

Lemma rel_mul (X Y Zv A A2 Zp ze eta : Q) : (0 < X -> 0 < Y -> 0 <= eta -> eta < 1 -> A <= X -> X * (1 - eta) <= A ->
  A2 <= Y -> Y * (1 - eta) <= A2 -> 0 <= Zp -> Zp <= A * A2 -> A * A2 < Zp + ze -> Zp <= Zv -> Zv < Zp + ze -> ze <= eta * Zp ->
  X * Y * (1 - 3 * eta) <= Zv /\ Zv <= X * Y * (1 + eta))%Q.
Proof.
  intros HX HY E0 E1 A1 A3 B1 B2 Z0 Z1 Z2 Z3 Z4 Z5.
  assert (G0 : (0 <= X * (1 - eta))%Q) by (apply Qmult_le_0_compat; lra).
  assert (G0' : (0 <= Y * (1 - eta))%Q) by (apply Qmult_le_0_compat; lra).
  assert (G1 : (A * A2 <= X * Y)%Q) by (apply Qmult_le_compat_nonneg; split; lra).
  assert (G2 : (X * (1 - eta) * (Y * (1 - eta)) <= A * A2)%Q) by (apply Qmult_le_compat_nonneg; split; auto; lra).
  assert (G3 : (eta * Zp <= eta * (X * Y))%Q).
  { rewrite !(Qmult_comm eta). apply Qmult_le_compat_r; auto. lra. }
  assert (G4 : (0 <= X * Y * (eta * eta))%Q) by (apply Qmult_le_0_compat; apply Qmult_le_0_compat; lra).
  split; lra.
Qed.

Section NW.
Variable c : cfg.
Notation L := (c_limb c).
Notation B := (mask L).
Notation V := (limbs_value B).
Notation ok := (digits_ok B).
Notation P n := (B ^ Z.of_nat n).
Notation E := (ebits (c_expo c)).
Notation n := (nel c).
Notation M := (max_exp10_of (c_expo c)).
Notation wk := (wk c).
Notation mag := (mag c).
Hypothesis Hc : cfg_ok c.
Hypothesis Hk : newton_ok c.
Let HB : 0 < B := mask_pos L.

(** Relative truncation error of one multiplication at [p] limbs. *)
Definition eta (p : nat) : Q := p10 (- (edc c * (Z.of_nat p - 1))).

Lemma eta_small p : (2 <= p)%nat -> (0 < eta p)%Q /\ (eta p <= 1 # 100)%Q.
Proof.
  intros H. split; [apply p10_pos|]. change (1 # 100)%Q with (p10 (-2)). apply (proj2 (p10_le _ _)). pose proof (edc_pos c).
  assert (1 <= Z.of_nat p - 1) by lia. nia.
Qed.

Lemma Bp10 k : (inject_Z (P k) == p10 (edc c * Z.of_nat k))%Q.
Proof. rewrite Bpow by lia. rewrite p10_Z; [reflexivity|]. pose proof (edc_pos c). nia. Qed.

Lemma top_prefix p : (2 <= p <= n)%nat -> V (firstn p (B :: repeat 0 (n - 1))) = P p.
Proof.
  intros Hpn. destruct p as [|p']; [lia|]. cbn [firstn limbs_value]. rewrite firstn_length, repeat_length, Nat.min_l by lia.
  replace (n - 1)%nat with (p' + (n - 1 - p'))%nat by lia. rewrite repeat_app, firstn_app_exact, limbs_value_repeat0 by apply repeat_length.
  rewrite pow_succ_nat. lia.
Qed.
Lemma P_split p : (2 <= p <= n)%nat -> P (2 * p - 1) = P p * P (p - 1).
Proof. intros. rewrite <- Z.pow_add_r by lia. f_equal. lia. Qed.

Lemma wk_iszero x : wk x -> iszero x = false.
Proof. intros (_ & _ & H & _). unfold iszero. lia. Qed.

Lemma isone_mag x : wk x -> - 2 ^ (E - 1) <= dexp x < 2 ^ (E - 1) -> isone_sign_neutral c x = true ->
  ok (data x) /\ ((mag x == 1)%Q /\ dexp x = 0 \/ (mag x == 1 - p10 (- (edc c * Z.of_nat n)))%Q /\ dexp x = - edc c).
Proof.
  intros (Hl & Ho & Hz & Hd) Hr Hi. pose proof (nel_Z c Hc) as HnZ.
  assert (Hok : ok (data x)).
  { destruct Ho as [Ho|Ho]; auto. exfalso. unfold isone_sign_neutral in Hi. pose proof (B_gt9 c) as H9.
    destruct (data x) as [|d0 d]; [discriminate|]. injection Ho as -> _. cbn [nth] in Hi.
    replace (B =? 1) with false in Hi by lia. replace (B =? B - 1) with false in Hi by lia. discriminate. }
  split; auto. set (y := mkDec (data x) (dexp x) false n).
  assert (Ny : normal c y) by (apply normal_intro; auto).
  assert (Zy : iszero y = false) by (unfold iszero, y; cbn [data]; lia).
  assert (Iy : isone_sign_neutral c y = true) by exact Hi.
  pose proof (mag_value c y Hl eq_refl) as Vy.
  assert (Mp : (0 < mag x)%Q) by (apply mag_pos; auto; repeat split; auto).
  assert (My : (Qabs (value c y) == mag x)%Q).
  { rewrite Vy. apply Qabs_pos. unfold y, mag. cbn [data dexp]. apply Qlt_le_weak. exact Mp. }
  unfold isone_sign_neutral in Hi. change (ed L) with (edc c) in Hi.
  apply (isone_iff c Hc y Ny Zy) in Iy. unfold is_one, is_nines in Iy. rewrite My in Iy.
  assert (Dx : dexp x = 0 \/ dexp x = - edc c).
  { destruct (nth 0 (data x) 0 =? 1), (dexp x =? 0) eqn:E2; cbn [andb] in Hi; auto; try (left; lia);
     destruct (nth 0 (data x) 0 =? B - 1), (dexp x =? - edc c) eqn:E4; cbn [andb] in Hi; auto; try discriminate; right; lia. }
  destruct (mag_bracket c Hc x) as [K1 K2]; [repeat split; auto; left; auto|].
  pose proof (mag_bracket_lt c Hc x) as K3. specialize (K3 ltac:(repeat split; auto; left; auto) Hok).
  pose proof (edc_pos c) as He.
  destruct Iy as [Iy|Iy]; rewrite HnZ; [left|right]; split; auto.
  - destruct Dx as [Dx|Dx]; auto. exfalso. rewrite Iy, Dx in K3. replace (- edc c + edc c) with 0 in K3 by lia. rewrite p10_0 in K3. lra.
  - destruct Dx as [Dx|Dx]; auto. exfalso. rewrite Iy, Dx, p10_0 in K1. pose proof (p10_pos (- (edc c * elem_number c))). lra.
Qed.

Lemma exp_sum x v : - 2 ^ (E - 1) <= dexp x < 2 ^ (E - 1) -> - 2 ^ (E - 1) <= dexp v < 2 ^ (E - 1) ->
  (edc c | dexp x) -> (edc c | dexp v) -> - M < dexp x + dexp v < M ->
  let r := uw_add E (uw_make E (dexp x)) (uw_make E (dexp v)) in
  (negb (uw_neg r) && (uw_val r >=? M) = false) /\ (uw_neg r && (uw_val r >=? M) = false) /\
  (if negb (uw_neg r) then scast E (uw_val r) else negate_s E (scast E (uw_val r))) = dexp x + dexp v.
Proof.
  intros Rx Rv Dx Dv Hs. pose proof (B_gt9 c) as H9. pose proof (max_exp10_bounds c) as (HM & HM2 & HM3).
  pose proof (pow2E c) as H2.
  destruct (mul_exp c (from_lst c [1] (dexp x)) (from_lst c [1] (dexp v))) as (M1 & M2 & M3).
  - apply from_lst_single_normal; auto; lia.
  - apply from_lst_single_normal; auto; lia.
  - cbn [from_lst dexp]. lia.
  - cbn [from_lst dexp] in *. cbv zeta in *. rewrite M1, M2, M3 by lia. repeat split; lia.
Qed.

Lemma mulp_spec mem i x v p : memory_ok mem -> wk x -> wk v -> ok (data v) -> dneg x = false -> dneg v = false ->
  Nat.min (dprec x) (dprec v) = p -> (2 <= p <= n)%nat ->
  - 2 ^ (E - 1) <= dexp x < 2 ^ (E - 1) -> - 2 ^ (E - 1) <= dexp v < 2 ^ (E - 1) -> - M < dexp x + dexp v < M ->
  exists z, mulm c mem i x v = Some z /\ wk z /\ dneg z = false /\
    (isone_sign_neutral c v = false \/ ok (data x) -> ok (data z)) /\
    (dprec z = dprec x \/ dprec z = dprec v) /\
    (dexp z = dexp x + dexp v \/ dexp z = dexp x + dexp v + edc c) /\
    ((mag x * mag v * (1 - 3 * eta p) <= mag z)%Q /\ (mag z <= mag x * mag v * (1 + eta p))%Q) /\
    (data x = B :: repeat 0 (n - 1) -> (isone_sign_neutral c v = true -> data z = data x) /\ (isone_sign_neutral c v = false ->
      dexp z = dexp x + dexp v + edc c /\ V (firstn p (data z)) = V (firstn p (data v)))).
Proof.
  intros Hmem Hx Hv Ov Nx Nv Hp Hpn Rx Rv Hs. unfold mulm, mul.
  rewrite (wk_iszero x Hx), (wk_iszero v Hv). cbn [orb]. rewrite Nx, Nv. cbn [xorb].
  change (isone_sign_neutral c (set_neg x false)) with (isone_sign_neutral c x).
  pose proof (mag_pos c Hc x Hx) as PX. pose proof (mag_pos c Hc v Hv) as PV.
  destruct (eta_small p ltac:(lia)) as [E0 E1].
  set (w := p10 (- (edc c * Z.of_nat n))).
  assert (Hw : (0 < w /\ 100 * w <= eta p)%Q).
  { split; [apply p10_pos|]. change 100%Q with (p10 2). unfold w, eta. rewrite <- p10_add. apply (proj2 (p10_le _ _)).
    pose proof (edc_pos c). assert (Z.of_nat p <= Z.of_nat n) by lia. nia. }
  assert (Hew : (0 <= eta p * w /\ eta p * w <= w)%Q).
  { split; [apply Qmult_le_0_compat; lra|]. setoid_replace w with (1 * w)%Q at 2 by ring. apply Qmult_le_compat_r; lra. }
  assert (Hone : forall t, (0 < t)%Q -> (t * (1 - w) <= t)%Q /\ (t <= t * ((1 - w) * (1 + eta p)))%Q /\ (t <= t * (1 + eta p))%Q
      /\ (t * (1 - 3 * eta p) <= t)%Q /\ (t * ((1 - w) * (1 - 3 * eta p)) <= t)%Q).
  { intros t Ht. assert (U : forall a, (a <= 1 -> t * a <= t)%Q).
    { intros a Ha. rewrite <- (Qmult_1_r t) at 2. apply Qmult_le_l; auto. }
    assert (U' : forall a, (1 <= a -> t <= t * a)%Q).
    { intros a Ha. rewrite <- (Qmult_1_r t) at 1. apply Qmult_le_l; auto. }
    repeat split; (apply U || apply U'); lra. }
  destruct (isone_sign_neutral c x) eqn:Ox.
  { eexists; split; [reflexivity|]. destruct (isone_mag x Hx Rx Ox) as [Okx V1].
    change (mag (set_neg v false)) with (mag v). cbn [set_neg data dexp dneg dprec].
    split; [exact Hv|]. split; [auto|]. split; [auto|]. split; [auto|]. destruct (Hone (mag v) PV) as (U1 & U2 & U3 & U4 & U5).
    destruct V1 as [[V1 V2]|[V1 V2]]; rewrite V1, V2.
    - split; [left; lia|]. split; [split; lra|]. intros Hb. exfalso. rewrite Hb in Okx. apply digits_ok_cons in Okx. lia.
    - split; [right; lia|]. fold w. split; [split; lra|]. intros Hb. exfalso. rewrite Hb in Okx. apply digits_ok_cons in Okx. lia. }
  destruct (isone_sign_neutral c v) eqn:Ovv.
  { eexists; split; [reflexivity|]. destruct (isone_mag v Hv Rv Ovv) as [Okx V1].
    change (mag (set_neg (set_neg x false) false)) with (mag x). cbn [set_neg data dexp dneg dprec].
    split; [exact Hx|]. split; [auto|]. split; [intros [C|C]; [discriminate|auto]|]. split; [auto|]. destruct (Hone (mag x) PX) as (U1 & U2 & U3 & U4 & U5).
    destruct V1 as [[V1 V2]|[V1 V2]]; rewrite V1, V2.
    - split; [left; lia|]. split; [split; lra|]. intros Hb. split; auto. discriminate.
    - split; [right; lia|]. fold w. split; [split; lra|]. intros Hb. split; auto. discriminate. }
  change (dexp (set_neg x false)) with (dexp x). change (dprec (set_neg x false)) with (dprec x).
  pose proof Hx as (Lx & Okx & Zlx & Dx). pose proof Hv as (Lv & _ & Zlv & Dv).
  destruct (exp_sum x v Rx Rv Dx Dv Hs) as (M1 & M2 & M3). rewrite M1, M2, M3. rewrite Hp.
  destruct (dispatchp_spec c Hc Hk (mem i p) (set_neg x false) v (dexp x + dexp v) p (Hmem i p) Hpn Lx Okx Lv Ov) as (res & k & D1 & D2 & D3 & D4 & D5).
  rewrite D1. cbn [set_neg data] in D5.
  destruct (mag_prefix c x p Hx ltac:(lia)) as (A1 & A2 & A3 & A4 & A5 & A6).
  destruct (mag_prefix c v p Hv ltac:(lia)) as (B1 & B2 & B3 & _).
  assert (Bl : V (firstn p (data v)) < P p).
  { pose proof (limbs_value_bound B _ HB (digits_ok_firstn B p _ Ov)) as Hb. rewrite firstn_length, Nat.min_l in Hb by lia. lia. }
  set (a := V (firstn p (data x))) in *. set (b := V (firstn p (data v))) in *.
  destruct (storep_spec c Hc (set_neg x false) (dexp x + dexp v) res k p Hpn D2 D3 D4 a b A1 ltac:(lia) D5 Lx A5) as (S1 & S2 & S3 & S4 & S5 & S6 & S7).
  pose proof (edc_pos c) as He. pose proof (max_exp10_bounds c) as (HM & HM2 & HM3). pose proof (E_ge8 c) as HE8.
  rewrite scast_id in S7 by (clear - HE8 He HM HM2 Hs; lia).
  set (z := store_product c (set_neg x false) (dexp x + dexp v) res p) in *.
  eexists; split; [reflexivity|].
  assert (Dz : dexp z = dexp x + dexp v \/ dexp z = dexp x + dexp v + edc c) by tauto.
  assert (Wz : wk z).
  { split; [auto|]. split; [left; auto|]. split; auto. destruct Dz as [-> | ->]; repeat apply Z.divide_add_r; auto. apply Z.divide_refl. }
  change (mag (set_neg z false)) with (mag z). cbn [set_neg data dexp dneg dprec].
  split; [exact Wz|]. split; [auto|]. split; [auto|]. split; [left; exact S4|]. split; [exact Dz|].
  split.
  2:{ intros Hb. split; [intros; discriminate|]. intros _.
    assert (Ea : a = P p) by (unfold a; rewrite Hb; apply top_prefix; exact Hpn).
    assert (Pm : P (2 * p - 1) = P p * P (p - 1)) by (apply P_split; exact Hpn).
    pose proof (pow_pos_nat B p HB) as HPp. rewrite Ea in S7.
    destruct S7 as [(_ & _ & S9)|(S7 & S8 & _)].
    - exfalso. rewrite Pm in S9. apply Z.mul_lt_mono_pos_l in S9; lia.
    - split; auto. rewrite S8, Z.mul_comm, Z.div_mul by lia. reflexivity. }
  (* values *)
  destruct (mag_prefix c z p Wz ltac:(lia)) as (Z1 & Z2 & Z3 & _).
  set (zp := V (firstn p (data z))) in *.
  set (D := if (a * b <? P (2 * p - 1)) then P (p - 1) else P p).
  assert (DD : zp = a * b / D /\ 0 < D /\ (p10 (lowp c p (dexp z)) == p10 (lowp c p (dexp x)) * p10 (lowp c p (dexp v)) * inject_Z D)%Q).
  { unfold D. pose proof (pow_pos_nat B (p - 1) HB). pose proof (pow_pos_nat B p HB).
    destruct S7 as [(S7 & S8 & S9)|(S7 & S8 & S9)].
    - replace (a * b <? P (2 * p - 1)) with true by lia. split; [auto|]. split; [auto|].
      rewrite Bp10, <- !p10_add. rewrite S7.
      replace (lowp c p (dexp x + dexp v)) with (lowp c p (dexp x) + lowp c p (dexp v) + edc c * Z.of_nat (p - 1)); [reflexivity|].
      unfold lowp. rewrite Nat2Z.inj_sub by (clear - Hpn; lia). change (Z.of_nat 1) with 1. ring.
    - replace (a * b <? P (2 * p - 1)) with false by lia. split; [auto|]. split; [auto|].
      rewrite Bp10, <- !p10_add. rewrite S7.
      replace (lowp c p (dexp x + dexp v + edc c)) with (lowp c p (dexp x) + lowp c p (dexp v) + edc c * Z.of_nat p); [reflexivity|].
      unfold lowp. ring. }
  clearbody D. destruct DD as (ZD & DP & Hze).
  assert (QD : zp * D <= a * b < zp * D + D).
  { pose proof (Z.div_mod (a * b) D ltac:(lia)) as Q1. pose proof (Z.mod_pos_bound (a * b) D DP) as Q2. rewrite <- ZD in Q1. clear - Q1 Q2. lia. }
  set (al := p10 (lowp c p (dexp x))) in *. set (be := p10 (lowp c p (dexp v))) in *. set (ze := p10 (lowp c p (dexp z))) in *.
  assert (P0 : (0 < al /\ 0 < be)%Q) by (split; apply p10_pos).
  assert (Pab : (0 < al * be)%Q) by (apply Qmult_lt_0_compat; tauto).
  assert (X1 : forall y t, wk y -> (t == p10 (lowp c p (dexp y)) -> t <= eta p * mag y)%Q).
  { intros y t Hy ->. unfold lowp, eta. replace (dexp y - edc c * (Z.of_nat p - 1)) with (- (edc c * (Z.of_nat p - 1)) + dexp y) by ring.
    rewrite p10_add. apply Qmult_le_l; [apply p10_pos|]. apply mag_bracket; auto. }
  pose proof (X1 x al Hx ltac:(reflexivity)) as Xa. pose proof (X1 v be Hv ltac:(reflexivity)) as Xb.
  rewrite inject_Z_plus in A3, B3, Z3. change (inject_Z 1) with 1%Q in *.
  destruct QD as [QD1 QD2]. rewrite Zle_Qle, inject_Z_mult in QD1. rewrite Zlt_Qlt in QD2. rewrite inject_Z_plus, !inject_Z_mult in QD2.
  rewrite inject_Z_mult in QD1.
  apply (rel_mul (mag x) (mag v) (mag z) (inject_Z a * al) (inject_Z b * be) (inject_Z zp * ze) ze (eta p)); auto; try lra.
  - pose proof (pow_pos_nat B (p - 1) HB) as HP1. assert (0 <= zp) by (clear - Z1 HP1; lia). rewrite Zle_Qle in H. apply Qmult_le_0_compat; auto. apply Qlt_le_weak, p10_pos.
  - rewrite Hze. setoid_replace (inject_Z zp * (al * be * inject_Z D))%Q with (inject_Z zp * inject_Z D * (al * be))%Q by ring.
    setoid_replace (inject_Z a * al * (inject_Z b * be))%Q with (inject_Z a * inject_Z b * (al * be))%Q by ring.
    apply Qmult_le_compat_r; auto. lra.
  - rewrite Hze. setoid_replace (inject_Z zp * (al * be * inject_Z D) + al * be * inject_Z D)%Q with ((inject_Z zp * inject_Z D + inject_Z D) * (al * be))%Q by ring.
    setoid_replace (inject_Z a * al * (inject_Z b * be))%Q with (inject_Z a * inject_Z b * (al * be))%Q by ring.
    apply Qmult_lt_r; auto.
  - destruct Z1 as [Z1 _]. rewrite Zle_Qle, Bp10 in Z1.
    apply Qle_trans with (eta p * p10 (edc c * Z.of_nat (p - 1)) * ze)%Q.
    + unfold eta. rewrite <- p10_add. replace (- (edc c * (Z.of_nat p - 1)) + edc c * Z.of_nat (p - 1)) with 0.
      * rewrite p10_0. lra.
      * rewrite Nat2Z.inj_sub by (clear - Hpn; lia). change (Z.of_nat 1) with 1. ring.
    + rewrite <- Qmult_assoc. apply Qmult_le_l; auto. apply Qmult_le_compat_r; auto. apply Qlt_le_weak, p10_pos.
Qed.
End NW.
