(** Estimate2_proofs.v - extract_parts, the mantissa/exponent constructor, and the first estimate. *)
From Verif Require Export Estimate_proofs Int_proofs.
From Coq Require Import Lqa.
Local Open Scope Z_scope.

(** Internal floating-point types accurate enough for the limb type: float and double always,
    80-bit long double with 8-bit limbs only. *)
Definition float_fits (c : cfg) (F : ftype) : Prop :=
  F = f_float \/ F = f_double \/ (F = f_long_double /\ c_limb c = U8).

Section E2.
Variable c : cfg.
Variable F : ftype.
Notation L := (c_limb c).
Notation B := (mask L).
Notation V := (limbs_value B).
Notation ok := (digits_ok B).
Notation E := (ebits (c_expo c)).
Notation n := (nel c).
Notation M := (max_exp10_of (c_expo c)).
Notation PF := (f_bits F).
Notation J := (digit_loops c F).
Notation wk := (wk c).
Notation mag := (mag c).
Notation eta := (eta c).
Notation nearP := (near PF).
Hypothesis Hc : cfg_ok c.
Hypothesis HF : float_fits c F.
Hypothesis HJ : (J <= n)%nat.
Let HB : 0 < B := mask_pos L.

Lemma f_bits_ge : 24 <= PF.
Proof. clear - HF. destruct HF as [EF|[EF|[EF _]]]; rewrite EF; cbn; lia. Qed.
Let HP := f_bits_ge.
Let HP2 : 2 <= PF. Proof. clear - HP. lia. Qed.

Lemma J_range : (2 <= J <= 11)%nat.
Proof. clear - HF. unfold digit_loops. destruct HF as [EF|[EF|[EF EL]]]; rewrite EF; destruct L; try discriminate EL; vm_compute; lia. Qed.

Lemma J_tail : (eta J <= uu PF)%Q.
Proof. unfold Newton_proofs.eta, digit_loops, edc. destruct HF as [EF|[EF|[EF EL]]]; rewrite EF; destruct L; try discriminate EL; vm_compute; discriminate. Qed.

Lemma J_total : (inject_Z (21 + Z.of_nat J) * ww PF <= (1 # 2) * p10 (- (f_digits10 F - 1)))%Q.
Proof. unfold digit_loops. destruct HF as [EF|[EF|[EF EL]]]; rewrite EF; destruct L; try discriminate EL; vm_compute; discriminate. Qed.

Lemma F_digits : 6 <= f_digits10 F /\ f_digits10 F - 1 < Z.of_nat J * edc c.
Proof. clear - HF. unfold digit_loops, edc. destruct HF as [EF|[EF|[EF EL]]]; rewrite EF; destruct L; try discriminate EL; vm_compute; intuition discriminate. Qed.

(** Limbs read as a number with the point after the first limb. *)
Fixpoint sumQ (l : list Z) : Q :=
  match l with [] => 0 | d :: t => inject_Z d + sumQ t / inject_Z B end%Q.

Lemma QB : (0 < inject_Z B)%Q.
Proof. clear - HB. change 0%Q with (inject_Z 0). rewrite <- Zlt_Qlt. auto. Qed.
Lemma QBp : (inject_Z B == p10 (edc c))%Q.
Proof. clear. rewrite p10_Z by (pose proof (edc_pos c); lia). rewrite mask_pow. reflexivity. Qed.

Lemma sumQ_V l : (sumQ l == inject_Z (V l) * p10 (edc c * (1 - Z.of_nat (length l))))%Q.
Proof. clear - HB.
  induction l as [|d t IH]; [cbn; ring|]. cbn [sumQ limbs_value length]. rewrite IH, inject_Z_plus, inject_Z_mult, Bp10.
  pose proof QB as HQ. pose proof QBp as HQp.
  setoid_replace (inject_Z (V t) * p10 (edc c * (1 - Z.of_nat (length t))) / inject_Z B)%Q with (inject_Z (V t) * p10 (- (edc c * Z.of_nat (length t))))%Q.
  - replace (edc c * (1 - Z.of_nat (S (length t)))) with (- (edc c * Z.of_nat (length t))) by lia.
    assert (K : (p10 (edc c * Z.of_nat (length t)) * p10 (- (edc c * Z.of_nat (length t))) == 1)%Q).
    { rewrite <- p10_add. rewrite Z.add_opp_diag_r. reflexivity. }
    rewrite Qmult_plus_distr_l, <- Qmult_assoc, K. ring.
  - rewrite HQp. replace (edc c * (1 - Z.of_nat (length t))) with (- (edc c * Z.of_nat (length t)) + edc c) by ring.
    rewrite p10_add. field. apply p10_nz.
Qed.

Lemma sumQ_nonneg l : ok l -> (0 <= sumQ l)%Q.
Proof. clear - HB.
  intros H. rewrite sumQ_V. apply Qmult_le_0_compat; [|apply Qlt_le_weak, p10_pos].
  change 0%Q with (inject_Z 0). rewrite <- Zle_Qle. apply limbs_value_bound; auto.
Qed.

Lemma fl_B : (fl PF (inject_Z B) == inject_Z B)%Q.
Proof. rewrite mask_pow. apply fl_pow10; auto. pose proof (ed_pos L). destruct L; cbn; lia. Qed.

(** The accumulation loop of extract_parts. *)
Lemma ep_loop_spec l : ok l -> forall i S s sc sg, 0 <= i -> i + Z.of_nat (length l) <= 90 -> (0 <= s)%Q -> (0 < sg)%Q ->
  nearP (4 + i) S s -> nearP (1 + i) sc sg ->
  nearP (4 + i + Z.of_nat (length l)) (ep_loop c F l S sc) (s + sg * sumQ l)%Q.
Proof.
  induction l as [|d t IH]; intros Ho i S s sc sg Hi Hl Hs Hg H1 H2.
  - cbn [ep_loop sumQ length Z.of_nat]. rewrite Z.add_0_r. setoid_replace (s + sg * 0)%Q with s by ring. auto.
  - apply digits_ok_cons in Ho. destruct Ho as [Hd Ho]. cbn [ep_loop sumQ length] in *.
    pose proof QB as HQ. pose proof (sumQ_nonneg t Ho) as HS.
    assert (Qd : (0 <= inject_Z d)%Q) by (change 0%Q with (inject_Z 0); rewrite <- Zle_Qle; lia).
    replace (4 + i + Z.of_nat (Datatypes.S (length t))) with (4 + (i + 1) + Z.of_nat (length t)) by lia.
    setoid_replace (s + sg * (inject_Z d + sumQ t / inject_Z B))%Q with ((s + inject_Z d * sg) + (sg / inject_Z B) * sumQ t)%Q by (field; lra).
    apply IH; auto; try lia.
    + assert (0 <= inject_Z d * sg)%Q by (apply Qmult_le_0_compat; lra). lra.
    + unfold Qdiv. apply Qmult_lt_0_compat; auto. apply Qinv_lt_0_compat; auto.
    + replace (4 + (i + 1)) with (4 + i + 1) by lia.
      assert (Hdg : (0 <= inject_Z d * sg)%Q) by (apply Qmult_le_0_compat; lra).
      apply near_fl; auto; try lia; try lra. apply near_add; auto.
      replace (4 + i) with (1 + (1 + i) + 1 + 1) by lia.
      apply near_fl; auto; try lia. apply near_mul; auto; try lia; try lra.
      change 1 with (0 + 1) at 1. apply near_fl; auto; try lia. apply near_refl.
    + replace (1 + (i + 1)) with (1 + i + 1) by lia. assert (Hsg : (0 < / inject_Z B)%Q) by (apply Qinv_lt_0_compat; auto).
      apply near_fl; auto; try lia.
      * unfold Qdiv. apply Qmult_le_0_compat; lra.
      * rewrite fl_B. unfold Qdiv. apply near_scale; auto. lra.
Qed.

Lemma B_fits_l k : 0 <= k <= edc c -> ucast (lbits L) (10 ^ k) = 10 ^ k.
Proof.
  intros Hk. apply ucast_id. split; [apply Z.pow_nonneg; lia|]. apply Z.le_lt_trans with (10 ^ edc c); [apply Z.pow_le_mono_r; lia|].
  unfold edc. rewrite <- mask_pow. destruct L; reflexivity.
Qed.

(** The mantissa and exponent read from a number. *)
Lemma extract_spec x : wk x -> ok (data x) -> dneg x = false -> - 2 ^ (E - 1) + 10 <= dexp x < 2 ^ (E - 1) - 10 ->
  let '(dd, ne) := extract_parts c F x in
  nearP (6 + Z.of_nat J) (dd * p10 ne) (mag x) /\ (p10 (ne - 1) <= mag x)%Q /\ (mag x < p10 ne)%Q /\
  dexp x < ne <= dexp x + edc c.
Proof.
  intros Hx Ox Nx Rx. unfold extract_parts. rewrite Nx. pose proof Hx as (Lx & _ & Zx & _). pose proof J_range as HJr.
  pose proof (edc_pos c) as He.
  set (d0 := nth 0 (data x) 0) in *.
  assert (Hd0 : 0 < d0 < B) by (pose proof (digits_ok_nth B (data x) 0 HB Ox); unfold d0 in *; lia).
  assert (B64 : B < 2 ^ 64) by (destruct L; reflexivity).
  destruct (order_spec d0 ltac:(lia)) as [O1 O2]. set (k := order_of_builtin_integer d0) in *.
  assert (Hk : 1 <= k <= edc c).
  { split; [lia|]. apply Z.nlt_ge. intros C. assert (B <= 10 ^ (k - 1)) by (rewrite mask_pow; apply Z.pow_le_mono_r; unfold edc in *; lia). lia. }
  pose proof (E_ge8 c) as HE8. assert (H128 : 128 <= 2 ^ (E - 1)) by (change 128 with (2 ^ 7); apply Z.pow_le_mono_r; lia).
  rewrite (scast_id E k) by lia. rewrite scast_id by lia.
  rewrite B_fits_l by lia. rewrite Lx, Nat.min_r by lia.
  set (l := firstn J (data x)).
  assert (Ll : length l = J) by (unfold l; rewrite firstn_length; lia).
  assert (Ol : ok l) by (apply digits_ok_firstn; auto).
  destruct (mag_prefix c x J Hx ltac:(lia)) as (A1 & A2 & A3 & _). fold l in A1, A2, A3.
  assert (A0 : (mag x < inject_Z (d0 + 1) * p10 (dexp x))%Q /\ (inject_Z d0 * p10 (dexp x) <= mag x)%Q).
  { destruct (mag_prefix c x 1 Hx ltac:(lia)) as (_ & D2 & D3 & _).
    assert (Ef : V (firstn 1 (data x)) = d0).
    { unfold d0. destruct (data x) as [|y t]; [cbn in Lx; pose proof (nel_ge4 c Hc); lia|]. cbn. ring. }
    rewrite Ef in *. replace (lowp c 1 (dexp x)) with (dexp x) in * by (unfold lowp; change (Z.of_nat 1) with 1; ring). auto. }
  assert (R1 : (p10 (k + dexp x - 1) <= mag x)%Q).
  { apply Qle_trans with (inject_Z d0 * p10 (dexp x))%Q; [|tauto]. replace (k + dexp x - 1) with ((k - 1) + dexp x) by lia.
    rewrite p10_add, p10_Z by lia. apply Qmult_le_compat_r; [rewrite <- Zle_Qle; lia|apply Qlt_le_weak, p10_pos]. }
  assert (R2 : (mag x < p10 (k + dexp x))%Q).
  { apply Qlt_le_trans with (inject_Z (d0 + 1) * p10 (dexp x))%Q; [tauto|].
    rewrite (p10_add k), (p10_Z k) by lia. apply Qmult_le_compat_r; [rewrite <- Zle_Qle; lia|apply Qlt_le_weak, p10_pos]. }
  split; [|split; [auto|split; [auto|lia]]].
  pose proof (p10_pos (dexp x)) as Pe. pose proof (pow10_nonneg k ltac:(lia)) as Pk.
  assert (Sc : nearP 1 (fl PF (1 / fl PF (inject_Z (10 ^ k)))) (p10 (- k))).
  { change 1 with (0 + 1) at 1. apply near_fl; auto; [lia|apply Qlt_le_weak, p10_pos|]. rewrite fl_pow10 by (auto; lia).
    setoid_replace (1 / inject_Z (10 ^ k))%Q with (p10 (- k))%Q; [apply near_refl|]. rewrite <- (p10_Z k) by lia.
    assert (K : (p10 k * p10 (- k) == 1)%Q) by (rewrite <- p10_add, Z.add_opp_diag_r; reflexivity).
    setoid_replace (p10 (- k)) with ((p10 k * p10 (- k)) / p10 k)%Q by (field; apply p10_nz). rewrite K. reflexivity. }
  assert (N0 : nearP (4 + 0) 0%Q 0%Q) by (apply (near_mono PF HP 0); [lia|apply Qle_refl|apply near_refl]).
  pose proof (ep_loop_spec l Ol 0 0%Q 0%Q _ _ ltac:(lia) ltac:(lia) ltac:(apply Qle_refl) (p10_pos (- k)) N0 Sc) as H.
  rewrite Ll in H. change (4 + 0 + Z.of_nat J) with (4 + Z.of_nat J) in H.
  set (m := ep_loop c F l 0 (fl PF (1 / fl PF (inject_Z (10 ^ k))))) in *.
  replace (6 + Z.of_nat J) with (4 + Z.of_nat J + 1 + 1) by lia.
  apply (near_trans PF HP _ _ _ (inject_Z (V l) * p10 (lowp c J (dexp x)))); try lia.
  - pose proof (mag_pos c Hc x Hx). lra.
  - rewrite Qplus_0_l in H. apply (near_scale PF _ _ _ (p10 (k + dexp x))) in H; [|apply Qlt_le_weak, p10_pos].
    setoid_replace (inject_Z (V l) * p10 (lowp c J (dexp x)))%Q with (p10 (- k) * sumQ l * p10 (k + dexp x))%Q; auto.
    rewrite sumQ_V, Ll. setoid_replace (p10 (- k) * (inject_Z (V l) * p10 (edc c * (1 - Z.of_nat J))) * p10 (k + dexp x))%Q
      with (inject_Z (V l) * (p10 (- k) * p10 (edc c * (1 - Z.of_nat J)) * p10 (k + dexp x)))%Q by ring.
    rewrite <- !p10_add. replace (- k + edc c * (1 - Z.of_nat J) + (k + dexp x)) with (lowp c J (dexp x)) by (unfold lowp; ring). reflexivity.
  - unfold near. rewrite Qabs_Qminus. rewrite Qabs_pos by lra. rewrite inject_Z_plus in A3. change (inject_Z 1) with 1%Q in *.
    apply Qle_trans with (p10 (lowp c J (dexp x))); [lra|].
    apply Qle_trans with (eta J * p10 (dexp x))%Q.
    + unfold Newton_proofs.eta, lowp. rewrite <- p10_add. replace (- (edc c * (Z.of_nat J - 1)) + dexp x) with (dexp x - edc c * (Z.of_nat J - 1)) by ring. apply Qle_refl.
    + rewrite Qmult_1_l. destruct (mag_bracket c Hc x Hx) as [K1 _]. pose proof (ww_small PF HP) as (W1 & _ & W3). pose proof J_tail as JT.
      apply Qmult_le_compat_nonneg; split; try lra. apply Qlt_le_weak, p10_pos.
Qed.

(** Digit extraction. *)
Lemma fm_digits_spec k : forall d, rep PF d -> (0 <= d)%Q -> (d < inject_Z B)%Q ->
  length (fm_digits c F k d) = k /\ ok (fm_digits c F k d) /\
  (Qabs (d - sumQ (fm_digits c F k d)) <= 2 * uu PF + p10 (edc c * (1 - Z.of_nat k)))%Q.
Proof.
  induction k as [|k IH]; intros d Rd D0 DB.
  - cbn [fm_digits length sumQ]. split; [auto|]. split; [constructor|]. change (Z.of_nat 0) with 0. rewrite Z.sub_0_r, Z.mul_1_r, <- QBp.
    rewrite Qabs_pos by lra. pose proof (uu_small PF HP). lra.
  - cbn [fm_digits length sumQ]. set (m := Qfloor d).
    pose proof (Qfloor_le d) as F1. pose proof (Qlt_floor d) as F2. fold m in F1, F2. rewrite inject_Z_plus in F2. change (inject_Z 1) with 1%Q in F2.
    assert (M0 : 0 <= m) by (change 0 with (Qfloor (inject_Z 0)); apply Qfloor_resp_le; auto).
    assert (MB : m < B) by (rewrite Zlt_Qlt; lra).
    pose proof QB as HQ. destruct (uu_small PF HP) as [U1 U2].
    assert (Em : (fl PF (inject_Z m) == inject_Z m)%Q).
    { apply fl_id; auto; [apply rep_floor; auto|]. change 0%Q with (inject_Z 0). rewrite <- Zle_Qle. auto. }
    set (f := fl PF (d - fl PF (inject_Z m))).
    assert (Ef : (f == d - inject_Z m)%Q).
    { unfold f. rewrite fl_id; auto; [rewrite Em; reflexivity| |rewrite Em; lra].
      apply (rep_compat PF (d - inject_Z m)); [rewrite Em; reflexivity|]. apply rep_frac; auto. }
    assert (F0 : (0 <= f)%Q) by lra. assert (F3 : (f <= 1 - uu PF)%Q).
    { rewrite Ef. apply (rep_lt1 PF); auto; [apply rep_frac; auto|lra]. }
    set (q := (f * fl PF (inject_Z B))%Q). assert (Eq : (q == f * inject_Z B)%Q) by (unfold q; rewrite fl_B; reflexivity).
    assert (Q0 : (0 <= q)%Q) by (rewrite Eq; apply Qmult_le_0_compat; lra).
    pose proof (fl_err PF HP2 q Q0) as Eerr. fold (uu PF) in Eerr. apply Qabs_Qle_condition in Eerr.
    assert (Qle1 : (q <= (1 - uu PF) * inject_Z B)%Q) by (rewrite Eq; apply Qmult_le_compat_r; lra).
    assert (Qsm : (fl PF q < inject_Z B)%Q).
    { assert (T : (q * (1 + uu PF) <= (1 - uu PF) * inject_Z B * (1 + uu PF))%Q) by (apply Qmult_le_compat_r; lra).
      assert (T2 : (0 < inject_Z B * (uu PF * uu PF))%Q) by (apply Qmult_lt_0_compat; auto; apply Qmult_lt_0_compat; auto). lra. }
    destruct (IH (fl PF q) (fl_rep PF HP2 q Q0) (fl_nonneg PF HP2 q Q0) Qsm) as (I1 & I2 & I3).
    split; [lia|]. split; [apply digits_ok_cons; split; auto|].
    set (s := sumQ (fm_digits c F k (fl PF q))) in *.
    assert (D2 : (d - (inject_Z m + s / inject_Z B) == (q - fl PF q) / inject_Z B + (fl PF q - s) / inject_Z B)%Q).
    { setoid_replace (d - (inject_Z m + s / inject_Z B))%Q with (f - s / inject_Z B)%Q by (rewrite Ef; ring).
      rewrite Eq at 1. field. lra. }
    rewrite D2. eapply Qle_trans; [apply Qabs_triangle|]. unfold Qdiv. rewrite !Qabs_Qmult.
    assert (Bi : (0 < / inject_Z B)%Q) by (apply Qinv_lt_0_compat; auto).
    rewrite (Qabs_pos (/ inject_Z B)) by lra.
    assert (T1 : (Qabs (q - fl PF q) * / inject_Z B <= uu PF)%Q).
    { apply Qle_trans with (uu PF * f * inject_Z B * / inject_Z B)%Q.
      - apply Qmult_le_compat_r; [|lra]. rewrite <- Qmult_assoc, <- Eq. apply Qabs_Qle_condition. split; lra.
      - rewrite <- (Qmult_1_r (uu PF)) at 2. setoid_replace (uu PF * f * inject_Z B * / inject_Z B)%Q with (uu PF * f)%Q by (field; lra).
        apply Qmult_le_l; auto. lra. }
    assert (T2 : (Qabs (fl PF q - s) * / inject_Z B <= uu PF + p10 (edc c * (1 - Z.of_nat (S k))))%Q).
    { apply Qle_trans with ((2 * uu PF + p10 (edc c * (1 - Z.of_nat k))) * / inject_Z B)%Q; [apply Qmult_le_compat_r; lra|].
      replace (edc c * (1 - Z.of_nat k)) with (edc c * (1 - Z.of_nat (S k)) + edc c) by lia. rewrite p10_add, <- QBp.
      setoid_replace ((2 * uu PF + p10 (edc c * (1 - Z.of_nat (S k))) * inject_Z B) * / inject_Z B)%Q
        with (uu PF * (2 * / inject_Z B) + p10 (edc c * (1 - Z.of_nat (S k))))%Q by (field; lra).
      assert (B2 : (2 * / inject_Z B <= 1)%Q).
      { apply Qle_shift_div_r; auto. rewrite Qmult_1_l. change 2%Q with (inject_Z 2). rewrite <- Zle_Qle. pose proof (B_gt9 c). lia. }
      assert (uu PF * (2 * / inject_Z B) <= uu PF * 1)%Q by (apply Qmult_le_l; auto). lra. }
    lra.
Qed.

Lemma fm_digits_zero k : forall d, (d == 0)%Q -> fm_digits c F k d = repeat 0 k.
Proof.
  induction k as [|k IH]; intros d Hd; [reflexivity|]. cbn [fm_digits repeat].
  assert (E0 : Qfloor d = 0) by (rewrite Hd; reflexivity). rewrite E0. f_equal. apply IH. apply fl_0.
  rewrite fl_0; [ring|]. rewrite Hd. rewrite fl_0; reflexivity.
Qed.

Lemma fm_digits_top k d : (d == inject_Z B)%Q -> (1 <= k)%nat -> fm_digits c F k d = B :: repeat 0 (k - 1).
Proof.
  intros Hd Hk. destruct k as [|k]; [lia|]. cbn [fm_digits]. assert (E0 : Qfloor d = B) by (rewrite Hd; apply Qfloor_Z). rewrite E0. f_equal.
  replace (S k - 1)%nat with k by lia. apply fm_digits_zero. apply fl_0. rewrite fl_0; [ring|]. rewrite fl_B, Hd. ring.
Qed.
End E2.
