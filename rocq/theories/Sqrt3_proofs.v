(** Sqrt3_proofs.v - the floating-point starting values of the square root, and its accuracy. *)
From Verif Require Export Sqrt2_proofs.
From Coq Require Import Lqa.
Local Open Scope Z_scope.

(** What is assumed of the built-in square root on the representable numbers between 1/200 and 2:
    representable, positive, relative error at most 2 * 2^-P (an IEEE square root has half of that). *)
Definition fsqrt_ok (P : Z) (fsqrt : Q -> Q) : Prop := forall q, rep P q -> ((1 # 200) <= q)%Q -> (q <= 2)%Q ->
  rep P (fsqrt q) /\ (0 < fsqrt q)%Q /\
  (q * ((1 - 2 * p2 (- P)) * (1 - 2 * p2 (- P))) <= fsqrt q * fsqrt q)%Q /\
  (fsqrt q * fsqrt q <= q * ((1 + 2 * p2 (- P)) * (1 + 2 * p2 (- P))))%Q.

Section S3.
Variable c : cfg.
Variable F : ftype.
Variable fsqrt : Q -> Q.
Notation L := (c_limb c).
Notation B := (mask L).
Notation V := (limbs_value B).
Notation ok := (digits_ok B).
Notation E := (ebits (c_expo c)).
Notation n := (nel c).
Notation M := (max_exp10_of (c_expo c)).
Notation PF := (f_bits F).
Notation J := (digit_loops c F).
Notation wk := (wk c).
Notation mag := (mag c).
Notation eta := (eta c).
Notation nz := (nz c).
Notation nearP := (near PF).
Notation sumQ := (sumQ c).
Hypothesis Hc : cfg_ok c.
Hypothesis HF : float_fits c F.
Hypothesis HJ : (J <= n)%nat.
Let HB : 0 < B := mask_pos L.
Let HP : 24 <= PF := f_bits_ge c F HF.
Let HP2 : 2 <= PF. Proof. clear - HP. lia. Qed.

Lemma start_total : (inject_Z (43 + Z.of_nat J) * ww PF <= p10 (- (f_digits10 F - 1)))%Q /\
  (inject_Z 31 * ww PF <= (7 # 10) * p10 (- (f_digits10 F - 1)))%Q.
Proof. clear - HF. unfold digit_loops. destruct HF as [EF|[EF|[EF EL]]]; rewrite EF; destruct L; try discriminate EL; vm_compute; split; discriminate. Qed.
Lemma start_digits : f_digits10 F - 1 + 2 <= edc c * (Z.of_nat J - 1) \/ f_digits10 F - 1 + 2 <= edc c * 3.
Proof. clear - HF. unfold digit_loops, edc. destruct HF as [EF|[EF|[EF EL]]]; rewrite EF; destruct L; try discriminate EL; vm_compute; intuition discriminate. Qed.
Lemma digits_n : f_digits10 F - 1 + 2 <= edc c * (Z.of_nat n - 1).
Proof.
  pose proof (nel_ge4 c Hc) as Hn. pose proof (edc_pos c) as He.
  destruct start_digits as [H|H]; (eapply Z.le_trans; [exact H|]); apply Z.mul_le_mono_nonneg_l; lia.
Qed.

Lemma ep_loop_rep l : ok l -> forall m s, rep PF m -> (0 <= m)%Q -> (0 <= s)%Q -> rep PF (ep_loop c F l m s).
Proof.
  induction l as [|d t IH]; intros Ho m s Rm Pm Ps; [exact Rm|]. apply digits_ok_cons in Ho. cbn [ep_loop].
  assert (Dd : (0 <= inject_Z d)%Q) by (change 0%Q with (inject_Z 0); rewrite <- Zle_Qle; lia).
  assert (D1 : (0 <= fl PF (fl PF (inject_Z d) * s))%Q) by (apply fl_nonneg; auto; apply Qmult_le_0_compat; auto; apply fl_nonneg; auto).
  assert (D2 : (0 <= m + fl PF (fl PF (inject_Z d) * s))%Q) by lra.
  apply IH; [apply Ho|apply fl_rep; auto|apply fl_nonneg; auto|].
  assert (HBq : (0 <= inject_Z B)%Q) by (change 0%Q with (inject_Z 0); rewrite <- Zle_Qle; lia).
  apply fl_nonneg; auto. unfold Qdiv. apply Qmult_le_0_compat; auto. apply Qinv_le_0_compat, fl_nonneg; auto.
Qed.

Lemma extract_rep x : ok (data x) -> dneg x = false -> rep PF (fst (extract_parts c F x)).
Proof.
  intros Ox Nx. unfold extract_parts. rewrite Nx. cbn [fst].
  apply ep_loop_rep; [apply digits_ok_firstn; auto|exists 0, 0; split; [pose proof (Z.pow_pos_nonneg 2 PF); lia|reflexivity]|apply Qle_refl|].
  apply fl_nonneg; auto. unfold Qdiv. rewrite Qmult_1_l. apply Qinv_le_0_compat, fl_nonneg; auto.
  change 0%Q with (inject_Z 0). rewrite <- Zle_Qle. apply Z.mod_pos_bound. apply Z.pow_pos_nonneg; [lia|destruct L; cbn; lia].
Qed.

(** The constructor applied to a mantissa between 0.095 and 11. *)
Lemma from_mantissa_near q e : rep PF q -> ((95 # 1000) <= q)%Q -> (q <= 11)%Q -> - M <= e <= M ->
  exists r, from_mantissa c F q e = Some r /\ wk r /\ dneg r = false /\ nearP 14 (mag r) (q * p10 e).
Proof.
  intros R Q1 Q2 Re. pose proof (J_range c F HF) as HJr. pose proof (edc_pos c) as He.
  assert (He8 : edc c <= 8) by (unfold edc; destruct L; cbn; lia).
  destruct (max_exp10_bounds c) as (B1 & B2 & _). pose proof (E_ge8 c) as HE8.
  pose proof (p10_pos e) as Pe.
  set (t := (/ (q * p10 e))%Q).
  assert (Hqe : (0 < q * p10 e)%Q) by (apply Qmult_lt_0_compat; lra).
  assert (Ht : (0 < t)%Q) by (apply Qinv_lt_0_compat; auto).
  assert (St : stage F t 0 q e).
  { split; [auto|]. split; [lra|]. assert (EQ : (/ (p10 e * t) == q)%Q) by (unfold t; field; split; lra). unfold near. rewrite EQ.
    setoid_replace (q - q)%Q with 0%Q by ring. change (Qabs 0) with 0%Q. change (inject_Z 0) with 0%Q. lra. }
  unfold from_mantissa.
  destruct (Qeq_bool q 0) eqn:C0; [apply Qeq_bool_iff in C0; lra|].
  assert (C1 : Qle_bool 0 q = true) by (apply Qle_bool_iff; lra). rewrite C1. cbn [negb].
  destruct (fm_down_spec c F HF HJ 30 q e t 0 Ht ltac:(lia) St Q2 ltac:(apply scast_id; lia)) as (d1 & e1 & D1 & D2 & D3 & D4).
  rewrite D1.
  assert (D5 : ((95 # 1000) <= d1)%Q) by (destruct D4 as [[-> _]|[? _]]; lra).
  assert (E1 : e <= e1 <= e + 1) by (destruct D4 as [[_ ->]|[_ ->]]; lia).
  assert (UP : exists d2 e2, fm_up c F 32 d1 e1 = Some (d2, e2) /\ stage F t 3 d2 e2 /\ (1 <= d2)%Q /\ (d2 <= 10)%Q /\ e - 2 <= e2 <= e + 1).
  { destruct (Qlt_le_dec d1 (9 # 10)) as [C|C].
    - pose proof (stage_up c F HF HJ t 1 d1 e1 Ht ltac:(lia) D2) as S2. change (1 + 1) with 2 in S2.
      destruct (fl_bounds PF HP2 (d1 * 10) ltac:(lra)) as [K1 K2]. destruct (uu_small PF HP) as [U1 U2]. unfold uu in U1, U2.
      assert (W1 : ((9 # 10) <= fl PF (d1 * 10))%Q).
      { eapply Qle_trans; [|exact K1]. apply Qle_trans with ((95 # 100) * (1 - (1 # 16777216)))%Q; [discriminate|]. apply Qmult_le_compat_nonneg; split; lra. }
      assert (W2 : (fl PF (d1 * 10) <= 10)%Q).
      { eapply Qle_trans; [exact K2|]. apply Qle_trans with (9 * (1 + (1 # 16777216)))%Q; [|discriminate]. apply Qmult_le_compat_nonneg; split; lra. }
      destruct (fm_up_spec c F HF HJ 29 (fl PF (d1 * 10)) (e1 - 1) t 2 Ht ltac:(lia) S2 W1 W2 ltac:(apply scast_id; lia)) as (d2 & e2 & G1 & G2 & G3 & G4 & G5).
      exists d2, e2. split; [|split; [exact G2|split; [auto|split; [auto|lia]]]].
      change (fm_up c F 32 d1 e1) with (if Qle_bool 1 d1 then Some (d1, e1) else fm_up c F 31 (fl PF (d1 * 10)) (scast E (e1 - 1))).
      replace (Qle_bool 1 d1) with false; [|symmetry; destruct (Qle_bool 1 d1) eqn:K; auto; apply Qle_bool_iff in K; lra].
      rewrite scast_id by lia. exact G1.
    - destruct (fm_up_spec c F HF HJ 30 d1 e1 t 1 Ht ltac:(lia) D2 C D3 ltac:(apply scast_id; lia)) as (d2 & e2 & G1 & G2 & G3 & G4 & G5).
      exists d2, e2. split; [exact G1|]. split; [|split; [auto|split; [auto|lia]]].
      destruct G2 as (G21 & G22 & G23). split; auto. split; auto. apply (near_mono PF HP 2); auto; [lia|]. apply Qlt_le_weak, recip_pos. auto. }
  destruct UP as (d2 & e2 & U1 & U2 & U3 & U4 & E2). rewrite U1.
  pose proof (Z.mod_pos_bound (Z.rem e2 (ed L)) (edc c) ltac:(lia)) as Hm.
  destruct (fm_shift_spec c F HF HJ t Ht 9 d2 e2 (Z.rem e2 (ed L)) 3 1) as (d3 & e3 & S1 & S2 & S3 & S4 & S5 & S6); auto; try lia.
  { unfold edc. exists (Z.quot e2 (ed L)). pose proof (Z.quot_rem' e2 (ed L)). lia. }
  rewrite S1. clear D1 U1 S1.
  assert (CJ : (J <=? n)%nat = true) by (apply Nat.leb_le; auto). rewrite CJ.
  destruct S2 as (R3 & P3 & N3).
  destruct (fm_limbs c F HF HJ d3 R3 S4 S5) as (L1 & L2 & L3 & L4). set (l := fm_digits c F J d3) in *.
  eexists. split; [reflexivity|].
  assert (Wr : wk (mkDec (l ++ repeat 0 (n - J)) e3 false n)).
  { split; [|split; [|split]]; cbn [data dexp].
    - rewrite app_length, repeat_length, L1. lia.
    - apply okA_pad; auto. lia.
    - rewrite app_nth1 by lia. auto.
    - auto. }
  split; [exact Wr|]. split; [reflexivity|].
  assert (Em : (mag (mkDec (l ++ repeat 0%Z (n - J)) e3 false n) == sumQ l * p10 e3)%Q).
  { unfold Prec_proofs.mag. cbn [data dexp]. rewrite limbs_value_app, repeat_length, limbs_value_repeat0, Z.add_0_r.
    rewrite inject_Z_mult, Bp10, sumQ_V, L1. rewrite <- !Qmult_assoc, <- !p10_add.
    replace (edc c * Z.of_nat (n - J) + low c e3) with (edc c * (1 - Z.of_nat J) + e3); [reflexivity|].
    unfold low. rewrite Nat2Z.inj_sub by auto. ring. }
  pose proof (recip_pos t e3 Ht) as Pi.
  assert (N4 : nearP (3 + (3 + Z.rem e2 (ed L) mod edc c) + 1) (sumQ l) (/ (p10 e3 * t))).
  { apply near_trans with d3; auto; try lia. lra. }
  pose proof (p10_pos e3) as Pe3.
  apply (near_scale PF _ _ _ (p10 e3)) in N4; [|lra].
  apply (near_mono PF HP _ 14) in N4; [|lia|apply Qmult_le_0_compat; lra].
  assert (EQ : (/ (p10 e3 * t) * p10 e3 == q * p10 e)%Q) by (unfold t; field; repeat split; lra).
  unfold near in *. rewrite Em. rewrite EQ in N4. exact N4.
Qed.

Hypothesis Hk : newton_ok c.
Hypothesis Hsq : fsqrt_ok PF fsqrt.

Lemma fsqrt_near q : rep PF q -> ((1 # 200) <= q)%Q -> (q <= 2)%Q -> nearP 5 (fsqrt q * fsqrt q) q.
Proof.
  intros R Q1 Q2. destruct (Hsq q R Q1 Q2) as (_ & _ & H1 & H2). destruct (uu_small PF HP) as [U1 U2]. unfold near, ww. unfold uu in U1, U2.
  set (u := p2 (- PF)) in *.
  assert (UU : (u * u <= (1 # 16777216) * u)%Q) by (apply Qmult_le_compat_r; lra).
  assert (UU0 : (0 < u * u)%Q) by (apply Qmult_lt_0_compat; auto).
  assert (K1 : ((1 - 5 * u) <= (1 - 2 * u) * (1 - 2 * u))%Q) by lra.
  assert (K2 : ((1 + 2 * u) * (1 + 2 * u) <= 1 + 5 * u)%Q) by lra.
  assert (K3 : (q * (1 - 5 * u) <= q * ((1 - 2 * u) * (1 - 2 * u)))%Q) by (rewrite !(Qmult_comm q); apply Qmult_le_compat_r; lra).
  assert (K4 : (q * ((1 + 2 * u) * (1 + 2 * u)) <= q * (1 + 5 * u))%Q) by (rewrite !(Qmult_comm q); apply Qmult_le_compat_r; lra).
  assert (K5 : (0 < u * q)%Q) by (apply Qmult_lt_0_compat; lra).
  change (inject_Z 5) with 5%Q. apply pm_bnd. lra.
Qed.

(** The starting values. *)
Lemma start_good x : wk x -> ok (data x) -> dneg x = false -> - M + 16 <= dexp x < M - 16 ->
  exists s w a b, sqrt_start c F fsqrt x = Some (s, w) /\ wk s /\ wk w /\ dneg s = false /\ dneg w = false /\
    (mag s * mag s == mag x * (1 - a))%Q /\ (2 * mag s * mag w == 1 - b)%Q /\
    (Qabs a <= p10 (- (f_digits10 F - 1)))%Q /\ (Qabs b <= (7 # 10) * p10 (- (f_digits10 F - 1)))%Q.
Proof.
  intros Hx Ox Nx Rx. pose proof (J_range c F HF) as HJr. pose proof (edc_pos c) as He.
  destruct (max_exp10_bounds c) as (B1 & B2 & _). pose proof (E_ge8 c) as HE8.
  pose proof (extract_spec c F Hc HF HJ x Hx Ox Nx ltac:(lia)) as H. pose proof (extract_rep x Ox Nx) as Rd.
  unfold sqrt_start. destruct (extract_parts c F x) as [dd0 ne0]. cbn [fst] in Rd.
  destruct H as (N1 & R1 & R2 & R3). pose proof (mag_pos c Hc x Hx) as Mp. pose proof (mag_pos c Hc x Hx) as Mx.
  assert (Hp10 : forall k, (p10 k * p10 (- k) == 1)%Q) by (intros k; rewrite <- p10_add, Z.add_opp_diag_r; reflexivity).
  (* even exponent *)
  assert (Hrem : -1 <= Z.rem ne0 2 <= 1) by (pose proof (Z.rem_bound_abs ne0 2 ltac:(lia)); lia).
  rewrite (scast_id E (Z.rem ne0 2)) by (pose proof (expo0 c); lia).
  set (m0 := (mag x * p10 (- ne0))%Q).
  pose proof (p10_pos (- ne0)) as Pn0.
  assert (M01 : ((1 # 10) <= m0)%Q).
  { assert (T : (p10 (ne0 - 1) * p10 (- ne0) <= mag x * p10 (- ne0))%Q) by (apply Qmult_le_compat_r; lra).
    rewrite <- p10_add in T. replace (ne0 - 1 + - ne0) with (-1) in T by lia. change (p10 (-1)) with (1 # 10)%Q in T. exact T. }
  assert (M02 : (m0 <= 1)%Q).
  { assert (T : (mag x * p10 (- ne0) <= p10 ne0 * p10 (- ne0))%Q) by (apply Qmult_le_compat_r; lra). rewrite Hp10 in T. exact T. }
  assert (N2 : nearP (6 + Z.of_nat J) dd0 m0).
  { apply (near_scale PF _ _ _ (p10 (- ne0))) in N1; [|lra]. setoid_replace dd0 with (dd0 * p10 ne0 * p10 (- ne0))%Q; [exact N1|].
    rewrite <- Qmult_assoc, Hp10. ring. }
  assert (K : exists ne dd h, (if negb (Z.rem ne0 2 =? 0) then scast E (ne0 + 1) else ne0) = ne /\ (if negb (Z.rem ne0 2 =? 0) then fl PF (dd0 / 10) else dd0) = dd /\
    ne = 2 * h /\ ne0 <= ne <= ne0 + 1 /\ rep PF dd /\ nearP (7 + Z.of_nat J) dd (mag x * p10 (- ne)) /\ ((1 # 100) <= mag x * p10 (- ne))%Q /\ (mag x * p10 (- ne) <= 1)%Q).
  { destruct (near_pos PF HP (6 + Z.of_nat J) dd0 m0 ltac:(lia) ltac:(lra) N2) as (D0 & _ & _).
    destruct (Z.rem ne0 2 =? 0) eqn:Er; cbn [negb].
    - apply Z.eqb_eq in Er. exists ne0, dd0, (Z.quot ne0 2). split; auto. split; auto.
      split; [pose proof (Z.quot_rem' ne0 2); lia|]. split; [lia|]. split; auto. split; [apply (near_mono PF HP (6 + Z.of_nat J)); auto; [lia|fold m0; lra]|]. fold m0. lra.
    - apply Z.eqb_neq in Er. exists (ne0 + 1), (fl PF (dd0 / 10)), (Z.div2 (ne0 + 1)).
      split; [apply scast_id; lia|]. split; auto.
      assert (D10 : (dd0 / 10 == dd0 * (1 # 10))%Q) by field.
      assert (Em : (mag x * p10 (- (ne0 + 1)) == m0 * (1 # 10))%Q).
      { unfold m0. replace (- (ne0 + 1)) with (- ne0 + -1) by lia. rewrite p10_add. change (p10 (-1)) with (1 # 10)%Q. ring. }
      split.
      { pose proof (Z.quot_rem' ne0 2). assert (Hodd : exists j, ne0 = 2 * j + 1) by (destruct (Z.eq_dec (Z.rem ne0 2) 1); [exists (Z.quot ne0 2)|exists (Z.quot ne0 2 - 1)]; lia).
        destruct Hodd as [j ->]. rewrite Z.div2_div. replace (2 * j + 1 + 1) with ((j + 1) * 2) by ring. rewrite Z.div_mul by lia. ring. }
      split; [lia|]. split; [apply fl_rep; auto; rewrite D10; lra|].
      split; [|rewrite Em; lra].
      replace (7 + Z.of_nat J) with (6 + Z.of_nat J + 1) by lia. apply near_fl; auto; [lia|rewrite Em; lra|].
      apply (near_scale PF _ _ _ (1 # 10)) in N2; [|discriminate]. unfold near in *. rewrite D10, Em. exact N2. }
  destruct K as (ne & dd & h & -> & -> & Eh & Rne & Rdd & Ndd & M1 & M2).
  set (m := (mag x * p10 (- ne))%Q) in *.
  destruct (near_pos PF HP (7 + Z.of_nat J) dd m ltac:(lia) ltac:(lra) Ndd) as (D0 & D1 & D2).
  assert (Dl : ((99 # 10000) <= dd)%Q) by lra. assert (Du : (dd <= 11 # 10)%Q) by lra.
  destruct (Hsq dd Rdd ltac:(lra) ltac:(lra)) as (Rs & Ps & _). pose proof (fsqrt_near dd Rdd ltac:(lra) ltac:(lra)) as Ns.
  set (sq := fsqrt dd) in *.
  destruct (near_pos PF HP 5 (sq * sq) dd ltac:(lia) D0 Ns) as (_ & S1 & S2).
  assert (Sl : ((95 # 1000) <= sq)%Q).
  { apply Qlt_le_weak, sq_lt_inv; [lra|]. apply Qlt_le_trans with (98 # 10000)%Q; [reflexivity|]. lra. }
  assert (Su : (sq <= 2)%Q).
  { apply Qlt_le_weak, sq_lt_inv; [lra|]. apply Qle_lt_trans with (2 # 1)%Q; [lra|reflexivity]. }
  assert (Eq1 : Z.quot ne 2 = h) by (rewrite Eh, Z.mul_comm; apply Z.quot_mul; lia).
  assert (Eq2 : Z.quot (scast E (- ne)) 2 = - h).
  { rewrite scast_id by lia. replace (- ne) with (- h * 2) by lia. apply Z.quot_mul. lia. }
  rewrite Eq1, Eq2. rewrite (scast_id E h), (scast_id E (- h)) by lia.
  destruct (from_mantissa_near sq h Rs Sl ltac:(lra) ltac:(lia)) as (s & F1 & W1 & Sg1 & G1). rewrite F1.
  assert (Hi : (0 < (1 # 2) / sq)%Q) by (apply Qlt_shift_div_l; lra).
  assert (Hi1 : ((24 # 100) <= (1 # 2) / sq)%Q) by (apply Qle_shift_div_l; lra).
  assert (Hi2 : ((1 # 2) / sq <= (53 # 10))%Q) by (apply Qle_shift_div_r; lra).
  destruct (fl_positive c F HF ((1 # 2) / sq) Hi) as [Rw Pw].
  assert (Nw : nearP 1 (fl PF ((1 # 2) / sq)) ((1 # 2) / sq)).
  { apply (near_fl PF HP 0); [clear; lia|clear - Hi; lra|apply near_refl]. }
  destruct (near_pos PF HP 1 _ _ ltac:(lia) (Qlt_le_weak _ _ Hi) Nw) as (_ & Wl & Wu).
  set (fw := fl PF ((1 # 2) / sq)) in *.
  destruct (from_mantissa_near fw (- h) Rw ltac:(lra) ltac:(lra) ltac:(lia)) as (w & F2 & W2 & Sg2 & G2). rewrite F2.
  pose proof (p10_pos h) as Ph. pose proof (p10_pos (- h)) as Pmh.
  pose proof (mag_pos c Hc s W1) as Ms. pose proof (mag_pos c Hc w W2) as Mw.
  exists s, w, (1 - mag s * mag s / mag x)%Q, (1 - 2 * mag s * mag w)%Q.
  split; auto. split; auto. split; auto. split; auto. split; auto. split; [field; lra|]. split; [ring|].
  destruct start_total as [T1 T2].
  assert (P0 : (0 <= sq * p10 h)%Q) by (apply Qmult_le_0_compat; lra).
  split.
  - assert (A1 : nearP (14 + 14 + 1) (mag s * mag s) (sq * p10 h * (sq * p10 h))) by (apply near_mul; auto; lia).
    assert (Ex : (m * p10 ne == mag x)%Q) by (unfold m; rewrite <- Qmult_assoc, (Qmult_comm (p10 (- ne))), Hp10; ring).
    assert (A2 : nearP (5 + (7 + Z.of_nat J) + 1) (sq * sq * p10 ne) (mag x)).
    { unfold near. rewrite <- Ex. apply near_scale; [apply Qlt_le_weak, p10_pos|]. apply near_trans with dd; auto; try lia. lra. }
    assert (A3 : nearP (14 + 14 + 1 + (5 + (7 + Z.of_nat J) + 1) + 1) (mag s * mag s) (mag x)).
    { apply near_trans with (sq * sq * p10 ne)%Q; auto; try lia; [lra|].
      assert (Eqn : (sq * sq * p10 ne == sq * p10 h * (sq * p10 h))%Q) by (rewrite Eh; replace (2 * h) with (h + h) by ring; rewrite p10_add; ring).
      unfold near in *. rewrite Eqn. exact A1. }
    unfold near in A3. setoid_replace (1 - mag s * mag s / mag x)%Q with ((mag x - mag s * mag s) / mag x)%Q by (field; lra).
    unfold Qdiv. rewrite Qabs_Qmult, (Qabs_pos (/ mag x)) by (apply Qlt_le_weak, Qinv_lt_0_compat; lra).
    apply Qle_shift_div_r; auto. rewrite Qabs_Qminus. eapply Qle_trans; [exact A3|]. apply Qmult_le_compat_r; [|lra].
    eapply Qle_trans; [|exact T1]. apply Qmult_le_compat_r; [rewrite <- Zle_Qle; lia|]. pose proof (ww_small PF HP) as (? & _). lra.
  - assert (A1 : nearP (14 + 1 + 1) (mag w) ((1 # 2) / sq * p10 (- h))).
    { apply near_trans with (fw * p10 (- h))%Q; auto; try lia; [apply Qmult_le_0_compat; lra|]. apply near_scale; auto. lra. }
    assert (A2 : nearP (14 + (14 + 1 + 1) + 1) (mag s * mag w) (sq * p10 h * ((1 # 2) / sq * p10 (- h)))).
    { apply near_mul; auto; try lia. apply Qmult_le_0_compat; lra. }
    assert (Eqn : (sq * p10 h * ((1 # 2) / sq * p10 (- h)) == 1 # 2)%Q).
    { setoid_replace (sq * p10 h * ((1 # 2) / sq * p10 (- h)))%Q with ((1 # 2) * (p10 h * p10 (- h)))%Q by (field; lra). rewrite Hp10. reflexivity. }
    unfold near in A2. rewrite Eqn in A2. change (14 + (14 + 1 + 1) + 1) with 31 in A2. apply pm_bnd in A2. apply pm_bnd. lra.
Qed.

(** Accuracy of the square root. *)
Theorem sqrt_spec mem v : memory_ok mem -> normal c v -> iszero v = false -> dneg v = false -> isone_sign_neutral c v = false ->
  - M + edc c * (elem_number c + 8) < dexp v < M - edc c * (elem_number c + 8) ->
  clear_of c (p10 (- (f_digits10 F - 1))) (value c v) ->
  exists r, calculate_sqrt c F fsqrt mem v = Some r /\ normal c r /\ dneg r = false /\ iszero r = false /\
    (Qabs (value c r * value c r - value c v) <= 11 * eta n * value c v)%Q.
Proof.
  intros Hm Nv Zv Sv Iv Rv Hcl. pose proof (edc_pos c) as He. pose proof (nel_ge4 c Hc) as Hn4. pose proof (nel_Z c Hc) as HnZ.
  pose proof (normal_wk c Hc v Nv Zv) as Wv. destruct (normal_facts c Hc v Nv) as (Lv & Ov & Pv & _).
  destruct (max_exp10_bounds c) as (B1 & B2 & _).
  assert (Mv : (value c v == mag v)%Q) by (apply mag_value; auto).
  pose proof (mag_pos c Hc v Wv) as Mp.
  rewrite <- HnZ in Rv.
  assert (K8 : 0 <= edc c * Z.of_nat n) by (apply Z.mul_nonneg_nonneg; clear - He; lia).
  replace (edc c * (Z.of_nat n + 8)) with (edc c * Z.of_nat n + 8 * edc c) in Rv by ring.
  unfold calculate_sqrt. rewrite Sv, Zv, Iv. cbn [negb andb].
  set (d0 := f_digits10 F - 1) in *. set (tau := p10 (- d0)) in *.
  assert (Hcl2 : clear_of c tau (mag v)).
  { intros k Hk0. destruct (Hcl k Hk0) as [X1 X2]. rewrite Mv in X1, X2. auto. }
  destruct (start_good v Wv Ov Sv ltac:(clear - Rv He K8; lia)) as (s & w & a & b & S1 & Ws & Ww & Ss & Sw & HS & HW & Ha & Hb).
  rewrite S1. fold d0 tau in Ha, Hb.
  pose proof (F_digits c F HF) as [F1 F2]. fold d0 in F1, F2.
  assert (T0 : (0 < tau)%Q) by apply p10_pos.
  assert (T1 : (tau <= 1 # 10000)%Q) by (change (1 # 10000)%Q with (p10 (-4)); apply (proj2 (p10_le _ _)); unfold d0; clear - F1; lia).
  destruct (sides c Hc tau v s w a b T0 T1 Ws Ww HS HW Ha Hb Hcl2) as [C1 C2].
  assert (TOP : forall y, wk y -> (mag y * (1 + tau) < p10 (dexp y + edc c))%Q -> nz y).
  { intros y Wy Hy. split; auto. pose proof Wy as (Ly & [Oy|Oy] & _); auto. exfalso.
    pose proof (mag_pos c Hc y Wy) as My.
    assert (Ey : (mag y == p10 (dexp y + edc c))%Q).
    { unfold Prec_proofs.mag. rewrite Oy, Ly. cbn [limbs_value]. rewrite limbs_value_repeat0, repeat_length, Z.add_0_r, inject_Z_mult, Bp10.
      rewrite mask_pow. change (ed L) with (edc c). rewrite <- p10_Z by (clear - He; lia). rewrite <- !p10_add.
      replace (edc c + edc c * Z.of_nat (n - 1) + low c (dexp y)) with (dexp y + edc c); [reflexivity|].
      unfold low. rewrite Nat2Z.inj_sub by (clear - Hn4; lia). change (Z.of_nat 1) with 1. ring. }
    rewrite <- Ey in Hy. assert (0 < mag y * tau)%Q by (apply Qmult_lt_0_compat; auto). lra. }
  pose proof (TOP s Ws C1) as Ns. pose proof (TOP w Ww C2) as Nw.
  pose proof Hk as [Hk1 _]. unfold elems_for_fft in Hk1.
  assert (Hnz : Z.of_nat n < 1793) by (clear - HnZ Hk1; lia).
  assert (Hprod : Z.of_nat n * edc c <= 1793 * 8) by (apply Z.mul_le_mono_nonneg; clear - He Hnz; lia).
  assert (Hdn : d0 < Z.of_nat n * edc c).
  { apply Z.lt_le_trans with (Z.of_nat J * edc c); auto. apply Z.mul_le_mono_nonneg_r; [clear - He; lia|clear - HJ; lia]. }
  pose proof digits_n as Dn. fold d0 in Dn.
  assert (TT : (tau * tau <= (1 # 10000) * tau)%Q) by (apply Qmult_le_compat_r; lra).
  destruct (sqrt_loop_spec c Hc Hk mem 63 d0 Hm ltac:(unfold d0; clear - F1; lia) Dn 0%nat d0 v s w a b) as (r & a' & L1 & Nr & Sr & Hr & Ar); auto.
  { split; auto. }
  { clear - Rv; lia. }
  { apply Z.le_refl. }
  { left. split; [fold tau; lra|]. fold tau. eapply Qle_trans; [apply sq_le; exact Hb|]. lra. }
  { change (2 ^ Z.of_nat 63) with 9223372036854775808. unfold d0 in *. clear - F1 Hprod. lia. }
  rewrite Pv, L1. eexists. split; [reflexivity|].
  assert (Wr : wk (mkDec (data r) (dexp r) (dneg r) n)) by exact (proj1 Nr).
  pose proof (mag_pos c Hc r (proj1 Nr)) as Mr.
  destruct (eta_n c Hc) as [En0 En1].
  apply pm_bnd in Ar.
  (* exponent of the root *)
  assert (Er : - 2 ^ (E - 1) <= dexp r < 2 ^ (E - 1)).
  { destruct (mag_bracket c Hc r (proj1 Nr)) as [X1 _]. pose proof (mag_bracket_lt c Hc r (proj1 Nr) (proj2 Nr)) as X2.
    destruct (mag_bracket c Hc v Wv) as [Y1 _]. pose proof (mag_bracket_lt c Hc v Wv Ov) as Y2.
    pose proof (p10_pos (dexp r)) as Pr.
    assert (Z1 : (p10 (dexp r + dexp r) <= mag r * mag r)%Q) by (rewrite p10_add; apply Qmult_le_compat_nonneg; lra).
    assert (Z2 : (mag r * mag r < p10 (dexp r + edc c + (dexp r + edc c)))%Q).
    { rewrite p10_add. apply Qle_lt_trans with (p10 (dexp r + edc c) * mag r)%Q; [apply Qmult_le_compat_r; lra|]. apply Qmult_lt_l; lra. }
    assert (Z3 : (mag r * mag r <= 2 * mag v)%Q) by (rewrite Hr, (Qmult_comm (mag v)); apply Qmult_le_compat_r; lra).
    assert (Z4 : ((1 # 2) * mag v <= mag r * mag r)%Q) by (rewrite Hr, (Qmult_comm (mag v)); apply Qmult_le_compat_r; lra).
    assert (G1 : dexp r + dexp r < dexp v + edc c + 1).
    { apply p10_lt_pow with (mag r * mag r)%Q; auto. rewrite p10_add. change (p10 1) with 10%Q. lra. }
    assert (G2 : dexp v - 1 < dexp r + edc c + (dexp r + edc c)).
    { apply p10_lt_pow with (mag r * mag r)%Q; auto. pose proof (p10_add (dexp v - 1) 1) as T. replace (dexp v - 1 + 1) with (dexp v) in T by ring. change (p10 1) with 10%Q in T. lra. }
    clear - G1 G2 Rv B1 B2 He K8. lia. }
  assert (Nn : normal c (mkDec (data r) (dexp r) (dneg r) n)).
  { destruct Nr as [(Lr & _ & Zr & Dr) Or]. split; [auto|]. split; [unfold edc; rewrite <- mask_pow; auto|].
    split; [intros K; exfalso; apply Zr; exact K|]. split; [auto|]. split; [exact Er|reflexivity]. }
  split; [exact Nn|]. split; [exact Sr|]. split; [apply (wk_iszero c r (proj1 Nr))|].
  assert (Vr : (value c (mkDec (data r) (dexp r) (dneg r) n) == mag r)%Q).
  { rewrite mag_value; [reflexivity|apply Nr|exact Sr]. }
  rewrite Vr, Mv, Hr. setoid_replace (mag v * (1 - a') - mag v)%Q with (- a' * mag v)%Q by ring.
  rewrite Qabs_Qmult, (Qabs_pos (mag v)) by lra. apply Qmult_le_compat_r; [|lra]. apply pm_bnd. lra.
Qed.
End S3.

(** The correctly rounded root meets the assumption. *)
Lemma fsqrt_ieee_ok P : 24 <= P -> fsqrt_ok P (fsqrt_ieee P).
Proof.
  intros HP q Rq Q1 Q2. assert (HP2 : 2 <= P) by lia. unfold fsqrt_ieee.
  set (T := 4 ^ (P + 16)). set (H := 2 ^ (P + 16)).
  assert (HT : T = H * H) by (unfold T, H; rewrite <- Z.pow_mul_l; reflexivity).
  assert (Hpos : 0 < H) by (apply Z.pow_pos_nonneg; lia).
  assert (H17 : 2 ^ (P + 17) = 2 * H) by (unfold H; rewrite <- Z.pow_succ_r by lia; f_equal; lia).
  assert (Hbig : 2 ^ 40 <= H) by (apply Z.pow_le_mono_r; lia).
  set (N := Qfloor (q * inject_Z T)). set (m := Z.sqrt N).
  assert (HTq : (0 < inject_Z T)%Q) by (change 0%Q with (inject_Z 0); rewrite <- Zlt_Qlt; rewrite HT; apply Z.mul_pos_pos; auto).
  assert (HHq : (0 < inject_Z H)%Q) by (change 0%Q with (inject_Z 0); rewrite <- Zlt_Qlt; auto).
  assert (QT : (0 <= q * inject_Z T)%Q) by (apply Qmult_le_0_compat; lra).
  assert (N0 : 0 <= N) by (change 0 with (Qfloor 0); apply Qfloor_resp_le; auto).
  pose proof (Z.sqrt_spec N N0) as [M1 M2]. fold m in M1, M2. unfold Z.succ in M2.
  pose proof (Qfloor_le (q * inject_Z T)) as F1. pose proof (Qlt_floor (q * inject_Z T)) as F2. fold N in F1, F2.
  assert (m0 : 0 <= m) by apply Z.sqrt_nonneg.
  set (s := (q * inject_Z T)%Q) in *.
  assert (S1 : (inject_Z m * inject_Z m <= s)%Q) by (rewrite <- inject_Z_mult; eapply Qle_trans; [|exact F1]; rewrite <- Zle_Qle; lia).
  assert (S2 : (s < (inject_Z m + 1) * (inject_Z m + 1))%Q).
  { eapply Qlt_le_trans; [exact F2|]. change 1%Q with (inject_Z 1). rewrite <- inject_Z_plus, <- inject_Z_mult, <- Zle_Qle. lia. }
  (* m is large *)
  assert (mB : (inject_Z H * (1 # 15) - 1 < inject_Z m)%Q).
  { assert (X : (inject_Z H * (1 # 15) < inject_Z m + 1)%Q); [|lra].
    apply sq_lt_inv; [change 1%Q with (inject_Z 1); rewrite <- inject_Z_plus; change 0%Q with (inject_Z 0); rewrite <- Zle_Qle; lia|].
    eapply Qlt_trans; [|exact S2]. unfold s. rewrite HT, inject_Z_mult.
    assert (HH0 : (0 < inject_Z H * inject_Z H)%Q) by (apply Qmult_lt_0_compat; auto).
    assert (K : ((1 # 200) * (inject_Z H * inject_Z H) <= q * (inject_Z H * inject_Z H))%Q) by (apply Qmult_le_compat_r; lra). lra. }
  assert (HQ40 : (inject_Z (2 ^ 40) <= inject_Z H)%Q) by (rewrite <- Zle_Qle; auto).
  change (inject_Z (2 ^ 40)) with (1099511627776 # 1)%Q in HQ40.
  set (u := p2 (- P)).
  destruct (uu_small P HP) as [U1 U2]. unfold uu in U1, U2. fold u in U1, U2.
  assert (UH : (u * inject_Z H == 65536)%Q).
  { unfold u, H. replace (P + 16) with (16 + P) by lia. rewrite Z.pow_add_r, inject_Z_mult by lia. rewrite <- (p2_Z P) by lia.
    assert (K : (p2 (- P) * p2 P == 1)%Q) by (rewrite <- p2_add; replace (- P + P) with 0 by ring; reflexivity).
    setoid_replace (p2 (- P) * (inject_Z (2 ^ 16) * p2 P))%Q with (inject_Z (2 ^ 16) * (p2 (- P) * p2 P))%Q by ring. rewrite K. reflexivity. }
  (* the number that is rounded *)
  set (k := if Qeq_bool (inject_Z (m * m)) s then 2 * m else 2 * m + 1).
  set (r := (inject_Z k / inject_Z (2 ^ (P + 17)))%Q).
  assert (Er : (r == inject_Z k / (2 * inject_Z H))%Q) by (unfold r; rewrite H17, inject_Z_mult; reflexivity).
  set (dl := (u * (1 # 4096))%Q).
  assert (mQ : (0 < inject_Z m)%Q) by lra.
  assert (MU : (4096 <= u * inject_Z m)%Q).
  { assert (K : (u * (inject_Z H * (1 # 16)) <= u * inject_Z m)%Q) by (rewrite !(Qmult_comm u); apply Qmult_le_compat_r; lra). lra. }
  assert (RR : (0 < r)%Q /\ (q * ((1 - dl) * (1 - dl)) <= r * r)%Q /\ (r * r <= q * ((1 + dl) * (1 + dl)))%Q).
  { assert (Kr : (r * r * (4 * inject_Z T) == inject_Z k * inject_Z k)%Q) by (rewrite Er, HT, inject_Z_mult; field; lra).
    assert (k0 : (0 < inject_Z k)%Q).
    { unfold k. destruct (Qeq_bool _ _); rewrite ?inject_Z_plus, inject_Z_mult; change (inject_Z 2) with 2%Q; change (inject_Z 1) with 1%Q; lra. }
    assert (dl0 : (0 < dl)%Q) by (unfold dl; lra). assert (dl1 : (dl <= 1 # 16777216)%Q) by (unfold dl; lra).
    assert (DM : (1 <= dl * inject_Z m)%Q) by (unfold dl; lra).
    assert (Kb : ((1 - dl) * (1 - dl) * (4 * s) <= inject_Z k * inject_Z k)%Q /\ (inject_Z k * inject_Z k <= (1 + dl) * (1 + dl) * (4 * s))%Q).
    { assert (s0 : (0 < s)%Q) by (eapply Qlt_le_trans; [|exact S1]; apply Qmult_lt_0_compat; auto).
      unfold k. destruct (Qeq_bool (inject_Z (m * m)) s) eqn:Ex.
      - apply Qeq_bool_iff in Ex. rewrite inject_Z_mult in Ex. rewrite inject_Z_mult. change (inject_Z 2) with 2%Q.
        setoid_replace (2 * inject_Z m * (2 * inject_Z m))%Q with (1 * (4 * (inject_Z m * inject_Z m)))%Q by ring. rewrite Ex.
        assert (D1 : ((1 - dl) * (1 - dl) <= 1)%Q). { assert (dl * dl <= 1 * dl)%Q by (apply Qmult_le_compat_r; lra). lra. }
        assert (D2 : (1 <= (1 + dl) * (1 + dl))%Q). { assert (0 <= dl * dl)%Q by (apply Qmult_le_0_compat; lra). lra. }
        split; apply Qmult_le_compat_r; lra.
      - rewrite inject_Z_plus, inject_Z_mult. change (inject_Z 2) with 2%Q. change (inject_Z 1) with 1%Q. set (mm := inject_Z m) in *. split.
        + apply Qle_trans with ((1 - dl) * (1 - dl) * (4 * ((mm + 1) * (mm + 1))))%Q.
          * rewrite !(Qmult_comm ((1 - dl) * (1 - dl))). apply Qmult_le_compat_r; [lra|apply Qmult_le_0_compat; lra].
          * setoid_replace ((1 - dl) * (1 - dl) * (4 * ((mm + 1) * (mm + 1))))%Q with ((1 - dl) * (2 * mm + 2) * ((1 - dl) * (2 * mm + 2)))%Q by ring.
            apply sq_le_mono; [apply Qmult_le_0_compat; lra|]. lra.
        + apply Qle_trans with ((1 + dl) * (1 + dl) * (4 * (mm * mm)))%Q.
          * setoid_replace ((1 + dl) * (1 + dl) * (4 * (mm * mm)))%Q with ((1 + dl) * (2 * mm) * ((1 + dl) * (2 * mm)))%Q by ring.
            apply sq_le_mono; lra.
          * rewrite !(Qmult_comm ((1 + dl) * (1 + dl))). apply Qmult_le_compat_r; [lra|apply Qmult_le_0_compat; lra]. }
    split; [rewrite Er; apply Qlt_shift_div_l; lra|].
    destruct Kb as [Kb1 Kb2]. rewrite <- Kr in Kb1, Kb2.
    split; apply (Qmult_le_r _ _ (4 * inject_Z T)); try lra; unfold s in Kb1, Kb2; lra. }
  destruct RR as (R0 & R1 & R2).
  destruct (fl_bounds P HP2 r ltac:(lra)) as [B1 B2]. fold u in B1, B2.
  split; [apply fl_rep; [exact HP2|lra]|].
  assert (F0 : (0 < fl P r)%Q).
  { eapply Qlt_le_trans; [|exact B1]. apply Qmult_lt_0_compat; lra. }
  split; auto.
  assert (UU : (u * u <= (1 # 16777216) * u)%Q) by (apply Qmult_le_compat_r; lra).
  assert (UU0 : (0 < u * u)%Q) by (apply Qmult_lt_0_compat; auto).
  split.
  - apply Qle_trans with (r * (1 - u) * (r * (1 - u)))%Q; [|apply sq_le_mono; [apply Qmult_le_0_compat; lra|exact B1]].
    setoid_replace (r * (1 - u) * (r * (1 - u)))%Q with (r * r * ((1 - u) * (1 - u)))%Q by ring.
    apply Qle_trans with (q * ((1 - dl) * (1 - dl)) * ((1 - u) * (1 - u)))%Q.
    + setoid_replace (q * ((1 - dl) * (1 - dl)) * ((1 - u) * (1 - u)))%Q with (q * (((1 - dl) * (1 - u)) * ((1 - dl) * (1 - u))))%Q by ring.
      rewrite !(Qmult_comm q). apply Qmult_le_compat_r; [|lra]. apply sq_le_mono; [lra|]. unfold dl. lra.
    + apply Qmult_le_compat_r; [exact R1|]. apply Qmult_le_0_compat; lra.
  - apply Qle_trans with (r * (1 + u) * (r * (1 + u)))%Q; [apply sq_le_mono; [lra|exact B2]|].
    setoid_replace (r * (1 + u) * (r * (1 + u)))%Q with (r * r * ((1 + u) * (1 + u)))%Q by ring.
    apply Qle_trans with (q * ((1 + dl) * (1 + dl)) * ((1 + u) * (1 + u)))%Q.
    + apply Qmult_le_compat_r; [exact R2|]. apply Qmult_le_0_compat; lra.
    + setoid_replace (q * ((1 + dl) * (1 + dl)) * ((1 + u) * (1 + u)))%Q with (q * (((1 + dl) * (1 + u)) * ((1 + dl) * (1 + u))))%Q by ring.
      rewrite !(Qmult_comm q). apply Qmult_le_compat_r; [|lra]. apply sq_le_mono; [apply Qmult_le_0_compat; unfold dl; lra|]. unfold dl. lra.
Qed.
