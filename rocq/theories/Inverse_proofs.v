(** Inverse_proofs.v - exp undoes log and log undoes exp, up to the errors of the two. *)
From Verif Require Export Powr_proofs.
From Verif Require Import Model_Exp Model_Log Real_proofs Const_proofs Const2_proofs Func_proofs Cmp_proofs Conv6_proofs Conv2_proofs Misc_proofs Refute_arith Div_proofs Prec_proofs.
From Coq Require Import Reals Qreals Lra Lia.
Local Open Scope R_scope.

Section INVERSE.
Variable c : cfg.
Variable F : ftype.
Variable W : Z.
Notation L := (c_limb c).
Notation n := (nel c).
Notation M := (max_exp10_of (c_expo c)).
Notation D := (c_digits10 c).
Notation eps := (p10 (- (c_digits10 c + 2 * edc c))).
Hypothesis Hc : cfg_ok c.
Hypothesis Hk : newton_ok c.
Hypothesis HF : float_fits c F.
Hypothesis HJ : (digit_loops c F <= n)%nat.
Hypothesis HD : (16 <= D <= 51)%Z.
Hypothesis HW : (edc c * elem_number c <= W)%Z.
Hypothesis HM : (6 * W + 300 <= M)%Z.
Hypothesis HM9 : (900 <= M)%Z.

Lemma exp_log memc memi memx fuel x :
  (forall j, memory_ok (memc j)) -> (forall j, memory_ok (memi j)) -> (forall j, memory_ok (memx j)) -> (2 <= fuel)%nat ->
  normal c x -> (p10 (- (M - 60)) <= value c x)%Q -> (value c x <= p10 (M - 50))%Q ->
  (value c x == 1)%Q \/ ((1 <= value c x)%Q \/ ((value c x <= 1 - 8 * eps)%Q /\ ~ (value c x == p10 (dexp x))%Q)) /\ 20 * r10 (- D) <= Rabs (ln (rvalue c x)) ->
  Rabs (ln (rvalue c x)) <= 900000000 -> Rabs (ln (rvalue c x)) <= IZR (2 * (M - 110)) ->
  exists l z, log c F (log_core c F memc) fuel memi x = Ret l /\ wexp c F (ln2_small c) memx l = Some z /\
    rel_close c z (rvalue c x) ((23000 + 3 * Rabs (ln (rvalue c x))) * r10 (- D)).
Proof using Hc Hk HF HJ HD HW HM HM9.
  intros Hmc Hmi Hmx Hf Nx X0 X1 Hx T1 T2.
  assert (HD2 : (16 <= D <= 2000)%Z) by (clear - HD; lia).
  destruct (de_facts c Hc HD2) as (D0 & D1 & E1 & E0 & _). destruct (W_big c W Hc HD2 HW HM) as (_ & W2 & W3 & W4). pose proof (edc_pos c) as Hed.
  destruct (ln2_stored c Hc (proj2 HD)) as [Nl L2].
  assert (Z0 : Q2R 0 = 0) by (unfold Q2R; simpl; field). assert (Q1 : Q2R 1 = 1) by (unfold Q2R; simpl; field).
  assert (Hx1 : (1 <= value c x)%Q \/ ((value c x <= 1 - 8 * eps)%Q /\ ~ (value c x == p10 (dexp x))%Q)).
  { destruct Hx as [K|[K _]]; [left; rewrite K; apply Qle_refl|exact K]. }
  destruct (log_accurate c F Hc Hk HF HJ HD HM9 memc memi fuel x Hmc Hmi Hf Nx X0 X1 Hx1) as (l & LR & Nl' & LA).
  assert (X0' : 0 < rvalue c x). { unfold rvalue. rewrite <- Z0. apply Qlt_Rlt. eapply Qlt_le_trans; [apply (p10_pos (- (M - 60)))|exact X0]. }
  exists l. set (lx := ln (rvalue c x)) in *. pose proof (exp_ln (rvalue c x) X0') as EL. fold lx in EL.
  assert (A0 : 0 <= Rabs lx) by apply Rabs_pos.
  assert (AD : 0 <= Rabs lx * r10 (- D) <= / 10000000).
  { split; [apply Rmult_le_pos; lra|]. replace (/ 10000000) with (1000000000 * / 10000000000000000) by field. apply Rmult_le_compat; lra. }
  set (dd := (9 + Rabs lx) * r10 (- D)) in *. assert (DD : 0 <= dd <= / 1000000) by (unfold dd; lra).
  assert (TB : Rabs (rvalue c l) <= Rabs lx + / 1000). { replace (rvalue c l) with (lx + (rvalue c l - lx)) by ring. eapply Rle_trans; [apply Rabs_triang|]. lra. }
  assert (TU1 : (Qabs (value c l) <= 1000000000)%Q).
  { apply Rle_Qle. rewrite Q2R_abs. fold (rvalue c l). replace (Q2R 1000000000) with 1000000000 by (unfold Q2R; simpl; field). lra. }
  assert (TU2 : (Qabs (value c l) <= inject_Z (2 * (M - 100)))%Q).
  { apply Rle_Qle. rewrite Q2R_abs, <- IZR_Q2R. fold (rvalue c l). replace (2 * (M - 100))%Z with (2 * (M - 110) + 20)%Z by ring. rewrite plus_IZR. lra. }
  assert (TL : (iszero l = true /\ dneg l = false) \/ (p10 (- W) <= Qabs (value c l))%Q).
  { destruct Hx as [V1|[_ HL]].
    - left. assert (LZ : l = zero c).
      { destruct fuel as [|f]; [clear - Hf; lia|]. cbn [log] in LR. pose proof (one_normal c Hc) as No. pose proof (Floor_proofs.one_value c Hc) as Vo.
        destruct (ops_spec c Hc x (one c) Nx No) as (OL & _ & _ & _ & _ & OG).
        replace (op_lt x (one c)) with false in LR by (symmetry; apply Bool.not_true_is_false; intros K; apply OL in K; rewrite V1, Vo in K; exact (Qlt_irrefl 1 K)).
        replace (op_gt x (one c)) with false in LR by (symmetry; apply Bool.not_true_is_false; intros K; apply OG in K; rewrite V1, Vo in K; exact (Qlt_irrefl 1 K)).
        injection LR as <-. reflexivity. }
      subst l. split; [apply (zero_iszero c Hc)|reflexivity].
    - right. apply Rle_Qle. rewrite Q2R_abs. fold (rvalue c l).
      pose proof (Rabs_triang_inv lx (lx - rvalue c l)) as TI. replace (lx - (lx - rvalue c l)) with (rvalue c l) in TI by ring. rewrite (Rabs_minus_sym lx (rvalue c l)) in TI.
      assert (PW : Q2R (p10 (- W)) <= r10 (- D)) by (unfold r10; apply Qle_Rle; apply p10_le; clear - W2 Hed; lia).
      assert (Rabs lx * r10 (- D) <= Rabs lx * / 1000) by (apply Rmult_le_compat_l; lra). unfold dd in LA. lra. }
  destruct (wexp_accurate c F W Hc Hk HF HJ HD2 HW HM (ln2_small c) Nl L2 memx l Hmx Nl' TU1 TU2 TL) as (z & WZ & RC).
  exists z. split; [exact LR|]. split; [exact WZ|]. unfold rel_close in *.
  assert (E2 : 0 <= (22000 + Rabs (rvalue c l)) * r10 (- D)) by (apply Rmult_le_pos; [pose proof (Rabs_pos (rvalue c l))|]; lra).
  pose proof (rn_trans _ _ _ _ _ E2 RC (exp_of_near dd _ _ LA ltac:(lra))) as FIN. unfold rn in FIN. rewrite EL in FIN. eapply Rle_trans; [exact FIN|]. apply Rmult_le_compat_r; [apply Rabs_pos|].
  assert (E3 : (22000 + Rabs (rvalue c l)) * r10 (- D) <= (22001 + Rabs lx) * r10 (- D)) by (apply Rmult_le_compat_r; lra).
  set (e1 := (22000 + Rabs (rvalue c l)) * r10 (- D)) in *. assert (e1 * (102 / 100 * dd) <= / 100 * (102 / 100 * dd)) by (apply Rmult_le_compat_r; lra).
  unfold dd in *. lra.
Qed.

Lemma wexp_pos mems x : (forall j, memory_ok (mems j)) -> normal c x -> (0 < value c x)%Q ->
  (value c x <= 1000000000)%Q -> (value c x <= inject_Z (2 * (M - 100)))%Q -> (p10 (- W) <= value c x)%Q ->
  exists r2, wexp c F (ln2_small c) mems x = Some r2 /\ normal c r2 /\ rn ((21500 + rvalue c x / 10) * r10 (- D)) (rvalue c r2) (exp (rvalue c x)) /\
    (0 < value c r2)%Q /\ (value c r2 <= p10 (M - 90))%Q /\ (1 # 40 <= value c r2)%Q.
Proof using Hc Hk HF HJ HD HW HM.
  intros Hm Nx Sg X1 XM HX. assert (HD2 : (16 <= D <= 2000)%Z) by (clear - HD; lia). destruct (ln2_stored c Hc (proj2 HD)) as [Nl L2].
  destruct (exp_pos_accurate c F W Hc Hk HF HJ HD2 HW HM (ln2_small c) Nl L2 mems x x Hm Nx Nx Sg X1 XM HX) as (r2 & B1 & B2).
  destruct (pos_facts c Hc x Nx Sg) as [Zx Sx].
  exists r2. split; [|exact B2].
  unfold wexp. rewrite Sx. cbn [negb orb]. replace (op_gt x (zero c)) with true.
  2:{ symmetry. unfold op_gt. rewrite (cmp_spec c Hc x (zero c) Nx (zero_normal c)). rewrite (value_zero c Hc _ (zero_normal c) (zero_iszero c Hc)).
      apply Qgt_alt in Sg. rewrite Sg. reflexivity. }
  unfold exp_body in B1.
  destruct (divide c F (mems (-1)%Z) x (ln2_small c)) as [q|]; [|discriminate B1]. destruct (to_ull c q) as [u|]; [|discriminate B1]. cbv zeta in *.
  destruct (mul_ull c _ _ (ln2_small c) _) as [nl|]; [|discriminate B1]. destruct (div_unsigned c F (mems (-3)%Z) _ 2048) as [d|]; [|discriminate B1].
  destruct (exp_goal c x) as [goal|]; [|discriminate B1]. destruct (exp_loop c F _ mems 2 goal _ _ _) as [h|]; [|discriminate B1].
  destruct (pow_int c F (mems (-4)%Z) h 2048) as [r|]; [|discriminate B1]. rewrite B1. reflexivity.
Qed.

Lemma ln_of_near e y Y : 0 < Y -> 0 <= e <= / 100 -> rn e y Y -> 0 < y /\ Rabs (ln y - ln Y) <= 102 / 100 * e.
Proof using.
  clear. intros HY He H. unfold rn in H. rewrite (Rabs_right Y) in H by lra. assert (e * Y <= / 100 * Y) by (apply Rmult_le_compat_r; lra).
  assert (B : (1 - e) * Y <= y <= (1 + e) * Y) by (unfold Rabs in H; destruct (Rcase_abs _); lra).
  assert (y0 : 0 < y) by lra. split; [exact y0|].
  assert (ex : forall a b, 0 < a -> 0 < b -> ln a - ln b = ln (a / b)) by (intros a b Ha Hb; unfold Rdiv; rewrite ln_mult, ln_Rinv; try lra; apply Rinv_0_lt_compat; lra).
  rewrite ex by lra. assert (q0 : 0 < y / Y) by (apply Rdiv_lt_0_compat; lra).
  assert (Q : 1 - e <= y / Y <= 1 + e).
  { split; apply Rmult_le_reg_r with Y; try lra; unfold Rdiv; rewrite Rmult_assoc, Rinv_l by lra; lra. }
  set (q := y / Y) in *. clearbody q.
  assert (U : ln q <= q - 1). { pose proof (exp_ge (ln q)) as G. rewrite exp_ln in G by lra. lra. }
  assert (Lo : - (102 / 100 * e) <= ln q).
  { pose proof (exp_ge (ln (/ q))) as G. assert (0 < / q) by (apply Rinv_0_lt_compat; lra). rewrite exp_ln in G by lra. rewrite ln_Rinv in G by lra.
    assert (/ q <= 1 + 102 / 100 * e).
    { apply Rmult_le_reg_r with q; [lra|]. rewrite Rinv_l by lra. apply Rle_trans with ((1 + 102 / 100 * e) * (1 - e)).
      - assert (102 / 100 * e * e <= 102 / 100 * e * / 100) by (apply Rmult_le_compat_l; lra). lra.
      - apply Rmult_le_compat_l; lra. }
    lra. }
  unfold Rabs. destruct (Rcase_abs _); lra.
Qed.

Lemma log_exp memc memi memx fuel x :
  (forall j, memory_ok (memc j)) -> (forall j, memory_ok (memi j)) -> (forall j, memory_ok (memx j)) -> (2 <= fuel)%nat ->
  normal c x -> 30000 * r10 (- D) <= rvalue c x -> rvalue c x <= 900000000 -> rvalue c x <= IZR (2 * (M - 110)) ->
  exists e z, wexp c F (ln2_small c) memx x = Some e /\ log c F (log_core c F memc) fuel memi e = Ret z /\
    Rabs (rvalue c z - rvalue c x) <= (23000 + 3 * rvalue c x) * r10 (- D).
Proof using Hc Hk HF HJ HD HW HM HM9.
  intros Hmc Hmi Hmx Hf Nx X0 T1 T2. assert (HD2 : (16 <= D <= 2000)%Z) by (clear - HD; lia).
  destruct (de_facts c Hc HD2) as (D0 & D1 & E1 & E0 & _). destruct (W_big c W Hc HD2 HW HM) as (_ & W2 & W3 & W4). pose proof (edc_pos c) as Hed.
  assert (Z0 : Q2R 0 = 0) by (unfold Q2R; simpl; field). assert (Q1 : Q2R 1 = 1) by (unfold Q2R; simpl; field).
  destruct (wexp_pos memx x Hmx Nx) as (e & WE & Ne & RE & Pe & Ue & Le).
  { apply Rlt_Qlt. rewrite Z0. fold (rvalue c x). lra. }
  { apply Rle_Qle. fold (rvalue c x). replace (Q2R 1000000000) with 1000000000 by (unfold Q2R; simpl; field). lra. }
  { apply Rle_Qle. rewrite <- IZR_Q2R. fold (rvalue c x). replace (2 * (M - 100))%Z with (2 * (M - 110) + 20)%Z by ring. rewrite plus_IZR. lra. }
  { apply Rle_Qle. fold (rvalue c x). assert (PW : Q2R (p10 (- W)) <= r10 (- D)) by (unfold r10; apply Qle_Rle; apply p10_le; clear - W2 Hed; lia). lra. }
  set (a := rvalue c x) in *. pose proof (exp_pos a) as EP. pose proof (exp_ge a) as EG.
  assert (AD : 0 <= a * r10 (- D) <= / 10000000).
  { split; [apply Rmult_le_pos; lra|]. replace (/ 10000000) with (1000000000 * / 10000000000000000) by field. apply Rmult_le_compat; lra. }
  set (f := (21500 + a / 10) * r10 (- D)) in *. assert (F0 : 0 <= f <= / 1000000) by (unfold f; lra).
  destruct (ln_of_near f (rvalue c e) (exp a) EP ltac:(lra) RE) as [e0 LE]. rewrite ln_exp in LE.
  assert (One : (1 <= value c e)%Q).
  { apply Rle_Qle. rewrite Q1. fold (rvalue c e). unfold rn in RE. rewrite (Rabs_right (exp a)) in RE by lra.
    assert (LB : (1 - f) * exp a <= rvalue c e) by (unfold Rabs in RE; destruct (Rcase_abs _); lra).
    assert ((1 - f) * (1 + a) <= (1 - f) * exp a) by (apply Rmult_le_compat_l; lra).
    destruct (Rle_or_lt 1 a) as [G|G].
    - assert ((1 - f) * 2 <= (1 - f) * (1 + a)) by (apply Rmult_le_compat_l; lra). lra.
    - assert (f <= 21501 * r10 (- D)) by (unfold f; assert (a / 10 * r10 (- D) <= 1 * r10 (- D)) by (apply Rmult_le_compat_r; lra); lra).
      assert (f * a <= / 1000000 * a) by (apply Rmult_le_compat_r; lra). lra. }
  assert (X0' : (p10 (- (M - 60)) <= value c e)%Q).
  { eapply Qle_trans; [|exact One]. change 1%Q with (p10 0). apply p10_le. clear - HM9; lia. }
  assert (X1' : (value c e <= p10 (M - 50))%Q). { eapply Qle_trans; [exact Ue|]. apply p10_le. lia. }
  destruct (log_accurate c F Hc Hk HF HJ HD HM9 memc memi fuel e Hmc Hmi Hf Ne X0' X1' (or_introl One)) as (z & LR & Nz & LA).
  exists e, z. split; [exact WE|]. split; [exact LR|]. set (le := ln (rvalue c e)) in *.
  assert (LB : Rabs le <= a + / 1000).
  { replace le with ((le - a) + a) by ring. eapply Rle_trans; [apply Rabs_triang|]. rewrite (Rabs_right a) by lra. lra. }
  replace (rvalue c z - a) with ((rvalue c z - le) + (le - a)) by ring. eapply Rle_trans; [apply Rabs_triang|].
  assert ((9 + Rabs le) * r10 (- D) <= (10 + a) * r10 (- D)) by (apply Rmult_le_compat_r; lra). unfold f in LE. lra.
Qed.
End INVERSE.
