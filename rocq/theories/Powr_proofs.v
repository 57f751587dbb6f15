(** Powr_proofs.v - pow with a real exponent against the real power. *)
From Verif Require Export Log4_proofs.
From Verif Require Import Model_Exp Model_Log Real_proofs Const_proofs Const2_proofs Func_proofs Cmp_proofs Conv6_proofs Conv2_proofs Misc_proofs Refute_arith Div_proofs Prec_proofs.
From Coq Require Import Reals Qreals Lra Lia.
Local Open Scope R_scope.

(** The exponential of an approximation. *)
Lemma exp_of_near d t T : Rabs (t - T) <= d -> d <= / 100 -> rn (102 / 100 * d) (exp t) (exp T).
Proof.
  intros H Hd. unfold rn. assert (D0 : 0 <= d) by (eapply Rle_trans; [apply Rabs_pos|exact H]).
  replace (exp t - exp T) with ((exp (t - T) - 1) * exp T) by (rewrite Rmult_minus_distr_r, <- exp_plus; replace (t - T + T) with t by ring; ring).
  rewrite Rabs_mult. apply Rmult_le_compat_r; [apply Rabs_pos|].
  eapply Rle_trans; [apply exp_near; lra|]. set (u := Rabs (t - T)) in *. assert (U0 : 0 <= u) by apply Rabs_pos.
  apply Rmult_le_reg_r with (1 - u); [lra|]. unfold Rdiv at 1. rewrite Rmult_assoc, Rinv_l, Rmult_1_r by lra.
  assert (102 / 100 * d * (1 - u) >= 102 / 100 * d * (99 / 100)) by (apply Rle_ge; apply Rmult_le_compat_l; lra). lra.
Qed.

Section POWR.
Variable c : cfg.
Variable F : ftype.
Variable W : Z.
Notation L := (c_limb c).
Notation n := (nel c).
Notation M := (max_exp10_of (c_expo c)).
Notation D := (c_digits10 c).
Notation eps := (p10 (- (c_digits10 c + 2 * edc c))).
Notation dl := (p10 (- c_digits10 c)).
Hypothesis Hc : cfg_ok c.
Hypothesis Hk : newton_ok c.
Hypothesis HF : float_fits c F.
Hypothesis HJ : (digit_loops c F <= n)%nat.
Hypothesis HD : (16 <= D <= 51)%Z.
Hypothesis HW : (edc c * elem_number c <= W)%Z.
Hypothesis HM : (6 * W + 300 <= M)%Z.
Hypothesis HM9 : (900 <= M)%Z.

Notation run := (fun memc memi mem memx fuel => pow_real c F (log_core c F memc) (wexp c F (ln2_small c) memx) fuel memi mem).

Lemma pow_accurate memc memi mem memx fuel x a :
  (forall j, memory_ok (memc j)) -> (forall j, memory_ok (memi j)) -> memory_ok mem -> (forall j, memory_ok (memx j)) -> (2 <= fuel)%nat ->
  normal c x -> (p10 (- (M - 60)) <= value c x)%Q -> (value c x <= p10 (M - 50))%Q ->
  (value c x == 1)%Q \/ ((1 <= value c x)%Q \/ ((value c x <= 1 - 8 * eps)%Q /\ ~ (value c x == p10 (dexp x))%Q)) /\ 20 * r10 (- D) <= Rabs (ln (rvalue c x)) ->
  normal c a -> (p10 (- (W - D)) <= Qabs (value c a))%Q -> (Qabs (value c a) <= p10 (D - 8))%Q ->
  Rabs (rvalue c a * ln (rvalue c x)) <= 900000000 -> Rabs (rvalue c a * ln (rvalue c x)) <= IZR (2 * (M - 110)) ->
  exists z, run memc memi mem memx fuel x a = Ret z /\
    rel_close c z (exp (rvalue c a * ln (rvalue c x))) ((23000 + 20 * Rabs (rvalue c a) + 3 * Rabs (rvalue c a * ln (rvalue c x))) * r10 (- D)).
Proof.
  intros Hmc Hmi Hm Hmx Hf Nx X0 X1 Hx Na A0 A1 T1 T2.
  assert (HD2 : (16 <= D <= 2000)%Z) by (clear - HD; lia).
  destruct (de_facts c Hc HD2) as (D0 & D1 & E1 & E0 & _). destruct (W_big c W Hc HD2 HW HM) as (_ & W2 & W3 & W4). pose proof (edc_pos c) as Hed.
  destruct (ln2_stored c Hc (proj2 HD)) as [Nl L2].
  assert (Z0 : Q2R 0 = 0) by (unfold Q2R; simpl; field). assert (Q1 : Q2R 1 = 1) by (unfold Q2R; simpl; field).
  pose proof (p10_pos (- (W - D))) as PW. assert (Za : iszero a = false).
  { destruct (iszero a) eqn:K; [|reflexivity]. exfalso. rewrite (value_zero c Hc a Na K) in A0. change (Qabs 0) with 0%Q in A0. qlra. }
  unfold pow_real. rewrite Za.
  assert (Hx1 : (1 <= value c x)%Q \/ ((value c x <= 1 - 8 * eps)%Q /\ ~ (value c x == p10 (dexp x))%Q)).
  { destruct Hx as [K|[K _]]; [left; rewrite K; apply Qle_refl|exact K]. }
  destruct (log_accurate c F Hc Hk HF HJ HD HM9 memc memi fuel x Hmc Hmi Hf Nx X0 X1 Hx1) as (l & LR & Nl' & LA).
  assert (RA0 : 0 <= Rabs (rvalue c a)) by apply Rabs_pos.
  set (T := rvalue c a * ln (rvalue c x)) in *. assert (RT0 : 0 <= Rabs T) by apply Rabs_pos.
  assert (AU : Rabs (rvalue c a) * r10 (- D) <= / 100000000).
  { apply Qle_Rle in A1. rewrite Q2R_abs in A1. fold (rvalue c a) in A1. replace (D - 8)%Z with (D + -8)%Z in A1 by ring. rewrite (Qeq_eqR _ _ (p10_add D (-8))), Q2R_mult in A1.
    change (p10 (-8)) with (1 # 100000000)%Q in A1. rewrite Q2R_frac in A1.
    assert (P1 : Q2R (p10 D) * r10 (- D) = 1). { unfold r10. rewrite <- Q2R_mult, <- Q1. apply Qeq_eqR. rewrite <- p10_add. replace (D + - D)%Z with 0%Z by ring. reflexivity. }
    assert (Rabs (rvalue c a) * r10 (- D) <= Q2R (p10 D) * (1 / 100000000) * r10 (- D)) by (apply Rmult_le_compat_r; lra). lra. }
  assert (AD : 0 <= Rabs T * r10 (- D) <= / 10000000).
  { split; [apply Rmult_le_pos; lra|]. replace (/ 10000000) with (1000000000 * / 10000000000000000) by field. apply Rmult_le_compat; lra. }
  destruct Hx as [V1|[_ HL]].
  - (* x = 1 *)
    assert (LZ : l = zero c).
    { destruct fuel as [|f]; [clear - Hf; lia|]. cbn [log] in LR. pose proof (one_normal c Hc) as No. pose proof (Floor_proofs.one_value c Hc) as Vo.
      destruct (ops_spec c Hc x (one c) Nx No) as (OL & _ & _ & _ & _ & OG).
      replace (op_lt x (one c)) with false in LR by (symmetry; apply Bool.not_true_is_false; intros K; apply OL in K; rewrite V1, Vo in K; exact (Qlt_irrefl 1 K)).
      replace (op_gt x (one c)) with false in LR by (symmetry; apply Bool.not_true_is_false; intros K; apply OG in K; rewrite V1, Vo in K; exact (Qlt_irrefl 1 K)).
      injection LR as <-. reflexivity. }
    rewrite LR. cbn [obind]. subst l.
    assert (LX : ln (rvalue c x) = 0) by (unfold rvalue; rewrite (Qeq_eqR _ _ V1), Q1; apply ln_1).
    assert (TZ : T = 0) by (unfold T; rewrite LX; ring).
    assert (MZ : exists t, mulm c mem 0 a (zero c) = Some t /\ normal c t /\ iszero t = true /\ dneg t = false).
    { unfold mulm. rewrite (zero_iszero c Hc), orb_true_r. cbn [zero dprec]. rewrite Nat.min_id.
      destruct (mul_zero_full c (fst (mem 0%nat n)) (snd (mem 0%nat n)) a (zero c) Hc (newton_mul_ok c Hc Hk) (memory_pool c Hc mem 0 Hm) Na (zero_normal c) (or_intror (zero_iszero c Hc))) as (t & M1 & M2 & M3 & _).
      { cbn [zero dexp]. clear - HM9. lia. }
      exists t. split; [exact M1|]. split; [exact M2|]. split; [exact M3|]. revert M1. unfold mul. rewrite (zero_iszero c Hc), orb_true_r. cbn [zero dneg xorb].
      match goal with |- context [match ?o with Some _ => _ | None => None end] => destruct o as [r|] end; intros K; [injection K as <-; reflexivity|discriminate K]. }
    destruct MZ as (t & M1 & M2 & M3 & M4). rewrite M1. cbn [lift obind].
    pose proof (value_zero c Hc t M2 M3) as VT.
    destruct (wexp_accurate c F W Hc Hk HF HJ HD2 HW HM (ln2_small c) Nl L2 memx t Hmx M2) as (z & WZ & RC).
    { rewrite VT. discriminate. } { rewrite VT. change (Qabs 0) with (inject_Z 0). rewrite <- Zle_Qle. clear - HM9. lia. } { left. split; assumption. }
    rewrite WZ. cbn [lift]. exists z. split; [reflexivity|]. unfold rel_close in *.
    assert (RT : rvalue c t = 0) by (unfold rvalue; rewrite (Qeq_eqR _ _ VT); exact Z0). rewrite RT in RC. rewrite TZ in *. rewrite Rabs_R0 in *.
    eapply Rle_trans; [exact RC|]. apply Rmult_le_compat_r; [apply Rabs_pos|]. assert (0 <= 20 * Rabs (rvalue c a) * r10 (- D)) by (apply Rmult_le_pos; lra). lra.
  - rewrite LR. cbn [obind]. set (lx := ln (rvalue c x)) in *.
    assert (L9 : Rabs (rvalue c l - lx) <= 9 * r10 (- D) + / 1000 * Rabs lx).
    { eapply Rle_trans; [exact LA|]. assert (Rabs lx * r10 (- D) <= Rabs lx * / 1000) by (apply Rmult_le_compat_l; [apply Rabs_pos|lra]). lra. }
    assert (LL : 10 * r10 (- D) <= Rabs (rvalue c l) <= 2 * Rabs lx).
    { split.
      - pose proof (Rabs_triang_inv lx (lx - rvalue c l)) as TI. replace (lx - (lx - rvalue c l)) with (rvalue c l) in TI by ring. rewrite (Rabs_minus_sym lx (rvalue c l)) in TI. lra.
      - replace (rvalue c l) with (lx + (rvalue c l - lx)) by ring. eapply Rle_trans; [apply Rabs_triang|]. lra. }
    assert (Zl : iszero l = false).
    { destruct (iszero l) eqn:K; [|reflexivity]. exfalso. destruct LL as [LL _]. unfold rvalue in LL. rewrite (Qeq_eqR _ _ (value_zero c Hc l Nl' K)), Z0, Rabs_R0 in LL. lra. }
    (* exponents *)
    assert (XA1 : (dexp a <= D - 8)%Z) by (apply (exp_le_of_value c Hc a _ Na Za A1)).
    assert (XA2 : (- (W - D) - edc c < dexp a)%Z) by (apply (exp_gt_of_value c Hc a _ Na Za A0)).
    assert (VL1 : (p10 (- D) <= Qabs (value c l))%Q). { apply Rle_Qle. rewrite Q2R_abs. fold (rvalue c l). unfold r10 in *. lra. }
    assert (XL2 : (- D - edc c < dexp l)%Z) by (apply (exp_gt_of_value c Hc l _ Nl' Zl VL1)).
    assert (LXU : Rabs lx <= IZR M * 3).
    { pose proof ln10_bounds as B10. unfold lx. assert (GM : forall k, (0 <= k <= M)%Z -> IZR k * ln 10 <= IZR M * 3).
      { intros k Hk'. assert (0 <= IZR k) by (apply IZR_le; lia). assert (IZR k <= IZR M) by (apply IZR_le; lia). apply Rmult_le_compat; lra. }
      assert (X0' : 0 < rvalue c x). { unfold rvalue. rewrite <- Z0. apply Qlt_Rlt. eapply Qlt_le_trans; [apply (p10_pos (- (M - 60)))|exact X0]. }
      assert (U : ln (rvalue c x) <= IZR (M - 50) * ln 10).
      { rewrite <- ln_p10 by (clear - HM9; lia). apply ln_mono; [exact X0'|]. apply Qle_Rle. exact X1. }
      assert (LO : - (IZR (M - 60) * ln 10) <= ln (rvalue c x)).
      { rewrite <- ln_p10 by (clear - HM9; lia). assert (IP : 0 < Q2R (p10 (M - 60))) by (rewrite <- Z0; apply Qlt_Rlt; apply p10_pos). rewrite <- ln_Rinv by exact IP. apply ln_mono; [apply Rinv_0_lt_compat; exact IP|].
        apply Qle_Rle in X0. fold (rvalue c x) in X0. eapply Rle_trans; [|exact X0]. apply Req_le. apply Rmult_eq_reg_r with (Q2R (p10 (M - 60))); [|lra].
        rewrite Rinv_l by lra. rewrite <- Q2R_mult, <- Q1. apply Qeq_eqR. rewrite <- p10_add. replace (- (M - 60) + (M - 60))%Z with 0%Z by ring. reflexivity. }
      pose proof (GM (M - 50)%Z ltac:(clear - HM9; lia)). pose proof (GM (M - 60)%Z ltac:(clear - HM9; lia)). unfold Rabs. destruct (Rcase_abs _); lra. }
    assert (XL1 : (dexp l <= 20)%Z).
    { apply (exp_le_of_value c Hc l _ Nl' Zl). apply Rle_Qle. rewrite Q2R_abs. fold (rvalue c l). eapply Rle_trans; [apply (proj2 LL)|].
      change (p10 20) with (inject_Z 100000000000000000000). rewrite <- IZR_Q2R. assert (HMU : (M <= 2 ^ 60)%Z) by (pose proof (M_E c) as [QQ1 QQ2]; change (2 ^ 63)%Z with 9223372036854775808%Z in QQ2; change (2 ^ 60)%Z with 1152921504606846976%Z; clear - QQ1 QQ2; destruct (c_expo c); vm_compute; discriminate).
      change (2 ^ 60)%Z with 1152921504606846976%Z in HMU. apply IZR_le in HMU. lra. }
    destruct (mul_step c Hc Hk mem 0%nat a l Hm Na Nl' Za Zl ltac:(clear - XA1 XA2 XL1 XL2 HM W2 W3 Hed HD; lia)) as (t & M1 & Nt & Zt & At).
    rewrite M1. cbn [lift obind]. apply near_R in At. unfold rn in At. rewrite Q2R_mult in At. fold (rvalue c t) (rvalue c a) (rvalue c l) in At.
    (* the product against a ln x *)
    assert (AL : Rabs (rvalue c a * rvalue c l - T) <= Rabs (rvalue c a) * ((9 + Rabs lx) * r10 (- D))).
    { unfold T. replace (rvalue c a * rvalue c l - rvalue c a * lx) with (rvalue c a * (rvalue c l - lx)) by ring. rewrite Rabs_mult. apply Rmult_le_compat_l; [exact RA0|exact LA]. }
    assert (TT : Rabs T = Rabs (rvalue c a) * Rabs lx) by (unfold T; apply Rabs_mult).
    assert (AB : Rabs (rvalue c a * rvalue c l) <= 2 * Rabs T). { rewrite Rabs_mult, TT. replace (2 * (Rabs (rvalue c a) * Rabs lx)) with (Rabs (rvalue c a) * (2 * Rabs lx)) by ring. apply Rmult_le_compat_l; lra. }
    assert (EA : Q2R eps * Rabs (rvalue c a * rvalue c l) <= (r10 (- D) / 10000) * (2 * Rabs T)) by (apply Rmult_le_compat; try lra; apply Rabs_pos).
    set (dd := (9 * Rabs (rvalue c a) + 11 / 10 * Rabs T) * r10 (- D)).
    assert (TD : Rabs (rvalue c t - T) <= dd).
    { replace (rvalue c t - T) with ((rvalue c t - rvalue c a * rvalue c l) + (rvalue c a * rvalue c l - T)) by ring. eapply Rle_trans; [apply Rabs_triang|]. unfold dd.
      replace (Rabs (rvalue c a) * ((9 + Rabs lx) * r10 (- D))) with (9 * (Rabs (rvalue c a) * r10 (- D)) + Rabs T * r10 (- D)) in AL by (rewrite TT; ring). lra. }
    assert (DD : 0 <= dd <= / 1000000).
    { unfold dd. assert (0 <= Rabs (rvalue c a) * r10 (- D)) by (apply Rmult_le_pos; lra). lra. }
    assert (TB : Rabs (rvalue c t) <= Rabs T + / 1000). { replace (rvalue c t) with (T + (rvalue c t - T)) by ring. eapply Rle_trans; [apply Rabs_triang|]. lra. }
    assert (TU1 : (Qabs (value c t) <= 1000000000)%Q).
    { apply Rle_Qle. rewrite Q2R_abs. fold (rvalue c t). replace (Q2R 1000000000) with 1000000000 by (unfold Q2R; simpl; field). lra. }
    assert (TU2 : (Qabs (value c t) <= inject_Z (2 * (M - 100)))%Q).
    { apply Rle_Qle. rewrite Q2R_abs, <- IZR_Q2R. fold (rvalue c t). replace (2 * (M - 100))%Z with (2 * (M - 110) + 20)%Z by ring. rewrite plus_IZR. lra. }
    assert (TL : (p10 (- W) <= Qabs (value c t))%Q).
    { apply Rle_Qle. rewrite Q2R_abs. fold (rvalue c t). apply Qle_Rle in A0. rewrite Q2R_abs in A0. fold (rvalue c a) in A0.
      assert (PR : Q2R (p10 (- W)) = Q2R (p10 (- (W - D))) * r10 (- D)) by (unfold r10; rewrite <- Q2R_mult; apply Qeq_eqR; rewrite <- p10_add; replace (- (W - D) + - D)%Z with (- W)%Z by ring; reflexivity).
      assert (P0 : 0 < Q2R (p10 (- (W - D)))) by (rewrite <- Z0; apply Qlt_Rlt; exact PW).
      assert (AL0 : Q2R (p10 (- (W - D))) * (10 * r10 (- D)) <= Rabs (rvalue c a) * Rabs (rvalue c l)) by (apply Rmult_le_compat; lra). rewrite <- Rabs_mult in AL0.
      assert (0 < Q2R (p10 (- (W - D))) * r10 (- D)) by (apply Rmult_lt_0_compat; lra).
      assert (Q2R eps * Rabs (rvalue c a * rvalue c l) <= / 2 * Rabs (rvalue c a * rvalue c l)) by (apply Rmult_le_compat_r; [apply Rabs_pos|lra]).
      pose proof (Rabs_triang_inv (rvalue c a * rvalue c l) (rvalue c a * rvalue c l - rvalue c t)) as TI. replace (rvalue c a * rvalue c l - (rvalue c a * rvalue c l - rvalue c t)) with (rvalue c t) in TI by ring.
      rewrite (Rabs_minus_sym (rvalue c a * rvalue c l) (rvalue c t)) in TI. rewrite PR. lra. }
    destruct (wexp_accurate c F W Hc Hk HF HJ HD2 HW HM (ln2_small c) Nl L2 memx t Hmx Nt TU1 TU2 (or_intror TL)) as (z & WZ & RC).
    rewrite WZ. cbn [lift]. exists z. split; [reflexivity|]. unfold rel_close in *.
    assert (E2 : 0 <= (22000 + Rabs (rvalue c t)) * r10 (- D)) by (apply Rmult_le_pos; [pose proof (Rabs_pos (rvalue c t))|]; lra).
    pose proof (rn_trans _ _ _ _ _ E2 RC (exp_of_near dd _ _ TD ltac:(lra))) as FIN. unfold rn in FIN. eapply Rle_trans; [exact FIN|]. apply Rmult_le_compat_r; [apply Rabs_pos|].
    assert (E3 : (22000 + Rabs (rvalue c t)) * r10 (- D) <= (22001 + Rabs T) * r10 (- D)) by (apply Rmult_le_compat_r; lra).
    set (e1 := (22000 + Rabs (rvalue c t)) * r10 (- D)) in *. assert (e1 * (102 / 100 * dd) <= / 100 * (102 / 100 * dd)) by (apply Rmult_le_compat_r; lra).
    unfold dd in *. assert (0 <= Rabs (rvalue c a) * r10 (- D)) by (apply Rmult_le_pos; lra). lra.
Qed.
End POWR.
