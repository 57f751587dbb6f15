(** Sqrtop_proofs.v - the operations inside one pass of the square-root iteration. *)
From Verif Require Export Addp_proofs Sqrtnum_proofs Model_Sqrt Int2_proofs.
From Coq Require Import Lqa.
Local Open Scope Z_scope.

Section SO.
Variable c : cfg.
Notation L := (c_limb c).
Notation B := (mask L).
Notation V := (limbs_value B).
Notation ok := (digits_ok B).
Notation P n := (B ^ Z.of_nat n).
Notation E := (ebits (c_expo c)).
Notation n := (nel c).
Notation M := (max_exp10_of (c_expo c)).
Notation wk := (wk c).
Notation mag := (mag c).
Notation eta := (eta c).
Notation nz := (nz c).
Notation zl := (zl c).
Notation sv := (sv c).
Hypothesis Hc : cfg_ok c.
Hypothesis Hk : newton_ok c.
Let HB : 0 < B := mask_pos L.

(** Signs only enter a product through their xor. *)
Lemma mulm_sign mem i x v z : iszero x = false -> iszero v = false -> mulm c mem i (set_neg x false) (set_neg v false) = Some z ->
  mulm c mem i x v = Some (set_neg z (xorb (dneg x) (dneg v))).
Proof.
  intros Zx Zv H. unfold mulm, mul in *.
  change (iszero (set_neg x false)) with (iszero x) in H. change (iszero (set_neg v false)) with (iszero v) in H.
  rewrite Zx, Zv in *. cbn [orb] in *.
  change (set_neg (set_neg x false) false) with (set_neg x false) in H.
  change (isone_sign_neutral c (set_neg v false)) with (isone_sign_neutral c v) in H.
  change (isone_sign_neutral c (set_neg x false)) with (isone_sign_neutral c x) in *.
  change (dprec (set_neg x false)) with (dprec x) in *. change (dprec (set_neg v false)) with (dprec v) in *.
  change (dexp (set_neg x false)) with (dexp x) in *. change (dexp (set_neg v false)) with (dexp v) in *.
  destruct (isone_sign_neutral c x); [injection H as <-; reflexivity|].
  destruct (isone_sign_neutral c v); [injection H as <-; reflexivity|].
  set (r := uw_add E (uw_make E (dexp x)) (uw_make E (dexp v))) in *.
  destruct (negb (uw_neg r) && (uw_val r >=? M)); [injection H as <-; reflexivity|].
  destruct (uw_neg r && (uw_val r >=? M)); [injection H as <-; reflexivity|].
  set (e := if negb (uw_neg r) then _ else _) in *.
  set (m := mem i (Nat.min (dprec x) (dprec v))) in *.
  change (mul_dispatch c (fst m) (snd m) (set_neg x false) (set_neg v false) e (Nat.min (dprec x) (dprec v)))
    with (mul_dispatch c (fst m) (snd m) (set_neg x false) v e (Nat.min (dprec x) (dprec v))) in H.
  destruct (mul_dispatch c (fst m) (snd m) (set_neg x false) v e (Nat.min (dprec x) (dprec v))) as [y|]; [|discriminate].
  injection H as <-. reflexivity.
Qed.

Lemma mulm_nz mem i x v p : memory_ok mem -> nz x -> nz v -> Nat.min (dprec x) (dprec v) = p -> (2 <= p <= n)%nat ->
  - 2 ^ (E - 1) <= dexp x < 2 ^ (E - 1) -> - 2 ^ (E - 1) <= dexp v < 2 ^ (E - 1) -> - M < dexp x + dexp v < M ->
  exists z t, mulm c mem i x v = Some z /\ nz z /\ dneg z = xorb (dneg x) (dneg v) /\
    (dprec z = dprec x \/ dprec z = dprec v) /\ (dexp z = dexp x + dexp v \/ dexp z = dexp x + dexp v + edc c) /\
    (mag z == mag x * mag v * (1 + t))%Q /\ (Qabs t <= 3 * eta p)%Q.
Proof.
  intros Hm [Wx Ox] [Wv Ov] Hp Hpn Rx Rv Rs.
  destruct (mulp_spec c Hc Hk mem i (set_neg x false) (set_neg v false) p) as (z & E1 & Wz & Nz & Oz & Pz & Dz & [M1 M2] & _); auto.
  pose proof (mulm_sign mem i x v z (wk_iszero c x Wx) (wk_iszero c v Wv) E1) as E2.
  change (mag (set_neg x false)) with (mag x) in M1, M2. change (mag (set_neg v false)) with (mag v) in M1, M2.
  pose proof (mag_pos c Hc x Wx) as Px. pose proof (mag_pos c Hc v Wv) as Pv.
  assert (Pxv : (0 < mag x * mag v)%Q) by (apply Qmult_lt_0_compat; auto).
  exists (set_neg z (xorb (dneg x) (dneg v))), (mag z / (mag x * mag v) - 1)%Q.
  split; auto. split; [split; [exact Wz|apply Oz; right; exact Ox]|]. split; [reflexivity|]. split; [exact Pz|]. split; [exact Dz|].
  split; [change (mag (set_neg z (xorb (dneg x) (dneg v)))) with (mag z); field; split; lra|].
  pose proof (eta_small c p ltac:(lia)) as [E0 E3].
  apply pm_bnd. split.
  - assert (T : (1 - 3 * eta p <= mag z / (mag x * mag v))%Q) by (apply Qle_shift_div_l; auto; rewrite Qmult_comm; exact M1). lra.
  - assert (T : (mag z / (mag x * mag v) <= 1 + eta p)%Q) by (apply Qle_shift_div_r; auto; rewrite Qmult_comm; exact M2). lra.
Qed.

Lemma all0 l k : ok l -> V l = 0 -> nth k l 0 = 0.
Proof.
  intros H1 H2. apply limbs_value_zero_iff in H2; auto. rewrite H2. clear. revert k. induction (length l) as [|m IH]; intros k; destruct k; cbn; auto.
Qed.

Lemma zero_not_one x : iszero x = true -> isone_sign_neutral c x = false.
Proof.
  intros H. unfold iszero in H. unfold isone_sign_neutral. pose proof (B_gt9 c). 
  replace (nth 0 (data x) 0 =? 1) with false by lia. replace (nth 0 (data x) 0 =? B - 1) with false by lia. reflexivity.
Qed.

(** A zero-like factor gives a zero-like product. *)
Lemma mulm_zl mem i x v : memory_ok mem -> zl v -> exists z, mulm c mem i x v = Some z /\ iszero z = true.
Proof.
  intros Hm (Zv & Lv & Ov & Dv & Pv). unfold mulm, mul. rewrite Zv, orb_true_r.
  pose proof (nel_ge4 c Hc) as Hn4.
  assert (Z0 : iszero (zero c) = true) by (apply zero_iszero; auto).
  rewrite (zero_not_one (set_neg (zero c) false)) by exact Z0. rewrite (zero_not_one v Zv).
  change (dexp (set_neg (zero c) false)) with 0. change (dprec (set_neg (zero c) false)) with n. change (dprec (zero c)) with n. rewrite Dv.
  pose proof (E_ge8 c) as HE8. pose proof (max_exp10_bounds c) as (HM & _).
  assert (D0 : dexp (zero c) = 0) by reflexivity.
  assert (R0 : - 2 ^ (E - 1) <= dexp (zero c) < 2 ^ (E - 1)).
  { rewrite D0. pose proof (Z.pow_pos_nonneg 2 (E - 1)). lia. }
  assert (V0' : (edc c | dexp (zero c))) by (rewrite D0; apply Z.divide_0_r).
  destruct (exp_sum c Hc (zero c) (zero c) R0 R0 V0' V0' ltac:(rewrite D0; lia)) as (A1 & A2 & A3).
  rewrite D0 in A1, A2, A3. rewrite A1, A2, A3. cbn [Z.add].
  rewrite Nat.min_r by lia.
  destruct (dispatchp_spec c Hc Hk (mem i (dprec v)) (set_neg (zero c) false) v 0 (dprec v)) as (res & k & D1 & D2 & D3 & D4 & D5); auto.
  { change (data (set_neg (zero c) false)) with (repeat 0 n). apply repeat_length. }
  { left. change (data (set_neg (zero c) false)) with (repeat 0 n). apply digits_ok_repeat0; auto. }
  rewrite D1. eexists. split; [reflexivity|].
  assert (V0 : V res = 0).
  { rewrite D5. change (data (set_neg (zero c) false)) with (repeat 0 n).
    assert (V (firstn (dprec v) (repeat 0 n)) = 0) as ->; [|ring].
    apply limbs_value_zero_iff; [exact HB|apply digits_ok_firstn, digits_ok_repeat0; auto|].
    rewrite firstn_length, repeat_length, Nat.min_l by lia. replace n with (dprec v + (n - dprec v))%nat by lia. rewrite repeat_app. apply firstn_app_exact, repeat_length. }
  unfold store_product. rewrite (all0 res 0 D4 V0). cbn [Z.eqb]. unfold iszero, set_neg. cbn [data].
  rewrite app_nth1 by (rewrite firstn_length, skipn_length; lia).
  destruct (dprec v) as [|q] eqn:Eq; [lia|]. destruct res as [|r0 [|r1 res]]; [cbn in D3; lia|cbn in D3; lia|]. cbn [skipn firstn nth].
  pose proof (all0 _ 1 D4 V0) as R1. cbn [nth] in R1. rewrite R1. reflexivity.
Qed.

Lemma add_zl_r x v : iszero x = false -> iszero v = true -> add c x v = x.
Proof. intros Zx Zv. unfold add. rewrite Zx, Zv. reflexivity. Qed.

(** Product with a possibly zero factor, as signed values. *)
Lemma mul_any mem i y d p : memory_ok mem -> nz y -> dneg y = false -> (zl d \/ nz d) -> (2 <= p <= n)%nat -> (nz d -> Nat.min (dprec y) (dprec d) = p) ->
  - 2 ^ (E - 1) <= dexp y < 2 ^ (E - 1) -> - 2 ^ (E - 1) <= dexp d < 2 ^ (E - 1) -> - M < dexp y + dexp d < M ->
  exists w t, mulm c mem i y d = Some w /\ (sv w == mag y * sv d * (1 + t))%Q /\ (Qabs t <= 3 * eta p)%Q /\
    (iszero w = true \/ nz w /\ (dprec w = dprec y \/ dprec w = dprec d) /\ dexp y + dexp d <= dexp w <= dexp y + dexp d + edc c).
Proof.
  intros Hm Ny Sy [Zd|Nd] Hp Hpd Ry Rd Rs.
  - destruct (mulm_zl mem i y d Hm Zd) as (w & E1 & E2). exists w, 0%Q. split; auto. split.
    { rewrite (sv_zl c d Zd). unfold Addp_proofs.sv. rewrite E2. ring. }
    split; [|left; auto]. pose proof (eta_small c p ltac:(lia)) as [E0 _]. change (Qabs 0) with 0%Q. lra.
  - destruct (mulm_nz mem i y d p Hm Ny Nd (Hpd Nd) Hp Ry Rd Rs) as (w & t & E1 & N1 & S1 & P1 & D1 & V1 & T1).
    exists w, t. split; auto. split.
    { rewrite (sv_nz c w N1), (sv_nz c d Nd), S1, Sy. cbn [xorb]. destruct (dneg d); rewrite V1; ring. }
    split; auto. right. split; auto. split; auto. pose proof (edc_pos c). lia.
Qed.

Lemma expo0 : - 2 ^ (E - 1) <= 0 < 2 ^ (E - 1).
Proof. pose proof (E_ge8 c). pose proof (Z.pow_pos_nonneg 2 (E - 1)). lia. Qed.

Lemma unit_eta p e : (unitp c p e == p10 e * eta p)%Q.
Proof. unfold unitp, lowp, Newton_proofs.eta. rewrite <- p10_add. reflexivity. Qed.

Lemma p10_edc : (p10 (- edc c) <= 1 # 100)%Q.
Proof. change (1 # 100)%Q with (p10 (-2)). apply (proj2 (p10_le _ _)). pose proof (edc_pos c). lia. Qed.

(** Doubling with a sign change. *)
Lemma mul_m2 q p : nz q -> dneg q = false -> dprec q = p -> (2 <= p <= n)%nat -> dexp q = - edc c ->
  exists q2, mul_sll c [] [] q (-2) = Some q2 /\ nz q2 /\ dneg q2 = true /\ dprec q2 = p /\ (dexp q2 = - edc c \/ dexp q2 = 0) /\
    (Qabs (mag q2 - 2 * mag q) <= 2 * eta p)%Q.
Proof.
  intros [Wq Oq] Sq Pq Hp Dq. pose proof Wq as (Lq & _ & Zq & _). pose proof (edc_pos c) as He. pose proof (B_gt9 c) as H9.
  pose proof (max_exp10_bounds c) as (HM & HM2 & _). pose proof (nel_ge4 c Hc) as Hn4.
  unfold mul_sll. change (-2 <? 0) with true. cbn [negb]. change (negate_u 64 (ucast 64 (-2))) with 2.
  unfold mul_ull. rewrite Sq. change (iszero (set_neg q false)) with (iszero q). rewrite (wk_iszero c q Wq). change (2 =? 0) with false. cbn [orb].
  change (order_of_builtin_integer 2) with 1. change (dexp (set_neg q false)) with (dexp q). rewrite Dq.
  pose proof (E_ge8 c) as HE. pose proof (pow2E c) as H2E.
  assert (H128 : 128 <= 2 ^ (E - 1)) by (change 128 with (2 ^ 7); apply Z.pow_le_mono_r; lia).
  rewrite (scast_id E 1) by lia.
  destruct (uw_make_spec E (- edc c) ltac:(lia) ltac:(lia)) as [X1 O1]. destruct (uw_make_spec E 1 ltac:(lia) ltac:(lia)) as [X2 O2].
  destruct (uw_add_spec E _ _ O1 O2) as [X3 _]; [rewrite X1, X2; lia|]. rewrite X1, X2 in X3.
  set (rr := uw_add _ _ _) in *. unfold uw_value in X3.
  replace (negb (uw_neg rr) && (uw_val rr >=? M)) with false.
  2:{ symmetry. destruct (uw_neg rr); cbn [negb andb]; [auto|]. clear - X3 HM He. lia. }
  clear X1 X2 X3 O1 O2 rr.
  replace (2 >=? B) with false by lia. change (2 =? 1) with false. cbv iota.
  rewrite (ucast_id (lbits L) 2) by (destruct L; cbn; lia).
  change (dprec (set_neg q false)) with (dprec q). rewrite Pq. change (data (set_neg q false)) with (data q).
  destruct (mag_prefix c q p Wq ltac:(lia)) as (A1 & A2 & A3 & _). rewrite Dq in A2, A3. fold (unitp c p (- edc c)) in A2, A3.
  pose proof (len_f c (data q) p Lq ltac:(lia)) as Lf.
  pose proof (mul_loop_n_spec L (firstn p (data q)) 2 (digits_ok_firstn B p _ Oq) ltac:(lia)) as HL.
  destruct (mul_loop_n L (firstn p (data q)) 2) as [r cy]. destruct HL as (R1 & R2 & R3 & R4 & R5).
  rewrite Lf in R1, R5.
  assert (Ot : ok (skipn p (data q))) by (apply digits_ok_skipn; auto).
  pose proof (len_s c (data q) p Lq) as Lt.
  pose proof (unit_eta p (- edc c)) as U1. pose proof (eta_small c p ltac:(lia)) as [E0 E1]. pose proof p10_edc as P1. pose proof (p10_pos (- edc c)) as P0.
  assert (U2 : (unitp c p (- edc c) <= (1 # 100) * eta p)%Q) by (rewrite U1; apply Qmult_le_compat_r; lra).
  pose proof (unitp_pos c p (- edc c)) as U3. set (u := unitp c p (- edc c)) in *. set (a := V (firstn p (data q))) in *.
  rewrite inject_Z_plus in A3. change (inject_Z 1) with 1%Q in A3.
  destruct (cy =? 0) eqn:Cy.
  - apply Z.eqb_eq in Cy. subst cy. rewrite Z.mul_0_l, Z.add_0_r in R5.
    eexists. split; [reflexivity|].
    set (z := mkDec (r ++ skipn p (data q)) (- edc c) false p).
    destruct (mag_split c r (skipn p (data q)) p (- edc c) false p R1 Lt ltac:(lia) Ot) as [G1 G2]. fold u z in G1, G2.
    assert (Hl : nth 0 r 0 <> 0) by (apply (lead_pos c r (p - 1)); auto; [lia|rewrite R5; pose proof (pow_pos_nat B (p - 1) HB); lia]).
    assert (Nz : nz z).
    { split; [|apply digits_ok_app; auto]. split; [unfold z; cbn [data]; rewrite app_length; lia|]. split; [left; apply digits_ok_app; auto|].
      split; [unfold z; cbn [data]; rewrite app_nth1 by lia; auto|exists (-1); cbn [dexp z]; lia]. }
    unfold negate. rewrite (wk_iszero c z (proj1 Nz)).
    split; [exact Nz|]. split; [reflexivity|]. split; [reflexivity|]. split; [left; reflexivity|].
    change (mag (mkDec (data z) (dexp z) (negb (dneg z)) (dprec z))) with (mag z).
    rewrite R5, inject_Z_plus, inject_Z_mult in G2. rewrite R5, inject_Z_mult in G1. change (inject_Z 2) with 2%Q in G1, G2. change (inject_Z 1) with 1%Q in G2.
    apply pm_bnd. lra.
  - apply Z.eqb_neq in Cy.
    destruct r as [|r0 r'] eqn:Er; [cbn in R1; lia|]. rewrite <- Er in *. clear Er r0 r'.
    set (r1 := firstn (p - 1) r).
    assert (Hr : r = r1 ++ skipn (p - 1) r) by (symmetry; apply firstn_skipn).
    assert (L1 : length r1 = (p - 1)%nat) by (unfold r1; rewrite firstn_length; lia).
    assert (L2 : length (skipn (p - 1) r) = 1%nat) by (rewrite skipn_length; lia).
    assert (O1 : ok r1) by (apply digits_ok_firstn; auto).
    assert (O2 : ok (skipn (p - 1) r)) by (apply digits_ok_skipn; auto).
    pose proof (limbs_value_bound B _ HB O2) as B2. rewrite L2 in B2. change (Z.of_nat 1) with 1 in B2. rewrite Z.pow_1_r in B2.
    rewrite Hr, limbs_value_app, L2 in R5. change (Z.of_nat 1) with 1 in R5. rewrite Z.pow_1_r in R5.
    set (r2 := cy :: r1).
    assert (V2 : V r2 = cy * P (p - 1) + V r1) by (unfold r2; cbn [limbs_value]; rewrite L1; reflexivity).
    assert (PP : P p = P (p - 1) * B) by (rewrite Z.mul_comm, <- pow_succ_nat; do 2 f_equal; lia).
    rewrite PP in R5.
    assert (K1 : V r2 * B <= a * 2 < (V r2 + 1) * B) by (rewrite V2; fold a in R5; clear - R5 B2; nia).
    rewrite scast_id by (pose proof (E_ge8 c); pose proof expo0; unfold edc; lia).
    replace (- edc c + ed L) with 0 by (unfold edc; lia).
    eexists. split; [reflexivity|].
    set (z := mkDec (r2 ++ skipn p (data q)) 0 false p).
    assert (L3 : length r2 = p) by (unfold r2; cbn [length]; lia).
    destruct (mag_split c r2 (skipn p (data q)) p 0 false p L3 Lt ltac:(lia) Ot) as [G1 G2]. fold z in G1, G2.
    assert (O3 : ok r2) by (apply digits_ok_cons; split; auto).
    change (mkDec (cy :: r1 ++ skipn p (data q)) 0 false p) with z.
    assert (Nz : nz z).
    { split; [|apply digits_ok_app; auto]. split; [unfold z; cbn [data]; rewrite app_length; lia|]. split; [left; apply digits_ok_app; auto|].
      split; [unfold z, r2; cbn [data app nth]; lia|apply Z.divide_0_r]. }
    unfold negate. rewrite (wk_iszero c z (proj1 Nz)).
    split; [exact Nz|]. split; [reflexivity|]. split; [reflexivity|]. split; [right; reflexivity|].
    change (mag (mkDec (data z) (dexp z) (negb (dneg z)) (dprec z))) with (mag z).
    pose proof (unit_eta p 0) as U0. rewrite p10_0, Qmult_1_l in U0.
    assert (UB : (unitp c p 0 == inject_Z B * u)%Q).
    { rewrite U0, U1. rewrite mask_pow. change (ed L) with (edc c). rewrite <- p10_Z by lia. rewrite Qmult_assoc, <- p10_add. replace (edc c + - edc c) with 0 by lia. rewrite p10_0. ring. }
    rewrite U0 in UB. rewrite U0 in G1, G2. rewrite UB in G1, G2.
    destruct K1 as [K1 K2]. apply (proj2 (sc_le _ _ 0)) in K1. apply (proj2 (sc_lt _ _ 0)) in K2.
    rewrite p10_0, !Qmult_1_r in K1, K2. rewrite !inject_Z_mult in K1, K2. rewrite inject_Z_plus in G2, K2. change (inject_Z 1) with 1%Q in G2, K2. change (inject_Z 2) with 2%Q in K1, K2.
    assert (K3 : (inject_Z (V r2) * inject_Z B * u <= inject_Z a * 2 * u)%Q) by (apply Qmult_le_compat_r; lra).
    assert (K4 : (inject_Z a * 2 * u < (inject_Z (V r2) + 1) * inject_Z B * u)%Q) by (apply Qmult_lt_compat_r; lra).
    apply pm_bnd. lra.
Qed.

Lemma sv_abs w : nz w -> (Qabs (sv w) == mag w)%Q.
Proof.
  intros N. rewrite (sv_nz c w N). pose proof (mag_pos c Hc w (proj1 N)).
  destruct (dneg w); [rewrite Qabs_opp|]; apply Qabs_pos; lra.
Qed.

Lemma exp_le x v : nz x -> nz v -> (mag v <= mag x)%Q -> dexp v <= dexp x.
Proof.
  intros [Wx Ox] [Wv Ov] H. pose proof (mag_bracket_lt c Hc x Wx Ox) as H1. destruct (mag_bracket c Hc v Wv) as [H2 _].
  assert (H3 : (p10 (dexp v) < p10 (dexp x + edc c))%Q) by lra. apply (proj1 (p10_lt _ _)) in H3.
  destruct Wx as (_ & _ & _ & [kx Dx]). destruct Wv as (_ & _ & _ & [kv Dv]). pose proof (edc_pos c).
  rewrite Dx, Dv in *. assert (H4 : kv * edc c < (kx + 1) * edc c) by lia. apply Z.mul_lt_mono_pos_r in H4; [|lia]. apply Z.mul_le_mono_nonneg_r; lia.
Qed.

(** Adding a small signed correction. *)
Lemma add_small y w p tau : nz y -> dneg y = false -> (iszero w = true \/ nz w) -> (2 <= p)%nat -> (nz w -> Nat.min (dprec y) (dprec w) = p) ->
  (dprec y <= n)%nat -> (nz w -> (dprec w <= n)%nat) ->
  - 2 ^ (E - 1) + Z.of_nat p * edc c <= dexp y < 2 ^ (E - 1) -> (nz w -> - 2 ^ (E - 1) + Z.of_nat p * edc c <= dexp w < 2 ^ (E - 1)) ->
  (Qabs (sv w) <= tau * mag y)%Q -> (tau <= 1 # 10)%Q -> (mag y * (1 + tau) < p10 (dexp y + edc c))%Q ->
  exists e, nz (add c y w) /\ dneg (add c y w) = false /\ (dprec (add c y w) = dprec y \/ nz w /\ dprec (add c y w) = dprec w) /\
    (mag (add c y w) == mag y + sv w + e * mag y)%Q /\ (Qabs e <= 2 * eta p)%Q.
Proof.
  intros Ny Sy Hw Hp Hmin Py Pw Ry Rw Hs Ht Hnc. pose proof (eta_small c p ltac:(lia)) as [E0 E1].
  pose proof (mag_pos c Hc y (proj1 Ny)) as My.
  destruct Hw as [Zw|Nw].
  - rewrite add_zl_r by (auto; apply (wk_iszero c), Ny). exists 0%Q. split; auto. split; auto. split; auto. split.
    + unfold Addp_proofs.sv. rewrite Zw. ring.
    + change (Qabs 0) with 0%Q. lra.
  - specialize (Hmin Nw). specialize (Rw Nw). specialize (Pw Nw). pose proof (mag_pos c Hc w (proj1 Nw)) as Mw.
    assert (Hs2 : (mag w <= tau * mag y)%Q) by (rewrite <- (sv_abs w Nw); exact Hs).
    assert (Ht2 : (tau * mag y <= (1 # 10) * mag y)%Q) by (apply Qmult_le_compat_r; lra).
    assert (De : dexp w <= dexp y) by (apply exp_le; auto; lra).
    assert (Hpe : 0 <= Z.of_nat p * edc c) by (pose proof (edc_pos c); lia).
    assert (A : add_ok c p y w (add c y w)).
    { destruct (Bool.bool_dec (dneg w) false) as [Sw|Sw].
      - apply addp_same; auto; solve [congruence|clear - Ry Hpe; lia|clear - Rw Hpe; lia|lra].
      - apply not_false_is_true in Sw. apply addp_diff; auto. rewrite Sy, Sw. reflexivity. }
    destruct A as [A1 A2]. unfold ulpp in A2. rewrite Z.max_l, (unit_eta p (dexp y)) in A2 by auto.
    destruct (mag_bracket c Hc y (proj1 Ny)) as [By _].
    assert (U : (p10 (dexp y) * eta p <= mag y * eta p)%Q) by (apply Qmult_le_compat_r; lra).
    assert (U2 : (mag y * eta p <= mag y * (1 # 100))%Q) by (rewrite !(Qmult_comm (mag y)); apply Qmult_le_compat_r; lra).
    assert (Sw : (- mag w <= sv w)%Q /\ (sv w <= mag w)%Q) by (apply pm_bnd; rewrite (sv_abs w Nw); lra).
    assert (Sy2 : sv y = mag y) by (rewrite (sv_nz c y Ny), Sy; reflexivity). rewrite Sy2 in A2.
    set (z := add c y w) in *.
    assert (N : nz z /\ (dprec z = dprec y \/ nz w /\ dprec z = dprec w)).
    { destruct A1 as [A1|[(A1 & A3 & _)|[A1|A1]]].
      - exfalso. rewrite (sv_zl c z A1) in A2. lra.
      - split; auto. destruct A3; auto.
      - rewrite A1. auto.
      - exfalso. rewrite A1 in A2. lra. }
    destruct N as [Nz Pz].
    assert (Dz : dneg z = false).
    { destruct (dneg z) eqn:D; auto. exfalso. rewrite (sv_nz c z Nz), D in A2. pose proof (mag_pos c Hc z (proj1 Nz)). lra. }
    assert (Sz : sv z = mag z) by (rewrite (sv_nz c z Nz), Dz; reflexivity). rewrite Sz in A2.
    exists ((mag z - mag y - sv w) / mag y)%Q. split; auto. split; auto. split; auto. split; [field; lra|].
    apply pm_bnd. split; [apply Qle_shift_div_l|apply Qle_shift_div_r]; auto; lra.
Qed.

(** A difference of nearly equal numbers (used for 1 - 2sw and x - s*s). *)
Lemma add_near y x p : nz y -> nz x -> dneg y = true -> dneg x = false -> (2 <= p)%nat -> Nat.min (dprec y) (dprec x) = p ->
  (dprec y <= n)%nat -> (dprec x <= n)%nat ->
  - 2 ^ (E - 1) + Z.of_nat p * edc c <= dexp y < 2 ^ (E - 1) -> - 2 ^ (E - 1) + Z.of_nat p * edc c <= dexp x < 2 ^ (E - 1) ->
  ((98 # 100) * mag x <= mag y)%Q -> (mag y <= (102 # 100) * mag x)%Q ->
  let d := add c y x in
  (zl d \/ nz d) /\ (Qabs (sv d - (mag x - mag y)) <= 2 * p10 (Z.max (dexp y) (dexp x)) * eta p)%Q /\
  (nz d -> (dprec d = dprec y \/ dprec d = dprec x) /\ Z.max (dexp y) (dexp x) - (Z.of_nat p - 1) * edc c <= dexp d <= Z.max (dexp y) (dexp x)).
Proof.
  intros Ny Nx Sy Sx Hp Hmin Py Px Ry Rx H1 H2. cbv zeta. pose proof (eta_small c p ltac:(lia)) as [E0 E1].
  pose proof (mag_pos c Hc y (proj1 Ny)) as My. pose proof (mag_pos c Hc x (proj1 Nx)) as Mx.
  assert (A : add_ok c p y x (add c y x)) by (apply addp_diff; auto; rewrite Sy; auto).
  destruct A as [A1 A2]. unfold ulpp in A2. rewrite (unit_eta p) in A2.
  assert (Sy2 : sv y = (- mag y)%Q) by (rewrite (sv_nz c y Ny), Sy; reflexivity).
  assert (Sx2 : sv x = mag x) by (rewrite (sv_nz c x Nx), Sx; reflexivity). rewrite Sy2, Sx2 in A2.
  destruct (mag_bracket c Hc y (proj1 Ny)) as [By _]. destruct (mag_bracket c Hc x (proj1 Nx)) as [Bx _].
  assert (U : (p10 (Z.max (dexp y) (dexp x)) <= (102 # 100) * mag x)%Q) by (destruct (Z.max_spec (dexp y) (dexp x)) as [[_ ->]|[_ ->]]; lra).
  assert (U2 : (p10 (Z.max (dexp y) (dexp x)) * eta p <= (102 # 100) * mag x * (1 # 100))%Q).
  { pose proof (p10_pos (Z.max (dexp y) (dexp x))). apply Qmult_le_compat_nonneg; lra. }
  set (d := add c y x) in *. set (u := (p10 (Z.max (dexp y) (dexp x)) * eta p)%Q) in *.
  split; [|split].
  - destruct A1 as [A1|[(A1 & _)|[A1|A1]]]; auto.
    + exfalso. rewrite A1, Sy2 in A2. lra.
    + exfalso. rewrite A1, Sx2 in A2. lra.
  - apply pm_bnd. fold u. rewrite <- Qmult_assoc. fold u. lra.
  - intros Nd. destruct A1 as [A1|[(A1 & A3 & A4)|[A1|A1]]]; auto.
    + exfalso. destruct A1 as (A1 & _). rewrite (wk_iszero c d (proj1 Nd)) in A1. discriminate.
    + exfalso. rewrite A1, Sy2 in A2. lra.
    + exfalso. rewrite A1, Sx2 in A2. lra.
Qed.
End SO.
