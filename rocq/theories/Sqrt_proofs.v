(** Sqrt_proofs.v - one pass of the square-root iteration, then the whole iteration. *)
From Verif Require Export Sqrtop_proofs Floor_proofs.
From Coq Require Import Lqa.
Local Open Scope Z_scope.

Section SQ.
Variable c : cfg.
Notation L := (c_limb c).
Notation B := (mask L).
Notation V := (limbs_value B).
Notation ok := (digits_ok B).
Notation P n := (B ^ Z.of_nat n).
Notation E := (ebits (c_expo c)).
Notation n := (nel c).
Notation M := (max_exp10_of (c_expo c)).
Notation wk := (wk c).
Notation mag := (mag c).
Notation eta := (eta c).
Notation nz := (nz c).
Notation zl := (zl c).
Notation sv := (sv c).
Hypothesis Hc : cfg_ok c.
Hypothesis Hk : newton_ok c.
Let HB : 0 < B := mask_pos L.

Lemma p10_lt_pow a b q : (p10 a <= q)%Q -> (q < p10 b)%Q -> a < b.
Proof. intros. apply (proj1 (p10_lt a b)). lra. Qed.

Lemma div_le_step e k1 k2 : (0 < e) -> (e | k1) -> (e | k2) -> k1 < k2 -> k1 + e <= k2.
Proof. intros He [a ->] [b ->] H. apply Z.mul_lt_mono_pos_r in H; [|lia]. assert (H2 : (a + 1) * e <= b * e) by (apply Z.mul_le_mono_nonneg_r; lia). lia. Qed.

(** Exponents of s and vi against that of x. *)
Lemma step_exps x s w a b : nz x -> nz s -> nz w -> (mag s * mag s == mag x * (1 - a))%Q -> (2 * mag s * mag w == 1 - b)%Q ->
  (Qabs a <= 1 # 1000)%Q -> (Qabs b <= 1 # 1000)%Q ->
  dexp x - 2 * edc c <= 2 * dexp s <= dexp x + edc c /\ (dexp s + dexp w = - edc c \/ dexp s + dexp w = - (2 * edc c)).
Proof.
  intros [Wx Ox] [Ws Os] [Ww Ow] H1 H2 Ha Hb. apply pm_bnd in Ha, Hb. pose proof (edc_pos c) as He.
  destruct (mag_bracket c Hc x Wx) as [Bx _]. pose proof (mag_bracket_lt c Hc x Wx Ox) as Cx.
  destruct (mag_bracket c Hc s Ws) as [Bs _]. pose proof (mag_bracket_lt c Hc s Ws Os) as Cs.
  destruct (mag_bracket c Hc w Ww) as [Bw _]. pose proof (mag_bracket_lt c Hc w Ww Ow) as Cw.
  pose proof (mag_pos c Hc x Wx) as Mx. pose proof (mag_pos c Hc s Ws) as Ms. pose proof (mag_pos c Hc w Ww) as Mw.
  pose proof (p10_pos (dexp s)) as Ps. pose proof (p10_pos (dexp w)) as Pw.
  destruct Wx as (_ & _ & _ & Dx). destruct Ws as (_ & _ & _ & Ds). destruct Ww as (_ & _ & _ & Dw).
  assert (T10 : forall e, (10 * p10 e == p10 (e + 1))%Q) by (intros e; rewrite p10_add; change (p10 1) with 10%Q; ring).
  assert (X9 : ((999 # 1000) * mag x <= mag s * mag s)%Q) by (rewrite H1; setoid_replace ((999 # 1000) * mag x)%Q with (mag x * (999 # 1000))%Q by ring; rewrite !(Qmult_comm (mag x)); apply Qmult_le_compat_r; lra).
  assert (X1 : (mag s * mag s <= (1001 # 1000) * mag x)%Q) by (rewrite H1, (Qmult_comm (mag x)); apply Qmult_le_compat_r; lra).
  assert (S1 : (p10 (dexp s + dexp s) <= mag s * mag s)%Q) by (rewrite p10_add; apply Qmult_le_compat_nonneg; lra).
  assert (S2 : (mag s * mag s < p10 (dexp s + edc c + (dexp s + edc c)))%Q).
  { rewrite p10_add. apply Qle_lt_trans with (p10 (dexp s + edc c) * mag s)%Q; [apply Qmult_le_compat_r; lra|]. apply Qmult_lt_l; lra. }
  assert (G1 : dexp s + dexp s < dexp x + edc c + 1).
  { apply p10_lt_pow with (mag s * mag s)%Q; auto. rewrite <- T10. lra. }
  assert (G2 : dexp x - 1 < dexp s + edc c + (dexp s + edc c)).
  { apply p10_lt_pow with (mag s * mag s)%Q; auto. pose proof (T10 (dexp x - 1)) as T. replace (dexp x - 1 + 1) with (dexp x) in T by lia. lra. }
  split; [lia|].
  assert (W1 : (p10 (dexp s + dexp w) <= mag s * mag w)%Q) by (rewrite p10_add; apply Qmult_le_compat_nonneg; lra).
  assert (W2 : (mag s * mag w < p10 (dexp s + edc c + (dexp w + edc c)))%Q).
  { rewrite p10_add. apply Qle_lt_trans with (p10 (dexp s + edc c) * mag w)%Q; [apply Qmult_le_compat_r; lra|]. apply Qmult_lt_l; lra. }
  assert (G3 : dexp s + dexp w < 0) by (apply p10_lt_pow with (mag s * mag w)%Q; auto; rewrite p10_0; lra).
  assert (G4 : -1 < dexp s + edc c + (dexp w + edc c)).
  { apply p10_lt_pow with (mag s * mag w)%Q; auto. change (p10 (-1)) with (1 # 10)%Q. lra. }
  assert (Dsw : (edc c | dexp s + dexp w)) by (apply Z.divide_add_r; auto).
  assert (D2 : (edc c | - (2 * edc c))) by (exists (-2); lia).
  pose proof (div_le_step (edc c) (dexp s + dexp w) 0 ltac:(lia) Dsw (Z.divide_0_r _) G3) as G5.
  destruct (Z.eq_dec (dexp s + dexp w) (- (2 * edc c))) as [EQ|NE]; auto. left.
  pose proof (div_le_step (edc c) (- (2 * edc c)) (dexp s + dexp w) ltac:(lia) D2 Dsw ltac:(lia)). lia.
Qed.

Lemma sqrt_step_spec mem i x s w p a b tau : memory_ok mem -> nz x -> nz s -> nz w -> dneg x = false -> dneg s = false -> dneg w = false ->
  dprec x = p -> dprec s = p -> dprec w = p -> (2 <= p <= n)%nat ->
  - M + edc c * (Z.of_nat n + 8) < dexp x < M - edc c * (Z.of_nat n + 8) ->
  (mag s * mag s == mag x * (1 - a))%Q -> (2 * mag s * mag w == 1 - b)%Q ->
  (eta p <= 1 # 1000)%Q -> (Qabs a <= 1 # 1000)%Q -> (Qabs b <= 1 # 1000)%Q ->
  ((51 # 100) * Qabs a + 8 * eta p <= tau)%Q -> (Qabs b + 12 * eta p <= tau)%Q -> (tau <= 1 # 10)%Q ->
  (mag s * (1 + tau) < p10 (dexp s + edc c))%Q -> (mag w * (1 + tau) < p10 (dexp w + edc c))%Q ->
  exists s' w' a' b', sqrt_step c mem i x s w = Some (w', s') /\ nz s' /\ nz w' /\ dneg s' = false /\ dneg w' = false /\
    (p <= dprec s' <= n)%nat /\ (p <= dprec w' <= n)%nat /\
    (mag s' * mag s' == mag x * (1 - a'))%Q /\ (2 * mag s' * mag w' == 1 - b')%Q /\
    (Qabs a' <= Qabs a * (b * b) + (26 # 100) * (a * a) + 10 * eta p)%Q /\
    (Qabs b' <= b * b + (52 # 100) * Qabs a + 15 * eta p)%Q.
Proof.
  intros Hm Nx Ns Nw Sx Ss Sw Px Ps Pw Hp Rx HS HW Hh Ha Hb T1 T2 T3 CS CW.
  destruct (step_exps x s w a b Nx Ns Nw HS HW Ha Hb) as [Xs Xw].
  pose proof (edc_pos c) as He. pose proof (eta_small c p ltac:(lia)) as [E0 _].
  pose proof (max_exp10_bounds c) as (HM & HM2 & _).
  assert (Kp : Z.of_nat p * edc c <= edc c * Z.of_nat n) by (clear - Hp He; nia).
  assert (Kp0 : 0 <= Z.of_nat p * edc c) by (clear - Hp He; nia).
  replace (edc c * (Z.of_nat n + 8)) with (edc c * Z.of_nat n + 8 * edc c) in Rx by ring.
  set (K := edc c * Z.of_nat n) in *. set (pe := Z.of_nat p * edc c) in *.
  pose proof (mag_pos c Hc x (proj1 Nx)) as Mx. pose proof (mag_pos c Hc s (proj1 Ns)) as Ms. pose proof (mag_pos c Hc w (proj1 Nw)) as Mw.
  pose proof (proj1 (pm_bnd _ _) Ha) as Ha'. pose proof (proj1 (pm_bnd _ _) Hb) as Hb'.
  set (X := mag x) in *. set (S := mag s) in *. set (W := mag w) in *. set (h := eta p) in *.
  unfold sqrt_step.
  (* q = s * vi *)
  destruct (mulm_nz c Hc Hk mem i s w p Hm Ns Nw ltac:(rewrite Ps, Pw; apply Nat.min_id) Hp) as (q & t1 & EQ & Nq & Dq & Pq & Xq & Vq & Tq); [clear - Rx Xs Xw HM2 He HM Kp Kp0; lia|clear - Rx Xs Xw HM2 He HM Kp Kp0; lia|clear - Xw HM He; lia|].
  rewrite EQ. rewrite Ss, Sw in Dq. cbn [xorb] in Dq. assert (Pq' : dprec q = p) by (destruct Pq; congruence). fold S W h in Vq, Tq.
  assert (Bq : ((49 # 100) <= mag q)%Q /\ (mag q <= 51 # 100)%Q).
  { pose proof (pm_mul (S * W) t1 (51 # 100) (3 * h) ltac:(apply pm_bnd; lra) Tq) as K0. apply pm_bnd in K0. rewrite Vq.
    setoid_replace (S * W * (1 + t1))%Q with (S * W + S * W * t1)%Q by ring. lra. }
  assert (Eq : dexp q = - edc c).
  { destruct (mag_bracket c Hc q (proj1 Nq)) as [Bq1 _]. pose proof (mag_bracket_lt c Hc q (proj1 Nq) (proj2 Nq)) as Bq2.
    assert (dexp q < 0) by (apply p10_lt_pow with (mag q); auto; rewrite p10_0; lra).
    assert (-1 < dexp q + edc c) by (apply p10_lt_pow with (mag q); auto; change (p10 (-1)) with (1 # 10)%Q; lra).
    clear - Xq Xw H H0 He. lia. }
  (* q2 = -2 q *)
  destruct (mul_m2 c Hc q p Nq Dq Pq' Hp Eq) as (q2 & E2 & N2 & S2 & P2 & X2 & V2). rewrite E2. fold h in V2.
  (* t = 1 - 2q *)
  destruct (normal_facts c Hc _ (one_normal c Hc)) as (L1 & O1 & P1 & _).
  assert (Z1 : iszero (one c) = false).
  { destruct (iszero (one c)) eqn:Z; auto. apply (value_zero_iff c Hc _ (one_normal c Hc)) in Z. rewrite (one_value c Hc) in Z. discriminate. }
  assert (N1 : nz (one c)) by (split; [apply normal_wk; auto; apply one_normal; auto|auto]).
  assert (V1 : (mag (one c) == 1)%Q) by (rewrite <- (mag_value c (one c)), (one_value c Hc) by auto; reflexivity).
  assert (X1 : dexp (one c) = 0) by reflexivity.
  assert (Bq2 : ((98 # 100) * mag (one c) <= mag q2)%Q /\ (mag q2 <= (102 # 100) * mag (one c))%Q).
  { rewrite V1. apply pm_bnd in V2. assert (h <= 1 # 1000)%Q by exact Hh.
    pose proof (pm_mul (S * W) t1 (5005 # 10000) (3 * h) ltac:(apply pm_bnd; lra) Tq) as K0. apply pm_bnd in K0.
    assert (mag q == S * W + S * W * t1)%Q by (rewrite Vq; ring). lra. }
  assert (R12 : forall k, - (2 * edc c) <= k <= 0 -> - 2 ^ (E - 1) + pe <= k < 2 ^ (E - 1)) by (intros k Hk0; clear - Hk0 HM2 Rx Kp He HM; lia).
  destruct (add_near c Hc q2 (one c) p N2 N1 S2 eq_refl (proj1 Hp) ltac:(rewrite P1, P2; apply Nat.min_l, Hp) ltac:(rewrite P2; apply Hp) ltac:(rewrite P1; apply le_n)) as (Nt & Vt & Xt);
    [apply R12; clear - X2 He; lia|apply R12; rewrite X1; clear - He; lia|apply Bq2|apply Bq2|].
  set (t := add c q2 (one c)) in *. replace ((Z.of_nat p - 1) * edc c) with (pe - edc c) in Xt by (unfold pe; ring).
  replace (Z.max (dexp q2) (dexp (one c))) with 0 in * by (rewrite X1; clear - X2 He; lia).
  rewrite p10_0, V1 in Vt. fold h in Vt.
  assert (Vt' : (Qabs (sv t - (1 - mag q2)) <= 2 * h)%Q) by (eapply pm_le; [exact Vt|lra]).
  assert (Tt : (Qabs (sv t - b) <= (701 # 100) * h)%Q).
  { apply (step_t a b (sv t) t1 0 (mag q2) (mag q) (S * W) h); auto; lra. }
  (* w1 = vi * t *)
  assert (Rt : - 2 ^ (E - 1) <= dexp t < 2 ^ (E - 1) /\ - M < dexp w + dexp t /\ dexp w + dexp t <= dexp w /\ (nz t -> Nat.min (dprec w) (dprec t) = p)).
  { destruct Nt as [Zt|Nt].
    - destruct Zt as (Zt & _ & _ & D0 & _). rewrite D0. split; [apply expo0|]. split; [clear - Xw Xs Rx He Kp; lia|]. split; [clear; lia|].
      intros N0. rewrite (wk_iszero c t (proj1 N0)) in Zt. discriminate.
    - destruct (Xt Nt) as [Pt Xt']. split; [clear - Xt' HM2 Rx Kp He HM; lia|]. split; [clear - Xt' Xw Xs Rx He Kp; lia|]. split; [clear - Xt'; lia|].
      intros _. rewrite Pw. destruct Pt as [-> | ->]; [rewrite P2; apply Nat.min_id|rewrite P1; apply Nat.min_l, Hp]. }
  destruct Rt as (Rt1 & Rt2 & Rt3 & Rt4).
  assert (Rw : - 2 ^ (E - 1) + pe <= dexp w < 2 ^ (E - 1)) by (clear - Xw Xs Rx He Kp HM HM2; lia).
  assert (RwM : dexp w < M) by (clear - Xw Xs Rx He Kp Kp0 HM HM2; lia).
  destruct (mul_any c Hc Hk mem (i + 1) w t p Hm Nw Sw Nt Hp Rt4) as (w1 & t4 & E3 & V3 & T4 & N3); [clear - Rw Kp0; lia|exact Rt1|clear - Rt2 Rt3 Kp0 RwM; lia|].
  rewrite E3. fold W h in V3, T4.
  assert (Bt : (Qabs (sv t * (1 + t4)) <= Qabs b + (9 # 1) * h)%Q).
  { pose proof (step_w b (sv t) t4 0 h ltac:(lra) Hh Hb Tt T4 ltac:(change (Qabs 0) with 0%Q; lra)) as K0.
    assert (Kt : (Qabs (sv t) <= 9 # 1000)%Q) by (apply pm_bnd in Tt; apply pm_bnd; lra).
    pose proof (pm_mul _ _ _ _ Kt T4) as K1. setoid_replace (sv t * (1 + t4))%Q with (sv t + sv t * t4)%Q by ring.
    pose proof (proj1 (pm_bnd b (Qabs b)) (Qle_refl _)) as Hbb. apply pm_bnd in Tt, K1. apply pm_bnd. lra. }
  (* vi' *)
  assert (Pp : forall z, (dprec z = dprec w \/ dprec z = dprec t) -> nz t -> (p <= dprec z <= n)%nat).
  { intros z Hz Nt0. destruct (Xt Nt0) as [Pt _]. rewrite Pw in Hz. destruct Hz as [-> | ->]; [clear - Hp; lia|]. destruct Pt as [-> | ->]; [rewrite P2|rewrite P1]; clear - Hp; lia. }
  assert (N3' : nz w1 -> (p <= dprec w1 <= n)%nat /\ dexp w + dexp t <= dexp w1 <= dexp w + dexp t + edc c).
  { intros N0. destruct N3 as [Z3|(_ & P3 & X3)]; [rewrite (wk_iszero c w1 (proj1 N0)) in Z3; discriminate|]. split; auto.
    apply Pp; auto. destruct Nt as [Zt|]; auto. exfalso.
    rewrite (sv_zl c t Zt), (sv_nz c w1 N0) in V3. pose proof (mag_pos c Hc w1 (proj1 N0)). destruct (dneg w1); lra. }
  assert (N3z : iszero w1 = true \/ nz w1) by (destruct N3 as [?|(? & _)]; auto).
  destruct (add_small c Hc w w1 p tau Nw Sw N3z (proj1 Hp)) as (e5 & N4 & S4 & P4 & V4 & E5); auto; try (clear - Pw Hp; lia).
  { intros N0. destruct (N3' N0) as [A _]. rewrite Pw. apply Nat.min_l, A. }
  { intros N0. destruct (N3' N0) as [A _]. apply A. }
  { intros N0. destruct (N3' N0) as [_ A]. clear - A Rt2 Rt3 RwM HM2 He HM Kp0 Rx Kp. lia. }
  { rewrite V3. fold W. setoid_replace (W * sv t * (1 + t4))%Q with (W * (sv t * (1 + t4)))%Q by ring. rewrite Qabs_Qmult, Qabs_pos, Qmult_comm by lra.
    apply Qmult_le_compat_r; [|lra]. eapply Qle_trans; [exact Bt|]. lra. }
  set (w' := add c w w1) in *. fold W h in V4, E5.
  assert (Pw' : (p <= dprec w' <= n)%nat) by (destruct P4 as [->|[N0 ->]]; [clear - Pw Hp; lia|apply N3'; auto]).
  set (e2 := (sv t * (1 + t4) + e5 - b)%Q).
  assert (He2 : (Qabs e2 <= (91 # 10) * h)%Q) by (apply step_w; auto; lra).
  assert (VW : (mag w' == W * (1 + b + e2))%Q) by (rewrite V4, V3; unfold e2; ring).
  (* sq *)
  destruct (mulm_nz c Hc Hk mem (i + 2) s s p Hm Ns Ns ltac:(rewrite Ps; apply Nat.min_id) Hp) as (sq & t6 & E6 & N6 & D6 & P6 & X6 & V6 & T6); [clear - Rx Xs HM2 He HM Kp Kp0; lia|clear - Rx Xs HM2 He HM Kp Kp0; lia|clear - Rx Xs HM2 He HM Kp Kp0; lia|].
  rewrite E6. rewrite Ss in D6. cbn [xorb] in D6. assert (P6' : dprec sq = p) by (destruct P6; congruence). fold S h in V6, T6.
  assert (V6' : (mag sq == X * (1 - a) * (1 + t6))%Q) by (rewrite V6, HS; reflexivity).
  assert (Ka : (Qabs ((1 - a) * t6) <= (1001 # 1000) * (3 * h))%Q) by (apply pm_mul; auto; apply pm_bnd; lra).
  assert (Fq : (mag sq == (1 - a + (1 - a) * t6) * X)%Q) by (rewrite V6'; ring).
  apply pm_bnd in Ka.
  assert (B6 : ((98 # 100) * X <= mag sq)%Q /\ (mag sq <= (102 # 100) * X)%Q) by (rewrite Fq; split; apply Qmult_le_compat_r; lra).
  (* d = x - sq *)
  unfold negate. rewrite (wk_iszero c sq (proj1 N6)). rewrite D6. cbn [negb].
  set (nsq := mkDec (data sq) (dexp sq) true (dprec sq)).
  assert (N7 : nz nsq) by exact N6. assert (V7 : mag nsq = mag sq) by reflexivity.
  assert (R7 : - 2 ^ (E - 1) + pe <= dexp nsq < 2 ^ (E - 1)) by (change (dexp nsq) with (dexp sq); clear - X6 Rx Xs HM2 He HM Kp Kp0; lia).
  destruct (add_near c Hc nsq x p N7 Nx eq_refl Sx (proj1 Hp) ltac:(change (dprec nsq) with (dprec sq); rewrite P6', Px; apply Nat.min_id)) as (Nd & Vd & Xd); auto.
  { change (dprec nsq) with (dprec sq). rewrite P6'. apply Hp. } { rewrite Px. apply Hp. } { clear - Rx Kp Kp0 HM HM2 He; lia. } { apply B6. } { apply B6. }
  set (d := add c nsq x) in *. rewrite V7 in Vd. change (dexp nsq) with (dexp sq) in *. change (dprec nsq) with (dprec sq) in *. rewrite P6', Px in Xd.
  set (em := Z.max (dexp sq) (dexp x)) in *. replace ((Z.of_nat p - 1) * edc c) with (pe - edc c) in Xd by (unfold pe; ring).
  assert (Um : (p10 em <= (102 # 100) * X)%Q).
  { destruct (mag_bracket c Hc sq (proj1 N6)) as [B1 _]. destruct (mag_bracket c Hc x (proj1 Nx)) as [B2 _]. fold X in B2. unfold em.
    destruct (Z.max_spec (dexp sq) (dexp x)) as [[_ ->]|[_ ->]]; lra. }
  fold h X in Vd.
  set (dl := ((sv d - (X - mag sq)) / X)%Q).
  assert (Hdl : (Qabs dl <= (205 # 100) * h)%Q).
  { unfold dl. unfold Qdiv. rewrite Qabs_Qmult, (Qabs_pos (/ X)) by (apply Qlt_le_weak, Qinv_lt_0_compat; lra).
    apply Qle_shift_div_r; auto. eapply Qle_trans; [exact Vd|].
    setoid_replace (2 * p10 em * h)%Q with (p10 em * (2 * h))%Q by ring. setoid_replace ((205 # 100) * h * X)%Q with ((205 # 200) * X * (2 * h))%Q by ring.
    apply Qmult_le_compat_r; lra. }
  set (e3 := (dl - (1 - a) * t6)%Q).
  assert (He3 : (Qabs e3 <= (51 # 10) * h)%Q) by (apply step_d; auto; lra).
  assert (VD : (sv d == X * (a + e3))%Q).
  { unfold e3. setoid_replace (a + (dl - (1 - a) * t6))%Q with (dl + (1 - (1 - a) * (1 + t6)))%Q by ring. unfold dl. rewrite V6'. field. lra. }
  (* w2 = vi' * d *)
  assert (Dw' : dexp w - edc c <= dexp w' <= dexp w).
  { assert (Hlt : (mag w' < p10 (dexp w + edc c))%Q).
    { rewrite VW. eapply Qle_lt_trans; [|exact CW]. rewrite !(Qmult_comm W). apply Qmult_le_compat_r; [|lra].
      pose proof (proj1 (pm_bnd b (Qabs b)) (Qle_refl _)) as Hbb. apply pm_bnd in He2. lra. }
    assert (Hge : ((1 # 2) * W <= mag w')%Q).
    { rewrite VW, (Qmult_comm W). apply Qmult_le_compat_r; [|lra]. apply pm_bnd in He2. lra. }
    destruct (mag_bracket c Hc w (proj1 Nw)) as [B1 _]. fold W in B1.
    destruct (mag_bracket c Hc w' (proj1 N4)) as [B2 _]. pose proof (mag_bracket_lt c Hc w' (proj1 N4) (proj2 N4)) as B3.
    assert (G1 : dexp w' < dexp w + edc c) by (apply p10_lt_pow with (mag w'); auto).
    assert (G2 : dexp w - 1 < dexp w' + edc c).
    { apply p10_lt_pow with (mag w'); auto. pose proof (p10_add (dexp w - 1) 1) as T. replace (dexp w - 1 + 1) with (dexp w) in T by ring. change (p10 1) with 10%Q in T. lra. }
    destruct N4 as ((_ & _ & _ & Dv1) & _). destruct Nw as ((_ & _ & _ & Dv2) & _).
    assert (G3 : dexp w' + edc c <= dexp w + edc c) by (apply div_le_step; [clear - He; lia|exact Dv1|apply Z.divide_add_r; [exact Dv2|apply Z.divide_refl]|exact G1]).
    clear - G2 G3; lia. }
  assert (Rd : - 2 ^ (E - 1) <= dexp d < 2 ^ (E - 1) /\ - M < dexp w' + dexp d < M /\ (nz d -> Nat.min (dprec w') (dprec d) = p)).
  { destruct Nd as [Zd|Nd].
    - destruct Zd as (Zd & _ & _ & D0 & _). rewrite D0. split; [apply expo0|]. split; [clear - Dw' Xw Xs Rx He Kp Kp0; lia|].
      intros N0. rewrite (wk_iszero c d (proj1 N0)) in Zd. discriminate.
    - destruct (Xd Nd) as [Pd Xd']. split; [unfold em in Xd'; clear - Xd' X6 Xs HM2 Rx Kp He HM; lia|]. split; [unfold em in Xd'; clear - Xd' X6 Dw' Xw Xs Rx He Kp; lia|].
      intros _. destruct Pd as [-> | ->]; apply Nat.min_r, Pw'. }
  destruct Rd as (Rd1 & Rd2 & Rd3).
  destruct (mul_any c Hc Hk mem (i + 3) w' d p Hm N4 S4 Nd Hp Rd3) as (w2 & t8 & E8 & V8 & T8 & N8); [clear - Dw' Rw He HM2 Xw Xs Rx HM Kp Kp0; lia|exact Rd1|exact Rd2|].
  rewrite E8. fold h in T8.
  set (g0 := ((1 + b + e2) * (1 - b) * ((a + e3) * (1 + t8)) / (2 * (1 - a)))%Q).
  assert (V8' : (sv w2 == S * g0)%Q).
  { rewrite V8, VW, VD. unfold g0. assert (EW : (W == (1 - b) / (2 * S))%Q) by (rewrite <- HW; field; lra). rewrite EW.
    assert (EX : (X == S * S / (1 - a))%Q) by (rewrite HS; field; lra). rewrite EX. field. split; lra. }
  assert (Hg0 : (Qabs g0 <= (51 # 100) * Qabs a + 5 * h)%Q).
  { apply (step_num a b e2 e3 t8 0 g0 h); auto; try lra; [change (Qabs 0) with 0%Q; lra|]. unfold g0. field. lra. }
  assert (N8' : nz w2 -> dprec w2 = p /\ dexp w' + dexp d <= dexp w2 <= dexp w' + dexp d + edc c \/ (p <= dprec w2 <= n)%nat /\ dexp w' + dexp d <= dexp w2 <= dexp w' + dexp d + edc c).
  { intros N0. destruct N8 as [Z8|(_ & P8 & X8)]; [rewrite (wk_iszero c w2 (proj1 N0)) in Z8; discriminate|].
    right. split; [|exact X8]. destruct Nd as [Zd|Nd].
    - exfalso. rewrite (sv_zl c d Zd), (sv_nz c w2 N0) in V8. pose proof (mag_pos c Hc w2 (proj1 N0)). destruct (dneg w2); lra.
    - destruct P8 as [->| ->]; auto. destruct (Xd Nd) as [[->| ->] _]; clear - Hp; lia. }
  assert (Xw2 : nz w2 -> - 2 ^ (E - 1) + pe <= dexp w2 < 2 ^ (E - 1)).
  { intros N0. assert (X8 : dexp w' + dexp d <= dexp w2 <= dexp w' + dexp d + edc c) by (destruct (N8' N0) as [[_ ?]|[_ ?]]; auto).
    clear - X8 Rd2 HM2 He HM Kp Kp0 Rx. lia. }
  assert (N8z : iszero w2 = true \/ nz w2) by (destruct N8 as [?|(? & _)]; auto).
  destruct (add_small c Hc s w2 p tau Ns Ss N8z (proj1 Hp)) as (e9 & N9 & S9 & P9 & V9 & E9); auto; try (clear - Ps Hp; lia).
  { intros N0. rewrite Ps. destruct (N8' N0) as [[-> _]|[A _]]; [apply Nat.min_id|apply Nat.min_l; clear - A; lia]. }
  { intros N0. destruct (N8' N0) as [[-> _]|[A _]]; [clear - Hp; lia|clear - A; lia]. }
  { clear - Rx Xs HM2 He HM Kp Kp0; lia. }
  { rewrite V8'. fold S. rewrite Qabs_Qmult, Qabs_pos, Qmult_comm by lra. apply Qmult_le_compat_r; [|lra]. lra. }
  set (s' := add c s w2) in *. fold S h in V9, E9.
  set (g := (g0 + e9)%Q).
  assert (VS : (mag s' == S * (1 + g))%Q) by (rewrite V9, V8'; unfold g; ring).
  destruct (step_num a b e2 e3 t8 e9 g h) as (_ & G2 & G3); auto; try lra.
  { unfold g, g0. field. lra. }
  exists s', w', (1 - (1 - a) * ((1 + g) * (1 + g)))%Q, (1 - (1 - b) * (1 + b + e2) * (1 + g))%Q.
  split; [reflexivity|]. split; auto. split; auto. split; auto. split; auto.
  split; [destruct P9 as [->|[N0 ->]]; [clear - Ps Hp; lia|destruct (N8' N0) as [[-> _]|[A _]]; [clear - Hp; lia|exact A]]|].
  split; auto.
  split; [rewrite VS; setoid_replace (S * (1 + g) * (S * (1 + g)))%Q with (S * S * ((1 + g) * (1 + g)))%Q by ring; rewrite HS; ring|].
  split; [rewrite VS, VW; setoid_replace (2 * (S * (1 + g)) * (W * (1 + b + e2)))%Q with (2 * S * W * ((1 + b + e2) * (1 + g)))%Q by ring; rewrite HW; ring|].
  split; auto.
Qed.
End SQ.
