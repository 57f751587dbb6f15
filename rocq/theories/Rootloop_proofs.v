(** Rootloop_proofs.v - the root iteration: the residual shrinks quadratically. *)
From Verif Require Export Rootstep_proofs Newton3_proofs.
From Coq Require Import Lqa.
Local Open Scope Z_scope.

(** Error recurrences; [q] is 10^-s, [h] and [g] are P times the relative unit. *)
Lemma rl_early (a a' q g h A : Q) : (0 < q -> q <= 1 # 10000 -> 0 <= h -> 0 <= g -> h <= (3 # 100) * (q * q) -> g <= (3 # 100) * (q * q) ->
  Qabs a <= q + 11 * g -> 0 <= A -> A <= (8 # 1000) * q -> Qabs a' <= (68 # 100) * (a * a) + 9 * h + (102 # 100) * (Qabs a * A) -> Qabs a' <= q * q)%Q.
Proof.
  intros q0 q1 h0 g0 Hh Hg Ha A0 HA H. pose proof (Qabs_nonneg a) as a0.
  assert (QQ : (q * q <= (1 # 10000) * q)%Q) by (apply Qmult_le_compat_r; lra).
  assert (Q0 : (0 < q * q)%Q) by (apply Qmult_lt_0_compat; auto).
  assert (B1 : (Qabs a <= (1001 # 1000) * q)%Q) by lra.
  assert (B2 : (a * a <= (1001 # 1000) * q * ((1001 # 1000) * q))%Q) by (rewrite <- abs_sq; apply Qmult_le_compat_nonneg; split; auto).
  assert (B3 : (Qabs a * A <= (1001 # 1000) * q * ((8 # 1000) * q))%Q) by (apply Qmult_le_compat_nonneg; split; auto).
  lra.
Qed.

Lemma rl_late (a a' q h A b : Q) : (0 < q -> q <= 1 # 10000 -> 0 <= h -> h <= 4 # 1000000 ->
  Qabs a <= q + 11 * h -> A == 2 * (h * b) -> 0 <= b -> q * b <= 1 # 10 -> h * b <= 4 # 100000 ->
  Qabs a' <= (68 # 100) * (a * a) + 9 * h + (102 # 100) * (Qabs a * A) -> Qabs a' <= q * q + 11 * h)%Q.
Proof.
  intros q0 q1 h0 h1 Ha HA b0 Hqb Hhb H. pose proof (Qabs_nonneg a) as a0.
  assert (Q0 : (0 < q * q)%Q) by (apply Qmult_lt_0_compat; auto).
  assert (B2 : (a * a <= (q + 11 * h) * (q + 11 * h))%Q) by (rewrite <- abs_sq; apply Qmult_le_compat_nonneg; split; auto).
  assert (QH : (q * h <= (1 # 10000) * h)%Q) by (apply Qmult_le_compat_r; lra).
  assert (HH : (h * h <= (4 # 1000000) * h)%Q) by (apply Qmult_le_compat_r; lra).
  assert (HB : (0 <= h * b)%Q) by (apply Qmult_le_0_compat; auto).
  assert (B3 : (Qabs a * A <= (q + 11 * h) * A)%Q) by (apply Qmult_le_compat_r; lra).
  rewrite HA in B3 at 2.
  assert (B4 : (h * (q * b) <= h * (1 # 10))%Q) by (rewrite !(Qmult_comm h); apply Qmult_le_compat_r; lra).
  assert (B5 : (h * (h * b) <= h * (4 # 100000))%Q) by (rewrite !(Qmult_comm h (_)); apply Qmult_le_compat_r; lra).
  setoid_replace ((q + 11 * h) * (2 * (h * b)))%Q with (2 * (h * (q * b)) + 22 * (h * (h * b)))%Q in B3 by ring.
  setoid_replace ((q + 11 * h) * (q + 11 * h))%Q with (q * q + 22 * (q * h) + 121 * (h * h))%Q in B2 by ring.
  lra.
Qed.

Section RL.
Variable c : cfg.
Variable F : ftype.
Notation L := (c_limb c).
Notation B := (mask L).
Notation E := (ebits (c_expo c)).
Notation n := (nel c).
Notation M := (max_exp10_of (c_expo c)).
Notation mag := (mag c).
Notation eta := (eta c).
Notation nz := (nz c).
Hypothesis Hc : cfg_ok c.
Hypothesis Hk : newton_ok c.
Variable pw : nat.
Hypothesis Hpw : (3 <= pw <= 37)%nat.
Hypothesis Hn : 7 <= edc c * (Z.of_nat n - 1).

Definition digits_kept (d s : Z) : Prop := (pw = 3%nat /\ s = d \/ s < d) /\ 4 * d <= 5 * s /\ 4 <= s /\ (d = 5 \/ 9 <= d).

Lemma kept2 d s : digits_kept d s -> digits_kept (d * 2) (s * 2).
Proof. unfold digits_kept. lia. Qed.

Lemma pwB : Z.of_nat pw < B.
Proof. destruct L; cbn; lia. Qed.

Lemma iN37 : (3 <= iN pw /\ iN pw <= 37)%Q.
Proof. unfold iN. change 3%Q with (inject_Z 3). change 37%Q with (inject_Z 37). rewrite <- !Zle_Qle. lia. Qed.

Lemma edc_cases : edc c = 2 \/ edc c = 4 \/ edc c = 8.
Proof. unfold edc. destruct L; cbn; auto. Qed.

Lemma dbl10 k : (p10 (- (k * 2)) == p10 (- k) * p10 (- k))%Q.
Proof. rewrite <- p10_add. replace (- k + - k) with (- (k * 2)) by ring. reflexivity. Qed.

(** P 10^(s-d) <= 3.7 and P 10^(2(s-d)) <= 3. *)
Lemma kept_P d s : digits_kept d s -> (iN pw * p10 (s - d) <= 37 # 10)%Q /\ (iN pw * p10 (2 * (s - d)) <= 3)%Q.
Proof.
  intros (H & _). pose proof iN37 as [I1 I2].
  destruct H as [[-> ->]|H].
  - rewrite Z.sub_diag. change (2 * 0) with 0. change (p10 0) with 1%Q. change (iN 3) with 3%Q. split; lra.
  - assert (K1 : (p10 (s - d) <= 1 # 10)%Q) by (change (1 # 10)%Q with (p10 (-1)); apply (proj2 (p10_le _ _)); lia).
    assert (K2 : (p10 (2 * (s - d)) <= 1 # 100)%Q) by (change (1 # 100)%Q with (p10 (-2)); apply (proj2 (p10_le _ _)); lia).
    pose proof (p10_pos (s - d)) as P1. pose proof (p10_pos (2 * (s - d))) as P2.
    split; [apply Qle_trans with (37 * (1 # 10))%Q|apply Qle_trans with (37 * (1 # 100))%Q]; try lra; try (apply Qmult_le_compat_nonneg; split; lra); discriminate.
Qed.

Lemma loop_phase d s p a a' : digits_kept d s -> (2 <= p <= n)%nat ->
  (p = n /\ edc c * (Z.of_nat n - 1) <= 2 * d \/ 2 * d + 2 <= edc c * (Z.of_nat p - 1)) ->
  (Qabs a <= p10 (- s) + 11 * (iN pw * eta n))%Q ->
  ((3 <= p)%nat /\ Qabs a <= 1 # 1000 /\ iN pw * eta p <= 1 # 10000 /\ dloss c p (Z.of_nat pw) <= 1 # 100)%Q /\
  ((Qabs a' <= (68 # 100) * (a * a) + (9 # 1) * (iN pw * eta p) + (102 # 100) * (Qabs a * dloss c p (Z.of_nat pw)))%Q ->
   (Qabs a' <= p10 (- (s * 2)) + 11 * (iN pw * eta n))%Q).
Proof.
  intros HD Hp Hpd Ha. pose proof (kept_P d s HD) as [KP1 KP2]. pose proof HD as (HD1 & HD2 & HD3 & HD4).
  pose proof iN37 as [I1 I2]. destruct (eta_small c p ltac:(lia)) as [E0 _]. destruct (eta_small c n ltac:(lia)) as [E0n _].
  pose proof edc_cases as EC.
  set (q := p10 (- s)) in *. assert (q0 : (0 < q)%Q) by apply p10_pos.
  assert (q1 : (q <= 1 # 10000)%Q) by (change (1 # 10000)%Q with (p10 (-4)); apply (proj2 (p10_le _ _)); lia).
  assert (En : (eta n <= p10 (-7))%Q) by (unfold Newton_proofs.eta; apply (proj2 (p10_le _ _)); lia). change (p10 (-7)) with (1 # 10000000)%Q in En.
  assert (HN : (iN pw * eta n <= 37 * (1 # 10000000))%Q) by (apply Qmult_le_compat_nonneg; split; lra).
  assert (HN0 : (0 <= iN pw * eta n)%Q) by (apply Qmult_le_0_compat; lra).
  assert (HP0 : (0 <= iN pw * eta p)%Q) by (apply Qmult_le_0_compat; lra).
  assert (A3 : (Qabs a <= 1 # 1000)%Q) by lra.
  assert (DL : (dloss c p (Z.of_nat pw) == 2 * (iN pw * p10 (- (edc c * (Z.of_nat p - 2)))))%Q) by (unfold dloss, iN; rewrite inject_Z_mult; change (inject_Z 2) with 2%Q; ring).
  rewrite dbl10. fold q.
  destruct Hpd as [[-> Hl]|Hl].
  - (* full precision *)
    assert (n4 : (4 <= n)%nat) by (apply nel_ge4; auto).
    set (b := p10 (edc c)). assert (b0 : (0 < b)%Q) by apply p10_pos.
    assert (DB : (p10 (- (edc c * (Z.of_nat n - 2))) == eta n * b)%Q).
    { unfold Newton_proofs.eta, b. rewrite <- p10_add. replace (- (edc c * (Z.of_nat n - 1)) + edc c) with (- (edc c * (Z.of_nat n - 2))) by ring. reflexivity. }
    assert (HB : (eta n * b <= 1 # 1000000)%Q).
    { rewrite <- DB. change (1 # 1000000)%Q with (p10 (-6)). apply (proj2 (p10_le _ _)). destruct EC as [EC|[EC|EC]]; rewrite EC in *; lia. }
    assert (HB2 : (0 <= eta n * b)%Q) by (apply Qmult_le_0_compat; lra).
    assert (HB3 : (iN pw * eta n * b <= 4 # 100000)%Q).
    { rewrite <- Qmult_assoc. apply Qle_trans with (37 * (1 # 1000000))%Q; [apply Qmult_le_compat_nonneg; split; lra|discriminate]. }
    rewrite DB in DL.
    assert (DL2 : (dloss c n (Z.of_nat pw) == 2 * (iN pw * eta n * b))%Q) by (rewrite DL; ring).
    split.
    + split; [lia|]. split; auto. split; [lra|]. rewrite DL2. lra.
    + intros H. apply (rl_late a a' q (iN pw * eta n) (dloss c n (Z.of_nat pw)) b); auto; try lra.
      unfold q, b. rewrite <- p10_add. change (1 # 10)%Q with (p10 (-1)). apply (proj2 (p10_le _ _)).
      destruct EC as [EC|[EC|EC]]; rewrite EC in *; lia.
  - assert (p3 : (3 <= p)%nat) by (destruct EC as [EC|[EC|EC]]; rewrite EC in *; lia).
    assert (K3 : (iN pw * eta p <= (3 # 100) * (q * q))%Q).
    { apply Qle_trans with (iN pw * (p10 (2 * (s - d)) * ((1 # 100) * (q * q))))%Q.
      - rewrite !(Qmult_comm (iN pw)). apply Qmult_le_compat_r; [|lra]. unfold Newton_proofs.eta, q. change (1 # 100)%Q with (p10 (-2)).
        rewrite <- !p10_add. apply (proj2 (p10_le _ _)). lia.
      - setoid_replace (iN pw * (p10 (2 * (s - d)) * ((1 # 100) * (q * q))))%Q with (iN pw * p10 (2 * (s - d)) * ((1 # 100) * (q * q)))%Q by ring.
        setoid_replace ((3 # 100) * (q * q))%Q with (3 * ((1 # 100) * (q * q)))%Q by ring. apply Qmult_le_compat_r; auto.
        apply Qmult_le_0_compat; [discriminate|]. apply Qmult_le_0_compat; lra. }
    assert (Em : (eta n <= eta p)%Q) by (apply eta_mono; lia).
    assert (K4 : (iN pw * eta n <= (3 # 100) * (q * q))%Q) by (eapply Qle_trans; [|exact K3]; rewrite !(Qmult_comm (iN pw)); apply Qmult_le_compat_r; lra).
    assert (K5 : (p10 (- (edc c * (Z.of_nat p - 2))) <= p10 (s - d) * ((1 # 1000) * q))%Q).
    { unfold q. change (1 # 1000)%Q with (p10 (-3)). rewrite <- !p10_add. apply (proj2 (p10_le _ _)).
      destruct EC as [EC|[EC|EC]]; rewrite EC in *; lia. }
    assert (K6 : (dloss c p (Z.of_nat pw) <= (8 # 1000) * q)%Q).
    { rewrite DL. apply Qle_trans with (2 * (iN pw * (p10 (s - d) * ((1 # 1000) * q))))%Q.
      - rewrite !(Qmult_comm 2). apply Qmult_le_compat_r; [|discriminate]. rewrite !(Qmult_comm (iN pw)). apply Qmult_le_compat_r; [auto|lra].
      - setoid_replace (2 * (iN pw * (p10 (s - d) * ((1 # 1000) * q))))%Q with (iN pw * p10 (s - d) * ((2 # 1000) * q))%Q by ring.
        apply Qle_trans with ((37 # 10) * ((2 # 1000) * q))%Q; [apply Qmult_le_compat_r; [auto|lra]|lra]. }
    assert (K7 : (0 <= dloss c p (Z.of_nat pw))%Q) by (rewrite DL; apply Qmult_le_0_compat; [discriminate|]; apply Qmult_le_0_compat; [lra|apply Qlt_le_weak, p10_pos]).
    split.
    + split; auto. split; auto. assert (q * q <= (1 # 10000) * q)%Q by (apply Qmult_le_compat_r; lra). split; [lra|]. lra.
    + intros H. assert (Qabs a' <= q * q)%Q; [|lra].
      apply (rl_early a a' q (iN pw * eta n) (iN pw * eta p) (dloss c p (Z.of_nat pw))); auto.
Qed.

Lemma root_loop_spec mem k : memory_ok mem ->
  forall i d s x r a, nz x -> nz r -> dneg x = false -> dneg r = false ->
  - M + edc c * (Z.of_nat n + 8) < dexp x < M - edc c * (Z.of_nat n + 8) ->
  (qp (mag r) pw * mag x == 1 - a)%Q -> (Qabs a <= p10 (- s) + 11 * (iN pw * eta n))%Q -> digits_kept d s ->
  Z.of_nat n * edc c <= d * 2 ^ Z.of_nat k -> forall fuel, (k < fuel)%nat ->
  exists r' a' j, rootn_loop c F fuel mem n i (Z.of_nat pw) d r x = Ret r' /\ nz r' /\ dneg r' = false /\
    (qp (mag r') pw * mag x == 1 - a')%Q /\ (Qabs a' <= p10 (- (s * 2 ^ Z.of_nat j)) + 11 * (iN pw * eta n))%Q /\ Z.of_nat n * edc c <= d * 2 ^ Z.of_nat j.
Proof.
  intros Hmem. induction k as [|k IH]; intros i d s x r a Nx Nr Sx Sr Rx HR Ha HD Hfin fuel Hf; (destruct fuel as [|fuel]; [lia|]).
  - change (2 ^ Z.of_nat 0) with 1 in Hfin. cbn [rootn_loop]. change (ed L) with (edc c). replace (d <? Z.of_nat n * edc c) with false by lia.
    exists r, a, 0%nat. change (2 ^ Z.of_nat 0) with 1. rewrite !Z.mul_1_r in *. auto 10.
  - destruct (Z_lt_le_dec d (Z.of_nat n * edc c)) as [Hd|Hd].
    2:{ cbn [rootn_loop]. change (ed L) with (edc c). replace (d <? Z.of_nat n * edc c) with false by lia.
        exists r, a, 0%nat. change (2 ^ Z.of_nat 0) with 1. rewrite !Z.mul_1_r. auto 10. }
    set (np := newton_prec c d).
    change (rootn_loop c F (S fuel) mem n i (Z.of_nat pw) d r x) with
      (if d <? Z.of_nat n * ed L then
        obind (lift (root_step c F (later mem (200 * i)) (later mem (200 * i + 160)) (Z.of_nat pw) np (precision c r np) (precision c x np)))
          (fun r' => rootn_loop c F fuel mem n (i + 1) (Z.of_nat pw) (d * 2) r' (precision c x np))
       else Ret r).
    change (ed L) with (edc c). replace (d <? Z.of_nat n * edc c) with true by lia.
    pose proof HD as (_ & _ & HD3 & HD4).
    destruct (newton_prec_spec c Hc x d ltac:(lia)) as [Hp Hpd]. fold np in Hp, Hpd.
    set (x1 := precision c x np) in *. set (r1 := precision c r np). set (p := dprec x1) in *.
    destruct (loop_phase d s p a 0 HD Hp Hpd Ha) as [(L1 & L2 & L3 & L4) _].
    destruct (root_step_spec c F Hc Hk (later mem (200 * i)) (later mem (200 * i + 160)) x1 r1 p pw np a) as (r' & a' & S1 & S2 & S3 & S4 & S5 & S6 & _); auto.
    { intros j w. apply Hmem. } { lia. } { lia. } { apply pwB. }
    rewrite S1. cbn [lift obind].
    destruct (loop_phase d s p a a' HD Hp Hpd Ha) as [_ L5]. specialize (L5 S6).
    destruct (IH (i + 1)%nat (d * 2) (s * 2) x1 r' a') with (fuel := fuel) as (rf & af & j & F1 & F2 & F3 & F4 & F5 & F6); auto; try lia.
    { apply kept2; auto. }
    { clear - Hfin. rewrite Nat2Z.inj_succ, Z.pow_succ_r in Hfin by lia. lia. }
    exists rf, af, (S j). change (mag x1) with (mag x) in F4.
    assert (T : forall y, y * 2 ^ Z.of_nat (S j) = y * 2 * 2 ^ Z.of_nat j) by (intros y; rewrite Nat2Z.inj_succ, Z.pow_succ_r by lia; ring).
    rewrite !T. auto 10.
Qed.
End RL.
