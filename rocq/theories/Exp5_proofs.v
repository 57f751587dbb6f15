(** Exp5_proofs.v - the error of exp against the real exponential. *)
From Verif Require Export Exp4_proofs Spec_Real.
From Verif Require Import Model_Exp Real_proofs Const_proofs Const2_proofs Func_proofs Cmp_proofs Conv6_proofs.
From Coq Require Import Reals Qreals Lra Lia.
Local Open Scope R_scope.

(** Relative distance of reals. *)
Definition rn (e a b : R) : Prop := Rabs (a - b) <= e * Rabs b.

Lemma rn_trans e f a b d : 0 <= e -> rn e a b -> rn f b d -> rn (e + f + e * f) a d.
Proof.
  unfold rn. intros He H1 H2. replace (a - d) with ((a - b) + (b - d)) by ring. eapply Rle_trans; [apply Rabs_triang|].
  assert (Rabs b <= Rabs d + f * Rabs d).
  { replace b with (d + (b - d)) by ring. eapply Rle_trans; [apply Rabs_triang|]. lra. }
  assert (e * Rabs b <= e * (Rabs d + f * Rabs d)) by (apply Rmult_le_compat_l; auto). lra.
Qed.

Lemma rn_mult e a b k : rn e a b -> rn e (a * k) (b * k).
Proof. unfold rn. intros H. replace (a * k - b * k) with ((a - b) * k) by ring. rewrite !Rabs_mult, <- Rmult_assoc. apply Rmult_le_compat_r; [apply Rabs_pos|auto]. Qed.

Lemma rn_le e f a b : e <= f -> rn e a b -> rn f a b.
Proof. unfold rn. intros H N. eapply Rle_trans; [exact N|]. apply Rmult_le_compat_r; [apply Rabs_pos|auto]. Qed.

Lemma rn_refl a : rn 0 a a.
Proof. unfold rn. replace (a - a) with 0 by ring. rewrite Rabs_R0. lra. Qed.

(** exp near zero, sharply. *)
Lemma exp_near u : Rabs u < 1 -> Rabs (exp u - 1) <= Rabs u / (1 - Rabs u).
Proof.
  intros H. pose proof (exp_tail u 0 H) as T. unfold exp_term in T. simpl in T.
  replace (/ 1 * 1) with 1 in T by field. replace (/ 1 * (u * 1)) with u in T by field. exact T.
Qed.

Lemma exp_ge u : 1 + u <= exp u.
Proof. destruct (Req_dec u 0) as [->|H]; [rewrite exp_0; lra|]. left. apply exp_ineq1. exact H. Qed.

(** A power of a number near another. *)
Lemma rn_pow e a b k : 0 <= e -> INR k * e < 1 -> rn e a b -> rn (INR k * e / (1 - INR k * e)) (a ^ k) (b ^ k).
Proof.
  intros He Hk H.
  assert (P : rn ((1 + e) ^ k - 1) (a ^ k) (b ^ k)).
  { clear Hk. induction k as [|k IH].
    - simpl. replace (1 - 1) with 0 by ring. apply rn_refl.
    - simpl. assert (A1 : rn e (a * a ^ k) (b * a ^ k)) by (apply rn_mult; exact H).
      assert (A2 : rn ((1 + e) ^ k - 1) (a ^ k * b) (b ^ k * b)) by (apply rn_mult; exact IH).
      rewrite (Rmult_comm (a ^ k) b), (Rmult_comm (b ^ k) b) in A2.
      eapply rn_le; [|eapply rn_trans; [exact He|exact A1|exact A2]]. apply Req_le. ring. }
  eapply rn_le; [|exact P].
  assert (B : (1 + e) ^ k <= exp (INR k * e)). { rewrite exp_pow. apply pow_incr. split; [lra|apply exp_ge]. }
  assert (K0 : 0 <= INR k * e) by (apply Rmult_le_pos; [apply pos_INR|auto]).
  pose proof (exp_near (INR k * e)) as N. rewrite (Rabs_pos_eq (INR k * e)) in N by auto. specialize (N Hk).
  pose proof (Rle_abs (exp (INR k * e) - 1)). lra.
Qed.

(** Terms and sums of the series as reals. *)
Lemma qterm_R X m : Q2R (qterm X m) = exp_term (Q2R X) m.
Proof.
  induction m as [|m IH].
  - unfold exp_term. simpl. unfold Q2R. simpl. field.
  - rewrite exp_term_S, <- IH. cbn [qterm]. unfold Qdiv, Rdiv. rewrite !Q2R_mult. rewrite Q2R_inv.
    + rewrite <- IZR_Q2R, <- INR_IZR_INZ. ring.
    + intros K. assert (0 < inject_Z (Z.of_nat (S m)))%Q by (change 0%Q with (inject_Z 0); rewrite <- Zlt_Qlt; lia). rewrite K in H. exact (Qlt_irrefl 0 H).
Qed.
Lemma qsum_R X m : Q2R (qsum X m) = sum_f_R0 (exp_term (Q2R X)) m.
Proof.
  induction m as [|m IH].
  - cbn [qsum]. simpl. unfold exp_term. simpl. unfold Q2R. simpl. field.
  - cbn [qsum]. rewrite Q2R_plus, IH, qterm_R. reflexivity.
Qed.

Lemma Q2R_abs q : Q2R (Qabs q) = Rabs (Q2R q).
Proof.
  destruct (Qlt_le_dec q 0) as [H|H].
  - rewrite Rabs_left by (replace 0 with (Q2R 0) by (unfold Q2R; simpl; field); apply Qlt_Rlt; exact H).
    rewrite <- Q2R_opp. apply Qeq_eqR. apply Qabs_neg. apply Qlt_le_weak. exact H.
  - rewrite Rabs_pos_eq by (replace 0 with (Q2R 0) by (unfold Q2R; simpl; field); apply Qle_Rle; exact H).
    apply Qeq_eqR. apply Qabs_pos. exact H.
Qed.
Lemma Q2R_pow q (p : positive) : Q2R (Qpower_positive q p) = Q2R q ^ Pos.to_nat p.
Proof.
  induction p as [p IH|p IH|].
  - change (Qpower_positive q p~1) with (q * (Qpower_positive q p * Qpower_positive q p))%Q. rewrite !Q2R_mult, IH. rewrite Pos2Nat.inj_xI.
    change (S (2 * Pos.to_nat p)) with (1 + (2 * Pos.to_nat p))%nat. rewrite pow_add, pow_1. replace (2 * Pos.to_nat p)%nat with (Pos.to_nat p + Pos.to_nat p)%nat by lia. rewrite pow_add. ring.
  - change (Qpower_positive q p~0) with (Qpower_positive q p * Qpower_positive q p)%Q. rewrite !Q2R_mult, IH. rewrite Pos2Nat.inj_xO.
    replace (2 * Pos.to_nat p)%nat with (Pos.to_nat p + Pos.to_nat p)%nat by lia. rewrite pow_add. ring.
  - change (Qpower_positive q 1) with q. change (Pos.to_nat 1) with 1%nat. rewrite pow_1. reflexivity.
Qed.

(** The chain of errors of exp, in reals. *)
Lemma exp_chain a l u X H R r2 de m : (0 < a -> a <= 1000000000 -> 0 < de -> de <= / 10000000000000000 -> 0 <= u ->
  Rabs (2048 * X - (a - u * l)) <= (15 / 10 + a / 1000) * de -> u * l <= a + / 10000000 -> Rabs (l - ln 2) <= de / 100 ->
  Rabs X <= / 2800 -> Rabs (H - sum_f_R0 (exp_term X) m) <= 2001 / 10000 * de -> Rabs (exp_term X (S m)) <= 1001 / 100 * de ->
  rn (41 / 100 * de) R (H ^ 2048) -> rn (2 * de + 5 * u * (de / 10000)) r2 (R * exp (u * ln 2)) -> 69 / 100 <= l ->
  rn ((21500 + a / 10) * de) r2 (exp a))%R.
Proof.
  intros a0 a1 D0 D1 u0 HX Hu Hl HX1 HS HT HR Hr l0.
  assert (U : u <= 1.45 * a + / 1000000).
  { assert (u * (69 / 100) <= u * l) by (apply Rmult_le_compat_l; auto). lra. }
  (* the argument *)
  assert (T : Rabs (2048 * X - (a - u * ln 2)) <= (2 + a / 50) * de).
  { replace (2048 * X - (a - u * ln 2)) with ((2048 * X - (a - u * l)) - u * (l - ln 2)) by ring.
    eapply Rle_trans; [apply Rabs_triang|]. rewrite Rabs_Ropp, Rabs_mult, (Rabs_pos_eq u) by auto.
    assert (u * Rabs (l - ln 2) <= (1.45 * a + / 1000000) * (de / 100)).
    { apply Rmult_le_compat; auto. apply Rabs_pos. }
    assert (K0 : 0 <= a * de) by (apply Rmult_le_pos; lra). lra. }
  assert (AD : (a * de <= / 10000000)%R).
  { replace (/ 10000000) with (1000000000 * / 10000000000000000) by field. apply Rmult_le_compat; lra. }
  assert (T2 : rn (2 * ((2 + a / 50) * de)) (exp (2048 * X)) (exp (a - u * ln 2))).
  { replace (2048 * X) with ((2048 * X - (a - u * ln 2)) + (a - u * ln 2)) by ring. rewrite exp_plus. set (t := 2048 * X - (a - u * ln 2)) in *.
    unfold rn. replace (exp t * exp (a - u * ln 2) - exp (a - u * ln 2)) with ((exp t - 1) * exp (a - u * ln 2)) by ring. rewrite Rabs_mult.
    apply Rmult_le_compat_r; [apply Rabs_pos|]. eapply Rle_trans; [apply exp_near_0|]; lra. }
  (* the series *)
  assert (X1 : Rabs (exp X - 1) <= / 1000).
  { eapply Rle_trans; [apply exp_near_0; lra|]. lra. }
  assert (SE : Rabs (H - exp X) <= 1024 / 100 * de).
  { pose proof (exp_tail X m ltac:(lra)) as ET. replace (H - exp X) with ((H - sum_f_R0 (exp_term X) m) - (exp X - sum_f_R0 (exp_term X) m)) by ring.
    eapply Rle_trans; [apply Rabs_triang|]. rewrite Rabs_Ropp.
    assert (Rabs (exp_term X (S m)) / (1 - Rabs X) <= 1003 / 100 * de).
    { pose proof (Rabs_pos X). pose proof (Rabs_pos (exp_term X (S m))). apply Rmult_le_reg_r with (1 - Rabs X); [lra|]. unfold Rdiv. rewrite (Rmult_assoc (Rabs (exp_term X (S m)))), Rinv_l, Rmult_1_r by lra.
      assert (Rabs X * de <= / 2800 * de) by (apply Rmult_le_compat_r; lra).
      replace (1003 * / 100 * de * (1 - Rabs X)) with (1003 / 100 * de - 1003 / 100 * (Rabs X * de)) by field. lra. }
    lra. }
  assert (HE : rn (1026 / 100 * de) H (exp X)).
  { unfold rn. eapply Rle_trans; [exact SE|]. rewrite Rabs_pos_eq by (left; apply exp_pos).
    assert (999 / 1000 <= exp X). { unfold Rabs in X1. destruct (Rcase_abs (exp X - 1)); lra. }
    replace (1026 / 100 * de * exp X) with (1026 / 100 * (de * exp X)) by field.
    assert (de * (999 / 1000) <= de * exp X) by (apply Rmult_le_compat_l; lra). lra. }
  assert (HP : rn (21100 * de) (H ^ 2048) (exp (2048 * X))).
  { assert (NK : INR 2048 = 2048). { rewrite INR_IZR_INZ. replace (Z.of_nat 2048) with 2048%Z by reflexivity. reflexivity. }
    assert (C1 : INR 2048 * (1026 / 100 * de) < 1) by (rewrite NK; lra).
    pose proof (rn_pow (1026 / 100 * de) H (exp X) 2048 ltac:(lra) C1 HE) as P. rewrite <- exp_pow in P. rewrite NK in *.
    eapply rn_le; [|exact P]. apply Rmult_le_reg_r with (1 - 2048 * (1026 / 100 * de)); [lra|]. unfold Rdiv at 1. rewrite Rmult_assoc, Rinv_l, Rmult_1_r by lra.
    assert (de * de <= / 10000000000000000 * de) by (apply Rmult_le_compat_r; lra).
    replace (21100 * de * (1 - 2048 * (1026 / 100 * de))) with (21100 * de - 21100 * 2048 * 1026 / 100 * (de * de)) by field. lra. }
  (* everything *)
  assert (EA : exp a = exp (a - u * ln 2) * exp (u * ln 2)). { rewrite <- exp_plus. f_equal. ring. }
  assert (Z1 : 0 <= 41 / 100 * de) by lra. pose proof (rn_trans _ _ _ _ _ Z1 HR HP) as C1.
  assert (Z2 : 0 <= 41 / 100 * de + 21100 * de + 41 / 100 * de * (21100 * de)) by (assert (0 <= 41 / 100 * de * (21100 * de)) by (apply Rmult_le_pos; lra); lra).
  pose proof (rn_trans _ _ _ _ _ Z2 C1 T2) as C2.
  apply (rn_mult _ _ _ (exp (u * ln 2))) in C2. rewrite <- EA in C2.
  assert (UD : u * de <= 1.45 * (a * de) + / 1000000 * de).
  { replace (1.45 * (a * de) + / 1000000 * de) with ((1.45 * a + / 1000000) * de) by ring. apply Rmult_le_compat_r; lra. }
  assert (UD0 : 0 <= u * de) by (apply Rmult_le_pos; lra).
  assert (Z3 : 0 <= 2 * de + 5 * u * (de / 10000)) by lra. pose proof (rn_trans _ _ _ _ _ Z3 Hr C2) as C3.
  eapply rn_le; [|exact C3].
  assert (AD0 : 0 <= a * de) by (apply Rmult_le_pos; lra).
  assert (P1 : 41 / 100 * de * (21100 * de) <= / 1000 * de).
  { replace (41 / 100 * de * (21100 * de)) with ((41 / 100 * 21100 * de) * de) by ring. apply Rmult_le_compat_r; lra. }
  assert (P10 : 0 <= 41 / 100 * de * (21100 * de)) by (apply Rmult_le_pos; lra).
  set (p1 := 41 / 100 * de * (21100 * de)) in *.
  set (e1 := 41 / 100 * de + 21100 * de + p1) in *.
  assert (E1 : 0 <= e1 <= 21101 * de) by (unfold e1; lra).
  set (e2 := 2 * ((2 + a / 50) * de)). assert (E2 : 0 <= e2 <= 4 * de + / 25 * (a * de)) by (unfold e2; lra).
  assert (P2 : 0 <= e1 * e2 <= / 1000 * e1). { split; [apply Rmult_le_pos; lra|]. rewrite (Rmult_comm (/ 1000)). apply Rmult_le_compat_l; lra. }
  set (e3 := 2 * de + 5 * u * (de / 10000)). assert (E3 : 0 <= e3 <= 2 * de + / 1000 * (a * de) + / 1000 * de) by (unfold e3; lra).
  set (e4 := e1 + e2 + e1 * e2) in *. assert (E4 : 0 <= e4 <= 21127 * de + / 25 * (a * de)) by (unfold e4; lra).
  assert (P3 : e3 * e4 <= / 1000 * e4). { apply Rmult_le_compat_r; lra. }
  lra.
Qed.

(** The reciprocal of a number near another. *)
Lemma rn_inv e a b : 0 <= e <= / 2 -> b <> 0 -> rn e a b -> rn (e / (1 - e)) (/ a) (/ b).
Proof.
  unfold rn. intros He Hb H. assert (B : 0 < Rabs b) by (apply Rabs_pos_lt; auto).
  assert (A1 : (1 - e) * Rabs b <= Rabs a).
  { pose proof (Rabs_triang a (b - a)) as T. replace (a + (b - a)) with b in T by ring. rewrite (Rabs_minus_sym b a) in T. lra. }
  assert (EB : 0 < (1 - e) * Rabs b) by (apply Rmult_lt_0_compat; lra). assert (A0 : a <> 0) by (intros ->; rewrite Rabs_R0 in A1; lra).
  replace (/ a - / b) with (- ((a - b) * / a * / b)) by (field; auto). rewrite Rabs_Ropp, !Rabs_mult, !Rabs_inv.
  apply Rmult_le_compat_r; [left; apply Rinv_0_lt_compat; auto|].
  apply Rmult_le_reg_r with (Rabs a); [lra|]. rewrite Rmult_assoc, Rinv_l, Rmult_1_r by lra.
  apply Rle_trans with (e * Rabs b); [exact H|]. apply Rle_trans with (e / (1 - e) * ((1 - e) * Rabs b)).
  - apply Req_le. field. lra.
  - apply Rmult_le_compat_l; [|exact A1]. unfold Rdiv. apply Rmult_le_pos; [lra|]. left. apply Rinv_0_lt_compat. lra.
Qed.

Lemma ln2_bounds : 693 / 1000 <= ln 2 <= 694 / 1000.
Proof.
  destruct ln2_digits_ok as [A B]. let v := eval vm_compute in e104 in change e104 with v in *. let v := eval vm_compute in ln2_digits in change ln2_digits with v in *. rewrite plus_IZR in B.
  split; [eapply Rle_trans; [|exact A]|eapply Rle_trans; [apply Rlt_le; exact B|]]; lra.
Qed.

Lemma exp_ln2 u : (0 <= u)%Z -> exp (IZR u * ln 2) = Q2R (p2 u).
Proof.
  intros Hu. assert (K : Q2R (p2 u) = IZR (2 ^ u)). { rewrite IZR_Q2R. apply Qeq_eqR. rewrite p2_Z by exact Hu. reflexivity. }
  rewrite K. rewrite <- (Z2Nat.id u) at 1 by exact Hu. rewrite <- INR_IZR_INZ. rewrite exp_pow, exp_ln by lra.
  rewrite <- (Z2Nat.id u) at 2 by exact Hu. rewrite <- pow_IZR. reflexivity.
Qed.

Lemma near_R e a b : Exp_proofs.near e a b -> rn (Q2R e) (Q2R a) (Q2R b).
Proof. unfold Exp_proofs.near, rn. intros H. apply Qle_Rle in H. rewrite Q2R_abs, Q2R_minus, Q2R_mult, Q2R_abs in H. exact H. Qed.

Lemma Q2R_frac a b : Q2R (a # b) = IZR a / IZR (Zpos b).
Proof. reflexivity. Qed.

Section TOP.
Variable c : cfg.
Variable F : ftype.
Variable W : Z.
Notation L := (c_limb c).
Notation n := (nel c).
Notation M := (max_exp10_of (c_expo c)).
Notation D := (c_digits10 c).
Notation eps := (p10 (- (c_digits10 c + 2 * edc c))).
Notation dl := (p10 (- c_digits10 c)).
Hypothesis Hc : cfg_ok c.
Hypothesis Hk : newton_ok c.
Hypothesis HF : float_fits c F.
Hypothesis HJ : (digit_loops c F <= n)%nat.
Hypothesis HD : (16 <= D <= 2000)%Z.
Hypothesis HW : (edc c * elem_number c <= W)%Z.
Hypothesis HM : (6 * W + 300 <= M)%Z.
Variable ln2 : dec.
Hypothesis Nl : normal c ln2.
Hypothesis L2 : Rabs (rvalue c ln2 - ln 2) <= r10 (- (D + 2)).

Lemma de_facts : 0 < r10 (- D) /\ r10 (- D) <= / 10000000000000000 /\ Q2R eps <= r10 (- D) / 10000 /\ 0 < Q2R eps /\ r10 (- (D + 2)) = r10 (- D) / 100.
Proof using Hc HD.
  destruct (dl_tiny c Hc HD) as (D0 & D1 & E0 & E1). unfold r10.
  assert (Z0 : Q2R 0 = 0) by (unfold Q2R; simpl; field).
  split; [rewrite <- Z0; apply Qlt_Rlt; exact D0|]. split.
  { apply Qle_Rle in D1. eapply Rle_trans; [exact D1|]. rewrite Q2R_frac. simpl. lra. }
  split. { apply Qle_Rle in E1. rewrite Q2R_mult, Q2R_frac in E1. lra. }
  split; [rewrite <- Z0; apply Qlt_Rlt; exact E0|].
  replace (- (D + 2))%Z with (- D + -2)%Z by ring. rewrite (Qeq_eqR _ _ (p10_add (- D) (-2))), Q2R_mult. change (p10 (-2)) with (1 # 100)%Q. rewrite Q2R_frac. lra.
Qed.

Lemma l2_Q : (69 # 100 <= value c ln2 /\ value c ln2 <= 7 # 10)%Q.
Proof using Hc HD L2.
  destruct de_facts as (D0 & D1 & _ & _ & D2). rewrite D2 in L2. pose proof ln2_bounds as B. unfold rvalue in L2.
  assert (Rabs (Q2R (value c ln2) - ln 2) <= / 10000) by (eapply Rle_trans; [exact L2|]; lra).
  assert (- / 10000 <= Q2R (value c ln2) - ln 2 <= / 10000) by (unfold Rabs in H; destruct (Rcase_abs _); lra).
  split; apply Rle_Qle; rewrite Q2R_frac; lra.
Qed.

(** The positive branch. *)
Lemma exp_pos_accurate mems x xx : (forall j, memory_ok (mems j)) -> normal c x -> normal c xx ->
  (0 < value c xx)%Q -> (value c xx <= 1000000000)%Q -> (value c xx <= inject_Z (2 * (M - 100)))%Q -> (p10 (- W) <= value c xx)%Q ->
  exists r2, exp_body c F ln2 mems x xx = Some r2 /\ normal c r2 /\ rn ((21500 + rvalue c xx / 10) * r10 (- D)) (rvalue c r2) (exp (rvalue c xx)) /\
    (0 < value c r2)%Q /\ (value c r2 <= p10 (M - 90))%Q /\ (1 # 40 <= value c r2)%Q.
Proof using Hc Hk HF HJ HD HW HM Nl L2.
  intros Hm Nx Nxx X0 X1 XM X2.
  destruct (exp_body_spec c F W Hc Hk HF HJ HD HW HM ln2 Nl l2_Q mems x xx Hm Nx Nxx X0 X1 XM X2)
    as (u & X & H & R & m & r2 & B1 & N2 & U & AX & U2 & Xu & Mm & HS & HT & HR & Hr & BR & PU).
  exists r2. split; [exact B1|]. split; [exact N2|]. destruct de_facts as (D0 & D1 & E1 & E0 & D2). destruct (dl_tiny c Hc HD) as (d0 & d1 & e0 & e1).
  assert (Z0 : Q2R 0 = 0) by (unfold Q2R; simpl; field).
  assert (Q2048 : Q2R 2048 = 2048) by (unfold Q2R; simpl; field). assert (Q2 : Q2R 2 = 2) by (unfold Q2R; simpl; field).
  assert (QG : Q2R 1000000000 = 1000000000) by (unfold Q2R; simpl; field).
  split.
  - unfold rvalue, r10 in *. set (a := Q2R (value c xx)) in *.
    assert (HH : H == H) by reflexivity.
    eapply rn_le; [|apply (exp_chain a (Q2R (value c ln2)) (IZR u) (Q2R X) (Q2R H) (Q2R R) (Q2R (value c r2)) (Q2R dl) m)]; try lra.
    + unfold a. rewrite <- Z0. apply Qlt_Rlt. exact X0.
    + unfold a. rewrite <- QG. apply Qle_Rle. exact X1.
    + apply IZR_le. lia.
    + apply Qle_Rle in AX. rewrite Q2R_abs, Q2R_minus, Q2R_mult, Q2R_minus, Q2R_mult, <- IZR_Q2R, Q2R_mult, Q2R_plus, Q2R_mult, Q2048, !Q2R_frac in AX.
      fold a in AX. eapply Rle_trans; [exact AX|]. apply Req_le. field.
    + apply Qle_Rle in U2. rewrite Q2R_mult, <- IZR_Q2R, Q2R_plus, Q2R_frac in U2. fold a in U2. lra.
    + apply Qle_Rle in Xu. rewrite Q2R_abs, Q2R_frac in Xu. lra.
    + apply Qle_Rle in HS. rewrite Q2R_abs, Q2R_minus, qsum_R, !Q2R_mult, Q2R_frac, <- IZR_Q2R in HS. eapply Rle_trans; [exact HS|].
      assert (IZR (Z.of_nat m) <= 667) by (apply IZR_le; lia). assert (IZR (Z.of_nat m) * (3 / 10000 * Q2R dl) <= 667 * (3 / 10000 * Q2R dl)) by (apply Rmult_le_compat_r; lra). lra.
    + apply Qle_Rle in HT. rewrite Q2R_abs, qterm_R, Q2R_mult, Q2R_frac in HT. lra.
    + apply near_R in HR. rewrite Q2R_mult, Q2R_frac in HR. change (H ^ 2048)%Q with (Qpower_positive H 2048) in HR. rewrite Q2R_pow in HR.
      replace (Pos.to_nat 2048) with 2048%nat in HR by (symmetry; apply Nat2Z.inj; rewrite positive_nat_Z; reflexivity). exact HR.
    + apply near_R in Hr. rewrite Q2R_mult, <- exp_ln2 in Hr by lia. rewrite Q2R_plus, !Q2R_mult, Q2 in Hr. rewrite <- IZR_Q2R, mult_IZR in Hr.
      eapply rn_le; [|exact Hr]. assert (0 <= IZR u) by (apply IZR_le; lia). assert (5 * IZR u * Q2R eps <= 5 * IZR u * (Q2R dl / 10000)) by (apply Rmult_le_compat_l; lra). lra.
    + destruct l2_Q as [A _]. apply Qle_Rle in A. rewrite Q2R_frac in A. lra.
  - pose proof (p2_pos u) as P0. pose proof (p2_ge1 u ltac:(lia)) as P1. unfold Exp_proofs.near in Hr.
    assert (Pr : (Qabs (R * p2 u) == R * p2 u)%Q) by (apply Qabs_pos; apply Qmult_le_0_compat; qlra). rewrite Pr in Hr. apply Qabs_Qle_condition in Hr.
    assert (SM : (2 * dl + inject_Z (5 * u) * eps <= 1 # 100)%Q).
    { assert (inject_Z (5 * u) <= 10000000000)%Q by (change 10000000000%Q with (inject_Z 10000000000); rewrite <- Zle_Qle; lia).
      assert (inject_Z (5 * u) * eps <= 10000000000 * (1 # 100000000000000000000))%Q; [|qlra].
      apply Qmult_le_compat_nonneg; split; try qlra. apply Zq. lia. }
    assert (K : ((2 * dl + inject_Z (5 * u) * eps) * (R * p2 u) <= (1 # 100) * (R * p2 u))%Q) by (apply Qmult_le_compat_r; [exact SM|apply Qmult_le_0_compat; qlra]).
    assert (K1 : (1 # 20 <= R * p2 u)%Q). { apply Qle_trans with (R * 1)%Q; [qlra|]. rewrite !(Qmult_comm R). apply Qmult_le_compat_r; qlra. }
    assert (K2 : (R * p2 u <= 20 * p10 (M - 100))%Q) by (apply Qmult_le_compat_nonneg; split; qlra).
    split; [qlra|]. split; [|qlra]. apply Qle_trans with (p10 (10 + (M - 100))); [|apply p10_le; lia]. rewrite p10_add. change (p10 10) with 10000000000%Q. pose proof (p10_pos (M - 100)). qlra.
Qed.

(** exp as a whole. *)
Lemma wexp_accurate mems x : (forall j, memory_ok (mems j)) -> normal c x ->
  (Qabs (value c x) <= 1000000000)%Q -> (Qabs (value c x) <= inject_Z (2 * (M - 100)))%Q ->
  (iszero x = true /\ dneg x = false) \/ (p10 (- W) <= Qabs (value c x))%Q ->
  exists z, wexp c F ln2 mems x = Some z /\ rel_close c z (exp (rvalue c x)) ((22000 + Rabs (rvalue c x)) * r10 (- D)).
Proof using Hc Hk HF HJ HD HW HM Nl L2.
  intros Hm Nx X1 XM HX. destruct de_facts as (D0 & D1 & E1 & E0 & D2).
  assert (Z0 : Q2R 0 = 0) by (unfold Q2R; simpl; field). assert (QG : Q2R 1000000000 = 1000000000) by (unfold Q2R; simpl; field).
  assert (Rg : Rabs (rvalue c x) <= 1000000000). { apply Qle_Rle in X1. rewrite Q2R_abs, QG in X1. exact X1. }
  destruct HX as [[Zx Sx]|HX].
  - exists (one c). pose proof (value_zero c Hc x Nx Zx) as V0. split.
    + unfold wexp. rewrite Sx. replace (op_gt x (zero c)) with false; [reflexivity|]. symmetry. unfold op_gt.
      rewrite (cmp_spec c Hc x (zero c) Nx (zero_normal c)). rewrite V0, (value_zero c Hc _ (zero_normal c) (zero_iszero c Hc)). reflexivity.
    + unfold rel_close, rvalue. rewrite (Qeq_eqR _ _ V0), Z0, exp_0. rewrite (Qeq_eqR _ _ (Floor_proofs.one_value c Hc)). replace (Q2R 1) with 1 by (unfold Q2R; simpl; field).
      replace (1 - 1) with 0 by ring. rewrite !Rabs_R0, Rabs_R1. unfold r10 in *. lra.
  - pose proof (p10_pos (- W)) as P0. assert (Zx : iszero x = false).
    { destruct (iszero x) eqn:K; [|reflexivity]. exfalso. rewrite (value_zero c Hc x Nx K) in HX. change (Qabs 0) with 0%Q in HX. qlra. }
    pose proof (value_sign c Hc x Nx Zx) as Sg. destruct (dneg x) eqn:Sx.
    + (* negative *)
      assert (AV : (Qabs (value c x) == value c (negate x))%Q) by (rewrite (value_negate c Hc x Nx); apply Qabs_neg; qlra).
      pose proof (negate_normal c x Nx) as Nn. rewrite AV in X1, XM, HX.
      destruct (exp_pos_accurate mems x (negate x) Hm Nx Nn ltac:(qlra) X1 XM HX) as (r2 & B1 & N2 & A2 & R0 & R1 & R2).
      destruct (pos_facts c Hc r2 N2 R0) as [Z2 S2]. pose proof (edc_pos c) as He. destruct (W_big c W Hc HD HW HM) as (_ & _ & W3 & _).
      assert (AR : (Qabs (value c r2) == value c r2)%Q) by (apply Qabs_pos; qlra).
      assert (Ev : (- M < dexp r2 < M - 3 * edc c)%Z).
      { assert (Q1 : (dexp r2 <= M - 90)%Z) by (apply (exp_le_of_value c Hc r2 (M - 90) N2 Z2); rewrite AR; exact R1).
        assert (Q2 : (-2 - edc c < dexp r2)%Z) by (apply (exp_gt_of_value c Hc r2 (-2) N2 Z2); rewrite AR; change (p10 (-2)) with (1 # 100)%Q; qlra).
        clear - Q1 Q2 He W3 HM. lia. }
      destruct (inv_accurate c F (mems (-6)%Z) r2 Hc Hk HF HJ (Hm _) N2 Z2 Ev) as (z & I1 & _ & I2 & _).
      exists z. split.
      { unfold wexp. rewrite Sx. cbn [negb orb]. unfold exp_body in B1.
        destruct (divide c F (mems (-1)%Z) (negate x) ln2) as [q|]; [|discriminate B1]. destruct (to_ull c q) as [u|]; [|discriminate B1]. cbv zeta in *.
        destruct (mul_ull c _ _ ln2 _) as [nl|]; [|discriminate B1]. destruct (div_unsigned c F (mems (-3)%Z) _ 2048) as [d|]; [|discriminate B1].
        destruct (exp_goal c x) as [goal|]; [|discriminate B1]. destruct (exp_loop c F _ mems 2 goal _ _ _) as [h|]; [|discriminate B1].
        destruct (pow_int c F (mems (-4)%Z) h 2048) as [r|]; [|discriminate B1]. rewrite B1. exact I1. }
      unfold rel_close. assert (RV : rvalue c (negate x) = - rvalue c x) by (unfold rvalue; rewrite <- Q2R_opp; apply Qeq_eqR; apply (value_negate c Hc x Nx)).
      assert (Rx : Rabs (rvalue c x) = rvalue c (negate x)) by (unfold rvalue; rewrite <- Q2R_abs; apply Qeq_eqR; exact AV).
      rewrite RV in A2, Rx. assert (a0 : 0 <= - rvalue c x) by (rewrite <- Rx; apply Rabs_pos). rewrite Rx in *. set (a := - rvalue c x) in *. assert (EX : exp (rvalue c x) = / exp a) by (unfold a; rewrite exp_Ropp, Rinv_inv; reflexivity).
      rewrite EX.
      set (e1 := (21500 + a / 10) * r10 (- D)) in *. pose proof (exp_pos a) as Ea.
      assert (AD : 0 <= a * r10 (- D) <= / 10000000).
      { split; [apply Rmult_le_pos; lra|]. replace (/ 10000000) with (1000000000 * / 10000000000000000) by field. apply Rmult_le_compat; lra. }
      assert (B1' : 0 <= e1 <= / 1000000) by (unfold e1; lra).
      pose proof (rn_inv e1 (rvalue c r2) (exp a) ltac:(lra) ltac:(lra) A2) as IV.
      assert (I3 : rn (7 * Q2R eps) (rvalue c z) (/ rvalue c r2)).
      { unfold rn, rvalue. apply Qle_Rle in I2. rewrite Q2R_abs, Q2R_minus, Q2R_mult, Q2R_mult, Q2R_abs in I2. unfold Qdiv in I2. rewrite Q2R_mult, Q2R_inv in I2 by (intros K; rewrite K in R0; exact (Qlt_irrefl 0 R0)).
        replace (Q2R 1) with 1 in I2 by (unfold Q2R; simpl; field). replace (Q2R 7) with 7 in I2 by (unfold Q2R; simpl; field). rewrite !Rmult_1_l in I2. exact I2. }
      assert (Z7 : 0 <= 7 * Q2R eps) by lra. pose proof (rn_trans _ _ _ _ _ Z7 I3 IV) as FIN. unfold rn in FIN.
      eapply Rle_trans; [exact FIN|]. apply Rmult_le_compat_r; [apply Rabs_pos|].
      assert (IE : 0 <= e1 / (1 - e1) <= 1001 / 1000 * e1).
      { unfold Rdiv at 1 2. split; [apply Rmult_le_pos; [lra|]; left; apply Rinv_0_lt_compat; lra|]. apply Rmult_le_reg_r with (1 - e1); [lra|]. rewrite Rmult_assoc, Rinv_l, Rmult_1_r by lra.
        assert (e1 * e1 <= / 1000000 * e1) by (apply Rmult_le_compat_r; lra). lra. }
      set (e2 := e1 / (1 - e1)) in *. assert (7 * Q2R eps * e2 <= 1 * e2) by (apply Rmult_le_compat_r; lra).
      assert (7 * Q2R eps * e2 <= 7 * Q2R eps * / 1000) by (apply Rmult_le_compat_l; lra).
      unfold e1 in IE. lra.
    + (* positive *)
      assert (AV : (Qabs (value c x) == value c x)%Q) by (apply Qabs_pos; qlra). rewrite AV in X1, XM, HX.
      destruct (exp_pos_accurate mems x x Hm Nx Nx Sg X1 XM HX) as (r2 & B1 & N2 & A2 & R0 & R1 & R2).
      exists r2. split.
      { unfold wexp. rewrite Sx. cbn [negb orb]. replace (op_gt x (zero c)) with true.
        2:{ symmetry. unfold op_gt. rewrite (cmp_spec c Hc x (zero c) Nx (zero_normal c)). rewrite (value_zero c Hc _ (zero_normal c) (zero_iszero c Hc)).
            apply Qgt_alt in Sg. rewrite Sg. reflexivity. }
        unfold exp_body in B1.
        destruct (divide c F (mems (-1)%Z) x ln2) as [q|]; [|discriminate B1]. destruct (to_ull c q) as [u|]; [|discriminate B1]. cbv zeta in *.
        destruct (mul_ull c _ _ ln2 _) as [nl|]; [|discriminate B1]. destruct (div_unsigned c F (mems (-3)%Z) _ 2048) as [d|]; [|discriminate B1].
        destruct (exp_goal c x) as [goal|]; [|discriminate B1]. destruct (exp_loop c F _ mems 2 goal _ _ _) as [h|]; [|discriminate B1].
        destruct (pow_int c F (mems (-4)%Z) h 2048) as [r|]; [|discriminate B1]. rewrite B1. reflexivity. }
      assert (Rx : Rabs (rvalue c x) = rvalue c x) by (unfold rvalue; rewrite <- Q2R_abs; apply Qeq_eqR; exact AV). rewrite Rx. unfold rel_close. unfold rn in A2.
      eapply Rle_trans; [exact A2|]. apply Rmult_le_compat_r; [apply Rabs_pos|]. apply Rmult_le_compat_r; [lra|].
      pose proof (Rabs_pos (rvalue c x)). lra.
Qed.
End TOP.

(** The stored constant qualifies. *)
Lemma ln2_stored c : cfg_ok c -> (c_digits10 c <= 51)%Z -> normal c (ln2_small c) /\ Rabs (rvalue c (ln2_small c) - ln 2) <= r10 (- (c_digits10 c + 2)).
Proof.
  intros Hc HD. destruct (ln2_cut c Hc HD) as (N & Z & [C1 C2]). split; [exact N|].
  assert (U : Q2R (ulp c (ln2_small c)) <= r10 (- (c_digits10 c + 2))).
  { unfold r10. apply Qle_Rle. destruct (normal_facts c Hc _ N) as (Ln & Dn & _). assert (Nz : nth 0 (data (ln2_small c)) 0%Z <> 0%Z) by (intros K; unfold iszero in Z; rewrite K in Z; discriminate Z).
    assert (V1 : (value c (ln2_small c) <= 1)%Q).
    { apply Rle_Qle. pose proof ln2_bounds. unfold rvalue in C1. replace (Q2R 1) with 1 by (unfold Q2R; simpl; field). lra. }
    assert (V0 : (0 <= value c (ln2_small c))%Q).
    { pose proof (value_sign c Hc _ N Z) as Sg. replace (dneg (ln2_small c)) with false in Sg by reflexivity. qlra. }
    pose proof (Addlaws_proofs.ulp_rel c Hc _ Ln Dn Nz) as UR. eapply Qle_trans; [exact UR|]. rewrite (Qabs_pos _ V0). pose proof (edc_pos c) as He.
    apply Qle_trans with (1 * p10 (- (c_digits10 c + 2 * edc c)))%Q.
    - apply Qmult_le_compat_r; [exact V1|]. pose proof (p10_pos (- (c_digits10 c + 2 * edc c))). qlra.
    - rewrite Qmult_1_l. apply p10_le. clear - He. lia. }
  unfold Rabs. destruct (Rcase_abs _); lra.
Qed.
