(** Newton3_proofs.v - the Newton iteration for the reciprocal: error recurrence and the loop. *)
From Verif Require Export Newton2_proofs.
From Coq Require Import Lqa.
Local Open Scope Z_scope.

(** Error of one step, over the rationals. *)
Lemma step_error (rho q s rho' h e : Q) : (e == 1 - rho -> - (1 # 200) <= e -> e <= 1 # 200 -> 0 <= h -> h <= 1 # 100 ->
  rho * (1 - 3 * h) <= q -> q <= rho * (1 + h) -> 2 - q <= s -> s <= 2 - q + h ->
  rho * s * (1 - 3 * h) <= rho' -> rho' <= rho * s * (1 + h) ->
  Qabs (1 - rho') <= e * e + 6 * h)%Q.
Proof.
  intros He E1 E2 H0 H1 Q1 Q2 S1 S2 R1 R2.
  assert (Hr : (rho == 1 - e)%Q) by lra. 
  assert (B1 : ((199#200) <= rho /\ rho <= 201 # 200)%Q) by lra.
  assert (RR : (0 <= rho * rho /\ rho * rho <= 102 # 100)%Q) by (split; nra).
  assert (HR : (0 <= h * (rho * rho) /\ h * (rho * rho) <= h * (102 # 100))%Q).
  { split; [apply Qmult_le_0_compat; lra|]. rewrite !(Qmult_comm h). apply Qmult_le_compat_r; lra. }
  assert (HR1 : (0 <= h * rho /\ h * rho <= h * (102 # 100))%Q).
  { split; [apply Qmult_le_0_compat; lra|]. rewrite !(Qmult_comm h). apply Qmult_le_compat_r; lra. }
  assert (Sq : (2 * rho - rho * rho == 1 - e * e)%Q) by (rewrite Hr; ring).
  assert (U : (rho * s <= rho * (2 - rho * (1 - 3 * h) + h))%Q) by (apply Qmult_le_l; lra).
  assert (W : (rho * (2 - rho * (1 + h)) <= rho * s)%Q) by (apply Qmult_le_l; lra).
  assert (U' : (rho * s <= 1 - e * e + (102#100) * (4 * h))%Q) by lra.
  assert (W' : (1 - e * e - (102#100) * h <= rho * s)%Q) by lra.
  assert (EE : (0 <= e * e /\ e * e <= 1 # 1000)%Q) by (split; nra).
  assert (X : (0 <= h * (rho * s) /\ h * (rho * s) <= h * (105 # 100))%Q).
  { split; [apply Qmult_le_0_compat; lra|]. rewrite !(Qmult_comm h). apply Qmult_le_compat_r; lra. }
  apply Qabs_Qle_condition. split; lra.
Qed.

Section N3.
Variable c : cfg.
Notation L := (c_limb c).
Notation B := (mask L).
Notation V := (limbs_value B).
Notation ok := (digits_ok B).
Notation P n := (B ^ Z.of_nat n).
Notation E := (ebits (c_expo c)).
Notation n := (nel c).
Notation M := (max_exp10_of (c_expo c)).
Notation wk := (wk c).
Notation mag := (mag c).
Notation eta := (eta c).
Hypothesis Hc : cfg_ok c.
Hypothesis Hk : newton_ok c.
Let HB : 0 < B := mask_pos L.

Lemma p10_one : (p10 1 == 10)%Q. Proof. reflexivity. Qed.
Lemma p10_m1 : (p10 (-1) == 1 # 10)%Q. Proof. reflexivity. Qed.

(** Exponent of an approximate reciprocal. *)
Lemma recip_exp r x : wk r -> wk x -> ((199#200) <= mag r * mag x)%Q -> (mag r * mag x <= 201 # 200)%Q ->
  - 2 * edc c <= dexp r + dexp x <= 0.
Proof.
  intros Hr Hx H1 H2. destruct (mag_bracket c Hc r Hr) as [R1 R2]. destruct (mag_bracket c Hc x Hx) as [X1 X2].
  pose proof (p10_pos (dexp r)) as P1. pose proof (p10_pos (dexp x)) as P2.
  assert (A : (p10 (dexp r + dexp x) <= mag r * mag x)%Q).
  { rewrite p10_add. apply Qmult_le_compat_nonneg; split; lra. }
  assert (A2 : (mag r * mag x <= p10 (dexp r + edc c + (dexp x + edc c)))%Q).
  { rewrite p10_add. apply Qmult_le_compat_nonneg; split; lra. }
  assert (G1 : (p10 (dexp r + dexp x) < p10 1)%Q) by (rewrite p10_one; lra).
  assert (G2 : (p10 (-1) < p10 (dexp r + edc c + (dexp x + edc c)))%Q) by (rewrite p10_m1; lra).
  apply (proj1 (p10_lt _ _)) in G1, G2. lia.
Qed.

(** One iteration. *)
Lemma newton_step mem i r x p : memory_ok mem -> wk r -> wk x -> ok (data x) -> dneg r = false -> dneg x = false ->
  dprec r = p -> dprec x = p -> (2 <= p <= n)%nat -> isone_sign_neutral c x = false ->
  - M < dexp x < M - 3 * edc c -> (Qabs (1 - mag r * mag x) <= 1 # 200)%Q ->
  exists q r', mulm c mem i r x = Some q /\ mulm c mem (i + 1) r (sub c (two c) q) = Some r' /\
    wk r' /\ dneg r' = false /\
    (Qabs (1 - mag r' * mag x) <= (1 - mag r * mag x) * (1 - mag r * mag x) + 6 * eta p)%Q /\
    (ok (data r') \/ data r' = data r /\ data r = B :: repeat 0 (n - 1) /\ V (firstn p (data x)) = P (p - 1) /\ dexp r' + dexp x + edc c = 0).
Proof.
  intros Hmem Hr Hx Ox Nr Nx Pr Px Hp I1 Hrange He. apply Qabs_Qle_condition in He.
  pose proof (recip_exp r x Hr Hx ltac:(lra) ltac:(lra)) as RE. pose proof (edc_pos c) as Hed. pose proof (max_exp10_bounds c) as (HM & HM2 & HM3).
  assert (Rr : - 2 ^ (E - 1) <= dexp r < 2 ^ (E - 1)) by lia.
  assert (Rx : - 2 ^ (E - 1) <= dexp x < 2 ^ (E - 1)) by lia.
  destruct (mulp_spec c Hc Hk mem i r x p) as (q & Q1 & Q2 & Q3 & Q4 & Q5 & Q6 & [Q7 Q8] & Q9); auto; [rewrite Pr, Px; apply Nat.min_id|lia|].
  destruct (eta_small c p ltac:(lia)) as [H0 H1].
  pose proof (mag_pos c Hc r Hr) as PR. pose proof (mag_pos c Hc x Hx) as PX.
  set (rho := (mag r * mag x)%Q) in *.
  assert (Oq : ok (data q)) by (apply Q4; left; auto).
  assert (Pq : dprec q = p) by (rewrite Pr, Px in Q5; tauto).
  assert (HQ : ((96#100) <= mag q /\ mag q <= 102 # 100)%Q).
  { assert (T1 : (rho * (1 - 3 * (1#100)) <= rho * (1 - 3 * eta p))%Q) by (apply Qmult_le_l; lra).
    assert (T2 : (rho * (1 + eta p) <= rho * (1 + (1 # 100)))%Q) by (apply Qmult_le_l; lra). split; lra. }
  assert (Dq : dexp q = 0 \/ dexp q = - edc c).
  { destruct (mag_bracket c Hc q Q2) as [B1 _]. pose proof (mag_bracket_lt c Hc q Q2 Oq) as B2.
    assert (G1 : (p10 (dexp q) < p10 1)%Q) by (rewrite p10_one; lra).
    assert (G2 : (p10 (-1) < p10 (dexp q + edc c))%Q) by (rewrite p10_m1; lra).
    apply (proj1 (p10_lt _ _)) in G1, G2. destruct Q2 as (_ & _ & _ & [k Hk1]). assert (k = 0 \/ k = -1) by nia. destruct H; subst k; [left|right]; lia. }
  destruct (sub_two_spec c Hc q p Q2 Oq Q3 Pq Hp Dq ltac:(lra)) as (S1 & S2 & S3 & S4 & S5 & S6 & S7 & S8).
  set (s := sub c (two c) q) in *.
  assert (Rs : - 2 ^ (E - 1) <= dexp s < 2 ^ (E - 1)) by lia.
  destruct (mulp_spec c Hc Hk mem (i + 1) r s p) as (r' & R1 & R2 & R3 & R4 & R5 & R6 & [R7 R8] & R9); auto; [rewrite Pr, S4; lia|lia|].
  exists q, r'. split; auto. split; auto. split; auto. split; auto. split.
  - apply (step_error rho (mag q) (mag s) (mag r' * mag x) (eta p) (1 - rho)); auto; try lra; try reflexivity.
    + setoid_replace (rho * mag s * (1 - 3 * eta p))%Q with (mag r * mag s * (1 - 3 * eta p) * mag x)%Q by (unfold rho; ring). apply Qmult_le_compat_r; auto. lra.
    + setoid_replace (rho * mag s * (1 + eta p))%Q with (mag r * mag s * (1 + eta p) * mag x)%Q by (unfold rho; ring). apply Qmult_le_compat_r; auto. lra.
  - destruct (isone_sign_neutral c s) eqn:Is; [|left; apply R4; auto].
    destruct Hr as (Lr & Or & _). destruct Or as [Or|Or]; [left; apply R4; auto|]. rewrite Lr in Or.
    right. destruct (S8 eq_refl) as [T1 T2]. destruct (Q9 Or) as [_ T3]. destruct (T3 I1) as [T4 T5].
    destruct (R9 Or) as [T6 _]. rewrite T5 in T2. split; [auto|]. split; auto. split; auto.
    (* r' = r *)
    assert (Dr : dexp r' = dexp r); [|lia].
    assert (Ir : isone_sign_neutral c r = false).
    { destruct (isone_sign_neutral c r) eqn:Ir; auto. destruct (isone_mag c Hc r) as [Okr _]; auto; [repeat split; auto; [right; rewrite Lr; auto|rewrite Or; cbn [nth]; lia|]|].
      - destruct Q2 as (_ & _ & _ & Q2). rewrite T1 in T4. destruct Hx as (_ & _ & _ & [k Hk1]). exists (- k - 1). lia.
      - rewrite Or in Okr. apply digits_ok_cons in Okr. lia. }
    unfold mulm, mul in R1. rewrite (wk_iszero c s S1) in R1.
    assert (Zr : iszero r = false) by (unfold iszero; rewrite Or; cbn [nth]; lia). rewrite Zr in R1. cbn [orb] in R1.
    change (isone_sign_neutral c (set_neg r false)) with (isone_sign_neutral c r) in R1. rewrite Ir, Is in R1. injection R1 as <-. reflexivity.
Qed.

Lemma newton_prec_spec x d : 1 <= d -> let p := dprec (precision c x (newton_prec c d)) in
  (2 <= p <= n)%nat /\ (p = n /\ edc c * (Z.of_nat n - 1) <= 2 * d \/ 2 * d + 2 <= edc c * (Z.of_nat p - 1)).
Proof.
  intros Hd. cbv zeta. unfold precision. cbn [dprec]. pose proof (nel_ge4 c Hc) as Hn. pose proof (nel_Z c Hc) as HnZ.
  assert (Hed : exists j, edc c = 2 * j /\ 1 <= j <= 4) by (unfold edc; destruct L; [exists 1|exists 2|exists 4]; cbn; lia).
  assert (Hnp : newton_prec c d = 2 * d + edc c + 1) by (unfold newton_prec; change (ed L) with (edc c); destruct Hed as (j & Hj & Hj2); lia).
  change (ed L) with (edc c). rewrite Hnp.
  destruct Hed as (j & Hj & Hj2).
  rewrite Z.quot_div_nonneg, Z.rem_mod_nonneg by lia.
  set (N := 2 * d + edc c + 1) in *.
  pose proof (Z.div_mod N (edc c) ltac:(lia)) as DM. pose proof (Z.mod_pos_bound N (edc c) ltac:(lia)) as MB.
  set (qq := N / edc c) in *. set (mm := N mod edc c) in *.
  assert (Hm : mm <> 0). { intros C. rewrite C in DM. unfold N in DM. rewrite Hj in DM. assert (2 * (d + j - j * qq) = -1) by nia. lia. }
  replace (mm =? 0) with false by lia.
  assert (Q1 : 1 <= qq). { assert (0 < edc c * (qq + 1 - 1) + edc c - edc c + mm) by lia. destruct (Z_lt_le_dec qq 1); auto. exfalso. assert (edc c * qq <= 0) by nia. unfold N in *. lia. }
  rewrite Z.max_l by lia.
  destruct (Z_le_gt_dec (qq + 1) (elem_number c)) as [C|C].
  - rewrite Z.min_r by lia. split; [lia|]. right. rewrite Z2Nat.id by lia. 
    replace (qq + 1 - 1) with qq by lia. assert (edc c * qq >= 2 * d + 2); [|lia].
    assert (edc c * qq > 2 * d + 1 - 1 + 0) by (unfold N in *; lia).
    assert (edc c * qq = 2 * (j * qq)) by (rewrite Hj; ring). lia.
  - rewrite Z.min_l by lia. split; [lia|]. left. split; [lia|]. rewrite HnZ.
    assert (edc c * (elem_number c - 1) <= edc c * (qq - 1)) by (apply Z.mul_le_mono_nonneg_l; lia). unfold N in *. lia.
Qed.

Lemma precision_wk x d : wk x -> wk (precision c x d) /\ mag (precision c x d) = mag x /\ data (precision c x d) = data x /\
  dexp (precision c x d) = dexp x /\ dneg (precision c x d) = dneg x.
Proof. intros H. repeat split; auto; apply H. Qed.

(** Accuracy of an approximation believed correct to [d] digits. *)
Definition good (d : Z) (e : Q) : Prop :=
  ((Qabs e <= (1 # 2) * p10 (- d)) \/ (Qabs e <= 7 * eta n /\ (edc c * (Z.of_nat n - 1) <= 2 * d)%Z))%Q.

Lemma eta_n : (0 < eta n /\ eta n <= 1 # 1000000)%Q.
Proof.
  split; [apply p10_pos|]. change (1 # 1000000)%Q with (p10 (-6)). apply (proj2 (p10_le _ _)). pose proof (edc_pos c). pose proof (nel_ge4 c Hc).
  assert (3 <= Z.of_nat n - 1) by lia. nia.
Qed.

Lemma sq_le a b : (Qabs a <= b -> a * a <= b * b)%Q.
Proof.
  intros H. pose proof (Qabs_nonneg a) as H0. setoid_replace (a * a)%Q with (Qabs a * Qabs a)%Q.
  - apply Qmult_le_compat_nonneg; split; auto.
  - destruct (Qlt_le_dec a 0); [rewrite Qabs_neg by lra|rewrite Qabs_pos by lra]; ring.
Qed.

Lemma good_small d e : 3 <= d -> good d e -> (Qabs e <= 1 # 200)%Q.
Proof.
  intros Hd [H|[H _]].
  - assert (p10 (- d) <= p10 (-3))%Q by (apply (proj2 (p10_le _ _)); lia). change (p10 (-3)) with (1 # 1000)%Q in *. lra.
  - pose proof eta_n. lra.
Qed.

Lemma inv_loop_spec mem f : memory_ok mem -> forall i d r x, wk r -> wk x -> ok (data x) -> dneg r = false -> dneg x = false ->
  isone_sign_neutral c x = false -> - M < dexp x < M - 3 * edc c -> 3 <= d -> good d (1 - mag r * mag x) ->
  d < Z.of_nat n * edc c -> Z.of_nat n * edc c <= d * 2 ^ Z.of_nat f ->
  exists r', inv_loop c (S f) mem n i d r x = Some r' /\ wk r' /\ dneg r' = false /\
    (Qabs (1 - mag r' * mag x) <= 7 * eta n)%Q /\
    (ok (data r') \/ data r' = B :: repeat 0 (n - 1) /\ V (data x) = P (n - 1) /\ dexp r' + dexp x + edc c = 0).
Proof.
  intros Hmem. induction f as [|f IH]; intros i d r x Hr Hx Ox Nr Nx I1 Hrange Hd Hg Hlt Hfuel.
  { change (2 ^ Z.of_nat 0) with 1 in Hfuel. lia. }
  change (inv_loop c (S (S f)) mem n i d r x) with
    (if d <? Z.of_nat n * ed L then
        let r1 := precision c r (newton_prec c d) in
        let x1 := precision c x (newton_prec c d) in
        do q <- mulm c mem i r1 x1;
        do r' <- mulm c mem (i + 1) r1 (sub c (two c) q);
        inv_loop c (S f) mem n (i + 2) (d * 2) r' x1
      else Some r).
  change (ed L) with (edc c). replace (d <? Z.of_nat n * edc c) with true by lia. cbv zeta.
  destruct (precision_wk r (newton_prec c d) Hr) as (A1 & A2 & A3 & A4 & A5).
  destruct (precision_wk x (newton_prec c d) Hx) as (B1 & B2 & B3 & B4 & B5).
  destruct (newton_prec_spec r d ltac:(lia)) as [C1 C2].
  pose proof (eq_refl : dprec (precision c x (newton_prec c d)) = dprec (precision c r (newton_prec c d))) as PP.
  set (r1 := precision c r (newton_prec c d)) in *. set (x1 := precision c x (newton_prec c d)) in *. set (p := dprec r1) in *.
  pose proof (good_small d _ Hd Hg) as Hs.
  destruct (newton_step mem i r1 x1 p) as (q & r' & S1 & S2 & S3 & S4 & S5 & S6); auto; try (rewrite A2, B2; exact Hs).
  rewrite S1, S2. rewrite A2, B2 in S5. rewrite A3, B3, B4 in S6.
  set (e := (1 - mag r * mag x)%Q) in *. pose proof eta_n as [En0 En1].
  assert (G' : good (d * 2) (1 - mag r' * mag x) /\ (p = n -> (Qabs (1 - mag r' * mag x) <= 7 * eta n)%Q \/ 2 * d + 2 <= edc c * (Z.of_nat p - 1))).
  { assert (Half : (p10 (- (d * 2)) == p10 (- d) * p10 (- d))%Q) by (rewrite <- p10_add; replace (- d + - d) with (- (d * 2)) by ring; reflexivity).
    destruct C2 as [[C2 C3]|C2].
    - rewrite C2 in S5. assert (Hp : (p10 (- (d * 2)) <= eta n)%Q) by (unfold eta; apply (proj2 (p10_le _ _)); lia).
      assert (HH : (Qabs (1 - mag r' * mag x) <= 7 * eta n)%Q).
      { destruct Hg as [Hg|[Hg _]]; apply sq_le in Hg; [|assert (eta n * eta n <= (1 # 1000000) * eta n)%Q by (apply Qmult_le_compat_r; lra)]; lra. }
      split; [right; split; auto; lia|auto].
    - split; auto. destruct Hg as [Hg|[_ Hg]].
      + apply sq_le in Hg. left. assert (eta p <= p10 (-2 + - (d * 2)))%Q by (unfold eta; apply (proj2 (p10_le _ _)); lia).
        rewrite p10_add in H. change (p10 (-2)) with (1 # 100)%Q in H. pose proof (p10_pos (- (d * 2))). lra.
      + exfalso. assert (edc c * (Z.of_nat p - 1) <= edc c * (Z.of_nat n - 1)) by (apply Z.mul_le_mono_nonneg_l; pose proof (edc_pos c); lia). lia. }
  destruct G' as [G' Gn].
  destruct (Z_lt_le_dec (d * 2) (Z.of_nat n * edc c)) as [D|D].
  - destruct (IH (i + 2)%nat (d * 2) r' x1) as (rf & F1 & F2 & F3 & F4 & F5); auto; try lia.
    { rewrite Nat2Z.inj_succ, Z.pow_succ_r in Hfuel by lia. lia. }
    rewrite B2 in F4. rewrite B3, B4 in F5. exists rf. auto.
  - assert (Pn : p = n).
    { destruct C2 as [[C2 _]|C2]; auto. exfalso. assert (edc c * (Z.of_nat p - 1) <= edc c * (Z.of_nat n - 1)) by (apply Z.mul_le_mono_nonneg_l; pose proof (edc_pos c); lia). pose proof (edc_pos c). lia. }
    cbn [inv_loop]. change (ed L) with (edc c). replace (d * 2 <? Z.of_nat n * edc c) with false by lia.
    exists r'. split; auto. split; auto. split; auto. split.
    + destruct (Gn Pn) as [G|G]; auto. exfalso. rewrite Pn in G. pose proof (edc_pos c). lia.
    + destruct S6 as [S6|(S6 & S7 & S8 & S9)]; [left; auto|right]. rewrite Pn in S8. rewrite firstn_all2 in S8 by (destruct Hx as (Lx & _); lia).
      split; [congruence|]. auto.
Qed.
End N3.
