(** Const_proofs.v - integer certificates for rational bounds on ln 2, ln 10 and PI. *)
From Coq Require Import Reals Lra Lia ZArith Machin Ratan.
From Verif Require Import Real_proofs.
Local Open Scope R_scope.

(** Partial sums and last term of exp (a / b) in units of 1 / e, rounded down and up. *)
Fixpoint esum (a b e : Z) (m : nat) : Z * Z * Z * Z :=
  match m with
  | O => (e, e, e, e)
  | S m' => let '(ls, hs, lt, ht) := esum a b e m' in
            let k := (b * Z.of_nat m)%Z in let lt' := (a * lt / k)%Z in let ht' := (a * ht / k + 1)%Z in
            (ls + lt', hs + ht', lt', ht')%Z
  end.

Lemma exp_term_pos x i : 0 <= x -> 0 <= exp_term x i.
Proof. intros. unfold exp_term. apply Rmult_le_pos; [apply Rlt_le, Rinv_0_lt_compat, INR_fact_lt_0|apply pow_le; auto]. Qed.

Lemma exp_ge_sum x m : 0 <= x -> sum_f_R0 (exp_term x) m <= exp x.
Proof.
  intros H. assert (G : Un_growing (fun N => sum_f_R0 (exp_term x) N)).
  { intros N. simpl. pose proof (exp_term_pos x (S N) H). lra. }
  apply (growing_ineq _ (exp x) G).
  unfold exp. destruct (exist_exp x) as [l Hl]. exact Hl.
Qed.

Lemma div_real n k : (0 < k)%Z -> IZR (n / k) <= IZR n / IZR k <= IZR (n / k + 1).
Proof.
  intros Hk. pose proof (Z.div_mod n k ltac:(lia)) as D. pose proof (Z.mod_pos_bound n k Hk) as M.
  assert (K : 0 < IZR k) by (apply IZR_lt; auto).
  assert (E1 : (k * (n / k) <= n)%Z) by lia. assert (E2 : (n <= k * (n / k + 1))%Z) by lia.
  apply IZR_le in E1, E2. rewrite mult_IZR in E1, E2. split; apply Rmult_le_reg_r with (IZR k); auto; unfold Rdiv; rewrite Rmult_assoc, Rinv_l by lra; lra.
Qed.

Lemma esum_spec a b e m : (0 <= a)%Z -> (0 < b)%Z -> (0 < e)%Z -> let x := IZR a / IZR b in let '(ls, hs, lt, ht) := esum a b e m in
  (0 <= lt)%Z /\ (0 <= ht)%Z /\ (0 <= ls)%Z /\ IZR ls <= IZR e * sum_f_R0 (exp_term x) m <= IZR hs /\ IZR lt <= IZR e * exp_term x m <= IZR ht.
Proof.
  intros Ha Hb He. cbv zeta. assert (B0 : 0 < IZR b) by (apply IZR_lt; auto). assert (A0 : 0 <= IZR a) by (apply IZR_le; auto).
  assert (X0 : 0 <= IZR a / IZR b) by (unfold Rdiv; apply Rmult_le_pos; [auto|apply Rlt_le, Rinv_0_lt_compat; auto]).
  induction m as [|m IH].
  - simpl. unfold exp_term. simpl. rewrite Rinv_1, !Rmult_1_r. repeat split; try lia; lra.
  - cbn [esum]. destruct (esum a b e m) as [[[ls hs] lt] ht]. destruct IH as (L0 & H0 & S0 & [S1 S2] & T1 & T2).
    set (k := (b * Z.of_nat (S m))%Z). assert (Hk : (0 < k)%Z) by (unfold k; lia).
    assert (K0 : 0 < IZR k) by (apply IZR_lt; auto).
    assert (Q1 : (0 <= a * lt / k)%Z) by (apply Z.div_pos; lia). assert (Q2 : (0 <= a * ht / k)%Z) by (apply Z.div_pos; lia).
    assert (NS : IZR (Z.of_nat (S m)) <> 0) by (apply not_0_IZR; lia).
    assert (T : IZR e * exp_term (IZR a / IZR b) (S m) = (IZR e * exp_term (IZR a / IZR b) m) * (IZR a / IZR k)).
    { rewrite exp_term_S, (INR_IZR_INZ (S m)). unfold k. rewrite mult_IZR. field. split; [auto|lra]. }
    assert (AK : 0 <= IZR a / IZR k) by (unfold Rdiv; apply Rmult_le_pos; [auto|apply Rlt_le, Rinv_0_lt_compat; auto]).
    destruct (div_real (a * lt) k Hk) as [D1 _]. destruct (div_real (a * ht) k Hk) as [_ D2]. rewrite mult_IZR in D1, D2.
    assert (U1 : IZR (a * lt / k) <= IZR e * exp_term (IZR a / IZR b) (S m)).
    { rewrite T. eapply Rle_trans; [exact D1|]. replace (IZR a * IZR lt / IZR k) with (IZR lt * (IZR a / IZR k)) by (field; lra). apply Rmult_le_compat_r; auto. }
    assert (U2 : IZR e * exp_term (IZR a / IZR b) (S m) <= IZR (a * ht / k + 1)).
    { rewrite T. eapply Rle_trans; [|exact D2]. replace (IZR a * IZR ht / IZR k) with (IZR ht * (IZR a / IZR k)) by (field; lra). apply Rmult_le_compat_r; auto. }
    split; [auto|]. split; [lia|]. split; [lia|]. split; [|auto]. simpl sum_f_R0. rewrite !(plus_IZR ls), !(plus_IZR hs), Rmult_plus_distr_l. lra.
Qed.

Lemma esum_bounds a b e m : (0 <= a)%Z -> (0 < b)%Z -> (0 < e)%Z -> (4 * a <= 3 * b)%Z -> (1 <= m)%nat ->
  let '(ls, hs, lt, ht) := esum a b e m in (0 <= ls)%Z /\ IZR ls / IZR e <= exp (IZR a / IZR b) <= IZR (hs + 3 * ht) / IZR e.
Proof.
  intros Ha Hb He Hab Hm. pose proof (esum_spec a b e m Ha Hb He) as Sp. cbv zeta in Sp.
  set (x := IZR a / IZR b) in *. assert (Hb' : 0 < IZR b) by (apply IZR_lt; auto). assert (He' : 0 < IZR e) by (apply IZR_lt; auto).
  assert (X0 : 0 <= x) by (unfold x, Rdiv; apply Rmult_le_pos; [apply IZR_le; auto|apply Rlt_le, Rinv_0_lt_compat; auto]).
  assert (X1 : x <= 3 / 4). { unfold x. apply IZR_le in Hab. rewrite !mult_IZR in Hab. apply Rmult_le_reg_r with (IZR b); auto. unfold Rdiv. rewrite Rmult_assoc, Rinv_l by lra. lra. }
  destruct (esum a b e m) as [[[ls hs] lt] ht]. destruct Sp as (_ & _ & S0 & [S1 S2] & _ & T2). split; [auto|].
  pose proof (exp_ge_sum x m X0) as G. destruct m as [|m]; [lia|].
  pose proof (exp_tail x m) as T. rewrite (Rabs_pos_eq x X0) in T. specialize (T ltac:(lra)).
  rewrite (Rabs_pos_eq _ (exp_term_pos x (S m) X0)) in T. simpl sum_f_R0 in S1, S2, G.
  assert (T3 : exp x <= sum_f_R0 (exp_term x) m + 4 * exp_term x (S m)).
  { pose proof (Rle_abs (exp x - sum_f_R0 (exp_term x) m)) as A.
    assert (exp_term x (S m) / (1 - x) <= 4 * exp_term x (S m)).
    { rewrite Rmult_comm. unfold Rdiv. apply Rmult_le_compat_l; [apply exp_term_pos; auto|].
      replace 4 with (/ (1 / 4)) by field. apply Rinv_le_contravar; lra. }
    lra. }
  split; apply Rmult_le_reg_r with (IZR e); auto; unfold Rdiv; rewrite Rmult_assoc, Rinv_l by lra; rewrite Rmult_1_r, Rmult_comm.
  - eapply Rle_trans; [|apply Rmult_le_compat_l; [lra|exact G]]. lra.
  - eapply Rle_trans; [apply Rmult_le_compat_l; [lra|exact T3]|]. rewrite plus_IZR, mult_IZR. lra.
Qed.

Lemma exp_pow x k : exp (INR k * x) = exp x ^ k.
Proof. induction k; [simpl; rewrite Rmult_0_l; apply exp_0|]. rewrite S_INR. replace ((INR k + 1) * x) with (x + INR k * x) by ring. rewrite exp_plus, IHk. reflexivity. Qed.

Lemma ln_mono x y : 0 < x -> x <= y -> ln x <= ln y.
Proof. intros H [L|<-]; [apply Rlt_le, ln_increasing; auto|apply Rle_refl]. Qed.

(** [k * a / b <= ln T], certified in integers. *)
Lemma ln_above a b e m k T : (0 <= a)%Z -> (0 < b)%Z -> (0 < e)%Z -> (4 * a <= 3 * b)%Z -> (1 <= m)%nat -> (0 < T)%Z ->
  (let '(ls, hs, lt, ht) := esum a b e m in (hs + 3 * ht) ^ Z.of_nat k <=? T * e ^ Z.of_nat k)%Z = true ->
  INR k * (IZR a / IZR b) <= ln (IZR T).
Proof.
  intros Ha Hb He Hab Hm HT H. pose proof (esum_bounds a b e m Ha Hb He Hab Hm) as Bd. destruct (esum a b e m) as [[[ls hs] lt] ht].
  destruct Bd as (_ & _ & Bd). apply Z.leb_le in H. apply IZR_le in H. rewrite mult_IZR, <- !pow_IZR in H.
  assert (He' : 0 < IZR e) by (apply IZR_lt; auto).
  rewrite <- (ln_exp (INR k * (IZR a / IZR b))). apply ln_mono; [apply exp_pos|]. rewrite exp_pow.
  apply Rle_trans with ((IZR (hs + 3 * ht) / IZR e) ^ k).
  - apply pow_incr. split; [apply Rlt_le, exp_pos|exact Bd].
  - unfold Rdiv. rewrite Rpow_mult_distr, <- Rinv_pow by lra. apply Rmult_le_reg_r with (IZR e ^ k); [apply pow_lt; auto|].
    rewrite Rmult_assoc, Rinv_l by (apply pow_nonzero; lra). lra.
Qed.

(** [ln T < k * a / b]. *)
Lemma ln_below a b e m k T : (0 <= a)%Z -> (0 < b)%Z -> (0 < e)%Z -> (4 * a <= 3 * b)%Z -> (1 <= m)%nat -> (0 < T)%Z ->
  (let '(ls, hs, lt, ht) := esum a b e m in T * e ^ Z.of_nat k <? ls ^ Z.of_nat k)%Z = true ->
  ln (IZR T) < INR k * (IZR a / IZR b).
Proof.
  intros Ha Hb He Hab Hm HT H. pose proof (esum_bounds a b e m Ha Hb He Hab Hm) as Bd. destruct (esum a b e m) as [[[ls hs] lt] ht].
  destruct Bd as (L0 & Bd & _). apply Z.ltb_lt in H. apply IZR_lt in H. rewrite mult_IZR, <- !pow_IZR in H.
  assert (He' : 0 < IZR e) by (apply IZR_lt; auto).
  rewrite <- (ln_exp (INR k * (IZR a / IZR b))). apply ln_increasing; [apply IZR_lt; auto|]. rewrite exp_pow.
  apply Rlt_le_trans with ((IZR ls / IZR e) ^ k).
  - unfold Rdiv. rewrite Rpow_mult_distr, <- Rinv_pow by lra. apply Rmult_lt_reg_r with (IZR e ^ k); [apply pow_lt; auto|].
    rewrite Rmult_assoc, Rinv_l by (apply pow_nonzero; lra). lra.
  - apply pow_incr. split; [|exact Bd]. unfold Rdiv. apply Rmult_le_pos; [apply IZR_le; auto|apply Rlt_le, Rinv_0_lt_compat; auto].
Qed.

(** Partial sums of 2 atan (1/3) + atan (1/7): numerator over 21^(2m+1) (2m+1)!!, then 3^(2m+1), 7^(2m+1)
    and (2m+1)!!. *)
Fixpoint asum (m : nat) : Z * Z * Z * Z :=
  match m with
  | O => (2 * 7 + 3, 3, 7, 1)%Z
  | S m' => let '(s, p3, p7, dd) := asum m' in
            let k := (2 * Z.of_nat m + 1)%Z in let q3 := (9 * p3)%Z in let q7 := (49 * p7)%Z in
            (k * (441 * s) + (if Z.even (Z.of_nat m) then 1 else -1) * ((2 * q7 + q3) * dd), q3, q7, k * dd)%Z
  end.

Lemma pow_m1 m : (-1) ^ m = IZR (if Z.even (Z.of_nat m) then 1 else -1).
Proof.
  induction m; [reflexivity|]. change ((-1) ^ S m) with (-1 * (-1) ^ m). rewrite IHm, Nat2Z.inj_succ, Z.even_succ, <- Z.negb_even.
  destruct (Z.even (Z.of_nat m)); simpl; lra.
Qed.

Lemma asum_spec m : let '(s, p3, p7, dd) := asum m in
  IZR p3 = 3 ^ (2 * m + 1) /\ IZR p7 = 7 ^ (2 * m + 1) /\ (0 < p3)%Z /\ (0 < p7)%Z /\ (0 < dd)%Z /\
  IZR s / IZR (p3 * p7 * dd) = sum_f_R0 (tg_alt PI_2_3_7_tg) m.
Proof.
  induction m as [|m IH].
  - cbn [asum]. repeat (split; [simpl; try lra; lia|]). unfold tg_alt, PI_2_3_7_tg, Ratan_seq. simpl. field.
  - cbn [asum]. destruct (asum m) as [[[s p3] p7] dd]. destruct IH as (H3 & H7 & P3 & P7 & Pd & Hs).
    assert (E3 : IZR (9 * p3) = 3 ^ (2 * S m + 1)) by (replace (2 * S m + 1)%nat with (S (S (2 * m + 1))) by lia; cbn [pow]; rewrite mult_IZR, H3; ring).
    assert (E7 : IZR (49 * p7) = 7 ^ (2 * S m + 1)) by (replace (2 * S m + 1)%nat with (S (S (2 * m + 1))) by lia; cbn [pow]; rewrite mult_IZR, H7; ring).
    split; [exact E3|]. split; [exact E7|]. split; [lia|]. split; [lia|]. split; [nia|].
    simpl sum_f_R0. rewrite <- Hs. unfold tg_alt, PI_2_3_7_tg, Ratan_seq. rewrite !pow_inv, <- E3, <- E7, pow_m1.
    assert (N3 : IZR p3 <> 0) by (apply not_0_IZR; lia). assert (N7 : IZR p7 <> 0) by (apply not_0_IZR; lia). assert (Nd : IZR dd <> 0) by (apply not_0_IZR; lia).
    rewrite (INR_IZR_INZ (2 * S m + 1)). replace (Z.of_nat (2 * S m + 1)) with (2 * Z.of_nat (S m) + 1)%Z by lia.
    set (k := (2 * Z.of_nat (S m) + 1)%Z). assert (Nk : IZR k <> 0) by (apply not_0_IZR; lia).
    set (g := (if Z.even (Z.of_nat (S m)) then 1 else -1)%Z). rewrite !plus_IZR, !mult_IZR, !plus_IZR, !mult_IZR. field. auto.
Qed.

Lemma pi_above a b N : (0 < b)%Z ->
  (let '(s, p3, p7, dd) := asum (S (2 * N)) in a * (p3 * p7 * dd) <=? 4 * s * b)%Z = true -> IZR a / IZR b <= PI.
Proof.
  intros Hb H. pose proof (asum_spec (S (2 * N))) as As. pose proof (proj1 (PI_2_3_7_ineq N)) as I.
  destruct (asum (S (2 * N))) as [[[s p3] p7] dd]. destruct As as (_ & _ & P3 & P7 & Pd & Hs). rewrite <- Hs in I.
  apply Z.leb_le in H. set (d := (p3 * p7 * dd)%Z) in *. assert (Hd : (0 < d)%Z) by (unfold d; repeat apply Z.mul_pos_pos; auto). apply IZR_le in H. rewrite !mult_IZR in H.
  apply IZR_lt in Hb, Hd. apply Rle_trans with (4 * (IZR s / IZR d)); [|lra].
  apply Rmult_le_reg_r with (IZR b * IZR d); [apply Rmult_lt_0_compat; auto|].
  replace (IZR a / IZR b * (IZR b * IZR d)) with (IZR a * IZR d) by (field; lra).
  replace (4 * (IZR s / IZR d) * (IZR b * IZR d)) with (4 * IZR s * IZR b) by (field; lra). exact H.
Qed.
Lemma pi_below a b N : (0 < b)%Z ->
  (let '(s, p3, p7, dd) := asum (2 * N) in 4 * s * b <? a * (p3 * p7 * dd))%Z = true -> PI < IZR a / IZR b.
Proof.
  intros Hb H. pose proof (asum_spec (2 * N)) as As. pose proof (proj2 (PI_2_3_7_ineq N)) as I.
  destruct (asum (2 * N)) as [[[s p3] p7] dd]. destruct As as (_ & _ & P3 & P7 & Pd & Hs). rewrite <- Hs in I.
  apply Z.ltb_lt in H. set (d := (p3 * p7 * dd)%Z) in *. assert (Hd : (0 < d)%Z) by (unfold d; repeat apply Z.mul_pos_pos; auto). apply IZR_lt in H. rewrite !mult_IZR in H.
  apply IZR_lt in Hb, Hd. apply Rle_lt_trans with (4 * (IZR s / IZR d)); [lra|].
  apply Rmult_lt_reg_r with (IZR b * IZR d); [apply Rmult_lt_0_compat; auto|].
  replace (IZR a / IZR b * (IZR b * IZR d)) with (IZR a * IZR d) by (field; lra).
  replace (4 * (IZR s / IZR d) * (IZR b * IZR d)) with (4 * IZR s * IZR b) by (field; lra). exact H.
Qed.

(** The digits stored in the tables. *)
Definition pi_digits : Z := 3141592653589793238462643383279502884197169399375105820974944592307816406286208998628034825342117.
Definition ln2_digits : Z := 69314718055994530941723212145817656807550013436025525412068000949339362196969471560586332699641868754200.
Definition ln10_digits : Z := 2302585092994045684017991454684364207601101488628772976033327900967572609677352480235997205089598.
Definition e96 : Z := 10 ^ 96.
Definition e104 : Z := 10 ^ 104.

Definition e110 : Z := 10 ^ 110.

Lemma pi_digits_ok : IZR pi_digits / IZR e96 <= PI < IZR (pi_digits + 1) / IZR e96.
Proof. split; [apply pi_above with 52%nat; [reflexivity|]|apply pi_below with 52%nat; [reflexivity|]]; vm_cast_no_check (eq_refl true). Qed.
Lemma ln2_digits_ok : IZR ln2_digits / IZR e104 <= ln 2 < IZR (ln2_digits + 1) / IZR e104.
Proof.
  split.
  - pose proof (ln_above ln2_digits e104 e110 72 1 2) as H. simpl INR in H. rewrite Rmult_1_l in H.
    apply H; [vm_compute; discriminate|vm_compute; reflexivity|vm_compute; reflexivity|vm_compute; discriminate|lia|reflexivity|vm_cast_no_check (eq_refl true)].
  - pose proof (ln_below (ln2_digits + 1) e104 e110 72 1 2) as H. simpl INR in H. rewrite Rmult_1_l in H.
    apply H; [vm_compute; discriminate|vm_compute; reflexivity|vm_compute; reflexivity|vm_compute; discriminate|lia|reflexivity|vm_cast_no_check (eq_refl true)].
Qed.
Lemma ln10_digits_ok : IZR ln10_digits / IZR e96 <= ln 10 < IZR (ln10_digits + 1) / IZR e96.
Proof.
  assert (NZ : IZR e96 <> 0) by (apply not_0_IZR; vm_compute; discriminate).
  split.
  - pose proof (ln_above ln10_digits (4 * e96) e110 66 4 10) as H. 
    replace (INR 4 * (IZR ln10_digits / IZR (4 * e96))) with (IZR ln10_digits / IZR e96) in H by (rewrite mult_IZR; simpl INR; field; auto).
    apply H; [vm_compute; discriminate|vm_compute; reflexivity|vm_compute; reflexivity|vm_compute; discriminate|lia|reflexivity|vm_cast_no_check (eq_refl true)].
  - pose proof (ln_below (ln10_digits + 1) (4 * e96) e110 66 4 10) as H. 
    replace (INR 4 * (IZR (ln10_digits + 1) / IZR (4 * e96))) with (IZR (ln10_digits + 1) / IZR e96) in H by (rewrite mult_IZR; simpl INR; field; auto).
    apply H; [vm_compute; discriminate|vm_compute; reflexivity|vm_compute; reflexivity|vm_compute; discriminate|lia|reflexivity|vm_cast_no_check (eq_refl true)].
Qed.
