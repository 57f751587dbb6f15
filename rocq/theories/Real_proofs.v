(** Real_proofs.v - bounds on the tails of the series of exp and ln, and rational bounds on PI. *)
From Coq Require Import Reals Lra Lia Qreals QArith Ratan Machin.
Local Open Scope R_scope.

(** * Tails of infinite sums *)
Lemma limit_bound f l m B : infinite_sum f l -> (forall N, (m <= N)%nat -> Rabs (sum_f_R0 f N - sum_f_R0 f m) <= B) ->
  Rabs (l - sum_f_R0 f m) <= B.
Proof.
  intros H HB. apply le_epsilon. intros e He. destruct (H e He) as [N HN].
  specialize (HN (Nat.max N m) (Nat.le_max_l _ _)). specialize (HB (Nat.max N m) (Nat.le_max_r _ _)).
  unfold R_dist in HN. rewrite Rabs_minus_sym in HN.
  replace (l - sum_f_R0 f m) with ((l - sum_f_R0 f (Nat.max N m)) + (sum_f_R0 f (Nat.max N m) - sum_f_R0 f m)) by ring.
  eapply Rle_trans; [apply Rabs_triang|]. lra.
Qed.

Lemma tail_bound f l m r : infinite_sum f l -> 0 <= r < 1 ->
  (forall i, (m < i)%nat -> Rabs (f (S i)) <= r * Rabs (f i)) -> Rabs (l - sum_f_R0 f m) <= Rabs (f (S m)) / (1 - r).
Proof.
  intros H Hr Hf. apply limit_bound; [exact H|]. intros N HN. 
  assert (Hg : forall j, Rabs (f (S m + j)%nat) <= Rabs (f (S m)) * r ^ j).
  { induction j as [|j IH].
    - rewrite Nat.add_0_r. simpl. lra.
    - rewrite Nat.add_succ_r. eapply Rle_trans; [apply Hf; lia|]. simpl. replace (Rabs (f (S m)) * (r * r ^ j)) with (r * (Rabs (f (S m)) * r ^ j)) by ring.
      apply Rmult_le_compat_l; [lra|]. exact IH. }
  assert (K : forall j, Rabs (sum_f_R0 f (m + j) - sum_f_R0 f m) <= Rabs (f (S m)) * ((1 - r ^ j) / (1 - r))).
  { induction j as [|j IH].
    - rewrite Nat.add_0_r. replace (sum_f_R0 f m - sum_f_R0 f m) with 0 by ring. rewrite Rabs_R0. simpl. apply Req_le. field. lra.
    - rewrite Nat.add_succ_r. simpl (sum_f_R0 f (S (m + j))).
      replace (sum_f_R0 f (m + j) + f (S (m + j)) - sum_f_R0 f m) with ((sum_f_R0 f (m + j) - sum_f_R0 f m) + f (S m + j)%nat) by (simpl; ring).
      eapply Rle_trans; [apply Rabs_triang|]. specialize (Hg j).
      replace (Rabs (f (S m)) * ((1 - r ^ S j) / (1 - r))) with (Rabs (f (S m)) * ((1 - r ^ j) / (1 - r)) + Rabs (f (S m)) * r ^ j) by (simpl; field; lra).
      lra. }
  specialize (K (N - m)%nat). replace (m + (N - m))%nat with N in K by lia. eapply Rle_trans; [exact K|].
  unfold Rdiv. apply Rmult_le_compat_l; [apply Rabs_pos|]. rewrite <- (Rmult_1_l (/ (1 - r))) at 2.
  apply Rmult_le_compat_r; [apply Rlt_le, Rinv_0_lt_compat; lra|]. pose proof (pow_le r (N - m) (proj1 Hr)). lra.
Qed.

(** * The exponential series *)
Definition exp_term (x : R) (i : nat) : R := / INR (fact i) * x ^ i.

Lemma exp_term_S x i : exp_term x (S i) = exp_term x i * (x / INR (S i)).
Proof.
  unfold exp_term. change (x ^ S i) with (x * x ^ i). replace (fact (S i)) with (S i * fact i)%nat by reflexivity. rewrite mult_INR.
  pose proof (INR_fact_neq_0 i). assert (INR (S i) <> 0) by (apply not_0_INR; lia). field. auto.
Qed.

Lemma exp_tail x m : Rabs x < 1 -> Rabs (exp x - sum_f_R0 (exp_term x) m) <= Rabs (exp_term x (S m)) / (1 - Rabs x).
Proof.
  intros H. apply tail_bound.
  - unfold exp. destruct (exist_exp x) as [l Hl]. exact Hl.
  - split; [apply Rabs_pos|exact H].
  - intros i Hi. rewrite exp_term_S, Rabs_mult, Rmult_comm. apply Rmult_le_compat_r; [apply Rabs_pos|].
    unfold Rdiv. rewrite Rabs_mult. rewrite <- (Rmult_1_r (Rabs x)) at 2. apply Rmult_le_compat_l; [apply Rabs_pos|].
    rewrite Rabs_inv. rewrite Rabs_pos_eq by (apply pos_INR). rewrite <- Rinv_1. apply Rinv_le_contravar; [lra|].
    change 1 with (INR 1). apply le_INR. lia.
Qed.

Lemma exp_near_0 u : Rabs u <= 1 / 2 -> Rabs (exp u - 1) <= 2 * Rabs u.
Proof.
  intros H. pose proof (exp_tail u 0) as T. unfold exp_term in T. simpl in T.
  replace (/ 1 * 1) with 1 in T by field. replace (/ 1 * (u * 1)) with u in T by field.
  eapply Rle_trans; [apply T; lra|]. pose proof (Rabs_pos u). apply Rmult_le_reg_r with (1 - Rabs u); [lra|].
  unfold Rdiv. rewrite Rmult_assoc, Rinv_l by lra. rewrite Rmult_1_r. nra.
Qed.

(** * The logarithmic series *)
Fixpoint ln_sum (y : R) (m : nat) : R :=
  match m with O => 0 | S m' => ln_sum y m' + (-1) ^ m' * y ^ m / INR m end.

Lemma ln_sum_deriv y m : derivable_pt_lim (fun y => ln_sum y m) y (sum_f_R0 (fun i => (- y) ^ i) m - (- y) ^ m).
Proof.
  induction m as [|m IH].
  - simpl. replace (1 - 1) with 0 by ring. apply derivable_pt_lim_const.
  - change (fun y0 : R => ln_sum y0 (S m)) with (plus_fct (fun y0 => ln_sum y0 m) (fun y0 => (-1) ^ m * y0 ^ S m / INR (S m))).
    replace (sum_f_R0 (fun i => (- y) ^ i) (S m) - (- y) ^ S m) with ((sum_f_R0 (fun i => (- y) ^ i) m - (- y) ^ m) + (- y) ^ m) by (simpl; ring).
    apply derivable_pt_lim_plus; [exact IH|].
    assert (NZ : INR (S m) <> 0) by (apply not_0_INR; lia).
    assert (D : derivable_pt_lim (mult_real_fct ((-1) ^ m / INR (S m)) (fun y => y ^ S m)) y (((-1) ^ m / INR (S m)) * (INR (S m) * y ^ pred (S m)))).
    { apply derivable_pt_lim_scal. apply derivable_pt_lim_pow. }
    replace (((-1) ^ m / INR (S m)) * (INR (S m) * y ^ pred (S m))) with ((- y) ^ m) in D.
    2:{ simpl pred. replace (- y) with ((-1) * y) by ring. rewrite Rpow_mult_distr. field. exact NZ. }
    intros e He. destruct (D e He) as [d Hd]. exists d. intros h Hh1 Hh2. specialize (Hd h Hh1 Hh2).
    unfold mult_real_fct in Hd.
    replace (((-1) ^ m * (y + h) ^ S m / INR (S m) - (-1) ^ m * y ^ S m / INR (S m))) with ((-1) ^ m / INR (S m) * (y + h) ^ S m - (-1) ^ m / INR (S m) * y ^ S m) by (unfold Rdiv; ring).
    exact Hd.
Qed.

Lemma geom y m : (1 + y) * (sum_f_R0 (fun i => (- y) ^ i) m - (- y) ^ m) = 1 - (- y) ^ m.
Proof. induction m as [|m IH]; simpl in *; lra. Qed.

Lemma ln1_deriv y : -1 < y -> derivable_pt_lim (fun y => ln (1 + y)) y (/ (1 + y)).
Proof.
  intros H. change (fun y => ln (1 + y)) with (comp ln (fun y => 1 + y)).
  replace (/ (1 + y)) with (/ (1 + y) * (0 + 1)) by ring. apply derivable_pt_lim_comp.
  - change (fun y => 1 + y) with (plus_fct (fct_cte 1) id). apply derivable_pt_lim_plus; [apply derivable_pt_lim_const|apply derivable_pt_lim_id].
  - apply derivable_pt_lim_ln. lra.
Qed.

Lemma ln_tail y m : Rabs y < 1 -> Rabs (ln (1 + y) - ln_sum y m) <= Rabs y ^ S m / (1 - Rabs y).
Proof.
  intros Hy. set (g := (fun t => ln (1 + t) - ln_sum t m)). set (g' := fun t => (- t) ^ m / (1 + t)).
  assert (Dg : forall t, Rabs t < 1 -> derivable_pt_lim g t (g' t)).
  { intros t Ht. assert (-1 < t) by (apply Rabs_def2 in Ht; lra).
    unfold g. change (fun t => ln (1 + t) - ln_sum t m) with (minus_fct (fun t => ln (1 + t)) (fun t => ln_sum t m)).
    replace (g' t) with (/ (1 + t) - (sum_f_R0 (fun i => (- t) ^ i) m - (- t) ^ m)).
    - apply derivable_pt_lim_minus; [apply ln1_deriv; auto|apply ln_sum_deriv].
    - unfold g'. pose proof (geom t m) as G. apply Rmult_eq_reg_l with (1 + t); [|lra]. rewrite Rmult_minus_distr_l, G. field. lra. }
  assert (g0 : g 0 = 0).
  { unfold g. replace (1 + 0) with 1 by ring. rewrite ln_1. assert (S0 : ln_sum 0 m = 0).
    { clear. induction m as [|m IH]; [reflexivity|]. simpl ln_sum. rewrite IH. rewrite Rmult_0_l. unfold Rdiv. ring. }
    rewrite S0. ring. }
  assert (B : forall t, Rabs t <= Rabs y -> Rabs (g' t) <= Rabs y ^ m / (1 - Rabs y)).
  { intros t Ht. unfold g', Rdiv. rewrite Rabs_mult. apply Rmult_le_compat; try apply Rabs_pos.
    - rewrite <- RPow_abs, Rabs_Ropp. apply pow_incr. split; [apply Rabs_pos|auto].
    - rewrite Rabs_inv. apply Rinv_le_contravar; [lra|]. assert (-Rabs y <= t) by (pose proof (Rle_abs (- t)) as Ha; rewrite Rabs_Ropp in Ha; lra).
      rewrite (Rabs_pos_eq (1 + t)) by lra. lra. }
  assert (K : Rabs (g y - g 0) <= Rabs y ^ m / (1 - Rabs y) * Rabs (y - 0)).
  { destruct (MVT_abs g g' 0 y) as (t & Ht & Ht2).
    - intros t Ht. apply Dg. eapply Rle_lt_trans; [|exact Hy]. unfold Rmin, Rmax in Ht. apply Rabs_le.
      destruct (Rle_dec 0 y); [rewrite (Rabs_pos_eq y) by lra|rewrite (Rabs_left1 y) by lra]; lra.
    - rewrite Ht. apply Rmult_le_compat_r; [apply Rabs_pos|]. apply B. apply Rabs_le. unfold Rmin, Rmax in Ht2.
      destruct (Rle_dec 0 y); [rewrite (Rabs_pos_eq y) by lra|rewrite (Rabs_left1 y) by lra]; lra. }
  rewrite g0 in K. replace (g y - 0) with (g y) in K by ring. replace (y - 0) with y in K by ring.
  change (ln (1 + y) - ln_sum y m) with (g y). eapply Rle_trans; [exact K|]. apply Req_le. simpl. field. lra.
Qed.
