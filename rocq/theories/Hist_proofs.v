(** Hist_proofs.v - histories of ring operations on integer-valued variables are exact. *)
From Verif Require Export Spec_Hist Exact_proofs Refute_arith.
From Coq Require Import Lqa.
Local Open Scope Z_scope.

Section HI.
Variable c : cfg.
Notation M := (max_exp10_of (c_expo c)).
Notation holds := (holds c).
Hypothesis Hc : cfg_ok c.
Hypothesis Hm : mul_ok c.
Definition hcap : Z := 10 ^ (int_digits c - 1).

Lemma hcap_facts : 0 < int_digits c /\ hcap < 10 ^ int_digits c /\ 10 ^ int_digits c <= 10 ^ (elem_number c * edc c) /\ int_digits c <= M.
Proof.
  destruct (cap_pos c Hc) as (C0 & C1 & C2). unfold hcap. pose proof (max_exp10_bounds c) as (HM & _). pose proof (edc_pos c). pose proof (elem_number_ge4 c Hc).
  assert (0 < int_digits c) by (unfold int_digits; nia). split; auto. split; [apply Z.pow_lt_mono_r; lia|]. split; [apply Z.pow_le_mono_r; lia|auto].
Qed.

Lemma holds_zero_iff x k : holds x k -> (k = 0 <-> iszero x = true).
Proof.
  intros (N & V & _). pose proof (value_zero_iff c Hc x N) as H. rewrite V in H. change 0%Q with (inject_Z 0) in H. rewrite inject_Z_injective in H. tauto.
Qed.

(** Exponents of the variables. *)
Lemma holds_exp x k : holds x k -> Z.abs k < hcap -> - M < dexp x < M.
Proof.
  intros H Hk. destruct (Z.eq_dec k 0) as [K|K]; [apply H; auto|].
  destruct (iszero x) eqn:Zx; [exfalso; apply K, (holds_zero_iff x k H); auto|].
  destruct H as (N & V & _). destruct (int_exp c Hc x k N Zx V) as (E0 & _).
  destruct hcap_facts as (F1 & F2 & F3 & F4). pose proof (exp_small c Hc x k (int_digits c) N Zx V ltac:(lia) ltac:(lia)). lia.
Qed.

Lemma holds_intro x k : normal c x -> (value c x == inject_Z k)%Q -> (iszero x = true -> - M < dexp x < M) -> holds x k.
Proof.
  intros N V Z. split; auto. split; auto. intros ->. apply Z. apply (value_zero_iff c Hc x N). rewrite V. reflexivity.
Qed.

Lemma exp0 : - M < 0 < M.
Proof. pose proof (max_exp10_bounds c). lia. Qed.

Lemma holds_zero : holds (zero c) 0.
Proof. apply holds_intro; [apply zero_normal; auto|apply value_zero; [auto|apply zero_normal; auto|apply zero_iszero; auto]|]. intros _. apply exp0. Qed.

Lemma holds_neg x k : holds x k -> holds (negate x) (- k).
Proof.
  intros (N & V & Z). split; [apply negate_normal; auto|]. split; [rewrite value_negate by auto; rewrite V, inject_Z_opp; reflexivity|].
  intros K. rewrite negate_exp. apply Z. lia.
Qed.

(** Zero results of an addition. *)
Lemma add_zero_exp x v k j : holds x k -> holds v j -> Z.abs k < hcap -> Z.abs j < hcap -> Z.abs (k + j) < hcap -> holds (add c x v) (k + j).
Proof.
  intros Hx Hv Kx Kv Kz. destruct hcap_facts as (F1 & F2 & F3 & F4).
  assert (V : (value c (add c x v) == inject_Z (k + j))%Q).
  { apply add_int_exact; auto; try apply Hx; try apply Hv; lia. }
  pose proof (add_normal c Hc x v (proj1 Hx) (proj1 Hv)) as N. split; auto. split; auto. intros Hz.
  destruct (iszero x) eqn:Zx.
  { rewrite add_zero_l by auto. apply (holds_exp v j); auto. }
  destruct (iszero v) eqn:Zv.
  { rewrite add_zero_r by (auto; apply Hx || apply Hv). apply (holds_exp x k); auto. }
  assert (E : add c x v = zero c).
  { assert (Ev : (value c v == - value c x)%Q) by (rewrite (proj1 (proj2 Hx)), (proj1 (proj2 Hv)); replace j with (- k) by lia; rewrite inject_Z_opp; reflexivity).
    assert (Evx : v = negate x).
    { apply (value_unique c Hc); [apply Hv|apply negate_normal; apply Hx|auto|]. pose proof (value_negate c Hc x (proj1 Hx)) as W. rewrite W. exact Ev. }
    rewrite Evx. apply (add_neg_self c Hc); [apply Hx|auto]. }
  rewrite E. apply exp0.
Qed.

Lemma holds_sub x v k j : holds x k -> holds v j -> Z.abs k < hcap -> Z.abs j < hcap -> Z.abs (k - j) < hcap -> holds (sub c x v) (k - j).
Proof.
  intros Hx Hv Kx Kv Kz. unfold sub. replace (k - j) with (- (- k + j)) by lia. apply holds_neg. apply add_zero_exp; auto; try lia. apply holds_neg; auto.
Qed.

Lemma ull0_exp : dexp (from_ull c 0) = 0.
Proof. unfold from_ull. assert (ull_limbs c (ull_tmp_size c) 0 = []) as -> by (destruct (ull_tmp_size c); reflexivity). reflexivity. Qed.

Lemma holds_uint u : 0 <= u < 2 ^ 64 -> u < hcap -> holds (from_ull c u) u.
Proof.
  intros Hu Hf. destruct hcap_facts as (F1 & F2 & F3 & F4). rewrite Z.mul_comm in F3. destruct (from_ull_all c u Hc Hu) as (A1 & _ & A3).
  apply holds_intro; [auto|apply A3; lia|]. intros Z0.
  assert (u = 0). { assert (W := A3 ltac:(lia)). rewrite (value_zero c Hc _ A1 Z0) in W. change 0%Q with (inject_Z 0) in W. apply (proj1 (inject_Z_injective _ _)) in W. auto. }
  subst u. pose proof exp0. rewrite ull0_exp. auto.
Qed.

Lemma holds_sint m : - 2 ^ 63 <= m < 2 ^ 63 -> Z.abs m < hcap -> holds (from_sll c m) m.
Proof.
  intros Hu Hf. destruct hcap_facts as (F1 & F2 & F3 & F4). rewrite Z.mul_comm in F3. destruct (from_sll_exact c Hc m Hu ltac:(lia)) as (A1 & A3).
  apply holds_intro; [auto|auto|]. intros Z0.
  assert (m = 0). { assert (W := A3). rewrite (value_zero c Hc _ A1 Z0) in W. change 0%Q with (inject_Z 0) in W. apply (proj1 (inject_Z_injective _ _)) in W. auto. }
  subst m. pose proof exp0. change (dexp (from_sll c 0)) with (dexp (from_ull c 0)). rewrite ull0_exp. auto.
Qed.

Lemma holds_mul rmem scratch x v k j : pool_ok c rmem scratch -> holds x k -> holds v j -> Z.abs j < hcap -> Z.abs (k * j) < hcap ->
  exists z, mul c rmem scratch x v = Some z /\ holds z (k * j).
Proof.
  intros Hp Hx Hv Kv Kz. destruct hcap_facts as (F1 & F2 & F3 & F4).
  destruct (iszero x) eqn:Zx; [|destruct (iszero v) eqn:Zv].
  1,2: pose proof (holds_exp v j Hv Kv) as Ev.
  1,2: destruct (mul_zero_full c rmem scratch x v) as (z & E1 & Nz & Zz & Ez); auto; try apply Hx; try apply Hv.
  1,2: exists z; split; auto; apply holds_intro; auto.
  - apply (holds_zero_iff x k Hx) in Zx. rewrite Zx, Z.mul_0_l. apply value_zero; auto.
  - intros _. pose proof exp0. destruct Ez as [-> | ->]; auto.
  - apply (holds_zero_iff v j Hv) in Zv. rewrite Zv, Z.mul_0_r. apply value_zero; auto.
  - intros _. pose proof exp0. destruct Ez as [-> | ->]; auto.
  - destruct (mul_int_exact c Hc rmem scratch x v k j) as (z & E1 & Nz & Zz & Ez); auto; try apply Hx; try apply Hv; try lia.
    exists z. split; auto. apply holds_intro; auto. congruence.
Qed.

Lemma int_not_nines x k : holds x k -> ~ is_nines c x.
Proof.
  intros (_ & Hy & _) Hn. unfold is_nines in Hn. rewrite Hy in Hn.
  assert (A : (Qabs (inject_Z k) == inject_Z (Z.abs k))%Q) by (destruct k; reflexivity). rewrite A in Hn.
  pose proof (p10_pos (- (edc c * elem_number c))) as P1.
  assert (P2 : (p10 (- (edc c * elem_number c)) < p10 0)%Q).
  { apply p10_lt. pose proof (edc_pos c). pose proof (elem_number_ge4 c Hc). nia. }
  rewrite p10_0 in P2.
  assert (L1 : (inject_Z 0 < inject_Z (Z.abs k))%Q) by (rewrite Hn; change (inject_Z 0) with 0%Q; lra).
  assert (L2 : (inject_Z (Z.abs k) < inject_Z 1)%Q) by (rewrite Hn; change (inject_Z 1) with 1%Q; lra).
  rewrite <- Zlt_Qlt in L1, L2. lia.
Qed.

Lemma holds_muli rmem scratch x k m : pool_ok c rmem scratch -> holds x k -> - 2 ^ 63 <= m < 2 ^ 63 -> Z.abs k < hcap -> Z.abs m < hcap -> Z.abs (k * m) < hcap ->
  exists z, mul_sll c rmem scratch x m = Some z /\ holds z (k * m).
Proof.
  intros Hp Hx Hm64 Kx Km Kz. destruct hcap_facts as (F1 & F2 & F3 & F4). pose proof Hx as (Nx & Vx & _).
  assert (H63 : Z.abs m < 2 ^ 64) by (change (2 ^ 63) with 9223372036854775808 in *; change (2 ^ 64) with 18446744073709551616; lia).
  destruct (iszero x) eqn:Zx.
  { pose proof (proj2 (holds_zero_iff x k Hx) Zx) as ->. rewrite Z.mul_0_l. unfold mul_sll, mul_ull.
    change (iszero (set_neg x false)) with (iszero x). rewrite Zx. cbn [orb]. eexists. split; [reflexivity|].
    destruct (negb (m <? 0)); [apply holds_zero|]. change 0 with (- 0). apply holds_neg, holds_zero. }
  destruct (Z.eq_dec m 0) as [->|M0].
  { rewrite Z.mul_0_r. exists (zero c). split; [|apply holds_zero]. unfold mul_sll, mul_ull. change (iszero (set_neg x false)) with (iszero x). rewrite Zx. reflexivity. }
  destruct (int_exp c Hc x k Nx Zx Vx) as (E0 & E1 & E2).
  destruct (order_spec (Z.abs m) ltac:(lia)) as [O1 [O2 O3]].
  assert (Hexp : dexp x + order_of_builtin_integer (Z.abs m) < M).
  { assert (T : (p10 (dexp x + (order_of_builtin_integer (Z.abs m) - 1)) < p10 (int_digits c - 1))%Q).
    { rewrite p10_add. apply Qle_lt_trans with (inject_Z (Z.abs k) * inject_Z (Z.abs m))%Q.
      - apply Qmult_le_compat_nonneg; split; auto; try (apply Qlt_le_weak, p10_pos). rewrite p10_Z by lia. rewrite <- Zle_Qle. auto.
      - rewrite <- inject_Z_mult, <- Z.abs_mul. apply p10_digits; auto. lia. }
    apply (proj1 (p10_lt _ _)) in T. lia. }
  pose proof (max_exp10_bounds c) as (HM & _).
  assert (Fit : Z.abs m < 10 ^ (edc c * elem_number c)) by (rewrite Z.mul_comm; lia).
  destruct (mul_sll_all c rmem scratch x m) as (z & R1 & Nz & Zz & T & Ex2); auto; try lia.
  { right. apply (int_not_nines x k Hx). }
  exists z. split; auto. apply holds_intro; [auto| |congruence].
  rewrite inject_Z_mult, <- Vx.
  assert (Vz : dexp z < int_digits c).
  { destruct (value_bracket c Hc z Nz Zz) as [B1 _]. destruct T as (_ & T2 & _).
    assert (T3 : (p10 (dexp z) < p10 (int_digits c))%Q); [|apply (proj1 (p10_lt _ _)) in T3; auto].
    eapply Qle_lt_trans; [exact B1|]. eapply Qle_lt_trans; [exact T2|]. rewrite Vx, <- inject_Z_mult.
    assert (A : (Qabs (inject_Z (k * m)) == inject_Z (Z.abs (k * m)))%Q) by (destruct (k * m); reflexivity). rewrite A. apply p10_digits; auto; lia. }
  destruct (cap_pos c Hc) as (C0 & C1 & C2).
  destruct (int_units c (dexp z) (k * m)) as (K & HK).
  { apply (cap_exp c Hc); [|lia]. destruct Nz as (_ & _ & _ & D & _). auto. }
  apply (Ex2 K). rewrite ulp_low by (destruct (normal_facts c Hc z Nz); auto). rewrite <- HK, Vx, <- inject_Z_mult. reflexivity.
Qed.

Lemma holds_addi x k j : holds x k -> - 2 ^ 63 <= j < 2 ^ 63 -> Z.abs k < hcap -> Z.abs j < hcap -> Z.abs (k + j) < hcap -> holds (add_sll c x j) (k + j).
Proof.
  intros Hx Hj Kx Kj Kz. unfold add_sll, add_ull. pose proof (abs_ucast j Hj) as Ha.
  assert (H63 : Z.abs j < 2 ^ 64) by (change (2 ^ 63) with 9223372036854775808 in *; change (2 ^ 64) with 18446744073709551616; lia).
  destruct (j <? 0) eqn:En; cbn [negb] in Ha.
  - rewrite Ha. replace (k + j) with (- (- k + Z.abs j)) by lia. apply holds_neg. apply add_zero_exp; try lia; [apply holds_neg; auto|apply holds_uint; lia].
  - apply add_zero_exp; try lia; auto. apply holds_uint; lia.
Qed.

Lemma holds_abs x k : holds x k -> holds (fabs x) (Z.abs k).
Proof.
  intros Hx. destruct (iszero x) eqn:Zx.
  - pose proof (proj2 (holds_zero_iff x k Hx) Zx) as ->. unfold fabs. destruct (dneg x); auto. apply (holds_neg x 0). auto.
  - pose proof (value_sign c Hc x (proj1 Hx) Zx) as S. pose proof (proj1 (proj2 Hx)) as Vx. unfold fabs. destruct (dneg x).
    + assert (k < 0) by (rewrite Vx in S; change 0%Q with (inject_Z 0) in S; rewrite <- Zlt_Qlt in S; auto). replace (Z.abs k) with (- k) by lia. apply holds_neg. auto.
    + assert (0 < k) by (rewrite Vx in S; change 0%Q with (inject_Z 0) in S; rewrite <- Zlt_Qlt in S; auto). replace (Z.abs k) with k by lia. auto.
Qed.

Lemma holds_one : holds (one c) 1.
Proof. split; [apply one_normal; auto|]. split; [apply (max_min_values c Hc)|lia]. Qed.

Lemma get_holds s t i : Forall2 holds s t -> holds (get c s i) (nth i t 0).
Proof.
  intros H. unfold get. revert i. induction H as [|x k s t Hx Hs IH]; intros i; destruct i; cbn [nth]; auto; apply holds_zero.
Qed.
Lemma set_holds s t i x k : Forall2 holds s t -> holds x k -> Forall2 holds (set s i x) (put_int t i k).
Proof.
  intros H Hx. revert i. induction H as [|y j s t Hy Hs IH]; intros i; cbn [set put_int]; [constructor|]. destruct i; constructor; auto.
Qed.
Lemma nth_small t i cap : 0 < cap -> Forall (fun k => Z.abs k < cap) t -> Z.abs (nth i t 0) < cap.
Proof. intros H0 H. revert i. induction H; intros i; destruct i; cbn [nth]; auto; lia. Qed.
Lemma put_in t i k (P : Z -> Prop) : Forall P (put_int t i k) -> (i < length t)%nat -> P k.
Proof.
  revert i. induction t as [|y t IH]; intros i H Hi; [cbn in Hi; lia|]. destruct i; cbn [put_int] in H; inversion H; subst; auto.
  apply (IH i); auto. cbn in Hi. lia.
Qed.
Lemma put_out s i x : (length s <= i)%nat -> set s i x = s.
Proof. revert i. induction s as [|y s IH]; intros i H; cbn [set]; auto. destruct i; [cbn in H; lia|]. rewrite IH; auto. cbn in H. lia. Qed.
Lemma put_int_out s i x : (length s <= i)%nat -> put_int s i x = s.
Proof. revert i. induction s as [|y s IH]; intros i H; cbn [put_int]; auto. destruct i; [cbn in H; lia|]. rewrite IH; auto. cbn in H. lia. Qed.

Lemma step_exact rmem scratch s t o : pool_ok c rmem scratch -> Forall2 holds s t -> stmt_ok c o -> ring_stmt o ->
  Forall (fun k => Z.abs k < hcap) t -> Z.abs (operand o) < hcap -> Forall (fun k => Z.abs k < hcap) (int_step t o) -> (target o < length t)%nat ->
  exists s', step c rmem scratch s o = Some s' /\ Forall2 holds s' (int_step t o).
Proof.
  intros Hp Hs Ho Hr Ht Hop Ht' Hlen.
  assert (H0 : 0 < hcap) by (unfold hcap; apply Z.pow_pos_nonneg; pose proof hcap_facts; lia).
  assert (G : forall i, holds (get c s i) (nth i t 0)) by (intros; apply get_holds; auto).
  assert (N : forall i, Z.abs (nth i t 0) < hcap) by (intros; apply nth_small; auto).
  assert (Put : forall d r k, (exists x, r = Some x /\ holds x k) ->
    exists s', (match r with Some x => Some (set s d x) | None => None end) = Some s' /\ Forall2 holds s' (put_int t d k)).
  { intros d r k (x & -> & Hx). eexists; split; [reflexivity|]. apply set_holds; auto. }
  assert (H1 : 1 < hcap).
  { unfold hcap. change 1 with (10 ^ 0). apply Z.pow_lt_mono_r; [lia| |]; pose proof (max_exp10_bounds c) as (HM & _); pose proof (edc_pos c); pose proof (elem_number_ge4 c Hc); unfold int_digits; nia. }
  destruct o; cbn [step stmt_ok ring_stmt operand int_step target] in *; try contradiction;
    try (apply (put_in _ _ _ _) in Ht'; [|exact Hlen]); first [apply (Put d (Some _))|apply Put].
  - eexists; split; [reflexivity|]. apply holds_neg; auto.
  - eexists; split; [reflexivity|]. apply holds_abs; auto.
  - eexists; split; [reflexivity|]. auto.
  - eexists; split; [reflexivity|]. apply holds_sint; auto.
  - eexists; split; [reflexivity|]. apply holds_uint; auto. lia.
  - eexists; split; [reflexivity|]. apply add_zero_exp; auto.
  - eexists; split; [reflexivity|]. replace (d =? s0)%nat with false by (symmetry; apply Nat.eqb_neq; auto). apply holds_sub; auto.
  - apply holds_mul; auto.
  - eexists; split; [reflexivity|]. apply holds_addi; auto.
  - unfold sub_sll, neg_sll. replace (k =? - 2 ^ 63) with false by lia. eexists; split; [reflexivity|].
    replace (nth d t 0 - k) with (nth d t 0 + - k) in * by lia. apply holds_addi; auto; lia.
  - apply holds_muli; auto.
  - eexists; split; [reflexivity|]. apply add_zero_exp; auto. apply holds_one.
  - eexists; split; [reflexivity|]. apply holds_sub; auto. apply holds_one.
Qed.

Lemma int_step_length t o : length (int_step t o) = length t.
Proof.
  assert (P : forall t i k, length (put_int t i k) = length t).
  { clear. induction t as [|y t IH]; intros i k; cbn [put_int]; auto. destruct i; cbn [length]; auto. }
  destruct o; cbn [int_step]; apply P.
Qed.

Lemma run_exact mem p : (forall k, pool_ok c (fst (mem k)) (snd (mem k))) -> Forall (stmt_ok c) p -> Forall ring_stmt p ->
  forall i s t, Forall (fun o => (target o < length t)%nat) p -> Forall2 holds s t -> stays_below hcap t p ->
  exists s', run c mem i s p = Some s' /\ Forall2 holds s' (int_run t p).
Proof.
  intros Hp Hok. induction Hok as [|o p Ho Hok IH]; intros Hr i s t Hl Hs Hb; cbn [run int_run fold_left].
  - exists s. auto.
  - inversion Hr as [|o' p' R1 R2]; subst o' p'. inversion Hl as [|o' p' L1 L2]; subst o' p'. cbn [stays_below] in Hb. destruct Hb as (B1 & B2 & B3).
    assert (B4 : Forall (fun k => Z.abs k < hcap) (int_step t o)) by (destruct p; apply B3).
    destruct (step_exact (fst (mem i)) (snd (mem i)) s t o) as (s1 & E1 & H1); auto. rewrite E1.
    apply IH; auto. rewrite int_step_length. auto.
Qed.
End HI.

(** A history exercising every kind of ring statement. *)
Definition ring_prog : list stmt :=
  [SInt 0 (-7); SUInt 1 18446744073709551615; SMul 0 1; SAdd 1 0; SSub 0 1; SMulI 0 (-12345678901);
   SAddI 0 99; SSubI 1 5; SNeg 0; SAbs 1; SCopy 2 0; SInc 2; SDec 0; SMulI 2 0; SMul 1 2; SSub 1 0].
Fixpoint stays_b (cap : Z) (s : list Z) (p : list stmt) : bool :=
  forallb (fun k => Z.abs k <? cap) s &&
  match p with [] => true | o :: p' => (Z.abs (operand o) <? cap) && stays_b cap (int_step s o) p' end.
Lemma stays_b_sound cap p : forall s, stays_b cap s p = true -> stays_below cap s p.
Proof.
  induction p as [|o p IH]; intros s H; cbn [stays_b stays_below] in *; apply andb_true_iff in H; destruct H as [H1 H2].
  - split; auto. apply Forall_forall. intros k K. rewrite forallb_forall in H1. apply Z.ltb_lt; auto.
  - apply andb_true_iff in H2. destruct H2 as [H2 H3]. split; [|split; [apply Z.ltb_lt; auto|auto]].
    apply Forall_forall. intros k K. rewrite forallb_forall in H1. apply Z.ltb_lt; auto.
Qed.
Lemma hist_case : cfg_ok c50 /\ mul_ok c50 /\ Forall (stmt_ok c50) ring_prog /\ Forall ring_stmt ring_prog /\
  Forall (fun o => (target o < 3)%nat) ring_prog /\ Forall2 (holds c50) [zero c50; zero c50; zero c50] [0; 0; 0] /\
  stays_below (10 ^ (int_digits c50 - 1)) [0; 0; 0] ring_prog /\
  int_run [0; 0; 0] ring_prog = [-227737579102942800175475975215; 227737579102942800175475975215; 0].
Proof.
  split; [exact c50_ok|]. split; [exact c50_mul|].
  split; [repeat constructor; discriminate|]. split; [repeat constructor; discriminate|]. split; [repeat constructor|].
  split; [constructor; [|constructor; [|constructor; [|constructor]]]; apply holds_zero; apply c50_ok|].
  split; [|vm_compute; reflexivity].
  apply stays_b_sound. vm_compute. reflexivity.
Qed.
