(** Const2_proofs.v - the stored constants are pi, ln 2 and ln 10 cut off after the last stored limb. *)
From Verif Require Import Base Add_proofs Value_proofs Mul_proofs Model_Exp.
From Verif Require Import Spec_Real Const_proofs.
From Coq Require Import Lqa Lra Qreals.
Ltac qlra := Lqa.lra.
Local Open Scope Z_scope.

Lemma IZR_Q2R a : IZR a = Q2R (inject_Z a).
Proof. unfold Q2R, inject_Z. simpl. field. Qed.

Lemma from_lst_cut (c : cfg) (Hc : cfg_ok c) (l : list Z) (e V w : Z) (r : R) : (nel c <= length l)%nat -> digits_ok (10 ^ edc c) l ->
  limbs_value (10 ^ edc c) l = V -> w = e - edc c * (Z.of_nat (length l) - 1) ->
  (Q2R (inject_Z V * p10 w) <= r < Q2R (inject_Z (V + 1) * p10 w))%R ->
  cuts_off c (from_lst c l e) r.
Proof.
  intros Hn Hd HV Hw [H1 H2]. pose proof (edc_pos c) as He. pose proof (nel_ge4 c Hc) as H4.
  assert (B0 : 0 < 10 ^ edc c) by (apply Z.pow_pos_nonneg; lia).
  set (k := nel c) in *. set (j := (length l - k)%nat).
  pose proof (limbs_value_app (10 ^ edc c) (firstn k l) (skipn k l)) as A. rewrite firstn_skipn, HV in A. rewrite skipn_length in A. fold j in A.
  assert (D2 : digits_ok (10 ^ edc c) (skipn k l)).
  { unfold digits_ok in *. rewrite <- (firstn_skipn k l) in Hd. apply Forall_app in Hd. tauto. }
  pose proof (limbs_value_bound (10 ^ edc c) (skipn k l) B0 D2) as Bd. rewrite skipn_length in Bd. fold j in Bd.
  set (top := limbs_value (10 ^ edc c) (firstn k l)) in *. set (bot := limbs_value (10 ^ edc c) (skipn k l)) in *.
  assert (PJ : (10 ^ edc c) ^ Z.of_nat j = 10 ^ (edc c * Z.of_nat j)) by (rewrite <- Z.pow_mul_r by lia; reflexivity).
  rewrite PJ in *. unfold cuts_off, rvalue, value, ulp, from_lst. fold k. cbn [data dexp dneg].
  destruct (length l <? k)%nat eqn:C; [apply Nat.ltb_lt in C; lia|]. unfold number_value. rewrite firstn_length_le by auto. fold top.
  assert (Hlow : e - edc c * (Z.of_nat k - 1) = edc c * Z.of_nat j + w) by (unfold j; rewrite Hw, Nat2Z.inj_sub by auto; ring).
  rewrite Hlow. rewrite Z.mul_1_l.
  assert (PP : (p10 (edc c * Z.of_nat j + w) == inject_Z (10 ^ (edc c * Z.of_nat j)) * p10 w)%Q) by (rewrite p10_add, p10_Z by lia; reflexivity).
  pose proof (p10_pos w) as P0. rewrite <- Q2R_plus. split.
  - eapply Rle_trans; [|exact H1]. apply Qle_Rle. rewrite PP, Qmult_assoc. apply Qmult_le_compat_r; [|qlra]. rewrite <- inject_Z_mult, <- Zle_Qle. lia.
  - eapply Rlt_le_trans; [exact H2|]. apply Qle_Rle. rewrite PP.
    setoid_replace (inject_Z top * (inject_Z (10 ^ (edc c * Z.of_nat j)) * p10 w) + inject_Z (10 ^ (edc c * Z.of_nat j)) * p10 w)%Q
      with (inject_Z ((top + 1) * 10 ^ (edc c * Z.of_nat j)) * p10 w)%Q by (rewrite inject_Z_mult, inject_Z_plus; ring).
    apply Qmult_le_compat_r; [|qlra]. rewrite <- Zle_Qle. lia.
Qed.

Lemma from_lst_normal (c : cfg) (Hc : cfg_ok c) (l : list Z) (e : Z) : (nel c <= length l)%nat -> digits_ok (10 ^ edc c) l -> nth 0 l 0 <> 0 ->
  (edc c | e) -> - 2 ^ (ebits (c_expo c) - 1) <= e < 2 ^ (ebits (c_expo c) - 1) -> normal c (from_lst c l e) /\ iszero (from_lst c l e) = false.
Proof.
  intros Hn Hd H0 De Re. pose proof (nel_ge4 c Hc) as H4. unfold from_lst. destruct (length l <? nel c)%nat eqn:C; [apply Nat.ltb_lt in C; lia|].
  assert (N0 : nth 0 (firstn (nel c) l) 0 = nth 0 l 0) by (destruct l, (nel c); auto; lia).
  split.
  - unfold normal. cbn [data dexp dneg dprec]. rewrite firstn_length_le by auto. split; [auto|]. split.
    + unfold digits_ok in *. rewrite <- (firstn_skipn (nel c) l) in Hd. apply Forall_app in Hd. tauto.
    + split; [intros K; rewrite N0 in K; contradiction|]. auto.
  - unfold iszero. cbn [data]. rewrite N0. apply Z.eqb_neq. auto.
Qed.

Lemma IZR_frac V e k : 0 < e -> (inject_Z e == p10 k)%Q -> (IZR V / IZR e)%R = Q2R (inject_Z V * p10 (- k)).
Proof.
  intros He H. pose proof (p10_pos k) as P0. assert (E : (p10 (- k) == / inject_Z e)%Q).
  { rewrite H. assert (X : (p10 (- k) * p10 k == 1)%Q) by (rewrite <- p10_add; replace (- k + k) with 0 by ring; apply p10_0).
    apply Qmult_inj_r with (p10 k); [qlra|]. rewrite X. rewrite Qmult_comm, Qmult_inv_r by qlra. reflexivity. }
  rewrite (IZR_Q2R V), (IZR_Q2R e). assert (NE : ~ (inject_Z e == 0)%Q) by (rewrite H; qlra).
  rewrite <- Q2R_div by auto. apply Qeq_eqR. rewrite E. reflexivity.
Qed.

Lemma table_sizes (c : cfg) : cfg_ok c -> c_digits10 c <= 51 ->
  (nel c <= match c_limb c with U8 => 49 | U16 => 25 | U32 => 13 end)%nat.
Proof.
  intros [Hd _] H. unfold nel, elem_number. destruct (c_limb c) eqn:E; cbn [ed].
  all: match goal with |- context [?a / ?b] => pose proof (Z.div_mod a b ltac:(lia)); pose proof (Z.mod_pos_bound a b ltac:(lia)) end.
  all: match goal with |- context [if ?b then _ else _] => destruct b eqn:? end; lia.
Qed.

Ltac digits := unfold digits_ok; repeat constructor; vm_compute; (reflexivity || discriminate).

Section CONSTS.
Variable c : cfg.
Hypothesis Hc : cfg_ok c.
Hypothesis HD : c_digits10 c <= 51.

Lemma exp_room : (edc c | 0) /\ - 2 ^ (ebits (c_expo c) - 1) <= 0 < 2 ^ (ebits (c_expo c) - 1) /\
  (edc c | - edc c) /\ - 2 ^ (ebits (c_expo c) - 1) <= - edc c < 2 ^ (ebits (c_expo c) - 1).
Proof.
  pose proof (edc_pos c) as He. pose proof (E_ge8 c) as HE. assert (X : 2 ^ 7 <= 2 ^ (ebits (c_expo c) - 1)) by (apply Z.pow_le_mono_r; lia).
  change (2 ^ 7) with 128 in X. split; [apply Z.divide_0_r|]. split; [lia|]. split; [exists (-1); ring|lia].
Qed.

Lemma pi_cut : normal c (pi_small c) /\ iszero (pi_small c) = false /\ cuts_off c (pi_small c) PI.
Proof.
  pose proof (table_sizes c Hc HD) as Sz. destruct exp_room as (D0 & R0 & _). pose proof pi_digits_ok as P.
  rewrite !(IZR_frac _ e96 96) in P by reflexivity. unfold pi_small.
  destruct (c_limb c) eqn:E; cbv beta iota in Sz.
  all: match goal with |- normal c (from_lst c ?l ?e) /\ _ =>
    assert (Dl : digits_ok (10 ^ edc c) l) by (unfold edc; rewrite E; digits);
    destruct (from_lst_normal c Hc l e) as [N Zn]; [exact Sz|exact Dl|discriminate|exact D0|exact R0|];
    split; [exact N|]; split; [exact Zn|]; apply (from_lst_cut c Hc l e pi_digits (- 96)); [exact Sz|exact Dl|unfold edc; rewrite E; vm_compute; reflexivity|unfold edc; rewrite E; reflexivity|exact P] end.
Qed.

Lemma ln10_cut : normal c (ln10_small c) /\ iszero (ln10_small c) = false /\ cuts_off c (ln10_small c) (ln 10).
Proof.
  pose proof (table_sizes c Hc HD) as Sz. destruct exp_room as (D0 & R0 & _). pose proof ln10_digits_ok as P.
  rewrite !(IZR_frac _ e96 96) in P by reflexivity. unfold ln10_small.
  destruct (c_limb c) eqn:E; cbv beta iota in Sz.
  all: match goal with |- normal c (from_lst c ?l ?e) /\ _ =>
    assert (Dl : digits_ok (10 ^ edc c) l) by (unfold edc; rewrite E; digits);
    destruct (from_lst_normal c Hc l e) as [N Zn]; [exact Sz|exact Dl|discriminate|exact D0|exact R0|];
    split; [exact N|]; split; [exact Zn|]; apply (from_lst_cut c Hc l e ln10_digits (- 96)); [exact Sz|exact Dl|unfold edc; rewrite E; vm_compute; reflexivity|unfold edc; rewrite E; reflexivity|exact P] end.
Qed.

Lemma ln2_cut : normal c (ln2_small c) /\ iszero (ln2_small c) = false /\ cuts_off c (ln2_small c) (ln 2).
Proof.
  pose proof (table_sizes c Hc HD) as Sz. destruct exp_room as (_ & _ & D0 & R0). pose proof ln2_digits_ok as P.
  rewrite !(IZR_frac _ e104 104) in P by reflexivity. unfold ln2_small.
  change (ed (c_limb c)) with (edc c).
  destruct (c_limb c) eqn:E; cbv beta iota in Sz.
  all: match goal with |- normal c (from_lst c ?l ?e) /\ _ =>
    assert (Dl : digits_ok (10 ^ edc c) l) by (unfold edc; rewrite E; digits);
    assert (Sl : (nel c <= length l)%nat) by (cbn [length]; lia);
    destruct (from_lst_normal c Hc l e) as [N Zn]; [exact Sl|exact Dl|discriminate|exact D0|exact R0|];
    split; [exact N|]; split; [exact Zn|]; apply (from_lst_cut c Hc l e ln2_digits (- 104)); [exact Sl|exact Dl|unfold edc; rewrite E; vm_compute; reflexivity|unfold edc; rewrite E; reflexivity|exact P] end.
Qed.
End CONSTS.
