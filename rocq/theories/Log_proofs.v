(** Log_proofs.v - when log and the functions built on it return. *)
From Verif Require Export Model_Log Func_proofs Floor_proofs Witness Refute_func.
From Coq Require Import Lia ZifyBool Lqa.
Local Open Scope Z_scope.

Lemma firstn_repeat_min (k j : nat) : firstn (Nat.min k j) (repeat 0 k) = repeat 0 (Nat.min k j).
Proof. revert j; induction k as [|k IH]; intros [|j]; cbn; [reflexivity..|]. f_equal. apply IH. Qed.

Section LOG.
Variable c : cfg.
Variable F : ftype.
Notation L := (c_limb c).
Notation B := (mask L).
Notation n := (nel c).
Hypothesis Hc : cfg_ok c.

Lemma iszero_one : iszero (one c) = false. Proof. exact (proj2 (isone_one c Hc)). Qed.

(** Anything the library regards as zero or negative is less than one. *)
Lemma below_one x : iszero x = true \/ dneg x = true -> op_lt x (one c) = true.
Proof.
  intros H. unfold op_lt, cmp. rewrite iszero_one. destruct (iszero x) eqn:Z; [reflexivity|].
  destruct H as [H|H]; [discriminate|]. rewrite H. destruct (dneg (one c)) eqn:D; [discriminate|reflexivity].
Qed.

Lemma inv_nonpos mem x y : iszero x = true \/ dneg x = true -> calculate_inv c F mem x = Some y ->
  iszero y = true \/ dneg y = true.
Proof.
  intros H. unfold calculate_inv. destruct (iszero x) eqn:Z.
  - intros E. injection E as <-. left. apply (zero_iszero c Hc).
  - destruct H as [H|H]; [discriminate|]. destruct (isone_sign_neutral c x).
    + intros E. injection E as <-. auto.
    + destruct (extract_parts c F (set_neg x false)) as [dd ne].
      destruct (from_mantissa c F _ _) as [est|]; [|discriminate].
      cbn [obind]. destruct (inv_loop c _ _ _ _ _ _ _) as [r|]; [|discriminate].
      intros E. injection E as <-. right. exact H.
Qed.

Lemma log_nonpos core fuel : forall mems x r, iszero x = true \/ dneg x = true -> log c F core fuel mems x <> Ret r.
Proof.
  induction fuel as [|f IH]; intros mems x r H; [discriminate|]. cbn [log]. rewrite (below_one x H).
  destruct (calculate_inv c F (mems O) x) as [y|] eqn:E; cbn [lift obind]; [|discriminate].
  pose proof (inv_nonpos _ _ _ H E) as Hy.
  destruct (log c F core f (fun k => mems (S k)) y) as [q| |] eqn:El; cbn [obind]; try discriminate.
  exfalso. exact (IH _ _ _ Hy El).
Qed.

(** A value that is its own reciprocal and is less than one: the recursion never ends. *)
Lemma log_fixpoint core x : op_lt x (one c) = true -> (forall mem, calculate_inv c F mem x = Some x) ->
  forall fuel mems, log c F core fuel mems x = Running.
Proof.
  intros H1 H2. induction fuel as [|f IH]; intros mems; [reflexivity|]. cbn [log]. rewrite H1, H2. cbn [lift obind].
  rewrite IH. reflexivity.
Qed.

Lemma log_zero_runs core fuel mems x : normal c x -> iszero x = true -> log c F core fuel mems x = Running.
Proof.
  intros Nx Zx. destruct fuel as [|f]; [reflexivity|]. cbn [log]. rewrite below_one by auto.
  unfold calculate_inv. rewrite Zx. cbn [lift obind].
  rewrite (log_fixpoint core (zero c)); [reflexivity|apply below_one; left; apply (zero_iszero c Hc)|].
  intros mem. unfold calculate_inv. rewrite (zero_iszero c Hc). reflexivity.
Qed.

Lemma log_unit_runs core fuel mems x : normal c x -> isone_sign_neutral c x = true -> (value c x < 1)%Q ->
  log c F core fuel mems x = Running.
Proof.
  intros Nx Ix Lx. destruct (iszero x) eqn:Zx; [apply log_zero_runs; auto|]. apply log_fixpoint.
  - apply (ops_spec c Hc x (one c) Nx (one_normal c Hc)). rewrite (one_value c Hc). auto.
  - intros mem. unfold calculate_inv. rewrite Zx, Ix. reflexivity.
Qed.

(** Arguments from one up: no recursion. *)
Lemma log_above core fuel mems x : normal c x -> (1 <= value c x)%Q -> (forall y, core y <> None) ->
  exists r, log c F core (S fuel) mems x = Ret r.
Proof.
  intros Nx Vx Hcore. cbn [log]. destruct (ops_spec c Hc x (one c) Nx (one_normal c Hc)) as (O1 & _ & _ & _ & _ & O2).
  destruct (op_lt x (one c)) eqn:El.
  { exfalso. pose proof (proj1 O1 eq_refl) as G. rewrite (one_value c Hc) in G. lra. }
  destruct (op_gt x (one c)); [|eexists; reflexivity].
  destruct (core x) eqn:E; [eexists; reflexivity|]. exfalso. exact (Hcore x E).
Qed.

(** Arguments between zero and one, at least 8 units of 10^-(digits10 + two limbs) away from one: exactly
    one recursive call. *)
Lemma log_below core fuel mems x : newton_ok c -> float_fits c F -> (digit_loops c F <= n)%nat -> memory_ok (mems O) ->
  normal c x -> (0 < value c x)%Q -> (value c x <= 1 - 8 * p10 (- (c_digits10 c + 2 * edc c)))%Q ->
  - max_exp10_of (c_expo c) < dexp x < max_exp10_of (c_expo c) - 3 * edc c -> (forall y, core y <> None) ->
  exists r, log c F core (S (S fuel)) mems x = Ret r.
Proof.
  intros Hk HF HJ Hm Nx Px Ux Rx Hcore.
  assert (Zx : iszero x = false).
  { destruct (iszero x) eqn:Z; auto. apply (value_zero_iff c Hc x Nx) in Z. lra. }
  pose proof (eps_small c Hc) as [Ep1 Ep2]. set (e := p10 (- (c_digits10 c + 2 * edc c))) in *.
  cbn [log]. replace (op_lt x (one c)) with true.
  2:{ symmetry. apply (ops_spec c Hc x (one c) Nx (one_normal c Hc)). rewrite (one_value c Hc). lra. }
  destruct (inv_spec c F Hc HF HJ Hk (mems O) x Hm Nx Zx Rx) as (y & Ey & Sy & Wy & Shy & Acc & Ry).
  rewrite Ey. cbn [lift obind].
  pose proof (eta_n_eps c Hc) as Et. fold e in Et.
  assert (Py : (1 < value c y)%Q).
  { assert (A : (1 - 7 * e <= value c y * value c x)%Q).
    { apply Qabs_Qle_condition in Acc. lra. }
    destruct (Qlt_le_dec 1 (value c y)) as [G|G]; auto. exfalso.
    assert (A2 : (value c y * value c x <= 1 * value c x)%Q) by (apply Qmult_le_compat_r; lra). lra. }
  assert (G : op_lt y (one c) = false /\ op_gt y (one c) = true).
  { destruct Shy as [Ny|(Dy & Pr & Ex & Vv)].
    - destruct (ops_spec c Hc y (one c) Ny (one_normal c Hc)) as (O1 & _ & _ & _ & _ & O2). split.
      + destruct (op_lt y (one c)) eqn:El; auto. pose proof (proj1 O1 eq_refl) as G. rewrite (one_value c Hc) in G. lra.
      + apply O2. rewrite (one_value c Hc). auto.
    - assert (Dn : dneg y = false).
      { rewrite Sy. destruct (dneg x) eqn:Dx; auto. exfalso. pose proof (value_sign c Hc x Nx Zx) as Vs. rewrite Dx in Vs. lra. }
      assert (Xx : dexp x <= - edc c).
      { pose proof (value_bracket c Hc x Nx Zx) as [V1 _]. destruct (Z_le_gt_dec (dexp x) (- edc c)) as [|Hgt]; auto. exfalso.
        pose proof Nx as (_ & _ & _ & (k & Dk) & _). pose proof (edc_pos c) as He. assert (Xk : 0 <= dexp x).
        { rewrite Dk in *. apply Z.mul_nonneg_nonneg; [|lia]. destruct (Z_lt_le_dec k 0) as [Kn|]; auto. exfalso.
          clear - Kn Hgt He. assert (k * edc c <= (-1) * edc c) by (apply Z.mul_le_mono_nonneg_r; lia). lia. }
        assert (Q1 : (1 <= p10 (dexp x))%Q) by (rewrite <- p10_0; apply p10_le; auto).
        rewrite (Qabs_pos (value c x)) in V1 by lra. lra. }
      assert (Xy : 0 <= dexp y) by lia.
      assert (C1 : cmp y (one c) = 1).
      { unfold cmp. rewrite iszero_one. unfold iszero. rewrite Dy. cbn [nth]. pose proof (B_gt9 c) as H9.
        replace (B =? 0) with false by lia. rewrite Dn. change (dneg (one c)) with false. cbn [eqb negb].
        change (dexp (one c)) with 0. destruct (Z.eqb_spec (dexp y) 0) as [E0|E0]; cbn [negb].
        + unfold one, from_lst. cbn [data length]. pose proof (nel_ge4 c Hc) as Hn. replace (1 <? n)%nat with true by lia.
          cbn [app compare_ranges]. 
          replace (B =? 1) with false by lia. replace (B >? 1) with true by lia. reflexivity.
        + replace (dexp y <? 0) with false by lia. reflexivity. }
      unfold op_lt, op_gt. rewrite C1. split; reflexivity. }
  destruct G as [-> ->]. destruct (core y) eqn:Ec; [cbn [lift obind]; eexists; reflexivity|]. exfalso. exact (Hcore y Ec).
Qed.

Lemma pow_real_nonpos core exp fuel mems mem x a r : iszero a = false -> iszero x = true \/ dneg x = true ->
  pow_real c F core exp fuel mems mem x a <> Ret r.
Proof.
  intros Ha Hx. unfold pow_real. rewrite Ha. destruct (log c F core fuel mems x) as [l| |] eqn:El; cbn [obind]; try discriminate.
  exfalso. exact (log_nonpos core fuel mems x l Hx El).
Qed.

Lemma scale_down_inf fuel : forall e, scale_down c F fuel XInf e = Running.
Proof. induction fuel as [|f IH]; intros e; [reflexivity|]. cbn [scale_down]. apply IH. Qed.

Lemma ep_loop_zero k : forall s m, (m == 0)%Q -> (ep_loop c F (repeat 0%Z k) m s == 0)%Q.
Proof.
  induction k as [|k IH]; intros s m Hm; [exact Hm|]. cbn [repeat ep_loop]. apply IH. apply fl_0. rewrite Hm.
  rewrite (fl_0 (f_bits F) (fl (f_bits F) (inject_Z 0) * s)); [reflexivity|]. rewrite (fl_0 (f_bits F) (inject_Z 0)); [ring|reflexivity].
Qed.

Lemma root_adjust_zero fuel p : forall dd ne, (dd == 0)%Q ->
  match root_adjust c F fuel p dd ne with Ret (d, _) => (d == 0)%Q | Fault => scast (ebits (c_expo c)) p = 0 | Running => True end.
Proof.
  induction fuel as [|f IH]; intros dd ne H; [exact I|]. cbn [root_adjust].
  destruct (Z.eqb_spec (scast (ebits (c_expo c)) p) 0) as [E|E]; [exact E|].
  destruct (Z.rem ne (scast (ebits (c_expo c)) p) =? 0); [exact H|]. apply IH. apply fl_0. rewrite H. reflexivity.
Qed.

(** A root of zero: the estimate is infinite, and scaling it down never ends. *)
Lemma rootn_inv_zero fpow fuel mem v p : (forall q k, (q == 0)%Q -> 2 <= k -> fpow q k = XInf) ->
  normal c v -> iszero v = true -> 2 <= p -> scast (ebits (c_expo c)) p <> 0 -> rootn_inv c F fpow fuel mem v p = Running.
Proof.
  intros Hf Nv Zv Hp Hs. unfold rootn_inv. replace (p <? 1) with false by lia. replace (p =? 1) with false by lia.
  destruct (extract_parts c F v) as [dd ne] eqn:Ep.
  assert (D0 : (dd == 0)%Q).
  { unfold extract_parts in Ep. injection Ep as <- _.
    assert (Hd : data v = repeat 0 n) by (apply Nv; unfold iszero in Zv; lia).
    rewrite Hd, repeat_length, firstn_repeat_min. set (m := ep_loop c F _ _ _).
    assert (Hm : (m == 0)%Q) by (apply ep_loop_zero; reflexivity). destruct (dneg v); rewrite Hm; reflexivity. }
  pose proof (root_adjust_zero fuel p dd ne D0) as R. destruct (root_adjust c F fuel p dd ne) as [[d e]| |]; cbn [obind fst snd]; [|contradiction|reflexivity].
  rewrite (Hf d p R Hp). cbn [from_mantissa_x]. rewrite scale_down_inf. reflexivity.
Qed.

Lemma rootn_zero fpow fuel mem v p : (forall q k, (q == 0)%Q -> 2 <= k -> fpow q k = XInf) ->
  normal c v -> iszero v = true -> 3 <= p -> scast (ebits (c_expo c)) p <> 0 -> rootn_ge3 c F fpow fuel mem v p = Running.
Proof.
  intros Hf Nv Zv Hp Hs. unfold rootn_ge3.
  assert (Hl : op_lt v (zero c) = false) by (unfold op_lt, cmp; rewrite Zv, (zero_iszero c Hc); reflexivity).
  rewrite Hl. cbn [andb].
  assert (Nx : normal c (if p =? 3 then set_neg v false else v)) by (destruct (p =? 3); auto; apply set_neg_normal; auto).
  rewrite rootn_inv_zero; auto; [destruct (p =? 3); auto|lia].
Qed.

(** A root index that is a multiple of 2^E (as a 32-bit integer) is converted to 0: remainder by zero. *)
Lemma rootn_mod_zero fpow fuel mem v p : 2 <= p -> scast (ebits (c_expo c)) p = 0 -> rootn_inv c F fpow (S fuel) mem v p = Fault.
Proof.
  intros Hp Hs. unfold rootn_inv. replace (p <? 1) with false by lia. replace (p =? 1) with false by lia.
  destruct (extract_parts c F v) as [dd ne]. cbn [root_adjust]. rewrite Hs. reflexivity.
Qed.

Lemma nonpos_flags x : normal c x -> (value c x <= 0)%Q -> iszero x = true \/ dneg x = true.
Proof.
  intros Nx Vx. destruct (iszero x) eqn:Z; auto. right. pose proof (value_sign c Hc x Nx Z) as Vs.
  destruct (dneg x); auto. lra.
Qed.

(** Together. *)
Lemma log_returns core mems x : newton_ok c -> float_fits c F -> (digit_loops c F <= n)%nat -> memory_ok (mems O) ->
  normal c x -> (1 <= value c x \/ 0 < value c x <= 1 - 8 * p10 (- (c_digits10 c + 2 * edc c)))%Q ->
  - max_exp10_of (c_expo c) < dexp x < max_exp10_of (c_expo c) - 3 * edc c -> (forall y, core y <> None) ->
  exists r, forall fuel, log c F core (2 + fuel) mems x = Ret r.
Proof.
  intros Hk HF HJ Hm Nx Vx Rx Hcore.
  destruct Vx as [Vx|[V1 V2]].
  - destruct (log_above core 1 mems x Nx Vx Hcore) as (r & E). exists r. intros fuel. cbn [Nat.add].
    revert E. cbn [log]. destruct (ops_spec c Hc x (one c) Nx (one_normal c Hc)) as (O1 & _).
    destruct (op_lt x (one c)); [|auto]. exfalso. pose proof (proj1 O1 eq_refl) as G. rewrite (one_value c Hc) in G. lra.
  - destruct (log_below core 0 mems x Hk HF HJ Hm Nx V1 V2 Rx Hcore) as (r & E). exists r. intros fuel. cbn [Nat.add].
    revert E. cbn [log]. destruct (op_lt x (one c)); [|auto].
    destruct (calculate_inv c F (mems O) x) as [y|]; cbn [lift obind]; [|auto].
    destruct (op_lt y (one c)); [|auto].
    destruct (calculate_inv c F (mems 1%nat) y) as [z|]; cbn [lift obind]; discriminate.
Qed.
End LOG.

Lemma log_never_ends c F core fuel mems x : cfg_ok c -> normal c x ->
  (value c x == 0)%Q \/ (value c x == -(1))%Q \/ (value c x == 1 - p10 (- (edc c * elem_number c)))%Q ->
  log c F core fuel mems x = Running.
Proof.
  intros Hc Nx H. destruct (iszero x) eqn:Z; [apply log_zero_runs; auto|].
  pose proof (p10_pos (- (edc c * elem_number c))) as Hp.
  assert (Hq : (p10 (- (edc c * elem_number c)) < 1)%Q).
  { rewrite <- p10_0. apply p10_lt. pose proof (edc_pos c). pose proof (elem_number_ge4 c Hc). nia. }
  destruct H as [H|[H|H]].
  - apply (value_zero_iff c Hc x Nx) in H. congruence.
  - apply log_unit_runs; auto; [|lra]. apply (isone_iff c Hc x Nx Z). left. unfold is_one. rewrite H. reflexivity.
  - apply log_unit_runs; auto; [|lra]. apply (isone_iff c Hc x Nx Z). right. unfold is_nines. rewrite H. apply Qabs_pos. lra.
Qed.
Lemma root_of_zero c F (fpow : Q -> Z -> xfloat) fuel mem x (p : Z) : cfg_ok c ->
  (forall q (k : Z), (q == 0)%Q -> 2 <= k -> fpow q k = XInf) -> normal c x -> (value c x == 0)%Q ->
  3 <= p < 2 ^ (ebits (c_expo c) - 1) -> rootn_ge3 c F fpow fuel mem x p = Running.
Proof.
  intros Hc Hf Nx Vx Hp. assert (Z : iszero x = true) by (apply (value_zero_iff c Hc x Nx); auto).
  assert (Hs : scast (ebits (c_expo c)) p = p).
  { pose proof (E_ge8 c) as HE. apply scast_id; [lia|]. assert (0 < 2 ^ (ebits (c_expo c) - 1)) by (apply Z.pow_pos_nonneg; lia). lia. }
  apply rootn_zero; auto; rewrite ?Hs; lia.
Qed.
Lemma log_case : cfg_ok c50 /\ newton_ok c50 /\ float_fits c50 f_double /\ (digit_loops c50 f_double <= nel c50)%nat /\ memory_ok mem0 /\
  normal c50 xb /\ (0 < value c50 xb)%Q /\ (value c50 xb <= 1 - 8 * p10 (- (c_digits10 c50 + 2 * edc c50)))%Q /\
  - max_exp10_of (c_expo c50) < dexp xb < max_exp10_of (c_expo c50) - 3 * edc c50.
Proof.
  pose proof func_case as (A & B & C & D & E & _). repeat (split; [assumption|]).
  split; [apply normal_b_sound; reflexivity|]. split; [vm_compute; reflexivity|]. split; [vm_compute; discriminate|]. split; reflexivity.
Qed.
Lemma log_nines_case : normal c50 xnines /\ (value c50 xnines == 1 - p10 (- (edc c50 * elem_number c50)))%Q /\ normal c50 (zero c50).
Proof. split; [apply normal_b_sound; reflexivity|]. split; [vm_compute; reflexivity|]. apply normal_b_sound; reflexivity. Qed.
