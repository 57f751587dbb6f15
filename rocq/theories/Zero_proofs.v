(** Zero_proofs.v - ldexp, sinh, cosh and tanh at zero. *)
From Verif Require Export Exact_proofs Conv6_proofs Pow_proofs Div2_proofs Refute_arith Misc_proofs.
From Verif Require Import Model_Exp Floor_proofs.
From Coq Require Import Lqa Lia.
Local Open Scope Z_scope.

Section ZERO.
Variable c : cfg.
Notation L := (c_limb c).
Notation n := (nel c).
Notation M := (max_exp10_of (c_expo c)).
Notation eps := (p10 (- (c_digits10 c + 2 * edc c))).
Hypothesis Hc : cfg_ok c.
Hypothesis Hk : newton_ok c.

(** 2^k and its exponent. *)
Lemma two_power FI mem k : memory_ok mem -> 1 <= k < 2 ^ 31 -> (inject_Z (4 * k) * eps <= 1)%Q -> (p2 k <= p10 (M - 40))%Q ->
  exists h, pow_int c FI mem (two c) k = Some h /\ normal c h /\ iszero h = false /\ - edc c <= dexp h <= M - 39.
Proof using Hc Hk.
  intros Hm Hk1 He4 Hp. destruct (two_facts c Hc) as (Nt & Zt & Vt & St).
  assert (PK : (Qabs (value c (two c) ^ k) == p2 k)%Q) by (rewrite Vt; apply Qabs_pos, Qlt_le_weak, p2_pos).
  assert (P1 : (1 <= p2 k)%Q) by (apply p2_ge1; lia). pose proof (edc_pos c). pose proof (max_exp10_bounds c) as (HM & _). pose proof (p10_pos (- (c_digits10 c + 2 * edc c))) as E0.
  destruct (pow_pos_accurate c FI mem (two c) k Hc Hk Hm Nt Zt) as (h & G1 & G2 & G3).
  - change (2 ^ 31) with 2147483648 in *. change (2 ^ 63) with 9223372036854775808. lia.
  - eapply Qle_trans; [|exact He4]. apply Qmult_le_compat_r; [|lra]. rewrite <- Zle_Qle. lia.
  - rewrite PK. apply Qle_trans with (p10 0); [apply (proj2 (Mul_proofs.p10_le _ _)); lia|]. rewrite p10_0. exact P1.
  - rewrite PK. eapply Qle_trans; [exact Hp|]. apply (proj2 (Mul_proofs.p10_le _ _)). lia.
  - exists h. split; [exact G1|]. split; [exact G2|]. rewrite PK, Vt in G3. change (2 ^ k)%Q with (p2 k) in G3.
    assert (DW : (inject_Z (2 * (k - 1)) * eps * p2 k <= (1 # 2) * p2 k)%Q).
    { apply Qmult_le_compat_r; [|lra]. apply Qle_trans with ((1 # 2) * (inject_Z (4 * k) * eps))%Q; [|lra].
      setoid_replace ((1 # 2) * (inject_Z (4 * k) * eps))%Q with (((1 # 2) * inject_Z (4 * k)) * eps)%Q by ring.
      apply Qmult_le_compat_r; [|lra]. replace (4 * k) with (2 * (2 * k)) by ring. rewrite (inject_Z_mult 2 (2 * k)). change (inject_Z 2) with 2%Q.
      assert (inject_Z (2 * (k - 1)) <= inject_Z (2 * k))%Q by (rewrite <- Zle_Qle; lia). lra. }
    apply Qabs_Qle_condition in G3. set (P := p2 k) in *. set (dd := (inject_Z (2 * (k - 1)) * eps * P)%Q) in *. clearbody dd.
    assert (Hh : (1 # 2 <= value c h /\ value c h <= (3 # 2) * P)%Q) by lra. destruct Hh as [Hh1 Hh2].
    assert (Ph : (0 < value c h)%Q) by lra. destruct (pos_facts c Hc h G2 Ph) as [Zh Sh]. split; [exact Zh|].
    assert (AH : (Qabs (value c h) == value c h)%Q) by (apply Qabs_pos; lra). split.
    + assert (-1 - edc c < dexp h); [|lia]. apply (exp_gt_of_value c Hc); auto. rewrite AH. change (p10 (-1)) with (1 # 10)%Q. lra.
    + apply (exp_le_of_value c Hc); auto. rewrite AH. replace (M - 39) with (M - 40 + 1) by ring. rewrite (Value_proofs.p10_add (M - 40) 1). change (p10 1) with 10%Q. lra.
Qed.

Lemma set_neg_zero v b : normal c v -> iszero v = true -> (value c (set_neg v b) == 0)%Q.
Proof using Hc.
  intros N Z. apply (value_zero c Hc); [apply set_neg_normal; auto|exact Z].
Qed.

Lemma ldexp_zero FI mem v e : float_fits c FI -> (digit_loops c FI <= n)%nat -> memory_ok mem ->
  normal c v -> iszero v = true -> - 2 ^ 31 < e < 2 ^ 31 -> (inject_Z (4 * Z.abs e) * eps <= 1)%Q -> (p2 (Z.abs e) <= p10 (M - 40))%Q ->
  exists z, ldexp c FI mem v e = Some z /\ (value c z == 0)%Q.
Proof using Hc Hk.
  intros HF HJ Hm Nv Zv He He4 Hp. pose proof (edc_pos c). pose proof (max_exp10_bounds c) as (HM & _). unfold ldexp.
  destruct (e =? 0) eqn:C0; [exists v; split; [reflexivity|apply value_zero; auto]|].
  destruct (e <=? -64) eqn:C1.
  { replace (e =? - 2 ^ 31) with false by lia. rewrite Z.abs_neq in He4, Hp by lia.
    destruct (two_power FI (later mem 1000) (- e) (later_ok mem 1000 Hm)) as (h & G & Nh & Zh & D1 & D2); [lia|auto|auto|].
    rewrite G. cbn beta iota. apply div_zero_num; auto. lia. }
  destruct (e >=? 64) eqn:C2.
  { rewrite Z.abs_eq in He4, Hp by lia.
    destruct (two_power FI (later mem 1) e (later_ok mem 1 Hm)) as (h & G & Nh & Zh & D1 & D2); [lia|auto|auto|].
    rewrite G. cbn beta iota. unfold mulm. rewrite Zv. apply mul_zero; auto.
    - apply (newton_mul_ok c Hc Hk).
    - apply (mulm_pool c Hc); auto. cbn [orb]. apply zero_normal.
    - lia. }
  destruct (e <? 0) eqn:C3.
  - assert (S0 : 0 < Z.shiftl 1 (- e)) by (rewrite Z.shiftl_1_l; apply Z.pow_pos_nonneg; lia).
    exists (set_neg v false). split; [|apply set_neg_zero; auto]. unfold div_unsigned, div_ull.
    replace (Z.shiftl 1 (- e) =? 0) with false by lia. change (iszero (set_neg v false)) with (iszero v). rewrite Zv. reflexivity.
  - exists (zero c). split; [|apply value_zero_c; auto]. unfold mul_ull. change (iszero (set_neg v false)) with (iszero v). rewrite Zv. reflexivity.
Qed.

(** sinh, cosh and tanh of zero. *)
Lemma gt_zero_zero x : normal c x -> iszero x = true -> op_gt x (zero c) = false.
Proof using Hc.
  clear - Hc. intros N Z. destruct (op_gt x (zero c)) eqn:E; auto. exfalso.
  destruct (ops_spec c Hc x (zero c) N (zero_normal c)) as (_ & _ & _ & _ & _ & O). apply O in E.
  pose proof (value_zero c Hc x N Z). pose proof (value_zero_c c Hc). lra.
Qed.

Variable F : ftype.
Hypothesis HF : float_fits c F.
Hypothesis HJ : (digit_loops c F <= n)%nat.

Lemma exp_zero ln2 mems x : normal c x -> iszero x = true -> dneg x = false -> wexp c F ln2 mems x = Some (one c).
Proof using Hc. intros N Z G. unfold wexp. rewrite G, (gt_zero_zero x N Z). reflexivity. Qed.

Lemma hyp_zero ln2 mems x : (forall j, memory_ok (mems j)) -> normal c x -> iszero x = true -> dneg x = false ->
  exists s h t, wsinh c F ln2 mems x = Some s /\ wcosh c F ln2 mems x = Some h /\ wtanh c F ln2 mems x = Some t /\
    (value c s == 0)%Q /\ (Qabs (value c h - 1) <= 2 * p10 (- c_digits10 c))%Q /\ (value c t == 0)%Q.
Proof using Hc Hk HF HJ.
  intros Hm N Z G. pose proof (edc_pos c) as He. pose proof (max_exp10_bounds c) as (HM & _).
  unfold wsinh, wcosh, wtanh. rewrite (exp_zero ln2 mems x N Z G). cbn beta iota.
  destruct (isone_one c Hc) as [O1 O2]. pose proof (one_normal c Hc) as N1. 
  assert (I : calculate_inv c F (mems (-7)) (one c) = Some (one c)) by (unfold calculate_inv; rewrite O1, O2; reflexivity).
  rewrite I. cbn beta iota. pose proof (add_normal c Hc _ _ N1 N1) as Na. pose proof (sub_normal c Hc _ _ N1 N1) as Ns.
  assert (V1 : (value c (one c) == inject_Z 1)%Q) by (apply (Floor_proofs.one_value c Hc)).
  assert (L10 : 2 < 10 ^ (elem_number c * edc c)).
  { pose proof (elem_number_ge4 c Hc). apply Z.lt_le_trans with (10 ^ 1); [reflexivity|]. apply Z.pow_le_mono_r; [lia|].
    apply Z.le_trans with (4 * 2); [lia|]. apply Z.mul_le_mono_nonneg; lia. }
  assert (VS : (value c (sub c (one c) (one c)) == inject_Z 0)%Q) by (apply (sub_int_exact c Hc _ _ 1 1); auto; cbn; lia).
  assert (VA : (value c (add c (one c) (one c)) == inject_Z 2)%Q) by (apply (add_int_exact c Hc _ _ 1 1); auto; cbn; lia).
  set (s := sub c (one c) (one c)) in *. set (a := add c (one c) (one c)) in *. clearbody s a.
  assert (ZS : iszero s = true) by (apply (value_zero_iff c Hc s Ns); exact VS).
  assert (Pa : (0 < value c a)%Q) by (rewrite VA; reflexivity). destruct (pos_facts c Hc a Na Pa) as [Za _].
  assert (Da : 0 <= dexp a < 1).
  { split; [apply (int_exp c Hc a 2 Na Za VA)|apply (exp_small c Hc a 2 1 Na Za VA); [lia|reflexivity]]. }
  assert (T : exists t, divide c F (mems (-8)) s a = Some t /\ (value c t == 0)%Q) by (apply div_zero_num; auto; lia).
  destruct T as (t & T1 & T2).
  destruct (div_ull_rel c Hc (fun y k => divide c F (mems (-8)) y (from_ull c k)) a 2 Na Za) as (h & H1 & Nh & Zh & Acc).
  { split; [lia|]. apply Z.lt_le_trans with (10 ^ 2); [reflexivity|]. apply Z.pow_le_mono_r; lia. } { lia. }
  exists (set_neg s false), h, t. split.
  { unfold div_unsigned, div_ull. change (iszero (set_neg s false)) with (iszero s). rewrite ZS. reflexivity. }
  split; [exact H1|]. split; [exact T1|]. split; [apply set_neg_zero; auto|]. split; [|exact T2].
  assert (R : (value c a / inject_Z 2 == 1)%Q) by (rewrite VA; reflexivity). rewrite R in Acc.
  set (d := p10 (- c_digits10 c)) in *. assert (D0 : (0 < d)%Q) by apply Value_proofs.p10_pos.
  assert (D1 : (d <= 1 # 10)%Q). { unfold d. change (1 # 10)%Q with (p10 (-1)). apply (proj2 (Mul_proofs.p10_le _ _)). destruct Hc as (G1 & _). lia. }
  clearbody d. assert (Hv : (Qabs (value c h) <= Qabs (value c h - 1) + 1)%Q).
  { setoid_replace (value c h) with ((value c h - 1) + 1)%Q at 1 by ring. apply Qabs_triangle. }
  assert (V2 : (Qabs (value c h) * d <= (1 # 10) * Qabs (value c h))%Q) by (rewrite Qmult_comm; apply Qmult_le_compat_r; [lra|apply Qabs_nonneg]).
  assert (V3 : (Qabs (value c h) * d <= 2 * d)%Q) by (apply Qmult_le_compat_r; lra). lra.
Qed.
End ZERO.