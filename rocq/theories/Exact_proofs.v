(** Exact_proofs.v - integer-valued arithmetic is exact while the result fits the limbs. *)
From Verif Require Export Laws_proofs Misc_proofs.
From Coq Require Import Lqa.
Local Open Scope Z_scope.

(** Decimal digits of the largest integers all of which are representable exactly (and whose product
    does not saturate). *)
Definition int_digits (c : cfg) : Z := Z.min (elem_number c * edc c) (max_exp10_of (c_expo c)).

Section EX.
Variable c : cfg.
Notation L := (c_limb c).
Notation B := (mask L).
Notation V := (limbs_value B).
Notation P n := (B ^ Z.of_nat n).
Notation E := (ebits (c_expo c)).
Notation n := (nel c).
Notation M := (max_exp10_of (c_expo c)).
Hypothesis Hc : cfg_ok c.
Let HB : 0 < B := mask_pos L.

Lemma int_exp x k : normal c x -> iszero x = false -> (value c x == inject_Z k)%Q ->
  0 <= dexp x /\ 1 <= Z.abs k /\ (p10 (dexp x) <= inject_Z (Z.abs k))%Q.
Proof.
  intros Hx Zx Hv. destruct (value_bracket c Hc x Hx Zx) as [B1 B2]. rewrite Hv in *.
  assert (A : (Qabs (inject_Z k) == inject_Z (Z.abs k))%Q) by (destruct k; reflexivity). rewrite A in *.
  assert (K : 1 <= Z.abs k).
  { assert (0 < Z.abs k); [|lia]. apply Qlt_le_trans with (x := 0%Q) in B1; [|apply p10_pos].
    change 0%Q with (inject_Z 0) in B1. rewrite <- Zlt_Qlt in B1. lia. }
  split; [|split; auto].
  assert (T : (p10 0 < p10 (dexp x + edc c))%Q).
  { eapply Qle_lt_trans; [|exact B2]. rewrite p10_0. change 1%Q with (inject_Z 1). rewrite <- Zle_Qle. lia. }
  apply (proj1 (p10_lt _ _)) in T. destruct Hx as (_ & _ & _ & (j & Dj) & _). pose proof (edc_pos c).
  assert (0 <= j); [|rewrite Dj; apply Z.mul_nonneg_nonneg; lia].
  rewrite Dj in T. destruct (Z_lt_ge_dec j 0) as [J|J]; [|lia]. assert (j * edc c <= -1 * edc c) by (apply Z.mul_le_mono_nonneg_r; lia). lia.
Qed.

Lemma cap_exp e : (edc c | e) -> e < elem_number c * edc c -> e <= edc c * (Z.of_nat n - 1).
Proof.
  intros [j ->] H. rewrite (nel_Z c Hc). pose proof (edc_pos c). assert (j < elem_number c) by (apply (Z.mul_lt_mono_pos_r (edc c)); lia).
  rewrite (Z.mul_comm (edc c)). apply Z.mul_le_mono_nonneg_r; lia.
Qed.

(** An integer is a whole number of last-limb units of any object whose exponent is small enough. *)
Lemma int_units e k : e <= edc c * (Z.of_nat n - 1) -> exists K, (inject_Z k == inject_Z K * p10 (low c e))%Q.
Proof.
  intros He. exists (k * 10 ^ (- low c e)). assert (0 <= - low c e) by (unfold low; lia).
  rewrite inject_Z_mult, <- Qmult_assoc. rewrite <- p10_Z by lia. rewrite <- p10_add, Z.add_opp_diag_l, p10_0. ring.
Qed.

Lemma p10_digits k d : 0 <= d -> Z.abs k < 10 ^ d -> (inject_Z (Z.abs k) < p10 d)%Q.
Proof. intros Hd Hk. rewrite (p10_Z d) by lia. rewrite <- Zlt_Qlt. auto. Qed.

Lemma cap_pos : 0 <= int_digits c /\ int_digits c <= elem_number c * edc c /\ int_digits c <= M.
Proof.
  unfold int_digits. pose proof (max_exp10_bounds c) as (HM & _). pose proof (edc_pos c). pose proof (elem_number_ge4 c Hc). nia.
Qed.

Lemma exp_small x k d : normal c x -> iszero x = false -> (value c x == inject_Z k)%Q -> 0 <= d -> Z.abs k < 10 ^ d -> dexp x < d.
Proof.
  intros Hx Zx Hv Hd Hk. destruct (int_exp x k Hx Zx Hv) as (_ & _ & T).
  assert (T2 : (p10 (dexp x) < p10 d)%Q) by (eapply Qle_lt_trans; [exact T|]; apply p10_digits; auto).
  apply (proj1 (p10_lt _ _)) in T2. auto.
Qed.


Theorem mul_int_exact rmem scratch x v k j : mul_ok c -> pool_ok c rmem scratch -> normal c x -> normal c v ->
  iszero x = false -> iszero v = false ->
  (value c x == inject_Z k)%Q -> (value c v == inject_Z j)%Q -> Z.abs (k * j) < 10 ^ int_digits c ->
  exists z, mul c rmem scratch x v = Some z /\ normal c z /\ iszero z = false /\ (value c z == inject_Z (k * j))%Q.
Proof.
  intros Hm Hp Hx Hv Zx Zv Vx Vv Hkj. destruct cap_pos as (C0 & C1 & C2).
  destruct (int_exp x k Hx Zx Vx) as (Ex & Kx & Px). destruct (int_exp v j Hv Zv Vv) as (Ev & Kv & Pv).
  assert (Hsum : dexp x + dexp v < int_digits c).
  { assert (T : (p10 (dexp x + dexp v) < p10 (int_digits c))%Q); [|apply (proj1 (p10_lt _ _)) in T; auto].
    rewrite p10_add. apply Qle_lt_trans with (inject_Z (Z.abs k) * inject_Z (Z.abs j))%Q.
    - apply Qmult_le_compat_nonneg; split; auto; apply Qlt_le_weak, p10_pos.
    - rewrite <- inject_Z_mult, <- Z.abs_mul. apply p10_digits; auto. }
  pose proof (max_exp10_bounds c) as (HM & _).
  destruct (mul_rel c Hc rmem scratch x v Hm Hp Hx Hv Zx Zv ltac:(lia)) as (z & E1 & Nz & Zz & _ & _).
  exists z. split; [auto|]. split; [auto|]. split; [auto|]. rewrite inject_Z_mult, <- Vx, <- Vv.
  assert (NN : forall y i, (value c y == inject_Z i)%Q -> ~ is_nines c y).
  { intros y i Hy Hn. unfold is_nines in Hn. rewrite Hy in Hn.
    assert (A : (Qabs (inject_Z i) == inject_Z (Z.abs i))%Q) by (destruct i; reflexivity). rewrite A in Hn.
    pose proof (p10_pos (- (edc c * elem_number c))) as P1.
    assert (P2 : (p10 (- (edc c * elem_number c)) < p10 0)%Q).
    { apply p10_lt. pose proof (edc_pos c). pose proof (elem_number_ge4 c Hc). nia. }
    rewrite p10_0 in P2.
    assert (L1 : (inject_Z 0 < inject_Z (Z.abs i))%Q) by (rewrite Hn; change (inject_Z 0) with 0%Q; lra).
    assert (L2 : (inject_Z (Z.abs i) < inject_Z 1)%Q) by (rewrite Hn; change (inject_Z 1) with 1%Q; lra).
    rewrite <- Zlt_Qlt in L1, L2. lia. }
  destruct (isone_sign_neutral c x) eqn:Ox; [|destruct (isone_sign_neutral c v) eqn:Ov].
  - unfold mul in E1. rewrite Zx, Zv in E1. cbn [orb] in E1.
    change (isone_sign_neutral c (set_neg x false)) with (isone_sign_neutral c x) in E1. rewrite Ox in E1.
    injection E1 as <-. apply (proj1 (isone_iff c Hc x Hx Zx)) in Ox. destruct Ox as [Ox|Ox]; [|destruct (NN _ _ Vx Ox)].
    unfold is_one in Ox. rewrite value_set_neg by auto.
    pose proof (value_sign c Hc x Hx Zx) as Sx. rewrite Bool.xorb_assoc, Bool.xorb_nilpotent, Bool.xorb_false_r.
    destruct (dneg x).
    + rewrite Qabs_neg in Ox by lra. assert (W : (value c x == -(1))%Q) by lra. rewrite W. ring.
    + rewrite Qabs_pos in Ox by lra. rewrite Ox. ring.
  - unfold mul in E1. rewrite Zx, Zv in E1. cbn [orb] in E1.
    change (isone_sign_neutral c (set_neg x false)) with (isone_sign_neutral c x) in E1. rewrite Ox, Ov in E1.
    injection E1 as <-. apply (proj1 (isone_iff c Hc v Hv Zv)) in Ov. destruct Ov as [Ov|Ov]; [|destruct (NN _ _ Vv Ov)].
    unfold is_one in Ov. change (set_neg (set_neg x false) (xorb (dneg x) (dneg v))) with (set_neg x (xorb (dneg x) (dneg v))).
    rewrite value_set_neg by auto.
    pose proof (value_sign c Hc v Hv Zv) as Sv. rewrite (Bool.xorb_comm (dneg x)), Bool.xorb_assoc, Bool.xorb_nilpotent, Bool.xorb_false_r.
    destruct (dneg v).
    + rewrite Qabs_neg in Ov by lra. assert (W : (value c v == -(1))%Q) by lra. rewrite W. ring.
    + rewrite Qabs_pos in Ov by lra. rewrite Ov. ring.
  - assert (N1 : ~ is_one c x) by (intros K; assert (isone_sign_neutral c x = true) by (apply isone_iff; auto); congruence).
    assert (N2 : ~ is_one c v) by (intros K; assert (isone_sign_neutral c v = true) by (apply isone_iff; auto); congruence).
    destruct (mul_trunc_all c Hc rmem scratch x v Hm Hp Hx Hv Zx Zv N1 (NN _ _ Vx) N2 (NN _ _ Vv) ltac:(lia))
      as (z' & E1' & _ & T & Ex2 & _). rewrite E1 in E1'. injection E1' as <-.
    assert (Vz : dexp z < int_digits c).
    { destruct (value_bracket c Hc z Nz Zz) as [B1 _]. destruct T as (_ & T2 & _).
      assert (T3 : (p10 (dexp z) < p10 (int_digits c))%Q); [|apply (proj1 (p10_lt _ _)) in T3; auto].
      eapply Qle_lt_trans; [exact B1|]. eapply Qle_lt_trans; [exact T2|]. rewrite Vx, Vv, <- inject_Z_mult.
      assert (A : (Qabs (inject_Z (k * j)) == inject_Z (Z.abs (k * j)))%Q) by (destruct (k * j); reflexivity). rewrite A. apply p10_digits; auto. }
    destruct (int_units (dexp z) (k * j)) as (K & HK).
    { apply cap_exp; [|lia]. destruct Nz as (_ & _ & _ & D & _). auto. }
    apply (Ex2 K). rewrite ulp_low by (destruct (normal_facts c Hc z Nz); auto). rewrite <- HK, Vx, Vv, <- inject_Z_mult. reflexivity.
Qed.

Theorem add_int_exact x v k j : normal c x -> normal c v ->
  (value c x == inject_Z k)%Q -> (value c v == inject_Z j)%Q ->
  Z.abs k < 10 ^ (elem_number c * edc c) -> Z.abs j < 10 ^ (elem_number c * edc c) -> Z.abs (k + j) < 10 ^ (elem_number c * edc c) ->
  (value c (add c x v) == inject_Z (k + j))%Q.
Proof.
  intros Hx Hv Vx Vv Hk Hj Hkj. rewrite inject_Z_plus, <- Vx, <- Vv.
  destruct (iszero x) eqn:Zx; [apply add_zero_value; auto|]. destruct (iszero v) eqn:Zv; [apply add_zero_value; auto|].
  pose proof (edc_pos c) as He. pose proof (elem_number_ge4 c Hc) as Hn.
  assert (Cap : 0 <= elem_number c * edc c) by nia.
  destruct (int_exp x k Hx Zx Vx) as (Ex & Kx & Px). destruct (int_exp v j Hv Zv Vv) as (Ev & Kv & Pv).
  pose proof (exp_small x k _ Hx Zx Vx Cap Hk) as Sx. pose proof (exp_small v j _ Hv Zv Vv Cap Hj) as Sv.
  assert (Dx : (edc c | dexp x)) by (destruct Hx as (_ & _ & _ & D & _); auto).
  assert (Dv : (edc c | dexp v)) by (destruct Hv as (_ & _ & _ & D & _); auto).
  pose proof (cap_exp _ Dx Sx) as Lx. pose proof (cap_exp _ Dv Sv) as Lv.
  assert (Hsafe : exp_safe c (Z.max (dexp x) (dexp v))).
  { unfold exp_safe. destruct Hc as [_ H2]. rewrite (nel_Z c Hc) in *. lia. }
  destruct (Bool.eqb (dneg x) (dneg v)) eqn:Es.
  - apply Bool.eqb_prop in Es. destruct (add_same_all c Hc x v Hx Hv Zx Zv (eq_sym Es) Hsafe) as (T & Ex2 & _). cbv zeta in *.
    destruct (add_same_int c Hc x v Hx Hv Zx Zv (eq_sym Es)) as (A1 & A2 & A3 & _).
    pose proof (add_normal c Hc x v Hx Hv) as Nz.
    assert (Zz : iszero (add c x v) = false) by (unfold iszero; lia).
    assert (Vz : dexp (add c x v) < elem_number c * edc c).
    { destruct (value_bracket c Hc _ Nz Zz) as [B1 _]. destruct T as (_ & T2 & _).
      assert (T3 : (p10 (dexp (add c x v)) < p10 (elem_number c * edc c))%Q); [|apply (proj1 (p10_lt _ _)) in T3; auto].
      eapply Qle_lt_trans; [exact B1|]. eapply Qle_lt_trans; [exact T2|]. rewrite Vx, Vv, <- inject_Z_plus.
      assert (A : (Qabs (inject_Z (k + j)) == inject_Z (Z.abs (k + j)))%Q) by (destruct (k + j); reflexivity). rewrite A. apply p10_digits; auto. }
    destruct (int_units (dexp (add c x v)) (k + j)) as (K & HK).
    { apply cap_exp; auto. destruct Nz as (_ & _ & _ & D & _). auto. }
    apply (Ex2 K). rewrite ulp_low by auto. rewrite <- HK, Vx, Vv, <- inject_Z_plus. reflexivity.
  - assert (Hs : dneg v = negb (dneg x)) by (destruct (dneg x), (dneg v); cbn in *; congruence).
    pose proof (add_diff_value c Hc x v Hx Hv Zx Zv Hs Hsafe) as HV.
    destruct (isum_diff c Hc x v Hx Hv Zx Zv Hs) as (I1 & I2 & _). cbv zeta in *.
    pose proof (isum_value c Hc x v Hx Hv) as HI.
    set (D := sgn (dneg x) * _ + _) in *.
    set (m := Z.min (dexp x) (dexp v)) in *. set (e := Z.max (dexp x) (dexp v)) in *.
    destruct (int_units e (k + j)) as (K & HK); [unfold e; lia|].
    assert (IK : isum c x v = K * 10 ^ (e - m)).
    { apply (sc_eq _ _ (low c m)). rewrite <- HI, Vx, Vv, <- inject_Z_plus, HK.
      rewrite <- (low_sub c e m), inject_Z_mult. rewrite <- p10_Z by (unfold low, e, m; lia).
      rewrite <- Qmult_assoc, <- p10_add. replace (low c e - low c m + low c m) with (low c e) by lia. reflexivity. }
    rewrite HV, HI. apply sc_eq. rewrite IK in *.
    assert (Pw : 0 < 10 ^ (e - m)) by (apply Z.pow_pos_nonneg; unfold e, m; lia).
    rewrite Z.abs_mul, (Z.abs_eq (10 ^ _)) in I1 by lia. rewrite Z.sgn_mul, (Z.sgn_pos (10 ^ _)), Z.mul_1_r in I2 by lia.
    f_equal. assert (Z.abs D = Z.abs K) by nia. lia.
Qed.

Lemma sub_int_exact x v k j : normal c x -> normal c v ->
  (value c x == inject_Z k)%Q -> (value c v == inject_Z j)%Q ->
  Z.abs k < 10 ^ (elem_number c * edc c) -> Z.abs j < 10 ^ (elem_number c * edc c) -> Z.abs (k - j) < 10 ^ (elem_number c * edc c) ->
  (value c (sub c x v) == inject_Z (k - j))%Q.
Proof.
  intros Hx Hv Vx Vv Hk Hj Hkj. unfold sub. pose proof (negate_normal c x Hx) as Nx.
  rewrite value_negate by (auto; apply add_normal; auto).
  rewrite (add_int_exact (negate x) v (- k) j); auto; try lia.
  - rewrite <- inject_Z_opp. replace (- (- k + j)) with (k - j) by ring. reflexivity.
  - rewrite value_negate by auto. rewrite Vx, inject_Z_opp. reflexivity.
Qed.

Lemma add_sll_exact x k j : normal c x -> (value c x == inject_Z k)%Q -> - 2 ^ 63 <= j < 2 ^ 63 ->
  Z.abs k < 10 ^ (elem_number c * edc c) -> Z.abs j < 10 ^ (elem_number c * edc c) -> Z.abs (k + j) < 10 ^ (elem_number c * edc c) ->
  (value c (add_sll c x j) == inject_Z (k + j))%Q.
Proof.
  intros Hx Vx Hj64 Hk Hj Hkj. unfold add_sll, add_ull. pose proof (abs_ucast j Hj64) as Ha.
  change (2 ^ 63) with 9223372036854775808 in *. 
  assert (T : Z.abs j < 2 ^ 64) by (change (2 ^ 64) with 18446744073709551616; lia).
  assert (Hj' : Z.abs j < 10 ^ (edc c * elem_number c)) by (rewrite Z.mul_comm; auto).
  destruct (j <? 0) eqn:En; cbn [negb] in Ha.
  - rewrite Ha. pose proof (negate_normal c x Hx) as Nx. pose proof (from_ull_normal c Hc (Z.abs j) ltac:(lia)) as Nu.
    rewrite value_negate by (auto; apply add_normal; auto).
    rewrite (add_int_exact (negate x) _ (- k) (Z.abs j)); auto; try lia.
    + rewrite <- inject_Z_opp. replace (- (- k + Z.abs j)) with (k + j) by lia. reflexivity.
    + rewrite value_negate by auto. rewrite Vx, inject_Z_opp. reflexivity.
    + apply from_ull_exact; auto. lia.
  - rewrite Z.abs_eq in * by lia. apply add_int_exact; auto; [apply from_ull_normal; auto; lia| |rewrite Z.abs_eq by lia; auto].
    apply from_ull_exact; auto; lia.
Qed.
End EX.
