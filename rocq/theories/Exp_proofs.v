(** Exp_proofs.v - error bounds of the steps of exp. *)
From Verif Require Export Frexp2_proofs Model_Exp Refute_arith.
From Coq Require Import Lqa.
Local Open Scope Z_scope.

(** [a] is [b] up to a relative error [e]. *)
Definition near (e a b : Q) : Prop := (Qabs (a - b) <= e * Qabs b)%Q.

Lemma near_refl e a : (0 <= e)%Q -> near e a a.
Proof. intros H. unfold near. setoid_replace (a - a)%Q with 0%Q by ring. change (Qabs 0) with 0%Q. apply Qmult_le_0_compat; [auto|apply Qabs_nonneg]. Qed.

Lemma near_le e f a b : (e <= f)%Q -> near e a b -> near f a b.
Proof. unfold near. intros H N. eapply Qle_trans; [exact N|]. apply Qmult_le_compat_r; [auto|apply Qabs_nonneg]. Qed.

Lemma near_trans e f a b d : (0 <= e)%Q -> near e a b -> near f b d -> near (e + f + e * f) a d.
Proof.
  unfold near. intros He H1 H2. setoid_replace (a - d)%Q with ((a - b) + (b - d))%Q by ring.
  pose proof (Qabs_triangle (a - b) (b - d)) as T.
  assert (T2 : (Qabs b <= Qabs (b - d) + Qabs d)%Q). { setoid_replace b with ((b - d) + d)%Q at 1 by ring. apply Qabs_triangle. }
  pose proof (Qabs_nonneg d) as D0.
  assert (X : (e * Qabs b <= e * ((f + 1) * Qabs d))%Q).
  { rewrite !(Qmult_comm e). apply Qmult_le_compat_r; auto. lra. }
  lra.
Qed.

Lemma near_mult e a b k : near e a b -> near e (a * k) (b * k).
Proof.
  unfold near. intros H. setoid_replace (a * k - b * k)%Q with ((a - b) * k)%Q by ring. rewrite !Qabs_Qmult, Qmult_assoc.
  apply Qmult_le_compat_r; [auto|apply Qabs_nonneg].
Qed.

Lemma near_div e a b k : near e a b -> near e (a / k) (b / k).
Proof. intros H. unfold Qdiv. apply near_mult. auto. Qed.

Lemma near_abs e a b : near e a b -> ((1 - e) * Qabs b <= Qabs a /\ Qabs a <= (1 + e) * Qabs b)%Q.
Proof.
  unfold near. intros H. pose proof (Qabs_triangle (a - b) b) as T1. pose proof (Qabs_triangle (b - a) a) as T2.
  setoid_replace (a - b + b)%Q with a in T1 by ring. setoid_replace (b - a + a)%Q with b in T2 by ring.
  rewrite (Qabs_Qminus b a) in T2. lra.
Qed.

Lemma near_compat e a b a' b' : (a == a')%Q -> (b == b')%Q -> near e a b -> near e a' b'.
Proof. unfold near. intros E1 E2. rewrite E1, E2. auto. Qed.

(** Same sign, close magnitudes: close. *)
Lemma same_sign_dist (q z w : Q) : (0 <= q * z)%Q -> (Qabs q <= Qabs z)%Q -> (Qabs z < Qabs q + w)%Q -> (Qabs (z - q) <= w)%Q.
Proof.
  intros H0 H1 H2. revert H1 H2.
  destruct (Qlt_le_dec q 0) as [A|A]; destruct (Qlt_le_dec z 0) as [A'|A'].
  - rewrite (Qabs_neg q), (Qabs_neg z) by lra. intros. apply Qabs_case; lra.
  - rewrite (Qabs_neg q), (Qabs_pos z) by lra. intros H1 H2. assert (0 <= - q * z)%Q by (apply Qmult_le_0_compat; lra).
    assert (Z0 : (- q * z == 0)%Q) by lra. apply Qmult_integral in Z0. destruct Z0; apply Qabs_case; lra.
  - rewrite (Qabs_pos q), (Qabs_neg z) by lra. intros H1 H2. assert (0 <= q * - z)%Q by (apply Qmult_le_0_compat; lra).
    assert (Z0 : (q * - z == 0)%Q) by lra. apply Qmult_integral in Z0. destruct Z0; apply Qabs_case; lra.
  - rewrite (Qabs_pos q), (Qabs_pos z) by lra. intros. apply Qabs_case; lra.
Qed.

Section EX.
Variable c : cfg.
Variable F : ftype.
Notation L := (c_limb c).
Notation B := (mask L).
Notation n := (nel c).
Notation M := (max_exp10_of (c_expo c)).
Notation eps := (p10 (- (c_digits10 c + 2 * edc c))).
Notation dl := (p10 (- c_digits10 c)).
Hypothesis Hc : cfg_ok c.
Hypothesis Hk : newton_ok c.
Hypothesis HF : float_fits c F.
Hypothesis HJ : (digit_loops c F <= n)%nat.
Hypothesis HM : edc c * elem_number c + 200 <= M.

Lemma eps_dl : (0 < eps /\ 0 < dl /\ eps <= (1 # 10000) * dl /\ dl <= 1 # 10)%Q.
Proof using Hc. clear HF HJ HM Hk.
  pose proof (edc_pos c) as He. destruct Hc as [Hd _]. split; [apply p10_pos|]. split; [apply p10_pos|]. split.
  - assert (X : (eps <= p10 (- c_digits10 c + -4))%Q) by (apply p10_le; lia). rewrite p10_add in X. change (p10 (-4)) with (1 # 10000)%Q in X. lra.
  - change (1 # 10)%Q with (p10 (-1)). apply p10_le. lia.
Qed.

Lemma safe_of a b : (- M <= a \/ - M <= b) -> a <= M -> b <= M -> exp_safe c (Z.max a b).
Proof using HM. clear HF HJ Hk.
  intros H1 H2 H3. pose proof (max_exp10_bounds c) as (X1 & X2 & _). pose proof (edc_pos c) as He. unfold exp_safe.
  rewrite (Z.mul_comm (elem_number c)). clear - HM H1 H2 H3 X1 X2 He. lia.
Qed.

Lemma low_rel x : normal c x -> iszero x = false -> (p10 (low c (dexp x)) <= eps * Qabs (value c x))%Q.
Proof using Hc.
  intros Nx Zx. destruct (normal_ok c Hc x Nx) as (A & Bd & Z0). pose proof (ulp_rel c Hc x A Bd (Z0 Zx)) as U.
  rewrite (Qmult_comm eps). unfold ulp in U. rewrite A in U. exact U.
Qed.

Lemma add_abs x v : normal c x -> normal c v -> (iszero x = false -> iszero v = false -> exp_safe c (Z.max (dexp x) (dexp v))) ->
  (Qabs (value c (add c x v) - (value c x + value c v)) <= eps * (Qabs (value c x) + Qabs (value c v)))%Q.
Proof using Hc.
  intros Nx Nv Hs. destruct eps_dl as (E0 & _). pose proof (Qabs_nonneg (value c x)) as X0. pose proof (Qabs_nonneg (value c v)) as V0.
  assert (R0 : (0 <= eps * (Qabs (value c x) + Qabs (value c v)))%Q) by (apply Qmult_le_0_compat; lra).
  destruct (iszero x) eqn:Zx; [|destruct (iszero v) eqn:Zv].
  1,2: rewrite (add_zero_value c Hc x v Nx Nv) by auto;
    match goal with |- (Qabs (?a - ?b) <= _)%Q => setoid_replace (a - b)%Q with 0%Q by ring end; change (Qabs 0) with 0%Q; exact R0.
  specialize (Hs eq_refl eq_refl). destruct (Bool.bool_dec (dneg v) (dneg x)) as [Es|Es].
  - destruct (add_same_all c Hc x v Nx Nv Zx Zv Es Hs) as (_ & _ & T). cbv zeta in T. apply Qlt_le_weak in T.
    eapply Qle_trans; [exact T|]. rewrite (Qmult_comm eps). apply Qmult_le_compat_r; [apply Qabs_triangle|lra].
  - assert (Es' : dneg v = negb (dneg x)) by (destruct (dneg v), (dneg x); cbn; congruence).
    destruct (add_diff_away c Hc x v Nx Nv Zx Zv Es' Hs) as ((T1 & T2 & T3) & _).
    eapply Qle_trans; [apply (same_sign_dist _ _ _ T1 T2 T3)|].
    pose proof (low_rel x Nx Zx) as Lx. pose proof (low_rel v Nv Zv) as Lv.
    assert (P1 : (0 <= eps * Qabs (value c x))%Q) by (apply Qmult_le_0_compat; lra).
    assert (P2 : (0 <= eps * Qabs (value c v))%Q) by (apply Qmult_le_0_compat; lra).
    destruct (Z.max_spec (dexp x) (dexp v)) as [[_ ->]|[_ ->]]; lra.
Qed.

Lemma sub_abs x v : normal c x -> normal c v -> (iszero x = false -> iszero v = false -> exp_safe c (Z.max (dexp x) (dexp v))) ->
  (Qabs (value c (sub c x v) - (value c x - value c v)) <= eps * (Qabs (value c x) + Qabs (value c v)))%Q.
Proof using Hc.
  intros Nx Nv Hs. unfold sub. pose proof (negate_normal c x Nx) as Nn. rewrite (value_negate c Hc _ (add_normal c Hc _ _ Nn Nv)).
  pose proof (add_abs (negate x) v Nn Nv) as A. rewrite negate_exp, iszero_negate in A. specialize (A Hs).
  rewrite (value_negate c Hc x Nx), Qabs_opp in A. rewrite <- Qabs_opp.
  setoid_replace (- (- value c (add c (negate x) v) - (value c x - value c v)))%Q with (value c (add c (negate x) v) - (- value c x + value c v))%Q by ring.
  exact A.
Qed.

(** A difference of non-zero numbers that is zero is the canonical zero. *)
Lemma sub_zero x v : normal c x -> normal c v -> iszero x = false -> iszero v = false -> exp_safe c (Z.max (dexp x) (dexp v)) ->
  iszero (sub c x v) = true -> sub c x v = zero c /\ (value c x == value c v)%Q.
Proof using Hc.
  intros Nx Nv Zx Zv Hs Z0. unfold sub in Z0. rewrite iszero_negate in Z0. pose proof (negate_normal c x Nx) as Nn.
  pose proof (add_normal c Hc _ _ Nn Nv) as Na. pose proof (value_zero c Hc _ Na Z0) as V0.
  apply (add_zero_iff c Hc) in V0; auto; [|rewrite negate_exp; auto]. rewrite (value_negate c Hc x Nx) in V0.
  assert (E : (value c x == value c v)%Q) by lra. split; [|exact E].
  apply (value_unique c Hc x v Nx Nv Zx) in E. subst v. unfold sub.
  assert (X : x = negate (negate x)).
  { unfold negate at 1. rewrite iszero_negate, Zx. unfold negate. rewrite Zx. destruct x. cbn. rewrite negb_involutive. reflexivity. }
  rewrite X at 2. rewrite (add_neg_self c Hc) by (auto; rewrite iszero_negate; auto). unfold negate. rewrite (zero_iszero c Hc). reflexivity.
Qed.

(** Division by a small integer. *)
Lemma div_step mem x u : memory_ok mem -> normal c x -> iszero x = false -> 2 <= u < 10 ^ 6 ->
  (u < 10 ^ edc c \/ (Qabs (value c x) <= 3 # 4)%Q) -> - M + 36 <= dexp x < M - 40 ->
  exists z, div_unsigned c F mem x u = Some z /\ normal c z /\ near (2 * dl) (value c z) (value c x / inject_Z u).
Proof.
  intros Hmem Nx Zx Hu Hc2 Rx. pose proof (edc_pos c) as He. destruct eps_dl as (E0 & D0 & E1 & D1).
  assert (Hu64 : 0 < u < 2 ^ 64) by (change (10 ^ 6) with 1000000 in Hu; change (2 ^ 64) with 18446744073709551616; lia).
  destruct (Z_lt_ge_dec u (10 ^ edc c)) as [Us|Ub].
  - destruct (div_ull_rel c Hc (fun y k => divide c F mem y (from_ull c k)) x u Nx Zx ltac:(lia) ltac:(lia)) as (z & Z1 & Nz & Zz & Acc).
    exists z. split; [exact Z1|]. split; [exact Nz|]. unfold near. set (q := (value c x / inject_Z u)%Q) in *. apply Qlt_le_weak in Acc.
    assert (T : (Qabs (value c z) <= Qabs (value c z - q) + Qabs q)%Q).
    { setoid_replace (value c z) with ((value c z - q) + q)%Q at 1 by ring. apply Qabs_triangle. }
    pose proof (Qabs_nonneg (value c z)) as Z0.
    assert (T2 : (Qabs (value c z) * dl <= Qabs (value c z) * (1 # 10))%Q) by (rewrite !(Qmult_comm (Qabs (value c z))); apply Qmult_le_compat_r; auto).
    assert (T3 : (Qabs (value c z) <= 2 * Qabs q)%Q) by lra.
    assert (T4 : (Qabs (value c z) * dl <= 2 * Qabs q * dl)%Q) by (apply Qmult_le_compat_r; lra). lra.
  - destruct Hc2 as [K|Sm]; [lia|].
    assert (Hfit : u < 10 ^ (edc c * elem_number c)).
    { pose proof (nel_ge4 c Hc) as N4. rewrite <- (nel_Z c Hc). assert (X : 10 ^ 6 <= 10 ^ (edc c * Z.of_nat n)) by (apply Z.pow_le_mono_r; lia). lia. }
    unfold div_unsigned, div_ull. assert (HBu : B <= u) by (rewrite mask_pow; unfold edc in Ub; lia). pose proof (B_gt9 c) as H9.
    replace (u =? 0) with false by lia. change (iszero (set_neg x false)) with (iszero x). rewrite Zx.
    replace (u >=? B) with true by lia. change (set_neg (set_neg x false) (dneg x)) with (set_neg x (dneg x)). rewrite set_neg_same.
    pose proof (from_ull_exact c Hc u ltac:(lia) Hfit) as Vu. pose proof (from_ull_normal c Hc u ltac:(lia)) as Nu.
    destruct (from_ull_exp c Hc u ltac:(lia)) as (Zu & Eu).
    assert (Ou : order_of_builtin_integer u <= 20) by (pose proof (order_spec u ltac:(lia)); lia).
    pose proof (max_exp10_bounds c) as (M64 & _).
    destruct (div_accurate c F mem x (from_ull c u) Hc Hk HF HJ Hmem Nx Nu Zx Zu) as (z & Z1 & _ & Acc & Nz); [lia|lia|].
    exists z. split; [exact Z1|]. split.
    + apply Nz. left. unfold is_one, is_nines.
      assert (X : (p10 (- (edc c * elem_number c)) <= 1 # 100)%Q).
      { change (1 # 100)%Q with (p10 (-2)). apply p10_le. rewrite <- (nel_Z c Hc). pose proof (nel_ge4 c Hc). clear - He H. nia. }
      split; intros K; lra.
    + rewrite Vu in Acc. unfold near. eapply Qle_trans; [exact Acc|]. apply Qmult_le_compat_r; [lra|apply Qabs_nonneg].
Qed.

(** A product of non-zero numbers. *)
Lemma mul_step mem i x v : memory_ok mem -> normal c x -> normal c v -> iszero x = false -> iszero v = false -> - M < dexp x + dexp v < M ->
  exists z, mulm c mem i x v = Some z /\ normal c z /\ iszero z = false /\ near eps (value c z) (value c x * value c v).
Proof.
  intros Hmem Nx Nv Zx Zv R. unfold mulm. rewrite Zx, Zv. cbn [orb].
  assert (Px : dprec x = n) by apply Nx. assert (Pv : dprec v = n) by apply Nv. rewrite Px, Pv, Nat.min_id.
  destruct (mul_rel c Hc (fst (mem i n)) (snd (mem i n)) x v (newton_mul_ok c Hc Hk) (memory_pool c Hc mem i Hmem) Nx Nv Zx Zv R) as (z & Z1 & Nz & Zz & _ & Acc).
  exists z. split; [exact Z1|]. split; [exact Nz|]. split; [exact Zz|]. unfold near. rewrite (Qmult_comm eps). apply Qlt_le_weak. exact Acc.
Qed.

Lemma near_nonzero e z q : normal c z -> near e (value c z) q -> (e < 1)%Q -> ~ (q == 0)%Q -> iszero z = false.
Proof using Hc.
  intros Nz H He Hq. destruct (iszero z) eqn:Z0; [|reflexivity]. exfalso. pose proof (value_zero c Hc z Nz Z0) as V0.
  pose proof (near_abs _ _ _ H) as [A _]. rewrite V0 in A. change (Qabs 0) with 0%Q in A. apply Hq.
  assert (P : (0 < Qabs q \/ q == 0)%Q). { destruct (Qeq_dec q 0); [right; auto|]. left. apply Qabs_case; intros; destruct (Qlt_le_dec q 0); lra || (destruct (Qeq_dec q 0); [contradiction|lra]). }
  destruct P as [P|P]; [|exact P]. assert (0 < (1 - e) * Qabs q)%Q by (apply Qmult_lt_0_compat; lra). lra.
Qed.
End EX.
