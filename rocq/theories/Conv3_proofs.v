(** Conv3_proofs.v - construction from built-in floating-point types: accuracy and exactness. *)
From Verif Require Export Conv2_proofs Spec_Conv.
From Coq Require Import Lqa.
Local Open Scope Z_scope.

Lemma std_bits F : std_float F -> 2 <= f_bits F <= 64.
Proof. intros [-> | [-> | ->]]; cbn; lia. Qed.
Lemma std_min F : std_float F -> (0 < f_min F)%Q.
Proof. intros _. apply p2_pos. Qed.

Lemma binary_pos F q mu p : std_float F -> binary_normal F q mu p -> (0 < q)%Q /\ 1 <= mu < 2 ^ 64.
Proof.
  intros HF (H1 & H2 & H3). pose proof (std_bits F HF) as HB. split; [pose proof (std_min F HF); lra|].
  pose proof (Z.pow_pos_nonneg 2 (f_bits F - 1)). pose proof (Z.pow_le_mono_r 2 (f_bits F) 64). lia.
Qed.

Lemma half_pow k : 0 <= k -> ((1 # 2) ^ k == p2 (- k))%Q.
Proof.
  intros Hk. unfold p2. rewrite Qpower_opp. change (1 # 2)%Q with (/ (2 # 1))%Q. rewrite Qinv_power. reflexivity.
Qed.

Section FA.
Variable c : cfg.
Notation L := (c_limb c).
Notation B := (mask L).
Notation n := (nel c).
Notation M := (max_exp10_of (c_expo c)).
Notation eps := (p10 (- (c_digits10 c + 2 * edc c))).
Hypothesis Hc : cfg_ok c.
Hypothesis Hk : newton_ok c.

Lemma mant_facts F q mu p : std_float F -> binary_normal F q mu p -> 2 ^ f_bits F <= 10 ^ (edc c * elem_number c) ->
  let x := from_ull c mu in
  normal c x /\ iszero x = false /\ (value c x == inject_Z mu)%Q /\ dneg x = false /\ 0 <= dexp x <= 19 /\ 4 <= nth 0 (data x) 0.
Proof.
  intros HF HB Hfit x. destruct (binary_pos F q mu p HF HB) as [Hq Hmu]. destruct HB as (H1 & H2 & H3).
  assert (N : normal c x) by (apply (from_ull_normal c Hc); lia).
  assert (V : (value c x == inject_Z mu)%Q) by (apply (from_ull_exact c Hc); lia).
  assert (P : (0 < value c x)%Q) by (rewrite V; change 0%Q with (inject_Z 0); rewrite <- Zlt_Qlt; lia).
  destruct (pos_facts c Hc x N P) as [Z S]. destruct (lead_ge4 c Hc F x mu HF H1 N Z V) as [E1 E2]. repeat (split; [assumption|]). assumption.
Qed.

Lemma from_float_unfold F FI mem neg q mu p : std_float F -> binary_normal F q mu p ->
  from_float c F FI mem neg q =
  (do r <- (if p <? -2 then do h <- pow_int c FI (later mem 1) (half c) (- p); mulm c mem 0 (from_ull c mu) h
           else if p =? -2 then div_unsigned c FI mem (from_ull c mu) 4
           else if p =? -1 then div_unsigned c FI mem (from_ull c mu) 2
           else if p =? 0 then Some (from_ull c mu)
           else if p =? 1 then (let w := mem 0%nat (dprec (from_ull c mu)) in mul_ull c (fst w) (snd w) (from_ull c mu) 2)
           else if p =? 2 then (let w := mem 0%nat (dprec (from_ull c mu)) in mul_ull c (fst w) (snd w) (from_ull c mu) 4)
           else do h <- pow_int c FI (later mem 1) (two c) p; mulm c mem 0 (from_ull c mu) h);
   Some (set_neg r neg)).
Proof.
  intros HF HB. destruct (binary_pos F q mu p HF HB) as [Hq _]. destruct HB as (H1 & H2 & H3).
  unfold from_float. rewrite (native_parts_spec F q mu p (std_bits F HF) H1 H2 H3).
  replace (p + (f_bits F - 1) - (f_bits F - 1)) with p by ring.
  assert (Z0 : Qeq_bool q 0 = false).
  { destruct (Qeq_bool q 0) eqn:Z; auto. apply Qeq_bool_iff in Z. rewrite Z in Hq. discriminate. }
  rewrite Z0. cbn [negb]. rewrite andb_true_r. reflexivity.
Qed.

Lemma tr_eps z q : normal c z -> iszero z = false -> truncates c z q -> (0 < q)%Q -> (Qabs (value c z - q) <= eps * q)%Q.
Proof.
  intros N Z T P. destruct (normal_ok c Hc z N) as (Lz & Oz & Hz).
  pose proof (truncates_rel c Hc z q Lz Oz (Hz Z) T) as R. rewrite (Qabs_pos q) in R by lra. rewrite (Qmult_comm q) in R. lra.
Qed.

Theorem from_float_accurate F FI mem neg q mu p : std_float F -> binary_normal F q mu p -> memory_ok mem ->
  2 ^ f_bits F <= 10 ^ (edc c * elem_number c) ->
  (p10 (- M + 2 * edc c + 22) <= q)%Q -> (q <= p10 (M - 1))%Q -> (inject_Z (4 * Z.abs p) * eps <= 1)%Q -> Z.abs p < 2 ^ 63 ->
  exists z, from_float c F FI mem neg q = Some z /\ normal c z /\ iszero z = false /\ dneg z = neg /\
    (Qabs (value c z - (if neg then - q else q)) <= inject_Z (2 * Z.abs p + 1) * eps * q)%Q.
Proof.
  intros HF HB Hm Hfit Hlo Hhi Hp Hp63. rewrite (from_float_unfold F FI mem neg q mu p HF HB).
  destruct (binary_pos F q mu p HF HB) as [Hq Hmu].
  destruct (mant_facts F q mu p HF HB Hfit) as (Nx & Zx & Vx & Sx & Ex & Lx). set (x := from_ull c mu) in *.
  destruct HB as (H1 & H2 & H3). destruct (eps_bound c Hc) as [E0 E1].
  pose proof (edc_pos c) as Hed. pose proof (max_exp10_bounds c) as (HM & _).
  assert (HB4 : 4 < 10 ^ edc c) by (unfold edc; rewrite <- mask_pow; pose proof (B_gt9 c); lia).
  assert (core : forall r, normal c r -> (0 < value c r)%Q -> (Qabs (value c r - q) <= inject_Z (2 * Z.abs p + 1) * eps * q)%Q ->
    exists z, Some (set_neg r neg) = Some z /\ normal c z /\ iszero z = false /\ dneg z = neg /\
    (Qabs (value c z - (if neg then - q else q)) <= inject_Z (2 * Z.abs p + 1) * eps * q)%Q).
  { intros r Nr Pr Ar. destruct (pos_facts c Hc r Nr Pr) as [Zr Sr]. exists (set_neg r neg). split; [reflexivity|].
    split; [apply set_neg_normal; auto|]. split; [exact Zr|]. split; [reflexivity|].
    rewrite (value_set_neg c Hc r neg Nr), Sr, xorb_false_r. destruct neg; [|rewrite Qmult_1_l; exact Ar].
    setoid_replace (-(1) * value c r - - q)%Q with (- (value c r - q))%Q by ring. rewrite Qabs_opp. exact Ar. }
  assert (Kp : (inject_Z (2 * Z.abs p) * eps * q <= inject_Z (2 * Z.abs p + 1) * eps * q)%Q).
  { apply Qmult_le_compat_r; [|lra]. apply Qmult_le_compat_r; [|lra]. rewrite <- Zle_Qle. lia. }
  assert (K1 : (eps * q <= inject_Z (2 * Z.abs p + 1) * eps * q)%Q).
  { apply Qmult_le_compat_r; [|lra]. setoid_replace eps with (1 * eps)%Q at 1 by ring. apply Qmult_le_compat_r; [|lra].
    change 1%Q with (inject_Z 1). rewrite <- Zle_Qle. lia. }
  assert (Mq : (0 < inject_Z mu)%Q) by (change 0%Q with (inject_Z 0); rewrite <- Zlt_Qlt; lia).
  assert (W1 : (p10 (- M + 2 * edc c + 2) <= p2 p)%Q).
  { destruct (Qlt_le_dec (p2 p) (p10 (- M + 2 * edc c + 2))) as [C|C]; auto. exfalso.
    assert (X : (q < p10 20 * p10 (- M + 2 * edc c + 2))%Q).
    { rewrite H2. apply Qle_lt_trans with (p10 20 * p2 p)%Q.
      - apply Qmult_le_compat_r; [|apply Qlt_le_weak, p2_pos]. rewrite (p10_Z 20) by lia. rewrite <- Zle_Qle.
        change (2 ^ 64) with 18446744073709551616 in Hmu. change (10 ^ 20) with 100000000000000000000. lia.
      - apply Qmult_lt_l; [apply p10_pos|exact C]. }
    rewrite <- p10_add in X. replace (20 + (- M + 2 * edc c + 2)) with (- M + 2 * edc c + 22) in X by ring. lra. }
  assert (Pdiv : forall u r, (u = 4 \/ u = 2) -> (value c x / inject_Z u == q)%Q -> div_unsigned c FI mem x u = r ->
     exists z, (do r <- r; Some (set_neg r neg)) = Some z /\ normal c z /\ iszero z = false /\ dneg z = neg /\
    (Qabs (value c z - (if neg then - q else q)) <= inject_Z (2 * Z.abs p + 1) * eps * q)%Q).
  { intros u r Hu Hv <-. unfold div_unsigned.
    destruct (div_ull_spec c Hc (fun y k => divide c FI mem y (from_ull c k)) x u Nx Zx) as (z & Z1 & Nz & Zz & T & _); [lia|lia|].
    rewrite Z1. specialize (T ltac:(lia)). 
    assert (A : (Qabs (value c z - q) <= eps * q)%Q).
    { pose proof (tr_eps z _ Nz Zz T) as K. rewrite Hv in K. auto. }
    assert (EQ : (eps * q <= (1 # 2) * q)%Q) by (apply Qmult_le_compat_r; lra).
    apply core; auto; [|lra]. apply Qabs_Qle_condition in A. lra. }
  assert (Pmul : forall u, (u = 4 \/ u = 2) -> (value c x * inject_Z u == q)%Q ->
     exists z, (do r <- mul_ull c (fst (mem 0%nat (dprec x))) (snd (mem 0%nat (dprec x))) x u; Some (set_neg r neg)) = Some z /\ normal c z /\ iszero z = false /\ dneg z = neg /\
    (Qabs (value c z - (if neg then - q else q)) <= inject_Z (2 * Z.abs p + 1) * eps * q)%Q).
  { intros u Hu Hv. assert (Ou : order_of_builtin_integer u <= 1) by (destruct Hu as [-> | ->]; vm_compute; discriminate).
    assert (Dx : dprec x = n) by apply Nx.
    destruct (mul_ull_trunc c Hc (newton_mul_ok c Hc Hk) (fst (mem 0%nat (dprec x))) (snd (mem 0%nat (dprec x))) x u) as (z & Z1 & Nz & Zz & T); auto.
    { rewrite Dx. apply (memory_pool c Hc); auto. }
    { lia. } { assert (10 ^ edc c <= 10 ^ (edc c * elem_number c)) by (pose proof (elem_number_ge4 c Hc); apply Z.pow_le_mono_r; nia). lia. }
    { lia. } { lia. } { left. lia. }
    rewrite Z1. assert (A : (Qabs (value c z - q) <= eps * q)%Q).
    { pose proof (tr_eps z _ Nz Zz T) as K. rewrite Hv in K. auto. }
    assert (EQ : (eps * q <= (1 # 2) * q)%Q) by (apply Qmult_le_compat_r; lra).
    apply core; auto; [|lra]. apply Qabs_Qle_condition in A. lra. }
  destruct (p <? -2) eqn:C1.
  { assert (P1 : 1 <= - p < 2 ^ 63) by lia. destruct (half_facts c Hc) as (Nh & Zh & Vh & Sh).
    assert (HW : ((1 # 2) ^ (- p) == p2 p)%Q) by (rewrite half_pow by lia; rewrite Z.opp_involutive; reflexivity).
    destruct (scale_acc c Hc Hk FI mem x mu (half c) (1 # 2) (- p) Hm Nx Vx) as (h & z & G1 & G2 & Nz & Pz & Az); auto; try lia.
    { reflexivity. } { replace (- p) with (Z.abs p) by lia. exact Hp. }
    { rewrite HW. exact W1. } { rewrite HW, <- H2. exact Hhi. }
    rewrite G1. cbn beta iota. rewrite G2. apply core; auto. rewrite HW, <- H2 in Az. replace (- p) with (Z.abs p) in Az by lia. lra. }
  destruct (p =? -2) eqn:C2.
  { assert (p = -2) by lia. eapply (Pdiv 4); [tauto| |reflexivity]. rewrite Vx, H2, H. unfold Qdiv. reflexivity. }
  destruct (p =? -1) eqn:C3.
  { assert (p = -1) by lia. eapply (Pdiv 2); [tauto| |reflexivity]. rewrite Vx, H2, H. unfold Qdiv. reflexivity. }
  destruct (p =? 0) eqn:C4.
  { assert (p = 0) by lia. apply core; auto; [rewrite Vx; auto|].
    assert (V : (value c x - q == 0)%Q) by (rewrite Vx, H2, H, p2_0; ring). rewrite V. change (Qabs 0) with 0%Q.
    eapply Qle_trans; [|exact K1]. apply Qmult_le_0_compat; lra. }
  destruct (p =? 1) eqn:C5.
  { assert (p = 1) by lia. cbv zeta. apply Pmul; [tauto|]. rewrite Vx, H2, H. reflexivity. }
  destruct (p =? 2) eqn:C6.
  { assert (p = 2) by lia. cbv zeta. apply Pmul; [tauto|]. rewrite Vx, H2, H. reflexivity. }
  { assert (P1 : 1 <= p < 2 ^ 63) by lia. destruct (two_facts c Hc) as (Nh & Zh & Vh & Sh).
    assert (HW : (2 ^ p == p2 p)%Q) by reflexivity.
    destruct (scale_acc c Hc Hk FI mem x mu (two c) 2 p Hm Nx Vx) as (h & z & G1 & G2 & Nz & Pz & Az); auto; try lia.
    { reflexivity. } { replace p with (Z.abs p) at 1 by lia. exact Hp. }
    { rewrite HW, <- H2. exact Hhi. }
    rewrite G1. cbn beta iota. rewrite G2. apply core; auto. rewrite HW, <- H2 in Az. replace (2 * p) with (2 * Z.abs p) in Az by lia. lra. }
Qed.

Lemma p2_p10 k : 0 <= k -> (p2 (- k) == inject_Z (5 ^ k) * p10 (- k))%Q.
Proof.
  intros H. assert (X : (p2 (- k) * (p2 k * p10 k) == inject_Z (5 ^ k) * p10 (- k) * (p2 k * p10 k))%Q).
  { setoid_replace (p2 (- k) * (p2 k * p10 k))%Q with (p2 (- k) * p2 k * p10 k)%Q by ring.
    setoid_replace (inject_Z (5 ^ k) * p10 (- k) * (p2 k * p10 k))%Q with (inject_Z (5 ^ k) * p2 k * (p10 (- k) * p10 k))%Q by ring.
    rewrite p2_neg, <- p10_add, Z.add_opp_diag_l. change (p10 0) with 1%Q. rewrite p2_Z, p10_Z by auto. rewrite <- inject_Z_mult.
    rewrite <- Z.pow_mul_l. change (5 * 2) with 10. ring. }
  apply Qmult_inj_r in X; auto. intros Y. pose proof (p2_pos k). pose proof (p10_pos k). 
  assert (0 < p2 k * p10 k)%Q by (apply Qmult_lt_0_compat; auto). lra.
Qed.

Lemma half_pow_exact FI mem k : memory_ok mem -> 1 <= k < 2 ^ 63 -> 5 ^ k < 10 ^ kept c -> (p10 (- M + 2 * edc c + 2) <= p2 (- k))%Q ->
  exists h, pow_int c FI mem (half c) k = Some h /\ normal c h /\ (value c h == p2 (- k))%Q.
Proof.
  intros Hm Hk1 Hf Hlo. unfold pow_int. replace (k <? 0) with false by lia.
  destruct (half_facts c Hc) as (Nh & Zh & Vh & Sh).
  set (R := fun (i : Z) (z : dec) => i = 0 /\ z = from_small_unsigned c 1 \/ 1 <= i /\ normal c z /\ (value c z == p2 (- i))%Q).
  destruct (pow_gen c mem (half c) k R) as (z & E1 & Rz); auto.
  - left. auto.
  - right. split; [lia|]. split; [auto|]. rewrite Vh. reflexivity.
  - intros i a j x y Ha Hj Hle Rx Ry. destruct Ry as [[Y1 _]|(Y1 & Ny & Vy)]; [lia|].
    assert (Py : (0 < value c y)%Q) by (rewrite Vy; apply p2_pos). destruct (pos_facts c Hc y Ny Py) as [Zy Sy].
    destruct Rx as [[X1 X2]|(X1 & Nx & Vx)].
    + subst a x. exists y. split; [apply one_times; auto|]. right. rewrite Z.add_0_l. auto.
    + assert (Px : (0 < value c x)%Q) by (rewrite Vx; apply p2_pos).
      assert (sm : forall m, 1 <= m -> (p2 (- m) <= 1 # 2)%Q).
      { intros m0 Hm0. change (1 # 2)%Q with (p2 (-1)). apply p2_le. lia. }
      pose proof (sm a X1) as Sa. pose proof (sm j Y1) as Sj.
      assert (XY : (value c x * value c y == p2 (- (a + j)))%Q).
      { rewrite Vx, Vy, <- p2_add. replace (- a + - j) with (- (a + j)) by ring. reflexivity. }
      assert (O : forall v, (0 < value c v)%Q -> (value c v <= 1 # 2)%Q -> ~ is_one c v).
      { intros v V1 V2 V3. unfold is_one in V3. rewrite Qabs_pos in V3 by lra. lra. }
      destruct (mul_dec c Hc Hk mem i x y (5 ^ (a + j)) (a + j)) as (z & Z1 & Nz & Vz); auto.
      * apply O; auto. rewrite Vx; auto. * apply (not_nines_small c Hc); [lra|rewrite Vx; auto].
      * apply O; auto. rewrite Vy; auto. * apply (not_nines_small c Hc); [lra|rewrite Vy; auto].
      * apply (prod_exps c Hc x y (- M)); auto; rewrite XY.
        -- eapply Qle_trans; [apply p10_le; instantiate (1 := - M + 2 * edc c + 2); lia|]. eapply Qle_trans; [exact Hlo|]. apply p2_le. lia.
        -- apply Qle_lt_trans with (p10 0); [change (p10 0) with (p2 0); apply p2_le; lia|]. apply p10_lt. pose proof (max_exp10_bounds c). lia.
      * rewrite XY. apply p2_p10. lia.
      * rewrite Z.abs_eq by (apply Z.pow_nonneg; lia). eapply Z.le_lt_trans; [|exact Hf]. apply Z.pow_le_mono_r; lia.
      * exists z. split; [exact Z1|]. right. split; [lia|]. split; [exact Nz|]. rewrite Vz. exact XY.
  - lia.
  - exists z. split; [exact E1|]. destruct Rz as [[Z0 _]|(_ & Nz & Vz)]; [lia|]. auto.
Qed.

Theorem from_float_exact F FI mem neg q mu p K j : std_float F -> binary_normal F q mu p -> memory_ok mem ->
  2 ^ f_bits F <= 10 ^ (edc c * elem_number c) ->
  (p10 (- M + 2 * edc c + 22) <= q)%Q -> (q <= p10 (M - 1))%Q -> Z.abs p < 2 ^ 63 ->
  (if p <? 0 then 5 ^ (- p) else 2 ^ p) < 10 ^ kept c -> (q == inject_Z K * p10 (- j))%Q -> Z.abs K < 10 ^ kept c ->
  exists z, from_float c F FI mem neg q = Some z /\ normal c z /\ dneg z = neg /\ (value c z == (if neg then - q else q))%Q.
Proof.
  intros HF HB Hm Hfit Hlo Hhi Hp63 Hex HKj HKb. rewrite (from_float_unfold F FI mem neg q mu p HF HB).
  destruct (binary_pos F q mu p HF HB) as [Hq Hmu].
  destruct (mant_facts F q mu p HF HB Hfit) as (Nx & Zx & Vx & Sx & Ex & Lx). set (x := from_ull c mu) in *.
  destruct HB as (H1 & H2 & H3). pose proof (std_bits F HF) as HBt.
  assert (Mu2 : 2 <= mu).
  { assert (2 ^ 1 <= 2 ^ (f_bits F - 1)); [|change (2 ^ 1) with 2 in *; lia]. apply Z.pow_le_mono_r; [lia|].
    clear - HF. destruct HF as [-> | [-> | ->]]; cbn; lia. }
  pose proof (edc_pos c) as Hed. pose proof (max_exp10_bounds c) as (HM & _).
  assert (HB4 : 4 < 10 ^ edc c) by (unfold edc; rewrite <- mask_pow; pose proof (B_gt9 c); lia).
  assert (Mq : (0 < inject_Z mu)%Q) by (change 0%Q with (inject_Z 0); rewrite <- Zlt_Qlt; lia).
  assert (Px : (0 < value c x)%Q) by (rewrite Vx; auto).
  assert (core : forall r, normal c r -> (value c r == q)%Q ->
    exists z, Some (set_neg r neg) = Some z /\ normal c z /\ dneg z = neg /\ (value c z == (if neg then - q else q))%Q).
  { intros r Nr Ar. assert (Pr : (0 < value c r)%Q) by (rewrite Ar; auto). destruct (pos_facts c Hc r Nr Pr) as [Zr Sr]. exists (set_neg r neg). split; [reflexivity|].
    split; [apply set_neg_normal; auto|]. split; [reflexivity|].
    rewrite (value_set_neg c Hc r neg Nr), Sr, xorb_false_r, Ar. destruct neg; ring. }
  assert (W1 : (p10 (- M + 2 * edc c + 2) <= p2 p)%Q).
  { destruct (Qlt_le_dec (p2 p) (p10 (- M + 2 * edc c + 2))) as [C|C]; auto. exfalso.
    assert (X : (q < p10 20 * p10 (- M + 2 * edc c + 2))%Q).
    { rewrite H2. apply Qle_lt_trans with (p10 20 * p2 p)%Q.
      - apply Qmult_le_compat_r; [|apply Qlt_le_weak, p2_pos]. rewrite (p10_Z 20) by lia. rewrite <- Zle_Qle.
        change (2 ^ 64) with 18446744073709551616 in Hmu. change (10 ^ 20) with 100000000000000000000. lia.
      - apply Qmult_lt_l; [apply p10_pos|exact C]. }
    rewrite <- p10_add in X. replace (20 + (- M + 2 * edc c + 2)) with (- M + 2 * edc c + 22) in X by ring. lra. }
  assert (X1 : ~ is_one c x).
  { intros O. unfold is_one in O. rewrite Qabs_pos in O by lra. rewrite Vx in O. change 1%Q with (inject_Z 1) in O.
    assert (K1 : (inject_Z 1 < inject_Z mu)%Q) by (rewrite <- Zlt_Qlt; lia). lra. }
  assert (X2 : ~ is_nines c x) by (apply (not_nines_int c Hc x mu); auto).
  assert (Pdiv : forall u, (u = 4 \/ u = 2) -> (value c x / inject_Z u == q)%Q ->
     exists z, (do r <- div_unsigned c FI mem x u; Some (set_neg r neg)) = Some z /\ normal c z /\ dneg z = neg /\ (value c z == (if neg then - q else q))%Q).
  { intros u Hu Hv. unfold div_unsigned.
    destruct (div_ull_spec c Hc (fun y k => divide c FI mem y (from_ull c k)) x u Nx Zx) as (z & Z1 & Nz & Zz & T & _); [lia|lia|].
    rewrite Z1. specialize (T ltac:(lia)). apply core; auto. rewrite <- Hv.
    apply (trunc_dec c Hc z K j); auto. rewrite Hv; exact HKj. }
  assert (Pmul : forall u, (u = 4 \/ u = 2) -> (value c x * inject_Z u == q)%Q ->
     exists z, (do r <- mul_ull c (fst (mem 0%nat (dprec x))) (snd (mem 0%nat (dprec x))) x u; Some (set_neg r neg)) = Some z /\ normal c z /\ dneg z = neg /\
       (value c z == (if neg then - q else q))%Q).
  { intros u Hu Hv. assert (Ou : order_of_builtin_integer u <= 1) by (destruct Hu as [-> | ->]; vm_compute; discriminate).
    assert (Dx : dprec x = n) by apply Nx.
    destruct (mul_ull_trunc c Hc (newton_mul_ok c Hc Hk) (fst (mem 0%nat (dprec x))) (snd (mem 0%nat (dprec x))) x u) as (z & Z1 & Nz & Zz & T); auto.
    { rewrite Dx. apply (memory_pool c Hc); auto. }
    { lia. } { assert (10 ^ edc c <= 10 ^ (edc c * elem_number c)) by (pose proof (elem_number_ge4 c Hc); apply Z.pow_le_mono_r; nia). lia. }
    { lia. } { lia. }
    rewrite Z1. apply core; auto. rewrite <- Hv. apply (trunc_dec c Hc z K j); auto. rewrite Hv. exact HKj. }
  destruct (p <? -2) eqn:C1.
  { assert (P1 : 1 <= - p < 2 ^ 63) by lia. replace (p <? 0) with true in Hex by lia.
    destruct (half_pow_exact FI (later mem 1) (- p)) as (h & G1 & Nh & Vh); auto.
    { apply later_ok; auto. }
    { rewrite Z.opp_involutive. exact W1. }
    rewrite Z.opp_involutive in Vh. rewrite G1. cbn beta iota.
    assert (Ph : (0 < value c h)%Q) by (rewrite Vh; apply p2_pos).
    assert (Hh : (value c h <= 1 # 2)%Q) by (rewrite Vh; change (1 # 2)%Q with (p2 (-1)); apply p2_le; lia).
    assert (XH : (value c x * value c h == q)%Q) by (rewrite Vx, Vh, H2; reflexivity).
    destruct (mul_dec c Hc Hk mem 0%nat x h K j) as (z & Z1 & Nz & Vz); auto.
    { intros O. unfold is_one in O. rewrite Qabs_pos in O by lra. lra. }
    { apply (not_nines_small c Hc); lra. }
    { apply (prod_exps c Hc x h (- M)); auto; rewrite XH.
      - eapply Qle_trans; [|exact Hlo]. apply p10_le. lia.
      - eapply Qle_lt_trans; [exact Hhi|]. apply p10_lt. lia. }
    { rewrite XH. exact HKj. }
    rewrite Z1. apply core; auto. rewrite Vz. exact XH. }
  destruct (p =? -2) eqn:C2.
  { assert (p = -2) by lia. apply (Pdiv 4); [tauto|rewrite Vx, H2, H; reflexivity]. }
  destruct (p =? -1) eqn:C3.
  { assert (p = -1) by lia. apply (Pdiv 2); [tauto|rewrite Vx, H2, H; reflexivity]. }
  destruct (p =? 0) eqn:C4.
  { assert (p = 0) by lia. apply core; auto. rewrite Vx, H2, H, p2_0. ring. }
  destruct (p =? 1) eqn:C5.
  { assert (p = 1) by lia. cbv zeta. apply Pmul; [tauto|]. rewrite Vx, H2, H. reflexivity. }
  destruct (p =? 2) eqn:C6.
  { assert (p = 2) by lia. cbv zeta. apply Pmul; [tauto|]. rewrite Vx, H2, H. reflexivity. }
  { assert (P1 : 1 <= p < 2 ^ 63) by lia. replace (p <? 0) with false in Hex by lia. destruct (two_facts c Hc) as (Nt & Zt & Vt & St).
    assert (Q2 : (q == inject_Z (mu * 2 ^ p))%Q) by (rewrite H2, inject_Z_mult, p2_Z by lia; reflexivity).
    pose proof (Z.pow_pos_nonneg 2 p ltac:(lia) ltac:(lia)) as P2.
    assert (LM : 2 ^ p <= mu * 2 ^ p) by (rewrite <- (Z.mul_1_l (2 ^ p)) at 1; apply Z.mul_le_mono_nonneg_r; lia).
    destruct (pow_int_exact c FI (later mem 1) (two c) p 2 Hc (newton_mul_ok c Hc Hk) (later_ok mem 1 Hm) Nt Zt) as (h & G1 & Nh & Vh); auto; [lia| |].
    { rewrite Z.abs_eq by lia. unfold int_digits. destruct (Z.min_spec (elem_number c * edc c) M) as [[_ ->]|[_ ->]].
      - eapply Z.lt_le_trans; [exact Hex|]. apply Z.pow_le_mono_r; [lia|]. unfold kept. lia.
      - rewrite Q2, p10_Z in Hhi by lia. rewrite <- Zle_Qle in Hhi. eapply Z.le_lt_trans; [exact LM|]. eapply Z.le_lt_trans; [exact Hhi|]. apply Z.pow_lt_mono_r; lia. }
    rewrite G1. cbn beta iota.
    assert (Gh : (inject_Z 2 <= value c h)%Q).
    { rewrite Vh, <- Zle_Qle. change 2 with (2 ^ 1) at 1. apply Z.pow_le_mono_r; lia. }
    change (inject_Z 2) with 2%Q in Gh.
    assert (XH : (value c x * value c h == q)%Q) by (rewrite Vx, Vh, Q2, inject_Z_mult; reflexivity).
    destruct (mul_dec c Hc Hk mem 0%nat x h K j) as (z & Z1 & Nz & Vz); auto.
    { lra. }
    { intros O. unfold is_one in O. rewrite Qabs_pos in O by lra. lra. }
    { apply (not_nines_int c Hc h (2 ^ p)); auto. }
    { apply (prod_exps c Hc x h (- M)); auto; try lra; rewrite XH.
      - eapply Qle_trans; [|exact Hlo]. apply p10_le. lia.
      - eapply Qle_lt_trans; [exact Hhi|]. apply p10_lt. lia. }
    { rewrite XH. exact HKj. }
    rewrite Z1. apply core; auto. rewrite Vz. exact XH. }
Qed.
End FA.
