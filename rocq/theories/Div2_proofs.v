(** Div2_proofs.v - division conventions, and division by large built-in integers. *)
From Verif Require Export Pow_proofs Int2_proofs.
From Coq Require Import Lqa.
Local Open Scope Z_scope.

Section D2.
Variable c : cfg.
Variable F : ftype.
Notation L := (c_limb c).
Notation B := (mask L).
Notation V := (limbs_value B).
Notation ok := (digits_ok B).
Notation P n := (B ^ Z.of_nat n).
Notation E := (ebits (c_expo c)).
Notation n := (nel c).
Notation M := (max_exp10_of (c_expo c)).
Hypothesis Hc : cfg_ok c.
Hypothesis Hk : newton_ok c.
Let HB : 0 < B := mask_pos L.

Lemma compare_refl d : compare_ranges d d = 0.
Proof. induction d as [|a d IH]; cbn; auto. rewrite Z.eqb_refl, IH. reflexivity. Qed.

Lemma div_self mem x : divide c F mem x x = Some (one c).
Proof. unfold divide, div. rewrite Z.eqb_refl, compare_refl, Bool.xorb_nilpotent. reflexivity. Qed.

Lemma div_neg_self mem x : iszero x = false -> divide c F mem x (negate x) = Some (negate (one c)).
Proof.
  intros Zx. unfold divide, div. rewrite negate_exp, negate_data, Z.eqb_refl, compare_refl. cbn [andb Z.eqb].
  assert (N : dneg (negate x) = negb (dneg x)). { unfold negate. rewrite Zx. reflexivity. }
  rewrite N. destruct (dneg x); reflexivity.
Qed.

Lemma set_one_value s : (value c (set_neg (one c) s) == (if s then -(1) else 1))%Q.
Proof.
  rewrite value_set_neg by (auto; apply one_normal; auto). change (dneg (one c)) with false. rewrite Bool.xorb_false_r.
  destruct (max_min_values c Hc) as (_ & _ & _ & H & _). rewrite H. ring.
Qed.

(** Dividing by one or minus one. *)
Lemma div_by_one mem x v : normal c x -> normal c v -> iszero x = false -> iszero v = false -> is_one c v -> ~ is_nines c x ->
  exists z, divide c F mem x v = Some z /\ normal c z /\ (value c z == value c x / value c v)%Q.
Proof.
  intros Hx Hv Zx Zv Ov Nx. pose proof (value_sign c Hc v Hv Zv) as Sv. pose proof (value_sign c Hc x Hx Zx) as Sx.
  assert (Vv : (value c v == if dneg v then -(1) else 1)%Q).
  { unfold is_one in Ov. destruct (dneg v).
    - rewrite Qabs_neg in Ov by lra. lra.
    - rewrite Qabs_pos in Ov by lra. lra. }
  assert (Iv : isone_sign_neutral c v = true) by (apply isone_iff; auto).
  unfold divide, div. destruct ((dexp x =? dexp v) && (compare_ranges (data x) (data v) =? 0)) eqn:C.
  - apply andb_prop in C. destruct C as [C1 C2]. apply (compare_eq_data c Hc x v Hx Hv) in C2.
    assert (Vx : (value c x == if dneg x then -(1) else 1)%Q).
    { destruct (normal_facts c Hc x Hx) as (Lx & _). destruct (normal_facts c Hc v Hv) as (Lv & _).
      rewrite value_low in Vv by auto. rewrite value_low by auto. rewrite C2. replace (dexp x) with (dexp v) by lia.
      destruct (dneg x), (dneg v); cbn [sgn] in *; auto.
      - replace (-1 * V (data v)) with (- (1 * V (data v))) by ring. rewrite inject_Z_opp. setoid_replace (- inject_Z (1 * V (data v)) * p10 (low c (dexp v)))%Q with (- (inject_Z (1 * V (data v)) * p10 (low c (dexp v))))%Q by ring. rewrite Vv. reflexivity.
      - replace (-1 * V (data v)) with (- (1 * V (data v))) in Vv by ring. rewrite inject_Z_opp in Vv. lra. }
    eexists. split; [reflexivity|].
    destruct (isone_one c Hc) as [_ Z1]. pose proof (one_normal c Hc) as N1.
    destruct (max_min_values c Hc) as (_ & _ & _ & V1 & _).
    split; [destruct (xorb (dneg x) (dneg v)); [apply negate_normal|]; auto|].
    rewrite Vx, Vv. destruct (dneg x), (dneg v); cbn [xorb]; rewrite ?value_negate, ?V1 by auto; reflexivity.
  - unfold calculate_inv. rewrite Zv, Iv. unfold mul. rewrite Zx, Zv. cbn [orb].
    change (isone_sign_neutral c (set_neg x false)) with (isone_sign_neutral c x).
    destruct (isone_sign_neutral c x) eqn:Ix.
    + apply (proj1 (isone_iff c Hc x Hx Zx)) in Ix. destruct Ix as [Ix|Ix]; [|contradiction]. unfold is_one in Ix.
      eexists. split; [reflexivity|]. split; [apply set_neg_normal; auto|]. rewrite value_set_neg by auto. rewrite Vv.
      destruct (dneg x), (dneg v); cbn [xorb]; rewrite ?(Qabs_neg (value c x)) in Ix by lra; rewrite ?(Qabs_pos (value c x)) in Ix by lra.
      all: first [assert (W : (value c x == 1)%Q) by lra|assert (W : (value c x == -(1))%Q) by lra]; rewrite W; reflexivity.
    + rewrite Iv. eexists. split; [reflexivity|].
      change (set_neg (set_neg x false) (xorb (dneg x) (dneg v))) with (set_neg x (xorb (dneg x) (dneg v))).
      split; [apply set_neg_normal; auto|]. rewrite value_set_neg by auto. rewrite Vv.
      destruct (dneg x), (dneg v); cbn [xorb]; field.
Qed.

(** Dividing by zero gives zero, except that equal representations (0/0) give one. *)
Lemma div_by_zero mem x v : memory_ok mem -> normal c x -> normal c v -> iszero v = true -> 
  (iszero x = true -> dexp x <> dexp v) -> exists z, divide c F mem x v = Some z /\ (value c z == 0)%Q.
Proof.
  intros Hmem Hx Hv Zv Nx. unfold divide, div.
  destruct ((dexp x =? dexp v) && (compare_ranges (data x) (data v) =? 0)) eqn:C.
  { apply andb_prop in C. destruct C as [C1 C2]. apply (compare_eq_data c Hc x v Hx Hv) in C2.
    exfalso. apply Nx; [unfold iszero in *; rewrite C2; auto|lia]. }
  unfold calculate_inv. rewrite Zv. destruct (normal_facts c Hc x Hx) as (_ & _ & Px & _). destruct (normal_facts c Hc v Hv) as (_ & _ & Pv & _).
  rewrite Px, Pv, Nat.min_id. apply mul_zero; auto.
  - apply newton_mul_ok; auto.
  - apply memory_pool; auto.
  - apply zero_normal; auto.
  - right. apply zero_iszero; auto.
  - pose proof (max_exp10_bounds c) as (HM & _). cbn [zero dexp]. lia.
Qed.

Lemma zero_times_wk mem i x r : memory_ok mem -> iszero x = true -> wk c r -> dprec r = n -> - M < dexp r < M ->
  exists z, mul c (fst (mem i n)) (snd (mem i n)) x r = Some z /\ (value c z == 0)%Q.
Proof.
  intros Hmem Zx (Lr & Or & _ & Dr) Pr Rr. unfold mul. rewrite Zx. cbn [orb].
  assert (U0 : isone_sign_neutral c (set_neg (zero c) false) = false).
  { destruct (isone_sign_neutral c (set_neg (zero c) false)) eqn:U; auto. pose proof (isone_iszero c _ U) as H.
    change (iszero (set_neg (zero c) false)) with (iszero (zero c)) in H. rewrite (zero_iszero c Hc) in H. discriminate. }
  rewrite U0. pose proof (zero_normal c) as N0.
  destruct (isone_sign_neutral c r).
  { eexists. split; [reflexivity|]. apply (value_zero c Hc); [apply set_neg_normal, set_neg_normal; auto|apply (zero_iszero c Hc)]. }
  pose proof (max_exp10_bounds c) as (HM & HM2 & _). pose proof (E_ge8 c) as HE.
  assert (P7 : 0 < 2 ^ (E - 1)) by (apply Z.pow_pos_nonneg; lia).
  cbn [set_neg dexp zero].
  destruct (exp_sum c Hc (zero c) r) as (X1 & X2 & X3); cbn [zero dexp]; auto; try lia; [apply Z.divide_0_r|].
  cbn [zero dexp] in X1, X2, X3. cbv zeta in X1, X2, X3. rewrite X1, X2, X3.
  rewrite Z.add_0_l. cbn [set_neg dprec zero]. rewrite Pr, Nat.min_id.
  destruct (dispatch_okA c Hc Hk (mem i n) (set_neg (zero c) false) r (dexp r)) as (res & k & D1 & D2 & D3 & D4 & D5).
  { apply Hmem. }
  { apply repeat_length. }
  { apply digits_ok_repeat0; auto. }
  { auto. }
  { auto. }
  cbn [set_neg zero data dexp dneg dprec] in D1. rewrite D1. clear D1. eexists. split; [reflexivity|].
  rewrite (store_product_zero c Hc _ (dexp r) res k); auto.
  - unfold value, number_value. cbn [set_neg data dexp dneg]. rewrite limbs_value_repeat0. 
    match goal with |- context[if ?b then _ else _] => destruct b end; reflexivity.
  - rewrite D5. cbn [set_neg zero data]. rewrite limbs_value_repeat0. ring.
  - apply repeat_length.
Qed.

Hypothesis HF : float_fits c F.
Hypothesis HJ : (digit_loops c F <= nel c)%nat.

Lemma div_zero_num mem x v : memory_ok mem -> normal c x -> normal c v -> iszero x = true -> iszero v = false ->
  - M < dexp v < M - 3 * edc c -> exists z, divide c F mem x v = Some z /\ (value c z == 0)%Q.
Proof.
  intros Hmem Hx Hv Zx Zv Rv. unfold divide, div.
  destruct ((dexp x =? dexp v) && (compare_ranges (data x) (data v) =? 0)) eqn:C.
  { apply andb_prop in C. destruct C as [C1 C2]. apply (compare_eq_data c Hc x v Hx Hv) in C2.
    exfalso. unfold iszero in *. rewrite C2 in Zx. congruence. }
  assert (Hl : memory_ok (later mem 1)) by (intros i w; apply Hmem).
  destruct (inv_spec c F Hc HF HJ Hk (later mem 1) v Hl Hv Zv Rv) as (r & -> & _ & Wr & Sh & _ & Rr).
  destruct (normal_facts c Hc x Hx) as (_ & _ & Px & _). destruct (normal_facts c Hc v Hv) as (_ & _ & Pv & _).
  rewrite Px, Pv, Nat.min_id. apply zero_times_wk; auto.
  destruct Sh as [N|(_ & Pr & _)]; [apply (normal_facts c Hc r N)|auto].
Qed.

(** Integers at or above the limb base. *)
Lemma div_big_unsigned mem x u : memory_ok mem -> normal c x -> iszero x = false -> 10 ^ edc c <= u < 2 ^ 64 ->
  u < 10 ^ (edc c * elem_number c) -> - M + 36 <= dexp x < M ->
  exists z, div_unsigned c F mem x u = Some z /\ wk c z /\ dneg z = dneg x /\
    (Qabs (value c z - value c x / inject_Z u) <= div_eps c * Qabs (value c x / inject_Z u))%Q.
Proof.
  intros Hmem Hx Zx Hu Hfit Rx. unfold div_unsigned, div_ull.
  assert (HBu : B <= u) by (rewrite mask_pow; apply Hu). pose proof (B_gt9 c) as H9.
  replace (u =? 0) with false by lia. change (iszero (set_neg x false)) with (iszero x). rewrite Zx.
  replace (u >=? B) with true by lia.
  change (set_neg (set_neg x false) (dneg x)) with (set_neg x (dneg x)). rewrite set_neg_same.
  pose proof (from_ull_exact c Hc u ltac:(lia) Hfit) as Vu.
  pose proof (from_ull_normal c Hc u ltac:(lia)) as Nu.
  assert (Zu : iszero (from_ull c u) = false).
  { destruct (iszero (from_ull c u)) eqn:K; auto. apply (value_zero_iff c Hc _ Nu) in K. rewrite Vu in K.
    change 0%Q with (inject_Z 0) in K. unfold Qeq in K. cbn [inject_Z Qnum Qden] in K. lia. }
  destruct (int_exp c Hc _ u Nu Zu Vu) as (E0 & _).
  assert (E1 : dexp (from_ull c u) < 20).
  { apply (exp_small c Hc _ u 20 Nu Zu Vu); [lia|]. rewrite Z.abs_eq by lia.
    change (2 ^ 64) with 18446744073709551616 in Hu. change (10 ^ 20) with 100000000000000000000. lia. }
  pose proof (max_exp10_bounds c) as (HM & _). pose proof (edc_pos c) as He.
  assert (Du : dneg (from_ull c u) = false) by reflexivity.
  destruct (div_spec c Hc Hk F HF HJ mem x (from_ull c u)) as (z & D1 & D2 & D3 & D4 & _); auto; try lia.
  exists z. split; [exact D1|]. split; [auto|]. rewrite Du, Bool.xorb_false_r in D2. split; [auto|]. rewrite Vu in D4. exact D4.
Qed.

Lemma negate_wk z : wk c z -> wk c (negate z) /\ (value c (negate z) == - value c z)%Q /\ dneg (negate z) = negb (dneg z).
Proof.
  intros (Lz & Oz & Nz & Dz). assert (Zz : iszero z = false) by (unfold iszero; lia).
  unfold negate. rewrite Zz. split; [split; auto|]. split; [|reflexivity].
  rewrite !value_low by auto. cbn [set_neg data dexp dneg].
  destruct (dneg z); cbn [negb sgn]; rewrite !inject_Z_mult; change (inject_Z (-1)) with (-(1))%Q; change (inject_Z 1) with 1%Q; ring.
Qed.

Lemma div_big_signed mem x k : memory_ok mem -> normal c x -> iszero x = false -> - 2 ^ 63 <= k < 2 ^ 63 -> 10 ^ edc c <= Z.abs k ->
  Z.abs k < 10 ^ (edc c * elem_number c) -> - M + 36 <= dexp x < M ->
  exists z, div_signed c F mem x k = Some z /\ wk c z /\ dneg z = xorb (dneg x) (k <? 0) /\
    (Qabs (value c z - value c x / inject_Z k) <= div_eps c * Qabs (value c x / inject_Z k))%Q.
Proof.
  intros Hmem Hx Zx Hk63 HBk Hfit Rx. unfold div_signed, div_sll.
  change (2 ^ 63) with 9223372036854775808 in Hk63.
  destruct (div_big_unsigned mem x (Z.abs k)) as (z & E1 & W & Sg & Acc); auto.
  { change (2 ^ 64) with 18446744073709551616. lia. }
  unfold div_unsigned in E1. destruct (k <? 0) eqn:Kn; cbn [negb].
  - assert (Hu : negate_u 64 (ucast 64 k) = Z.abs k).
    { unfold negate_u, ucast. change (2 ^ 64) with 18446744073709551616. 
      replace (k mod 18446744073709551616) with (k + 18446744073709551616).
      2:{ symmetry. rewrite <- (Z.mod_add k 1) by lia. rewrite Z.mul_1_l. apply Z.mod_small. lia. }
      rewrite Z.abs_neq by lia.
      first [ rewrite Z.mod_small by lia; lia
            | replace (- (k + 18446744073709551616)) with (- k + (-1) * 18446744073709551616) by lia; rewrite Z.mod_add by lia; apply Z.mod_small; lia ]. }
    rewrite Hu, E1. destruct (negate_wk z W) as (W2 & V2 & S2). eexists. split; [reflexivity|]. split; [auto|].
    split; [rewrite S2, Sg; destruct (dneg x); reflexivity|]. rewrite V2.
    assert (Ik : (inject_Z k == - inject_Z (Z.abs k))%Q) by (rewrite Z.abs_neq by lia; rewrite inject_Z_opp; ring).
    assert (Kz : ~ (inject_Z (Z.abs k) == 0)%Q).
    { change 0%Q with (inject_Z 0). unfold Qeq. cbn [inject_Z Qnum Qden]. pose proof (B_gt9 c). rewrite mask_pow in H. unfold edc in HBk. lia. }
    set (q := inject_Z (Z.abs k)) in *. rewrite Ik.
    setoid_replace (value c x / - q)%Q with (- (value c x / q))%Q by (field; auto).
    setoid_replace (- value c z - - (value c x / q))%Q with (- (value c z - value c x / q))%Q by ring.
    rewrite !Qabs_opp. auto.
  - rewrite Z.abs_eq in * by lia. replace (ucast 64 k) with k.
    2:{ unfold ucast. symmetry. apply Z.mod_small. change (2 ^ 64) with 18446744073709551616. lia. }
    rewrite E1. eexists. split; [reflexivity|]. split; [auto|]. rewrite Bool.xorb_false_r. auto.
Qed.

(** Any non-zero 64-bit divisor. *)
Lemma div_any_unsigned mem x u : memory_ok mem -> normal c x -> iszero x = false -> 1 <= u < 2 ^ 64 ->
  u < 10 ^ (edc c * elem_number c) -> - M + 36 <= dexp x < M ->
  exists z, div_unsigned c F mem x u = Some z /\ wk c z /\ 
    (Qabs (value c z - value c x / inject_Z u) <= 2 * p10 (- c_digits10 c) * Qabs (value c x / inject_Z u))%Q.
Proof.
  intros Hmem Hx Zx Hu Hfit Rx. pose proof (edc_pos c) as He. pose proof Hc as [Hd _].
  pose proof (p10_pos (- c_digits10 c)) as P0.
  assert (P1 : (p10 (- c_digits10 c) <= 1 # 10)%Q) by (change (1 # 10)%Q with (p10 (-1)); apply p10_le; lia).
  set (q := (value c x / inject_Z u)%Q) in *. pose proof (Qabs_nonneg q) as Q0.
  destruct (Z_lt_ge_dec u (10 ^ edc c)) as [Us|Ub].
  - destruct (Z.eq_dec u 1) as [->|U1].
    + exists x. split; [|split; [apply normal_wk; auto|]].
      * unfold div_unsigned, div_ull. change (iszero (set_neg x false)) with (iszero x). rewrite Zx. cbn [Z.eqb].
        pose proof (B_gt9 c) as H9. replace (1 >=? B) with false by lia.
        replace (ucast (lbits L) 1) with 1 by (unfold ucast; destruct L; reflexivity). cbn [Z.gtb Z.compare Pos.compare Pos.compare_cont].
        change (dexp (set_neg x false)) with (dexp x).
        replace (dexp x <? - M) with false by lia.
        change (set_neg (set_neg x false) (dneg x)) with (set_neg x (dneg x)). rewrite set_neg_same. reflexivity.
      * unfold q. change (inject_Z 1) with 1%Q. setoid_replace (value c x - value c x / 1)%Q with 0%Q by field. change (Qabs 0) with 0%Q.
        apply Qmult_le_0_compat; [lra|apply Qabs_nonneg].
    + destruct (div_ull_rel c Hc (fun y k => divide c F mem y (from_ull c k)) x u Hx Zx ltac:(lia) ltac:(lia)) as (z & E1 & Nz & Zz & Acc).
      exists z. split; [exact E1|]. split; [apply normal_wk; auto|]. fold q in Acc |- *. apply Qlt_le_weak in Acc.
      assert (T : (Qabs (value c z) <= Qabs (value c z - q) + Qabs q)%Q).
      { setoid_replace (value c z) with ((value c z - q) + q)%Q at 1 by ring. apply Qabs_triangle. }
      pose proof (Qabs_nonneg (value c z)) as Z0.
      assert (T2 : (Qabs (value c z) * p10 (- c_digits10 c) <= Qabs (value c z) * (1 # 10))%Q).
      { rewrite !(Qmult_comm (Qabs (value c z))). apply Qmult_le_compat_r; auto. }
      assert (T3 : (Qabs (value c z) <= 2 * Qabs q)%Q) by lra.
      assert (T4 : (Qabs (value c z) * p10 (- c_digits10 c) <= 2 * Qabs q * p10 (- c_digits10 c))%Q) by (apply Qmult_le_compat_r; lra).
      lra.
  - destruct (div_big_unsigned mem x u) as (z & E1 & W & _ & Acc); auto; [lia|].
    exists z. split; [auto|]. split; [auto|]. eapply Qle_trans; [exact Acc|]. fold q. apply Qmult_le_compat_r; auto.
    unfold div_eps. 
    assert (p10 (- (c_digits10 c + 2 * edc c)) <= p10 (- c_digits10 c + -4))%Q by (apply p10_le; lia).
    rewrite p10_add in H. change (p10 (-4)) with (1 # 10000)%Q in H. lra.
Qed.

Lemma div_any_signed mem x k : memory_ok mem -> normal c x -> iszero x = false -> - 2 ^ 63 <= k < 2 ^ 63 -> k <> 0 ->
  Z.abs k < 10 ^ (edc c * elem_number c) -> - M + 36 <= dexp x < M ->
  exists z, div_signed c F mem x k = Some z /\ wk c z /\ 
    (Qabs (value c z - value c x / inject_Z k) <= 2 * p10 (- c_digits10 c) * Qabs (value c x / inject_Z k))%Q.
Proof.
  intros Hmem Hx Zx Hk63 HBk Hfit Rx. unfold div_signed, div_sll.
  change (2 ^ 63) with 9223372036854775808 in Hk63.
  destruct (div_any_unsigned mem x (Z.abs k)) as (z & E1 & W & Acc); auto.
  { change (2 ^ 64) with 18446744073709551616. lia. }
  unfold div_unsigned in E1. destruct (k <? 0) eqn:Kn; cbn [negb].
  - assert (Hu : negate_u 64 (ucast 64 k) = Z.abs k).
    { unfold negate_u, ucast. change (2 ^ 64) with 18446744073709551616. 
      replace (k mod 18446744073709551616) with (k + 18446744073709551616).
      2:{ symmetry. rewrite <- (Z.mod_add k 1) by lia. rewrite Z.mul_1_l. apply Z.mod_small. lia. }
      rewrite Z.abs_neq by lia.
      replace (- (k + 18446744073709551616)) with (- k + (-1) * 18446744073709551616) by lia. rewrite Z.mod_add by lia. apply Z.mod_small. lia. }
    rewrite Hu, E1. destruct (negate_wk z W) as (W2 & V2 & S2). eexists. split; [reflexivity|]. split; [auto|]. rewrite V2.
    assert (Ik : (inject_Z k == - inject_Z (Z.abs k))%Q) by (rewrite Z.abs_neq by lia; rewrite inject_Z_opp; ring).
    assert (Kz : ~ (inject_Z (Z.abs k) == 0)%Q).
    { change 0%Q with (inject_Z 0). unfold Qeq. cbn [inject_Z Qnum Qden]. lia. }
    set (q := inject_Z (Z.abs k)) in *. rewrite Ik.
    setoid_replace (value c x / - q)%Q with (- (value c x / q))%Q by (field; auto).
    setoid_replace (- value c z - - (value c x / q))%Q with (- (value c z - value c x / q))%Q by ring.
    rewrite !Qabs_opp. auto.
  - rewrite Z.abs_eq in * by lia. replace (ucast 64 k) with k.
    2:{ unfold ucast. symmetry. apply Z.mod_small. change (2 ^ 64) with 18446744073709551616. lia. }
    rewrite E1. eexists. split; [reflexivity|]. split; [auto|]. auto.
Qed.
End D2.
