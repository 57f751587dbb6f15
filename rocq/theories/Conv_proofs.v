(** Conv_proofs.v - construction from the built-in floating-point types. *)
From Verif Require Export Model_Conv Func_proofs.
From Coq Require Import Lqa.
Local Open Scope Z_scope.

(** The bit loop reads the whole mantissa. *)
Lemma nf_bits_spec k : forall man m K, (1 <= k)%nat -> 0 <= m -> m mod 2 = 0 -> (0 <= man)%Q -> (man < 1)%Q ->
  (man * p2 (Z.of_nat k) == inject_Z K)%Q -> m * 2 ^ (Z.of_nat k - 1) + 2 ^ Z.of_nat k <= 2 ^ 64 ->
  nf_bits k man m = m * 2 ^ (Z.of_nat k - 1) + K.
Proof.
  induction k as [|j IH]; intros man m K Hk Hm Ev M0 M1 HK Hb; [lia|].
  cbn [nf_bits]. cbv zeta.
  assert (Fl : 0 <= Qfloor (man * 2) <= 1).
  { pose proof (Qfloor_le (man * 2)) as F1. pose proof (Qlt_floor (man * 2)) as F2.
    rewrite inject_Z_plus in F2. change (inject_Z 1) with 1%Q in F2. split.
    - assert (inject_Z (-1) < inject_Z (Qfloor (man * 2)))%Q by (change (inject_Z (-1)) with (-(1))%Q; lra). rewrite <- Zlt_Qlt in H. lia.
    - assert (inject_Z (Qfloor (man * 2)) < inject_Z 2)%Q by (change (inject_Z 2) with 2%Q; lra). rewrite <- Zlt_Qlt in H. lia. }
  set (n2 := Qfloor (man * 2)) in *.
  assert (Lo : (if negb (n2 =? 0) then Z.lor m 1 else m) = m + n2).
  { assert (C : n2 = 0 \/ n2 = 1) by lia. destruct C as [-> | ->]; cbn [Z.eqb negb]; [lia|].
    assert (A : Z.land m 1 = 0) by (change 1 with (Z.ones 1); rewrite Z.land_ones by lia; exact Ev).
    rewrite <- Z.lxor_lor by exact A. rewrite <- Z.add_nocarry_lxor by exact A. reflexivity. }
  rewrite Lo. rewrite Nat2Z.inj_succ in *. rewrite <- Z.add_1_r in *.
  assert (HK2 : (man * 2 * p2 (Z.of_nat j) == inject_Z K)%Q) by (rewrite <- HK, p2_succ; ring).
  destruct j as [|j].
  - cbn [nf_bits]. change (Z.of_nat 0) with 0 in *. rewrite p2_0 in HK2.
    assert (E : n2 = K).
    { unfold n2. rewrite (Qfloor_comp (man * 2) (inject_Z K)) by lra. apply Qfloor_Z. }
    change (0 + 1 - 1) with 0. rewrite Z.pow_0_r. lia.
  - replace (Z.of_nat (S j) + 1 - 1) with (Z.of_nat (S j)) in * by ring.
    assert (P2 : 2 ^ Z.of_nat (S j) = 2 * 2 ^ (Z.of_nat (S j) - 1)).
    { rewrite <- Z.pow_succ_r by lia. f_equal. lia. }
    assert (P3 : 2 ^ (Z.of_nat (S j) + 1) = 2 * 2 ^ Z.of_nat (S j)) by (rewrite <- Z.pow_succ_r by lia; f_equal; lia).
    assert (Pp : 0 < 2 ^ (Z.of_nat (S j) - 1)) by (apply Z.pow_pos_nonneg; lia).
    assert (Sh : ucast 64 (Z.shiftl (m + n2) 1) = 2 * (m + n2)).
    { rewrite Z.shiftl_mul_pow2 by lia. unfold ucast. rewrite Z.mod_small; [lia|].
      assert (1 <= 2 ^ (Z.of_nat (S j) - 1)) by lia.
      assert (2 * m * 1 <= 2 * m * 2 ^ (Z.of_nat (S j) - 1)) by (apply Z.mul_le_mono_nonneg_l; lia). lia. }
    rewrite Sh. set (T := 2 ^ (Z.of_nat (S j) - 1)) in *.
    rewrite (IH _ _ (K - n2 * 2 ^ Z.of_nat (S j))); try lia.
    + replace (2 * (m + n2)) with ((m + n2) * 2) by ring. apply Z_mod_mult.
    + pose proof (Qfloor_le (man * 2)). fold n2 in H. lra.
    + pose proof (Qlt_floor (man * 2)) as F2. rewrite inject_Z_plus in F2. change (inject_Z 1) with 1%Q in F2. fold n2 in F2. lra.
    + unfold Z.sub. rewrite inject_Z_plus, inject_Z_opp, inject_Z_mult, <- HK2, <- (p2_Z (Z.of_nat (S j))) by lia. ring.
    + fold T. assert (n2 * T <= 1 * T) by (apply Z.mul_le_mono_nonneg_r; lia). lia.
Qed.

Lemma lor_top m k : 0 <= k -> 2 ^ k <= m < 2 ^ (k + 1) -> Z.lor m (2 ^ k) = m.
Proof.
  intros Hk Hm. apply Z.bits_inj'. intros i Hi. rewrite Z.lor_spec. destruct (Z.eq_dec i k) as [->|N].
  - rewrite Z.pow2_bits_true by lia. rewrite orb_true_r. symmetry. apply Z.testbit_true; [lia|].
    rewrite <- (Z.div_unique m (2 ^ k) 1 (m - 2 ^ k)); [reflexivity| |lia].
    left. rewrite Z.pow_add_r in Hm by lia. lia.
  - rewrite Z.pow2_bits_false by lia. apply orb_false_r.
Qed.

(** Lowest exponent of a normal number of the type. *)
Lemma native_parts_spec F q mu p : 2 <= f_bits F <= 64 -> 2 ^ (f_bits F - 1) <= mu < 2 ^ f_bits F -> (q == inject_Z mu * p2 p)%Q ->
  (f_min F <= q)%Q -> native_parts F q = (mu, p + (f_bits F - 1)).
Proof.
  intros HP Hmu Hq Hmin. unfold native_parts. rewrite (proj2 (Qle_bool_iff _ _) Hmin). cbn [negb]. cbv zeta.
  set (P := f_bits F) in *. pose proof (p2_pos p) as Pp.
  assert (Q0 : (0 < q)%Q) by (eapply Qlt_le_trans; [|exact Hmin]; apply p2_pos).
  destruct (lead2_spec q Q0) as [L1 L2].
  assert (B1 : (p2 (p + (P - 1)) <= q)%Q).
  { rewrite Hq, Z.add_comm, p2_add. apply Qmult_le_compat_r; [|lra]. rewrite p2_Z by lia. rewrite <- Zle_Qle. lia. }
  assert (B2 : (q < p2 (p + (P - 1) + 1))%Q).
  { rewrite Hq. replace (p + (P - 1) + 1) with (P + p) by ring. rewrite p2_add. apply Qmult_lt_compat_r; auto. rewrite p2_Z by lia. rewrite <- Zlt_Qlt. lia. }
  assert (mono : forall a b, (p2 a < p2 b)%Q -> a < b).
  { intros a b H. destruct (Z_lt_le_dec a b); auto. apply p2_le in l. lra. }
  assert (EL : lead2 q = p + (P - 1)).
  { assert (p + (P - 1) < lead2 q + 1) by (apply mono; lra). assert (lead2 q < p + (P - 1) + 1) by (apply mono; lra). lia. }
  rewrite EL. replace (p + (P - 1) + 1 - 1) with (p + (P - 1)) by ring.
  replace (p + (P - 1) + 1) with (p + P) by ring.
  assert (EM : (q * p2 (- (p + P)) == inject_Z mu * p2 (- P))%Q).
  { rewrite Hq. replace (- (p + P)) with (- p + - P) by ring. rewrite p2_add. pose proof (p2_neg p) as N.
    setoid_replace (inject_Z mu * p2 p * (p2 (- p) * p2 (- P)))%Q with (inject_Z mu * p2 (- P) * (p2 (- p) * p2 p))%Q by ring. rewrite N. ring. }
  assert (Hpp : 0 < 2 ^ (P - 1)) by (apply Z.pow_pos_nonneg; lia).
  rewrite (nf_bits_spec (Z.to_nat P) _ 0 mu).
  - rewrite Z.shiftl_mul_pow2, !Z.mul_1_l by lia. unfold ucast. rewrite Z.mod_small.
    + rewrite Z.mul_0_l, Z.add_0_l. rewrite lor_top by (replace (P - 1 + 1) with P by ring; lia). reflexivity.
    + split; [lia|]. apply Z.pow_lt_mono_r; lia.
  - lia.
  - lia.
  - reflexivity.
  - rewrite EM. apply Qmult_le_0_compat; [|pose proof (p2_pos (- P)); lra]. change 0%Q with (inject_Z 0). rewrite <- Zle_Qle. lia.
  - rewrite EM. pose proof (p2_neg P) as N. pose proof (p2_pos (- P)) as PP.
    assert (K : (inject_Z mu * p2 (- P) < inject_Z (2 ^ P) * p2 (- P))%Q) by (apply Qmult_lt_compat_r; auto; rewrite <- Zlt_Qlt; lia).
    rewrite <- p2_Z in K by lia. lra.
  - rewrite Z2Nat.id by lia. rewrite EM. rewrite <- Qmult_assoc, p2_neg. ring.
  - rewrite Z2Nat.id by lia. rewrite Z.mul_0_l, Z.add_0_l. apply Z.pow_le_mono_r; lia.
Qed.

Section FF.
Variable c : cfg.
Notation L := (c_limb c).
Notation B := (mask L).
Notation n := (nel c).
Notation M := (max_exp10_of (c_expo c)).
Notation eps := (p10 (- (c_digits10 c + 2 * edc c))).
Hypothesis Hc : cfg_ok c.
Hypothesis Hk : newton_ok c.

Lemma single_facts d e : 0 < d < B -> (edc c | e) -> - 2 ^ (ebits (c_expo c) - 1) <= e < 2 ^ (ebits (c_expo c) - 1) ->
  normal c (from_lst c [d] e) /\ iszero (from_lst c [d] e) = false /\ (value c (from_lst c [d] e) == inject_Z d * p10 e)%Q /\ dneg (from_lst c [d] e) = false.
Proof.
  intros Hd He Hr. split; [apply from_lst_single_normal; auto|]. split; [|split; [apply (single_value c Hc)|reflexivity]].
  pose proof (nel_ge4 c Hc) as Hn. unfold from_lst, iszero. cbn [length data]. replace (1 <? n)%nat with true by (symmetry; apply Nat.ltb_lt; lia).
  cbn [app forallb data nth]. lia.
Qed.
Lemma half_facts : normal c (half c) /\ iszero (half c) = false /\ (value c (half c) == 1 # 2)%Q /\ dneg (half c) = false.
Proof.
  destruct (single_facts (B / 2) (- edc c)) as (H1 & H2 & H3 & H4).
  - destruct L; cbn; lia.
  - apply Z.divide_opp_r, Z.divide_refl.
  - pose proof (edc_pos c). pose proof (E_ge8 c). assert (2 ^ 7 <= 2 ^ (ebits (c_expo c) - 1)) by (apply Z.pow_le_mono_r; lia). change (2 ^ 7) with 128 in *. lia.
  - split; [exact H1|]. split; [exact H2|]. split; [|exact H4]. unfold half. rewrite H3. unfold edc. destruct L; reflexivity.
Qed.
Lemma two_facts : normal c (two c) /\ iszero (two c) = false /\ (value c (two c) == 2)%Q /\ dneg (two c) = false.
Proof.
  destruct (single_facts 2 0) as (H1 & H2 & H3 & H4).
  - pose proof (B_gt9 c); lia.
  - apply Z.divide_0_r.
  - pose proof (E_ge8 c). pose proof (Z.pow_pos_nonneg 2 (ebits (c_expo c) - 1)). lia.
  - split; [exact H1|]. split; [exact H2|]. split; [|exact H4]. unfold two. rewrite H3. reflexivity.
Qed.

Lemma eps_bound : (0 < eps)%Q /\ (eps <= 1 # 100000)%Q.
Proof.
  split; [apply p10_pos|]. change (1 # 100000)%Q with (p10 (-5)). apply (proj2 (p10_le _ _)). pose proof (edc_pos c). destruct Hc. lia.
Qed.

Lemma later_ok mem k : memory_ok mem -> memory_ok (later mem k).
Proof. intros H i p. apply H. Qed.

(** Truncation is exact when the number is a multiple of 10^-j with few digits. *)
Lemma trunc_dec z K j q : normal c z -> iszero z = false -> truncates c z q -> (q == inject_Z K * p10 (- j))%Q ->
  Z.abs K < 10 ^ (edc c * (elem_number c - 1) + 1) -> (value c z == q)%Q.
Proof.
  intros Nz Zz T Hq HK. destruct (normal_facts c Hc z Nz) as (Lz & Oz & _).
  destruct (value_bracket c Hc z Nz Zz) as [B1 _]. destruct T as (T1 & T2 & T3) eqn:ET. clear ET.
  assert (A : (Qabs q == inject_Z (Z.abs K) * p10 (- j))%Q).
  { rewrite Hq, Qabs_Qmult, (Qabs_pos (p10 (- j))) by (apply Qlt_le_weak, p10_pos). destruct K; reflexivity. }
  pose proof (edc_pos c) as He. pose proof (elem_number_ge4 c Hc) as Hn.
  assert (X0 : 0 <= edc c * (elem_number c - 1) + 1) by (assert (0 <= edc c * (elem_number c - 1)) by (apply Z.mul_nonneg_nonneg; lia); lia).
  assert (X : (p10 (dexp z) < p10 (edc c * (elem_number c - 1) + 1 - j))%Q).
  { eapply Qle_lt_trans; [exact B1|]. eapply Qle_lt_trans; [exact T2|]. rewrite A.
    rewrite <- (Z.add_opp_r (edc c * (elem_number c - 1) + 1) j), p10_add.
    apply Qmult_lt_compat_r; [apply p10_pos|]. rewrite (p10_Z (edc c * (elem_number c - 1) + 1)) by lia. rewrite <- Zlt_Qlt. exact HK. }
  apply (proj1 (p10_lt _ _)) in X.
  assert (Hu : 0 <= - j - low c (dexp z)) by (unfold low; rewrite (nel_Z c Hc); lia).
  apply (truncates_multiple c z q (K * 10 ^ (- j - low c (dexp z)))); auto; try (split; auto).
  rewrite ulp_low by auto. rewrite Hq, inject_Z_mult, <- p10_Z by lia. rewrite <- Qmult_assoc, <- p10_add.
  replace (- j - low c (dexp z) + low c (dexp z)) with (- j) by ring. reflexivity.
Qed.

(** The leading limb of an integer between 2^23 and 2^24, 2^52 and 2^53, 2^63 and 2^64 is at least four. *)
Lemma lead_ge4 F x mu : F = f_float \/ F = f_double \/ F = f_long_double -> 2 ^ (f_bits F - 1) <= mu < 2 ^ f_bits F ->
  normal c x -> iszero x = false -> (value c x == inject_Z mu)%Q -> 0 <= dexp x <= 19 /\ 4 <= nth 0 (data x) 0.
Proof.
  intros HF Hmu Nx Zx Vx. destruct (value_bracket c Hc x Nx Zx) as [B1 B2].
  destruct (int_exp c Hc x mu Nx Zx Vx) as (E0 & _ & _).
  assert (Mu : (Qabs (value c x) == inject_Z mu)%Q).
  { rewrite Vx. apply Qabs_pos. change 0%Q with (inject_Z 0). rewrite <- Zle_Qle. pose proof (Z.pow_nonneg 2 (f_bits F - 1) ltac:(lia)). lia. }
  rewrite Mu in B1. rewrite p10_Z in B1 by lia. rewrite <- Zle_Qle in B1.
  assert (M64 : mu < 18446744073709551616).
  { destruct HF as [-> | [-> | ->]]; cbn [f_bits f_float f_double f_long_double] in Hmu;
      change (2 ^ 24) with 16777216 in Hmu; change (2 ^ 53) with 9007199254740992 in Hmu; change (2 ^ 64) with 18446744073709551616 in Hmu; lia. }
  assert (E19 : dexp x <= 19).
  { destruct (Z_le_gt_dec (dexp x) 19) as [C|C]; auto. exfalso. assert (K : 10 ^ 20 <= 10 ^ dexp x) by (apply Z.pow_le_mono_r; lia).
    change (10 ^ 20) with 100000000000000000000 in K. lia. }
  split; [lia|].
  assert (Ev : exists h, dexp x = 2 * h).
  { destruct Nx as (_ & _ & _ & [k D] & _). rewrite D. exists (k * (edc c / 2)).
    assert (E2 : edc c = 2 * (edc c / 2)) by (unfold edc; destruct L; reflexivity). rewrite E2 at 1. ring. }
  assert (M4 : 4 * 10 ^ dexp x <= mu).
  { destruct Ev as [h Eh]. rewrite Eh in *.
    assert (C : h = 0 \/ h = 1 \/ h = 2 \/ h = 3 \/ h = 4 \/ h = 5 \/ h = 6 \/ h = 7 \/ h = 8 \/ h = 9) by lia.
    clear - HF Hmu B1 C.
    assert (HM : 8388608 <= mu < 16777216 \/ 4503599627370496 <= mu < 9007199254740992 \/ 9223372036854775808 <= mu < 18446744073709551616)
      by (destruct HF as [-> | [-> | ->]]; [left|right; left|right; right]; exact Hmu). clear Hmu HF.
    assert (fin : forall t, t <= mu -> (t = 1 \/ t = 100 \/ t = 10000 \/ t = 1000000 \/ t = 100000000 \/ t = 10000000000 \/ t = 1000000000000 \/
                      t = 100000000000000 \/ t = 10000000000000000 \/ t = 1000000000000000000) -> 4 * t <= mu).
    { clear B1 C h. intros t Ht Ct. destruct HM as [H|[H|H]]; lia. }
    apply fin; [exact B1|]. clear - C.
    destruct C as [-> |[-> |[-> |[-> |[-> |[-> |[-> |[-> |[-> | ->]]]]]]]]]; vm_compute; tauto. }
  destruct (normal_facts c Hc x Nx) as (Lx & Ox & _). pose proof (nel_ge4 c Hc) as Hn.
  destruct (data x) as [|a l] eqn:D; [cbn in Lx; lia|]. cbn [nth].
  assert (Hl : length l = (n - 1)%nat) by (cbn in Lx; lia).
  destruct (Z_le_gt_dec 4 a) as [|C]; auto. exfalso.
  pose proof (value_low c x) as VL. rewrite D in VL. specialize (VL Lx). cbn [limbs_value] in VL.
  apply digits_ok_cons in Ox. destruct Ox as [Oa Ol].
  pose proof (limbs_value_bound B l (mask_pos L) Ol) as BL. rewrite Hl in *.
  assert (UB : (Qabs (value c x) < inject_Z (4 * B ^ Z.of_nat (n - 1)) * p10 (low c (dexp x)))%Q).
  { rewrite VL, Qabs_Qmult, (Qabs_pos (p10 _)) by (apply Qlt_le_weak, p10_pos). apply Qmult_lt_compat_r; [apply p10_pos|].
    assert (AZ : forall i, (Qabs (inject_Z i) == inject_Z (Z.abs i))%Q) by (intros []; reflexivity).
    rewrite AZ. rewrite <- Zlt_Qlt. rewrite Z.abs_mul.
    assert (S : Z.abs (sgn (dneg x)) = 1) by (destruct (dneg x); reflexivity). rewrite S, Z.mul_1_l.
    assert (Z.abs (a * B ^ Z.of_nat (n - 1) + limbs_value B l) = a * B ^ Z.of_nat (n - 1) + limbs_value B l).
    { apply Z.abs_eq. assert (0 <= a * B ^ Z.of_nat (n - 1)) by (apply Z.mul_nonneg_nonneg; lia). lia. }
    assert (a * B ^ Z.of_nat (n - 1) <= 3 * B ^ Z.of_nat (n - 1)) by (apply Z.mul_le_mono_nonneg_r; lia). lia. }
  rewrite Mu in UB. rewrite inject_Z_mult in UB. rewrite <- Qmult_assoc in UB.
  assert (PB : (inject_Z (B ^ Z.of_nat (n - 1)) * p10 (low c (dexp x)) == p10 (dexp x))%Q).
  { assert (EB : B ^ Z.of_nat (n - 1) = 10 ^ (edc c * (Z.of_nat n - 1))).
    { replace B with (10 ^ edc c) by (unfold edc; rewrite mask_pow; reflexivity). rewrite <- Z.pow_mul_r by (pose proof (edc_pos c); lia). f_equal. lia. }
    rewrite EB, <- p10_Z by (apply Z.mul_nonneg_nonneg; pose proof (edc_pos c); lia). rewrite <- p10_add. unfold low.
    replace (edc c * (Z.of_nat n - 1) + (dexp x - edc c * (Z.of_nat n - 1))) with (dexp x) by ring. reflexivity. }
  rewrite PB, p10_Z in UB by lia. rewrite <- inject_Z_mult, <- Zlt_Qlt in UB. lia.
Qed.
End FF.
