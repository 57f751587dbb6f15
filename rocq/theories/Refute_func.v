(** Refute_func.v - concrete computations about reciprocal, division and integer powers: cases meeting the
    theorems' hypotheses, and cases where the literal claims fail. *)
From Verif Require Export Div2_proofs Witness.
Local Open Scope Z_scope.

(** Working memory of the right sizes filled with junk that changes from call to call. *)
Definition mem0 : memory :=
  fun i p => let k := Z.to_nat (a029750 (Z.of_nat p)) in (repeat (77 + Z.of_nat i) (2 * k), repeat 5 (4 * k)).
Lemma mem0_ok : memory_ok mem0.
Proof. intros i p. unfold pool_at, mem0. cbn [fst snd]. rewrite !repeat_length. auto. Qed.

Lemma c50_newton : newton_ok c50.
Proof. split; [reflexivity|discriminate]. Qed.
Lemma c20_newton : newton_ok c20.
Proof. split; [reflexivity|discriminate]. Qed.
Lemma c1000_newton : newton_ok c1000.
Proof. split; [reflexivity|discriminate]. Qed.

Lemma func_case : cfg_ok c50 /\ newton_ok c50 /\ float_fits c50 f_double /\ (digit_loops c50 f_double <= nel c50)%nat /\ memory_ok mem0 /\
  normal c50 xa /\ iszero xa = false /\ normal c50 xn /\ iszero xn = false /\ dexp xa <> dexp xn /\
  - max_exp10_of (c_expo c50) < dexp xn < max_exp10_of (c_expo c50) - 3 * edc c50 /\
  - max_exp10_of (c_expo c50) + 2 * edc c50 < dexp xa - dexp xn < max_exp10_of (c_expo c50).
Proof.
  split; [exact c50_ok|]. split; [exact c50_newton|]. split; [right; left; reflexivity|]. split; [vm_compute; repeat constructor|].
  split; [exact mem0_ok|]. split; [apply normal_b_sound; reflexivity|]. split; [reflexivity|].
  split; [apply normal_b_sound; reflexivity|]. split; [reflexivity|]. split; [discriminate|]. vm_compute. auto.
Qed.

(** The hypotheses hold for Karatsuba-sized numbers and for the other limb and float types too. *)
Lemma func_configs :
  (cfg_ok c1000 /\ newton_ok c1000 /\ float_fits c1000 f_double /\ (digit_loops c1000 f_double <= nel c1000)%nat /\ elems_for_kara <= elem_number c1000) /\
  (cfg_ok c20 /\ newton_ok c20 /\ float_fits c20 f_long_double /\ (digit_loops c20 f_long_double <= nel c20)%nat).
Proof.
  split.
  - split; [exact c1000_ok|]. split; [exact c1000_newton|]. split; [right; left; reflexivity|]. split; [apply Nat.leb_le; reflexivity|vm_compute; discriminate].
  - split; [exact c20_ok|]. split; [exact c20_newton|]. split; [right; right; split; reflexivity|apply Nat.leb_le; reflexivity].
Qed.

(** ** C39 *)
Definition e8 : dec := mkx c50 false (-8) [1].

Lemma inv_not_normal : exists r, normal c50 (from_ull c50 100000000) /\ calculate_inv c50 f_double mem0 (from_ull c50 100000000) = Some r /\
  (value c50 r == value c50 e8)%Q /\ normal c50 e8 /\ ~ normal c50 r /\ cmp r e8 = -1.
Proof.
  eexists. split; [apply normal_b_sound; reflexivity|]. split; [vm_compute; reflexivity|].
  split; [vm_compute; reflexivity|]. split; [apply normal_b_sound; reflexivity|]. split; [|reflexivity].
  intros (_ & H & _). apply Forall_inv in H. vm_compute in H. destruct H; discriminate.
Qed.

(** 10 digits of 8-bit limbs: the estimate has 9 limbs, the number 8. *)
Definition c8 : cfg := mkCfg U8 10 E32.
Lemma c8_ok : cfg_ok c8. Proof. cfgok. Qed.
Lemma inv_out_of_bounds : cfg_ok c8 /\ normal c8 (from_ull c8 3) /\ (digit_loops c8 f_double > nel c8)%nat /\
  forall mem, calculate_inv c8 f_double mem (from_ull c8 3) = None.
Proof.
  split; [exact c8_ok|]. split; [apply normal_b_sound; reflexivity|]. split; [apply Nat.leb_le; reflexivity|].
  intros mem. vm_compute. reflexivity.
Qed.

(** 520 digits, 32-bit limbs, long double estimate. *)
Definition c520 : cfg := mkCfg U32 520 E64.
Lemma c520_ok : cfg_ok c520. Proof. cfgok. Qed.
Definition v520 : dec := mkx c520 false (-8) [99999997; 8; 4999978; 70000056; 25249851; 47750392].
Definition opt_b (o : option dec) (f : dec -> bool) : bool := match o with Some r => f r | None => false end.
Lemma opt_b_true o f : opt_b o f = true -> exists r, o = Some r /\ f r = true.
Proof. destruct o as [r|]; cbn; [|discriminate]. intros H. exists r. auto. Qed.
Definition horner (B : Z) (l : list Z) : Z := fold_left (fun a x => a * B + x) l 0.
Lemma horner_value B l : 0 < B -> horner B l = limbs_value B l.
Proof.
  intros HB. unfold horner. assert (G : forall l a, fold_left (fun a x => a * B + x) l a = a * B ^ Z.of_nat (length l) + limbs_value B l).
  { clear l. induction l as [|x l IH]; intros a; cbn [fold_left limbs_value length]; [change (Z.of_nat 0) with 0; rewrite Z.pow_0_r; ring|].
    rewrite IH, Nat2Z.inj_succ, Z.pow_succ_r by lia. ring. }
  rewrite G. ring.
Qed.
(** The digits of [v520] without the trailing zeros: v520 = n520 * 10^-48. *)
Definition n520 : Z := horner (10 ^ 8) [99999997; 8; 4999978; 70000056; 25249851; 47750392].
Lemma v520_value : (value c520 v520 == inject_Z n520 * p10 (-48))%Q.
Proof.
  rewrite (value_low c520 v520) by (vm_compute; reflexivity).
  replace (sgn (dneg v520) * limbs_value (mask (c_limb c520)) (data v520)) with (n520 * 10 ^ 496).
  2:{ rewrite <- horner_value by reflexivity. apply Z.eqb_eq. vm_compute. reflexivity. }
  rewrite inject_Z_mult. rewrite <- (p10_Z 496) by lia. rewrite <- Qmult_assoc, <- p10_add. reflexivity.
Qed.
Definition bad520 (r : dec) : bool :=
  (dexp r =? 0) && (negb (dneg r) && (Nat.eqb (length (data r)) (nel c520) && (horner (10 ^ 8) (data r) * n520 + 10 ^ 70 <? 10 ^ 584))).
Lemma inv_long_double_inaccurate : cfg_ok c520 /\ normal c520 v520 /\ exists r,
  calculate_inv c520 f_long_double mem0 v520 = Some r /\ (p10 (- c_digits10 c520) < Qabs (1 - value c520 r * value c520 v520))%Q.
Proof.
  split; [exact c520_ok|]. split; [apply normal_b_sound; reflexivity|].
  destruct (opt_b_true (calculate_inv c520 f_long_double mem0 v520) bad520) as (r & E1 & E2).
  { vm_compute. reflexivity. }
  exists r. split; [exact E1|]. unfold bad520 in E2. apply andb_prop in E2. destruct E2 as [B1 E2]. apply andb_prop in E2. destruct E2 as [B2 E2]. apply andb_prop in E2. destruct E2 as [B3 B4].
  apply Z.eqb_eq in B1. apply negb_true_iff in B2. apply Nat.eqb_eq in B3. apply Z.ltb_lt in B4.
  rewrite v520_value, (value_low c520 r B3), B1, B2. cbn [sgn]. rewrite Z.mul_1_l. change (mask (c_limb c520)) with (10 ^ 8). rewrite <- horner_value by reflexivity.
  set (R := horner (10 ^ 8) (data r)) in *. clearbody R. change (low c520 0) with (-536).
  assert (E : (inject_Z R * p10 (-536) * (inject_Z n520 * p10 (-48)) == inject_Z (R * n520) * p10 (-584))%Q).
  { rewrite inject_Z_mult. change (-584) with (-536 + -48). rewrite p10_add. ring. }
  rewrite E. apply Zlt_le_weak in B4. rewrite Zle_Qle, inject_Z_plus, <- (p10_Z 70), <- (p10_Z 584) in B4 by lia.
  apply (Qmult_le_compat_r _ _ (p10 (-584))) in B4; [|apply Qlt_le_weak, p10_pos]. rewrite Qmult_plus_distr_l, <- !p10_add in B4.
  change (584 + -584) with 0 in B4. change (70 + -584) with (-514) in B4. change (p10 0) with 1%Q in B4.
  set (T := (inject_Z (R * n520) * p10 (-584))%Q) in *. clearbody T.
  assert (P : (p10 (- c_digits10 c520) < p10 (-514))%Q) by (apply p10_lt; reflexivity). pose proof (Qle_Qabs (1 - T)) as A.
  eapply Qlt_le_trans; [exact P|]. eapply Qle_trans; [|exact A]. clear - B4. set (p := p10 (-514)) in *. clearbody p. apply (Qplus_le_l _ _ T). setoid_replace (1 - T + T)%Q with 1%Q by ring. rewrite Qplus_comm. exact B4.
Qed.

(** ** C27 *)
Lemma zero_over_zero : divide c50 f_double mem0 (zero c50) (zero c50) = Some (one c50) /\
  (exists z, divide c50 f_double mem0 (mkx c50 false 8 [0]) (zero c50) = Some z /\ (value c50 z == 0)%Q /\
             normal c50 (mkx c50 false 8 [0]) /\ cmp (mkx c50 false 8 [0]) (zero c50) = 0) /\
  divide c50 f_double mem0 xnines (one c50) = Some (one c50) /\ ~ (value c50 xnines == 1)%Q /\ 
  divide c50 f_double mem0 (one c50) xnines = Some xnines.
Proof.
  split; [vm_compute; reflexivity|]. split.
  { eexists. split; [vm_compute; reflexivity|]. split; [vm_compute; reflexivity|]. split; [apply normal_b_sound; reflexivity|reflexivity]. }
  split; [vm_compute; reflexivity|]. split; [vm_compute; discriminate|vm_compute; reflexivity].
Qed.

(** ** C36 *)
Lemma minimum_integer_undefined :
  (forall c x, sub_sll c x (- 2 ^ 63) = None) /\ (forall c F mem b, pow_int c F mem b (- 2 ^ 63) = None).
Proof. split; reflexivity. Qed.

(** Every other signed operand is defined, and the operations return a number. *)
Lemma integer_ops_defined c mem x k : cfg_ok c -> newton_ok c -> memory_ok mem ->
  normal c x -> - 2 ^ 63 <= k < 2 ^ 63 ->
  normal c (add_sll c x k) /\
  (exists z, mul_sll c (fst (mem 0%nat (nel c))) (snd (mem 0%nat (nel c))) x k = Some z /\ normal c z) /\
  (k <> - 2 ^ 63 -> exists z, sub_sll c x k = Some z /\ normal c z).
Proof.
  intros Hc Hk Hm Hx Hr. split; [apply add_sll_normal; auto|]. split.
  - apply mul_sll_normal; auto; [apply newton_mul_ok; auto|apply memory_pool; auto].
  - intros Hn. unfold sub_sll, neg_sll. replace (k =? - 2 ^ 63) with false by lia. eexists. split; [reflexivity|].
    apply add_sll_normal; auto. lia.
Qed.

Lemma div_signed_defined c F mem x k : cfg_ok c -> newton_ok c -> float_fits c F -> (digit_loops c F <= nel c)%nat -> memory_ok mem ->
  normal c x -> - 2 ^ 63 <= k < 2 ^ 63 -> Z.abs k < 10 ^ (edc c * elem_number c) ->
  - max_exp10_of (c_expo c) + 36 <= dexp x < max_exp10_of (c_expo c) ->
  exists z, div_signed c F mem x k = Some z.
Proof.
  intros Hc Hk HF HJ Hm Hx Hr Hfit Rx. destruct (Z.eq_dec k 0) as [->|K0].
  { eexists. reflexivity. }
  destruct (iszero x) eqn:Zx.
  - unfold div_signed, div_sll. rewrite abs_ucast by auto. unfold div_ull.
    replace (Z.abs k =? 0) with false by lia. change (iszero (set_neg x false)) with (iszero x). rewrite Zx. eexists. reflexivity.
  - destruct (div_any_signed c F Hc Hk HF HJ mem x k) as (z & E1 & _); auto. exists z. auto.
Qed.

(** Non-negative powers always return a normal number. *)
Lemma pow_nonneg_total c mem b p : cfg_ok c -> newton_ok c -> memory_ok mem -> normal c b -> 0 <= p < 2 ^ 63 ->
  exists z, pow_nonneg c mem b p = Some z /\ normal c z.
Proof.
  intros Hc Hk Hm Hb Hp. destruct (pow_gen c mem b p (fun _ z => normal c z)) as (z & E1 & N); eauto.
  - rewrite small_one by auto. apply one_normal; auto.
  - intros i k j x y _ _ _ Nx Ny. rewrite (mulm_normal c Hc) by auto. apply mul_normal; auto; [apply newton_mul_ok; auto|].
    apply (mulm_pool2 c Hc mem Hm i x y Nx Ny).
Qed.

Lemma zero_over_int c bd x : div_ull c bd x 0 = Some (zero c).
Proof. reflexivity. Qed.

(** ** C33, C43 *)
Definition x20 : dec := mkx c20 true 0 [12; 50].
Lemma pow_int_case : cfg_ok c50 /\ mul_ok c50 /\ normal c50 (from_ull c50 7) /\ iszero (from_ull c50 7) = false /\
  (value c50 (from_ull c50 7) == inject_Z 7)%Q /\ Z.abs (7 ^ 50) < 10 ^ int_digits c50.
Proof.
  split; [exact c50_ok|]. split; [exact c50_mul|]. split; [apply normal_b_sound; reflexivity|]. split; [reflexivity|].
  split; vm_compute; reflexivity.
Qed.
Lemma pow_case : cfg_ok c20 /\ newton_ok c20 /\ float_fits c20 f_double /\ (digit_loops c20 f_double <= nel c20)%nat /\
  normal c20 x20 /\ iszero x20 = false /\ 0 <= 101 < 2 ^ 63 /\
  (inject_Z (4 * 101) * p10 (- (c_digits10 c20 + 2 * edc c20)) <= 1)%Q /\
  (p10 (- max_exp10_of (c_expo c20) + 2 * edc c20 + 2) <= Qabs (value c20 x20 ^ 101))%Q /\
  (Qabs (value c20 x20 ^ 101) <= p10 (max_exp10_of (c_expo c20) - 4 * edc c20 - 1))%Q.
Proof.
  split; [exact c20_ok|]. split; [exact c20_newton|]. split; [right; left; reflexivity|]. split; [apply Nat.leb_le; reflexivity|].
  split; [apply normal_b_sound; reflexivity|]. split; [reflexivity|]. split; [split; [discriminate|reflexivity]|].
  split; [apply Qle_bool_iff; vm_compute; reflexivity|].
  assert (A : (Qabs (value c20 x20 ^ 101) == (25 # 2) ^ 101)%Q).
  { assert (E : (value c20 x20 == - (25 # 2))%Q) by (vm_compute; reflexivity). rewrite E. vm_compute. reflexivity. }
  rewrite A. split; [apply Qle_trans with (p10 0)|apply Qle_trans with (p10 120)].
  - apply p10_le. vm_compute. discriminate.
  - apply Qle_bool_iff. vm_compute. reflexivity.
  - apply Qle_bool_iff. vm_compute. reflexivity.
  - apply p10_le. vm_compute. discriminate.
Qed.
Lemma C43_case_proof : let a := from_sll c50 (-98765432109876543) in let b := from_ull c50 7 in
  normal c50 a /\ normal c50 b /\ (value c50 a == inject_Z (-98765432109876543))%Q /\ (value c50 b == inject_Z 7)%Q /\
  Z.abs (-98765432109876543) < 10 ^ (elem_number c50 * edc c50) /\ Z.abs (-98765432109876543 * 7) < 10 ^ int_digits c50.
Proof.
  cbv zeta. split; [apply normal_b_sound; reflexivity|]. split; [apply normal_b_sound; reflexivity|].
  split; [vm_compute; reflexivity|]. split; [vm_compute; reflexivity|]. split; vm_compute; reflexivity.
Qed.
