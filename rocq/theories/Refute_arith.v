(** Refute_arith.v - supporting lemmas for Properties_Arith.v: concrete cases, refutations on concrete
    configurations, and corollaries in the vocabulary of Spec.v. *)
From Verif Require Export Laws_proofs Witness.
From Coq Require Import Lqa.
Local Open Scope Z_scope.

Ltac qle := match goal with |- (?a <= ?b)%Q => apply (proj1 (Qle_bool_iff a b)); vm_compute; reflexivity end.

Lemma C01_case_proof : cfg_ok c50 /\ normal c50 xa /\ normal c50 xb /\ iszero xa = false /\ iszero xb = false /\
  dneg xb = dneg xa /\ exp_safe c50 (Z.max (dexp xa) (dexp xb)) /\ dexp xa <> dexp xb.
Proof.
  split; [apply c50_ok|]. split; [apply xa_normal|]. split; [apply xb_normal|]. repeat split; try reflexivity; try discriminate.
Qed.
Lemma C02_case_proof : cfg_ok c50 /\ normal c50 xa /\ normal c50 xn /\ iszero xa = false /\ iszero xn = false /\
  dneg xn = negb (dneg xa) /\ exp_safe c50 (Z.max (dexp xa) (dexp xn)) /\ dexp xa <> dexp xn.
Proof.
  split; [apply c50_ok|]. split; [apply xa_normal|]. split; [apply xn_normal|]. repeat split; try reflexivity; try discriminate.
Qed.

Lemma school_exact L a b : digits_ok (10 ^ ed L) a -> digits_ok (10 ^ ed L) b ->
  length a = length b -> (1 <= length a)%nat ->
  (L = U8 \/ Z.of_nat (length a) * ((10 ^ ed L - 1) * (10 ^ ed L - 1)) + Z.of_nat (length a) * 10 ^ ed L < 2 ^ dbits L) ->
  exists r, mul_school L a b = Some r /\ length r = (2 * length a)%nat /\ digits_ok (10 ^ ed L) r /\
    limbs_value (10 ^ ed L) r = limbs_value (10 ^ ed L) a * limbs_value (10 ^ ed L) b.
Proof. rewrite <- mask_pow. intros Ha Hb Hl H1 Hf. apply mul_school_spec; auto. Qed.

Lemma accumulator_fits L k : 0 <= k ->
  (L = U32 -> k < elems_for_kara -> k * ((10 ^ ed L - 1) * (10 ^ ed L - 1)) + k * 10 ^ ed L < 2 ^ dbits L) /\
  (L = U16 -> k <= 42 -> k * ((10 ^ ed L - 1) * (10 ^ ed L - 1)) + k * 10 ^ ed L < 2 ^ dbits L).
Proof.
  intros H0. split; intros -> Hk; cbn [ed dbits].
  - change elems_for_kara with 113 in Hk. change (10 ^ 8) with 100000000. change (2 ^ 64) with 18446744073709551616. lia.
  - change (10 ^ 4) with 10000. change (2 ^ 32) with 4294967296. lia.
Qed.

(** C04: 43 all-nines limbs of 16 bits. *)
Definition x160 : dec := mkDec (repeat 9999 43) 0 false 43.
Lemma school_overflow : exists z, cfg_ok c160 /\ normal c160 x160 /\ iszero x160 = false /\
  pool_ok c160 (junk_r c160) (junk_t c160) /\ elem_number c160 < elems_for_kara /\
  - max_exp10_of (c_expo c160) < dexp x160 + dexp x160 < max_exp10_of (c_expo c160) /\
  ~ is_one c160 x160 /\ ~ is_nines c160 x160 /\
  mul c160 (junk_r c160) (junk_t c160) x160 x160 = Some z /\
  ~ truncates c160 z (value c160 x160 * value c160 x160) /\
  (ulp c160 z * (400000 # 1) < value c160 x160 * value c160 x160 - value c160 z)%Q.
Proof.
  eexists. split; [apply c160_ok|]. split; [apply normal_b_sound; reflexivity|]. split; [reflexivity|].
  split; [apply junk_pool|]. split; [reflexivity|]. split; [split; reflexivity|].
  split; [intros H; vm_compute in H; discriminate|]. split; [intros H; vm_compute in H; discriminate|].
  split; [vm_compute; reflexivity|]. split.
  - intros (_ & _ & H). revert H. apply Qle_not_lt. qle.
  - vm_compute. reflexivity.
Qed.

(** C05 in the vocabulary of Spec.v, with independence of the memory's previous contents. *)
Lemma kara_exact L k r a b t fuel : kara_size k -> (k <= fuel)%nat ->
  length r = (2 * k)%nat -> length a = k -> length b = k -> (4 * k <= length t)%nat ->
  digits_ok (10 ^ ed L) a -> digits_ok (10 ^ ed L) b ->
  exists r' t', kara fuel L r a b k t = Some (r', t') /\ length r' = (2 * k)%nat /\ length t' = length t /\
    digits_ok (10 ^ ed L) r' /\
    limbs_value (10 ^ ed L) r' = limbs_value (10 ^ ed L) a * limbs_value (10 ^ ed L) b /\
    (forall r2 t2, length r2 = (2 * k)%nat -> (4 * k <= length t2)%nat ->
       exists t2', kara fuel L r2 a b k t2 = Some (r', t2')).
Proof.
  rewrite <- mask_pow. intros Hk Hf Hr Ha Hb Ht Oa Ob.
  destruct (kara_spec L k Hk fuel r a b t) as (r' & t' & E1 & E2 & E3 & E4 & E5); auto.
  exists r', t'. split; [auto|]. split; [auto|]. split; [auto|]. split; [auto|]. split; [auto|].
  intros r2 t2 Hr2 Ht2.
  destruct (kara_spec L k Hk fuel r2 a b t2) as (r3 & t3 & F1 & F2 & F3 & F4 & F5); auto.
  assert (r3 = r') as ->; [|eauto]. apply (limbs_value_inj (mask L)); auto; [apply mask_pos|congruence|congruence].
Qed.

Lemma pad_adequate v : 1 <= v < elems_for_fft -> v <= a029750 v <= 1792 /\ kara_size (Z.to_nat (a029750 v)).
Proof. intros H. destruct (a029750_range v H) as (A & B & C). auto. Qed.

(** C07: saturation. *)
Lemma mul_saturates c rmem scratch x v : cfg_ok c -> mul_ok c -> pool_ok c rmem scratch -> normal c x -> normal c v ->
  iszero x = false -> iszero v = false ->
  ~ is_one c x -> ~ is_nines c x -> ~ is_one c v -> ~ is_nines c v -> - 2 ^ ebits (c_expo c) < dexp x + dexp v ->
  (max_exp10_of (c_expo c) <= dexp x + dexp v ->
     mul c rmem scratch x v = Some (set_neg (value_max c) (xorb (dneg x) (dneg v)))) /\
  (dexp x + dexp v <= - max_exp10_of (c_expo c) ->
     mul c rmem scratch x v = Some (set_neg (value_min c) (xorb (dneg x) (dneg v)))).
Proof.
  intros Hc Hm Hp Hx Hv Zx Zv H1 H2 H3 H4 Hs.
  destruct (mul_nonzero_spec c Hc Hm rmem scratch x v Hp Hx Hv Zx Zv Hs) as (z & E1 & R).
  pose proof (max_exp10_bounds c) as (HM & _).
  assert (N1 : forall u, normal c u -> iszero u = false -> ~ is_one c u -> ~ is_nines c u -> isone_sign_neutral c u = false).
  { intros u Hu Zu A A'. destruct (isone_sign_neutral c u) eqn:U; auto. apply isone_iff in U; auto. tauto. }
  pose proof (N1 x Hx Zx H1 H2) as U1. pose proof (N1 v Hv Zv H3 H4) as U2.
  rewrite E1. inversion R; subst; try congruence; split; intros; try lia; reflexivity.
Qed.

(** Multiplication by one. *)
Lemma mul_by_one c rmem scratch x : cfg_ok c -> normal c x -> iszero x = false -> ~ is_nines c x ->
  mul c rmem scratch x (one c) = Some x /\ mul c rmem scratch (one c) x = Some x.
Proof. intros Hc Hx Zx Nx. split; [apply mul_one_r; auto|apply mul_one_l; auto]. Qed.

(** C08: totality and compatibility, from cmp_spec. *)
Lemma cmp_order c x v : cfg_ok c -> normal c x -> normal c v ->
  (cmp x v = -1 <-> (value c x < value c v)%Q) /\ (cmp x v = 0 <-> (value c x == value c v)%Q) /\
  (cmp x v = 1 <-> (value c v < value c x)%Q) /\ cmp v x = - cmp x v.
Proof.
  intros Hc Hx Hv. rewrite (cmp_spec c Hc x v Hx Hv), (cmp_spec c Hc v x Hv Hx).
  rewrite Qlt_alt, Qeq_alt, (Qlt_alt (value c v)). rewrite <- (Qcompare_antisym (value c x) (value c v)).
  destruct (value c x ?= value c v)%Q; cbn; repeat split; intros; congruence.
Qed.

(** C16: the truncation claim fails. *)
Definition x16 : dec := mkx c50 false 0 [2; 3; 3; 3; 3; 3; 3; 3; 4; 7].
Lemma div_not_truncating : exists z, cfg_ok c50 /\ normal c50 x16 /\ iszero x16 = false /\ 1 < 3 < 10 ^ edc c50 /\
  div_ull c50 (fun _ _ => None) x16 3 = Some z /\ ~ truncates c50 z (value c50 x16 / inject_Z 3).
Proof.
  eexists. split; [apply c50_ok|]. split; [apply normal_b_sound; reflexivity|]. split; [reflexivity|].
  split; [split; reflexivity|]. split; [vm_compute; reflexivity|]. intros (_ & H & _). revert H. apply Qlt_not_le. vm_compute. reflexivity.
Qed.

(** C17. *)
Lemma mul_zero_full c rmem scratch x v : cfg_ok c -> mul_ok c -> pool_ok c rmem scratch -> normal c x -> normal c v ->
  iszero x = true \/ iszero v = true -> - max_exp10_of (c_expo c) < dexp v < max_exp10_of (c_expo c) ->
  exists z, mul c rmem scratch x v = Some z /\ normal c z /\ iszero z = true /\ (dexp z = 0 \/ dexp z = dexp v).
Proof.
  intros Hc Hm Hp Hx Hv Hz Hr.
  destruct (mul_normal c Hc Hm rmem scratch x v Hp Hx Hv) as (z & E1 & E2). exists z. split; [auto|].
  split; [auto|]. revert E1. unfold mul.
  replace (iszero x || iszero v) with true by (destruct Hz as [-> | ->]; rewrite ?orb_true_r; auto).
  assert (U0 : isone_sign_neutral c (set_neg (zero c) false) = false).
  { destruct (isone_sign_neutral c (set_neg (zero c) false)) eqn:U; auto. pose proof (isone_iszero c _ U).
    change (iszero (set_neg (zero c) false)) with (iszero (zero c)) in H. rewrite (zero_iszero c Hc) in H. discriminate. }
  rewrite U0. destruct (isone_sign_neutral c v) eqn:Uv.
  { intros [= <-]. split; [apply (zero_iszero c Hc)|left; reflexivity]. }
  assert (Hn0 : normal c (set_neg (zero c) false)) by (apply set_neg_normal, zero_normal; auto).
  pose proof (max_exp10_bounds c) as (HM & HM2 & _).
  assert (HE : 2 ^ (ebits (c_expo c) - 1) <= 2 ^ ebits (c_expo c)) by (apply Z.pow_le_mono_r; pose proof (E_ge8 c); lia).
  destruct (mul_exp c (set_neg (zero c) false) v Hn0 Hv) as (X1 & X2 & X3); [cbn; lia|].
  cbn [set_neg dexp zero] in X1, X2, X3. rewrite Z.add_0_l in *.
  cbn [set_neg dexp zero].
  cbv zeta in *. rewrite X1, X2.
  replace (max_exp10_of (c_expo c) <=? dexp v) with false by lia. replace (dexp v <=? - max_exp10_of (c_expo c)) with false by lia.
  destruct (normal_facts c Hc v Hv) as (Lv & Ov & Pv & _).
  cbn [dprec]. rewrite Pv, Nat.min_id.
  match goal with |- context [mul_dispatch c rmem scratch ?a v ?e _] => set (xx := a); set (ee := e) end.
  destruct (normal_facts c Hc _ Hn0) as (L0 & O0 & _).
  destruct (mul_dispatch_spec c Hc Hm rmem scratch xx v ee Hp) as (res & k & M1 & M2 & M3 & M4 & M5); auto.
  rewrite M1. intros [= <-].
  rewrite (store_product_zero c Hc xx ee res k); auto.
  - split; [|right; exact (X3 Hr)]. unfold iszero. cbn [set_neg data]. pose proof (nel_ge4 c Hc). destruct (nel c); [lia|]. reflexivity.
  - rewrite M5. unfold xx. cbn [set_neg zero data]. rewrite limbs_value_repeat0. ring.
Qed.

Lemma mul_zero c rmem scratch x v : cfg_ok c -> mul_ok c -> pool_ok c rmem scratch -> normal c x -> normal c v ->
  iszero x = true \/ iszero v = true -> - max_exp10_of (c_expo c) < dexp v < max_exp10_of (c_expo c) ->
  exists z, mul c rmem scratch x v = Some z /\ (value c z == 0)%Q.
Proof.
  intros Hc Hm Hp Hx Hv Hz Hr. destruct (mul_zero_full c rmem scratch x v Hc Hm Hp Hx Hv Hz Hr) as (z & E1 & N & Z & _).
  exists z. split; auto. apply (value_zero c Hc z N Z).
Qed.

Lemma zero_times_max : mul c50 (junk_r c50) (junk_t c50) (zero c50) (value_max c50) = Some (value_max c50) /\
  mul c50 (junk_r c50) (junk_t c50) (value_max c50) (zero c50) = Some (zero c50) /\
  ~ (value c50 (value_max c50) == 0)%Q.
Proof.
  split; [vm_compute; reflexivity|]. split; [vm_compute; reflexivity|].
  apply (value_nonzero c50 c50_ok); [apply value_max_normal; apply c50_ok|reflexivity].
Qed.

(** C18 *)
Lemma alias_sub_wrong : sub_self c50 xa <> zero c50 /\ (value c50 (sub_self c50 xa) == 2 * value c50 xa)%Q /\ sub c50 xa xa = zero c50.
Proof. split; [vm_compute; discriminate|]. split; vm_compute; reflexivity. Qed.

(** C19 *)
Definition y19 : dec := precision c50 (mkx c50 false 0 [99999999; 1; 2; 3]) 32.
Definition w19 : dec := precision c50 (mkx c50 false 0 [1; 1; 1; 1]) 32.
Lemma reduced_precision_wrong :
  get_precision c50 y19 = 32 /\ get_precision c50 w19 = 32 /\
  (p10 (dexp (add c50 y19 w19) - 8) <= Qabs (value c50 (add c50 y19 w19) - (value c50 y19 + value c50 w19)))%Q.
Proof. split; [reflexivity|]. split; [reflexivity|]. qle. Qed.

(** C34 / C40 *)
Lemma nines_not_comm : is_nines c50 xnines /\ normal c50 xnines /\
  mul c50 (junk_r c50) (junk_t c50) (one c50) xnines = Some xnines /\
  mul c50 (junk_r c50) (junk_t c50) xnines (one c50) = Some (one c50) /\
  op_eq xnines (one c50) = false.
Proof. split; [vm_compute; reflexivity|]. split; [apply xnines_normal|]. repeat split; vm_compute; reflexivity. Qed.

(** C38 *)
Lemma isint_zero_wrong : exists z, mul c50 (junk_r c50) (junk_t c50) (zero c50) xb = Some z /\
  (value c50 z == 0)%Q /\ isint c50 z = false.
Proof. eexists. split; [vm_compute; reflexivity|]. split; vm_compute; reflexivity. Qed.

(** C28 *)
Definition e9 : dec := mkx c9 false (-8) [1].
Lemma eps_compare_wrong : normal c9 e9 /\
  (value c9 (nl_epsilon c9) == value c9 e9)%Q /\
  op_eq (nl_epsilon c9) e9 = false /\ op_lt (nl_epsilon c9) e9 = true.
Proof. split; [apply normal_b_sound; reflexivity|]. split; [vm_compute; reflexivity|]. split; reflexivity. Qed.

Lemma limits_wrong c : cfg_ok c ->
  (value c (nl_lowest c) == 0)%Q /\ (value c (nl_infinity c) == 0)%Q /\
  exists x, normal c x /\ (value c (nl_max c) < value c x)%Q.
Proof.
  intros Hc. split; [apply (value_zero_c c Hc)|]. split; [apply (value_zero_c c Hc)|].
  exists (from_lst c [10] (max_exp10_of (c_expo c))).
  pose proof (max_exp10_bounds c) as (H1 & H2 & H3).
  split.
  - apply from_lst_single_normal; auto.
    + destruct (c_limb c); cbn; lia.
    + apply max_exp10_divides.
    + lia.
  - unfold nl_max, value_max. rewrite !(single_value c Hc). apply sc_lt. lia.
Qed.

(** C15/C40: trivial arguments. *)
Lemma add_identities c x : cfg_ok c -> normal c x -> iszero x = false ->
  add c x (zero c) = x /\ add c (zero c) x = x /\ add c x (negate x) = zero c /\ sub c x x = zero c /\
  negate (negate x) = x /\ (value c (negate x) == - value c x)%Q.
Proof.
  intros Hc Hx Zx. split; [apply (add_zero_r c); auto; [apply zero_normal; auto|apply zero_iszero; auto]|].
  split; [apply add_zero_l, zero_iszero; auto|]. split; [apply (add_neg_self c Hc); auto|].
  split; [apply (sub_self_distinct c Hc); auto|]. split; [apply negate_negate|apply (value_negate c Hc); auto].
Qed.

Lemma C07_case_proof : cfg_ok c50 /\ mul_ok c50 /\ pool_ok c50 (junk_r c50) (junk_t c50) /\ normal c50 xa /\ normal c50 xb /\
  iszero xa = false /\ iszero xb = false /\
  ~ is_one c50 xa /\ ~ is_nines c50 xa /\ ~ is_one c50 xb /\ ~ is_nines c50 xb /\
  - max_exp10_of (c_expo c50) < dexp xa + dexp xb < max_exp10_of (c_expo c50).
Proof.
  split; [apply c50_ok|]. split; [apply c50_mul|]. split; [apply junk_pool|]. split; [apply xa_normal|]. split; [apply xb_normal|].
  split; [reflexivity|]. split; [reflexivity|].
  do 4 (split; [intros H; vm_compute in H; discriminate|]). split; reflexivity.
Qed.

(** A 1000-digit Karatsuba instance: hypotheses met and the product really takes that path. *)
Definition xk : dec := mkx c1000 false 0 (repeat 98765432 128).
Lemma C07_kara_case_proof : cfg_ok c1000 /\ mul_ok c1000 /\ normal c1000 xk /\ elems_for_kara <= elem_number c1000 /\
  (exists z, mul c1000 (junk_r c1000) (junk_t c1000) xk xk = Some z /\ nth 0 (data z) 0 = 97546107).
Proof.
  split; [apply c1000_ok|]. split; [apply c1000_mul|]. split; [apply normal_b_sound; vm_compute; reflexivity|].
  split; [vm_compute; discriminate|]. eexists. split; vm_compute; reflexivity.
Qed.

(** A history exercising every kind of statement. *)
Definition prog : list stmt :=
  [SInt 0 (-7); SUInt 1 18446744073709551615; SMul 0 1; SAdd 1 0; SDivI 1 3; SSub 0 1; SSub 1 1; SMulI 0 (-12345678901);
   SAddI 0 99; SSubI 1 5; SNeg 0; SAbs 1; SCopy 2 0; SInc 2; SDec 0; SMul 2 2].
Lemma C09_case_proof : Forall (stmt_ok c50) prog /\ Forall (normal c50) [zero c50; zero c50; zero c50] /\
  exists s, run c50 (fun _ => (junk_r c50, junk_t c50)) 0 [zero c50; zero c50; zero c50] prog = Some s /\
            map iszero s = [false; false; false].
Proof.
  split.
  { unfold prog. repeat constructor; cbn [stmt_ok]; try (vm_compute; reflexivity); try (vm_compute; discriminate). }
  split; [repeat (apply Forall_cons; [apply zero_normal; apply c50_ok|]); apply Forall_nil|].
  eexists. split; vm_compute; reflexivity.
Qed.

(** Remaining small cases and repackagings. *)
Lemma C03_case_proof : digits_ok (10 ^ ed U32) [99999999; 99999999; 12345678] /\
  mul_school U32 [99999999; 99999999; 12345678] [99999999; 0; 87654321] =
    Some [99999998; 99999999; 99999999; 87654321; 23167199; 22374638].
Proof. split; [repeat constructor; cbn; lia|reflexivity]. Qed.
Lemma C05_case_proof : kara_size 128 /\ length (repeat 99999999 128) = 128%nat /\ digits_ok (10 ^ ed U32) (repeat 99999999 128).
Proof.
  split; [apply (kara_size_b_sound 10); reflexivity|]. split; [apply repeat_length|].
  apply Forall_forall. intros x H. apply repeat_spec in H. subst. cbn; lia.
Qed.
Lemma C06_case_proof : a029750 113 = 128 /\ a029750 1537 = 1792.
Proof. split; reflexivity. Qed.
Lemma C08_case_proof : normal c50 xa /\ normal c50 xn /\ cmp xn xa = -1.
Proof. split; [apply xa_normal|]. split; [apply xn_normal|reflexivity]. Qed.
Lemma from_ull_all c u : cfg_ok c -> 0 <= u < 2 ^ 64 ->
  normal c (from_ull c u) /\ truncates c (from_ull c u) (inject_Z u) /\
  (u < 10 ^ (edc c * elem_number c) -> (value c (from_ull c u) == inject_Z u)%Q).
Proof. intros Hc Hu. split; [apply from_ull_normal; auto|]. split; [apply from_ull_trunc; auto|apply from_ull_exact; auto]. Qed.
Lemma C10_case_proof : cfg_ok c50 /\ 0 <= 18446744073709551615 < 2 ^ 64 /\ 18446744073709551615 < 10 ^ (edc c50 * elem_number c50) /\
  data (from_ull c50 18446744073709551615) = [1844; 67440737; 9551615; 0; 0; 0; 0; 0; 0; 0].
Proof. split; [apply c50_ok|]. split; [split; [discriminate|reflexivity]|]. split; reflexivity. Qed.
Lemma mul_ull_all c rmem scratch x u : cfg_ok c -> mul_ok c -> pool_ok c rmem scratch ->
  normal c x -> iszero x = false -> 0 < u < 2 ^ 64 -> u < 10 ^ (edc c * elem_number c) ->
  - max_exp10_of (c_expo c) < dexp x -> dexp x + order_of_builtin_integer u < max_exp10_of (c_expo c) ->
  (u < 10 ^ edc c \/ ~ is_nines c x) ->
  exists z, mul_ull c rmem scratch x u = Some z /\ normal c z /\ iszero z = false /\
    truncates c z (value c x * inject_Z u) /\
    (forall k, (value c x * inject_Z u == inject_Z k * ulp c z)%Q -> (value c z == value c x * inject_Z u)%Q).
Proof.
  intros Hc Hm Hp Hx Zx Hu Hf Hlo Hhi Hn.
  destruct (mul_ull_trunc c Hc Hm rmem scratch x u) as (z & E1 & E2 & E3 & E4); auto.
  exists z. split; [auto|]. split; [auto|]. split; [auto|]. split; [auto|].
  intros k Hk. destruct (normal_ok c Hc z E2) as (A1 & A2 & _). apply (truncates_multiple c _ _ k); auto.
Qed.
Lemma mul_sll_all c rmem scratch x m : cfg_ok c -> mul_ok c -> pool_ok c rmem scratch ->
  normal c x -> iszero x = false -> - 2 ^ 63 <= m < 2 ^ 63 -> m <> 0 -> Z.abs m < 10 ^ (edc c * elem_number c) ->
  - max_exp10_of (c_expo c) < dexp x -> dexp x + order_of_builtin_integer (Z.abs m) < max_exp10_of (c_expo c) ->
  (Z.abs m < 10 ^ edc c \/ ~ is_nines c x) ->
  exists z, mul_sll c rmem scratch x m = Some z /\ normal c z /\ iszero z = false /\
    truncates c z (value c x * inject_Z m) /\
    (forall k, (value c x * inject_Z m == inject_Z k * ulp c z)%Q -> (value c z == value c x * inject_Z m)%Q).
Proof.
  intros Hc Hm Hp Hx Zx H1 H2 Hf Hlo Hhi Hn.
  destruct (mul_sll_trunc c Hc Hm rmem scratch x m) as (z & E1 & E2 & E3 & E4); auto.
  exists z. split; [auto|]. split; [auto|]. split; [auto|]. split; [auto|].
  intros k Hk. destruct (normal_ok c Hc z E2) as (A1 & A2 & _). apply (truncates_multiple c _ _ k); auto.
Qed.
Lemma C15_case_proof : - 2 ^ 63 <= -12345678901 < 2 ^ 63 /\ Z.abs (-12345678901) < 10 ^ (edc c50 * elem_number c50) /\
  ~ is_nines c50 xa /\ dexp xa + order_of_builtin_integer (Z.abs (-12345678901)) < max_exp10_of (c_expo c50) /\
  exists z, mul_sll c50 (junk_r c50) (junk_t c50) xa (-12345678901) = Some z /\ dneg z = true.
Proof.
  split; [split; [discriminate|reflexivity]|]. split; [reflexivity|]. split; [intros H; vm_compute in H; discriminate|].
  split; [reflexivity|]. eexists. split; vm_compute; reflexivity.
Qed.
Lemma C16_case_proof : cfg_ok c50 /\ normal c50 xa /\ 1 < 7 < 10 ^ edc c50 /\ - max_exp10_of (c_expo c50) <= dexp xa - edc c50 /\ 7 <= nth 0 (data xa) 0.
Proof. split; [apply c50_ok|]. split; [apply xa_normal|]. repeat split; try reflexivity; vm_compute; discriminate. Qed.
Lemma C17_case_proof : normal c50 (zero c50) /\ normal c50 xn /\ iszero (zero c50) = true /\ dexp xn < 0.
Proof. split; [apply normal_b_sound; reflexivity|]. split; [apply xn_normal|]. split; reflexivity. Qed.
Lemma C21_case_proof : uw_value (uw_sub 64 (uw_make 64 (-9223372036854775808)) (uw_make 64 5)) = -9223372036854775813.
Proof. reflexivity. Qed.
Lemma eps_all c : cfg_ok c -> (value c (nl_epsilon c) == p10 (1 - c_digits10 c))%Q /\
  (normal c (nl_epsilon c) <-> c_digits10 c mod edc c <> 1).
Proof. intros Hc. split; [apply eps_value; auto|apply eps_normal; auto]. Qed.
Lemma C34_case_proof : normal c50 xa /\ normal c50 xn /\ ~ is_nines c50 xa /\ ~ is_nines c50 xn /\ add c50 xa xn <> xa.
Proof.
  split; [apply xa_normal|]. split; [apply xn_normal|]. split; [intros H; vm_compute in H; discriminate|].
  split; [intros H; vm_compute in H; discriminate|vm_compute; discriminate].
Qed.
Lemma C37_case_proof : ilogb c50 xa = 7 /\ ilogb c50 xb = -8 /\ ilogb c50 xn = -1.
Proof. repeat split; reflexivity. Qed.
Lemma C38_case_proof : isint c50 xa = false /\ isint c50 (mkx c50 false 8 [1; 5]) = true.
Proof. split; reflexivity. Qed.
