(** Properties_Exp.v - the stored constants (C50), exp (C51), log (C52), the hyperbolic
    functions (C53) and pow with a real exponent (C54). *)
From Verif Require Import Base Model_Exp Add_proofs Witness Refute_func.
From Verif Require Import Spec_Real Const_proofs Const2_proofs Exp5_proofs Model_Log Log4_proofs Hyp_proofs Powr_proofs Refute_log Refute_exp.
From Coq Require Import Lra.
Local Open Scope Z_scope.

(** C50: for every limb type and exponent type and every number of digits up to 51, pi(), ln_two() and
    ln_ten() are pi, ln 2 and ln 10 cut off after the last stored limb: every stored digit is right. *)
Theorem C50_constants_partial (c : cfg) : cfg_ok c -> c_digits10 c <= 51 ->
  (normal c (pi_small c) /\ iszero (pi_small c) = false /\ cuts_off c (pi_small c) PI) /\
  (normal c (ln2_small c) /\ iszero (ln2_small c) = false /\ cuts_off c (ln2_small c) (ln 2)) /\
  (normal c (ln10_small c) /\ iszero (ln10_small c) = false /\ cuts_off c (ln10_small c) (ln 10)).
Proof.
  intros Hc HD. split; [exact (pi_cut c Hc HD)|]. split; [exact (ln2_cut c Hc HD)|exact (ln10_cut c Hc HD)].
Qed.

Example C50_case : cfg_ok c50 /\ c_digits10 c50 <= 51 /\
  data (pi_small c50) = [3; 14159265; 35897932; 38462643; 38327950; 28841971; 69399375; 10582097; 49445923; 7816406].
Proof. split; [exact c50_ok|]. split; [vm_compute; discriminate|vm_compute; reflexivity]. Qed.

Print Assumptions C50_constants_partial.

(** C51: exp, at most 2000 digits. [ln2] is what ln_two() returns: any number within 10^-(digits10+2) of
    ln 2. For every x between 10^-W and 10^9 in size (and below twice the largest decimal exponent), of
    either sign, and zero, exp(x) returns, and its relative error is below (22000 + |x|) 10^-digits10. *)
Theorem C51_exp_partial (c : cfg) (F : ftype) (W : Z) (ln2 : dec) (mems : memories) (x : dec) :
  cfg_ok c -> newton_ok c -> float_fits c F -> (digit_loops c F <= nel c)%nat -> (forall j, memory_ok (mems j)) ->
  16 <= c_digits10 c <= 2000 -> edc c * elem_number c <= W -> 6 * W + 300 <= max_exp10_of (c_expo c) ->
  normal c ln2 -> (Rabs (rvalue c ln2 - ln 2) <= r10 (- (c_digits10 c + 2)))%R ->
  normal c x -> (Qabs (value c x) <= 1000000000)%Q -> (Qabs (value c x) <= inject_Z (2 * (max_exp10_of (c_expo c) - 100)))%Q ->
  (iszero x = true /\ dneg x = false) \/ (p10 (- W) <= Qabs (value c x))%Q ->
  exists z, wexp c F ln2 mems x = Some z /\
    rel_close c z (exp (rvalue c x)) ((22000 + Rabs (rvalue c x)) * r10 (- c_digits10 c)).
Proof.
  intros Hc Hk HF HJ Hm HD HW HM Nl L2 Nx X1 XM HX. exact (wexp_accurate c F W Hc Hk HF HJ HD HW HM ln2 Nl L2 mems x Hm Nx X1 XM HX).
Qed.

(** C51, at most 51 digits: with the stored constant ln 2. *)
Theorem C51_exp_stored_constant_partial (c : cfg) (F : ftype) (W : Z) (mems : memories) (x : dec) :
  cfg_ok c -> newton_ok c -> float_fits c F -> (digit_loops c F <= nel c)%nat -> (forall j, memory_ok (mems j)) ->
  16 <= c_digits10 c <= 51 -> edc c * elem_number c <= W -> 6 * W + 300 <= max_exp10_of (c_expo c) ->
  normal c x -> (Qabs (value c x) <= 1000000000)%Q -> (Qabs (value c x) <= inject_Z (2 * (max_exp10_of (c_expo c) - 100)))%Q ->
  (iszero x = true /\ dneg x = false) \/ (p10 (- W) <= Qabs (value c x))%Q ->
  exists z, wexp c F (ln2_small c) mems x = Some z /\
    rel_close c z (exp (rvalue c x)) ((22000 + Rabs (rvalue c x)) * r10 (- c_digits10 c)).
Proof.
  intros Hc Hk HF HJ Hm HD HW HM Nx X1 XM HX. destruct (ln2_stored c Hc ltac:(lia)) as [Nl L2].
  exact (wexp_accurate c F W Hc Hk HF HJ ltac:(lia) HW HM (ln2_small c) Nl L2 mems x Hm Nx X1 XM HX).
Qed.

Example C51_case : cfg_ok c50 /\ newton_ok c50 /\ float_fits c50 f_double /\ (digit_loops c50 f_double <= nel c50)%nat /\ (forall j, memory_ok (mz j)) /\
  16 <= c_digits10 c50 <= 51 /\ edc c50 * elem_number c50 <= 1000 /\ 6 * 1000 + 300 <= max_exp10_of (c_expo c50) /\
  normal c50 x352 /\ (Qabs (value c50 x352) <= 1000000000)%Q /\ (Qabs (value c50 x352) <= inject_Z (2 * (max_exp10_of (c_expo c50) - 100)))%Q /\
  (p10 (- 1000) <= Qabs (value c50 x352))%Q /\ wexp c50 f_double (ln2_small c50) mz x352 = Some e352.
Proof.
  destruct func_case as (H1 & H2 & H3 & H4 & H5 & _). split; [exact H1|]. split; [exact H2|]. split; [exact H3|]. split; [exact H4|]. split; [intros j; exact H5|].
  split; [split; vm_compute; discriminate|]. split; [vm_compute; discriminate|]. split; [vm_compute; discriminate|]. split; [exact x352_normal|].
  split; [vm_compute; discriminate|]. split; [vm_compute; discriminate|]. split; [vm_compute; discriminate|exact e352_run].
Qed.

(** C51, refuted: the error is not a few units of the last of the digits10 digits. exp(0.352) with 50
    digits differs from the exponential by more than 10000 of them. *)
Theorem C51_last_digits_refuted : normal c50 x352 /\ (value c50 x352 == 352 # 1000)%Q /\
  wexp c50 f_double (ln2_small c50) mz x352 = Some e352 /\
  ~ rel_close c50 e352 (exp (rvalue c50 x352)) (10000 * r10 (- c_digits10 c50)).
Proof. split; [exact x352_normal|]. split; [vm_compute; reflexivity|]. split; [exact e352_run|exact exp_loses_digits]. Qed.

(** C51, refuted: exp(1500000000) with 50 digits and 64-bit exponents, where the result
    (about 10^651441722) is representable, returns a number below one: the binary exponent is kept in 32
    bits and its sign changes. *)
Theorem C51_large_argument_refuted : normal c50 xbig /\ (value c50 xbig == 1500000000)%Q /\ 1500000000 < max_exp10_of (c_expo c50) /\
  wexp c50 f_double (ln2_small c50) mz xbig = Some ebig /\ (0 < value c50 ebig < 1)%Q /\ (1 < exp (rvalue c50 xbig))%R.
Proof.
  destruct exp_wraps as (A & B & C & _ & D). split; [exact A|]. split; [exact B|]. split; [vm_compute; reflexivity|]. split; [exact C|]. split; [exact D|].
  rewrite <- exp_0. apply exp_increasing. unfold rvalue. rewrite (Qeq_eqR _ _ B). unfold Q2R. cbn [Qnum Qden]. lra.
Qed.

Print Assumptions C51_exp_partial.
Print Assumptions C51_exp_stored_constant_partial.
Print Assumptions C51_last_digits_refuted.
Print Assumptions C51_large_argument_refuted.

(** C52: log, 16 to 51 digits. For every x above one (up to 10^(max_exponent10-50)), for x = 1, and for
    every positive x of size at least 10^-(max_exponent10-60) that is below one by at least eight units of
    the working precision and is not a power of the limb base, log(x) returns (at most two nested calls) and
    differs from the real logarithm by at most (9 + |ln x|) 10^-digits10. [memc] and [memi] are the memory
    of the multiplications of the series and of the reciprocal. *)
Theorem C52_log_partial (c : cfg) (F : ftype) (memc : memories) (memi : nat -> memory) (fuel : nat) (x : dec) :
  cfg_ok c -> newton_ok c -> float_fits c F -> (digit_loops c F <= nel c)%nat -> (forall j, memory_ok (memc j)) -> (forall j, memory_ok (memi j)) ->
  16 <= c_digits10 c <= 51 -> 900 <= max_exp10_of (c_expo c) -> (2 <= fuel)%nat ->
  normal c x -> (p10 (- (max_exp10_of (c_expo c) - 60)) <= value c x)%Q -> (value c x <= p10 (max_exp10_of (c_expo c) - 50))%Q ->
  (1 <= value c x)%Q \/ ((value c x <= 1 - 8 * p10 (- (c_digits10 c + 2 * edc c)))%Q /\ ~ (value c x == p10 (dexp x))%Q) ->
  exists z, log c F (log_core c F memc) fuel memi x = Ret z /\ normal c z /\
    (Rabs (rvalue c z - ln (rvalue c x)) <= (9 + Rabs (ln (rvalue c x))) * r10 (- c_digits10 c))%R.
Proof.
  intros Hc Hk HF HJ Hm Hi HD HM Hf Nx X0 X1 Hx. exact (log_accurate c F Hc Hk HF HJ HD HM memc memi fuel x Hm Hi Hf Nx X0 X1 Hx).
Qed.

Example C52_case : cfg_ok c50 /\ newton_ok c50 /\ float_fits c50 f_double /\ (digit_loops c50 f_double <= nel c50)%nat /\
  (forall j, memory_ok (mz j)) /\ (forall j, memory_ok (minear j)) /\ 16 <= c_digits10 c50 <= 51 /\ 900 <= max_exp10_of (c_expo c50) /\
  normal c50 xbelow /\ (p10 (- 100) <= value c50 xbelow)%Q /\ 100 <= max_exp10_of (c_expo c50) - 60 /\ (value c50 xbelow <= p10 0)%Q /\ 0 <= max_exp10_of (c_expo c50) - 50 /\
  (value c50 xbelow <= 1 - 8 * p10 (- (c_digits10 c50 + 2 * edc c50)))%Q /\ ~ (value c50 xbelow == p10 (dexp xbelow))%Q /\
  log c50 f_double (log_core c50 f_double mz) 2 minear xbelow =
    Ret (mkx c50 true (-8) [10000; 50003333; 58335333; 50001428; 69643968; 35397734; 57107551; 48050854; 66914936; 40769544]).
Proof.
  destruct func_case as (H1 & H2 & H3 & H4 & H5 & _). split; [exact H1|]. split; [exact H2|]. split; [exact H3|]. split; [exact H4|]. split; [intros j; exact H5|]. split; [intros j; exact H5|].
  split; [split; vm_compute; discriminate|]. split; [vm_compute; discriminate|]. split; [exact xbelow_normal|]. split; [vm_compute; discriminate|]. split; [vm_compute; discriminate|].
  split; [vm_compute; discriminate|]. split; [vm_compute; discriminate|]. split; [vm_compute; discriminate|]. split; [vm_compute; discriminate|].
  apply ret_is_true. vm_compute. reflexivity.
Qed.

(** C52, refuted: near one the error is not a few units of the last of the digits10 digits of the result:
    the series is cut off at an absolute size. log(1 + 99e-13) with 50 digits has only 44 right digits. *)
Theorem C52_relative_refuted : normal c50 xnear /\ (value c50 xnear == 1 + (99 # 10000000000000))%Q /\
  log c50 f_double (log_core c50 f_double mz) 2 minear xnear = Ret lnear /\
  ~ rel_close c50 lnear (ln (rvalue c50 xnear)) (10000 * r10 (- c_digits10 c50)).
Proof. split; [exact xnear_normal|]. split; [vm_compute; reflexivity|]. split; [exact lnear_run|exact log_loses_digits]. Qed.

Print Assumptions C52_log_partial.
Print Assumptions C52_relative_refuted.

(** C53: sinh, cosh and tanh, at most 2000 digits, for every x of either sign in the range of C51 for which
    exp(x) comes out well-formed and not a power of the limb base (whose reciprocal is not well-formed,
    C39). All three return; cosh has relative error, and sinh error relative to cosh, below
    (23000 + 2|x|) 10^-digits10; tanh has absolute error below (47000 + 3|x|) 10^-digits10. *)
Theorem C53_hyperbolic_partial (c : cfg) (F : ftype) (W : Z) (ln2 : dec) (mems : memories) (x : dec) :
  cfg_ok c -> newton_ok c -> float_fits c F -> (digit_loops c F <= nel c)%nat -> (forall j, memory_ok (mems j)) ->
  16 <= c_digits10 c <= 2000 -> edc c * elem_number c <= W -> 6 * W + 300 <= max_exp10_of (c_expo c) ->
  normal c ln2 -> (Rabs (rvalue c ln2 - ln 2) <= r10 (- (c_digits10 c + 2)))%R ->
  normal c x -> (Qabs (value c x) <= 1000000000)%Q -> (Qabs (value c x) <= inject_Z (2 * (max_exp10_of (c_expo c) - 100)))%Q -> (p10 (- W) <= Qabs (value c x))%Q ->
  (forall ep, wexp c F ln2 mems x = Some ep -> normal c ep /\ ~ (value c ep == p10 (dexp ep))%Q) ->
  exists s h t, wsinh c F ln2 mems x = Some s /\ wcosh c F ln2 mems x = Some h /\ wtanh c F ln2 mems x = Some t /\
    (Rabs (rvalue c s - sinh (rvalue c x)) <= (23000 + 2 * Rabs (rvalue c x)) * r10 (- c_digits10 c) * cosh (rvalue c x))%R /\
    (Rabs (rvalue c h - cosh (rvalue c x)) <= (23000 + 2 * Rabs (rvalue c x)) * r10 (- c_digits10 c) * cosh (rvalue c x))%R /\
    (Rabs (rvalue c t - tanh (rvalue c x)) <= (47000 + 3 * Rabs (rvalue c x)) * r10 (- c_digits10 c))%R.
Proof.
  intros Hc Hk HF HJ Hm HD HW HM Nl L2 Nx X1 XM X2 Hr. exact (hyp_accurate c F W Hc Hk HF HJ HD HW HM ln2 Nl L2 mems x Hm Nx X1 XM X2 Hr).
Qed.

Example C53_case : cfg_ok c50 /\ newton_ok c50 /\ float_fits c50 f_double /\ (digit_loops c50 f_double <= nel c50)%nat /\ (forall j, memory_ok (mz j)) /\
  16 <= c_digits10 c50 <= 2000 /\ edc c50 * elem_number c50 <= 1000 /\ 6 * 1000 + 300 <= max_exp10_of (c_expo c50) /\
  normal c50 (ln2_small c50) /\ (Rabs (rvalue c50 (ln2_small c50) - ln 2) <= r10 (- (c_digits10 c50 + 2)))%R /\
  normal c50 x352 /\ (Qabs (value c50 x352) <= 1000000000)%Q /\ (Qabs (value c50 x352) <= inject_Z (2 * (max_exp10_of (c_expo c50) - 100)))%Q /\
  (p10 (- 1000) <= Qabs (value c50 x352))%Q /\
  (forall ep, wexp c50 f_double (ln2_small c50) mz x352 = Some ep -> normal c50 ep /\ ~ (value c50 ep == p10 (dexp ep))%Q).
Proof.
  destruct func_case as (H1 & H2 & H3 & H4 & H5 & _). split; [exact H1|]. split; [exact H2|]. split; [exact H3|]. split; [exact H4|]. split; [intros j; exact H5|].
  split; [split; vm_compute; discriminate|]. split; [vm_compute; discriminate|]. split; [vm_compute; discriminate|].
  assert (D51 : 16 <= c_digits10 c50 <= 51) by (split; vm_compute; discriminate). destruct (ln2_stored c50 H1 (proj2 D51)) as [Nl L2]. split; [exact Nl|]. split; [exact L2|]. split; [exact x352_normal|].
  split; [vm_compute; discriminate|]. split; [vm_compute; discriminate|]. split; [vm_compute; discriminate|].
  intros ep E. rewrite e352_run in E. injection E as <-. split; [apply normal_b_sound; vm_compute; reflexivity|]. vm_compute. discriminate.
Qed.

(** C53, refuted: sinh has no relative accuracy near zero. sinh(10^-96) with 50 digits is zero. *)
Definition xtiny : dec := mkx c50 false (-96) [1].
Theorem C53_sinh_relative_refuted : normal c50 xtiny /\ (value c50 xtiny == p10 (- 96))%Q /\
  wsinh c50 f_double (ln2_small c50) mz xtiny = Some (zero c50) /\ (0 < sinh (rvalue c50 xtiny))%R.
Proof.
  split; [apply normal_b_sound; vm_compute; reflexivity|]. assert (V : (value c50 xtiny == p10 (- 96))%Q) by (vm_compute; reflexivity). split; [exact V|].
  split; [apply dec_is_true; vm_compute; reflexivity|]. rewrite <- sinh_0. apply sinh_lt. unfold rvalue. rewrite (Qeq_eqR _ _ V).
  replace 0%R with (Q2R 0) by (unfold Q2R; simpl; field). apply Qlt_Rlt. apply Value_proofs.p10_pos.
Qed.

Print Assumptions C53_hyperbolic_partial.
Print Assumptions C53_sinh_relative_refuted.

(** C54: pow(x, a) with a real exponent, 16 to 51 digits. For x = 1 and for every x in the range of C52
    whose logarithm is at least 20 units of the last digit in size, every a from 10^-(W-digits10) to
    10^(digits10-8) in size and of either sign, with a ln x in the range of exp: pow(x, a) returns, and its
    relative error against the real power x^a = exp(a ln x) is below (23000 + 20|a| + 3|a ln x|) 10^-digits10.
    pow(x, 0) = 1 for every x. *)
Theorem C54_pow_real_partial (c : cfg) (F : ftype) (W : Z) (memc memx : memories) (memi : nat -> memory) (mem : memory) (fuel : nat) (x a : dec) :
  cfg_ok c -> newton_ok c -> float_fits c F -> (digit_loops c F <= nel c)%nat ->
  (forall j, memory_ok (memc j)) -> (forall j, memory_ok (memi j)) -> memory_ok mem -> (forall j, memory_ok (memx j)) ->
  16 <= c_digits10 c <= 51 -> edc c * elem_number c <= W -> 6 * W + 300 <= max_exp10_of (c_expo c) -> 900 <= max_exp10_of (c_expo c) -> (2 <= fuel)%nat ->
  normal c x -> (p10 (- (max_exp10_of (c_expo c) - 60)) <= value c x)%Q -> (value c x <= p10 (max_exp10_of (c_expo c) - 50))%Q ->
  (value c x == 1)%Q \/
    ((1 <= value c x)%Q \/ ((value c x <= 1 - 8 * p10 (- (c_digits10 c + 2 * edc c)))%Q /\ ~ (value c x == p10 (dexp x))%Q)) /\
    (20 * r10 (- c_digits10 c) <= Rabs (ln (rvalue c x)))%R ->
  normal c a -> (p10 (- (W - c_digits10 c)) <= Qabs (value c a))%Q -> (Qabs (value c a) <= p10 (c_digits10 c - 8))%Q ->
  (Rabs (rvalue c a * ln (rvalue c x)) <= 900000000)%R -> (Rabs (rvalue c a * ln (rvalue c x)) <= IZR (2 * (max_exp10_of (c_expo c) - 110)))%R ->
  exists z, pow_real c F (log_core c F memc) (wexp c F (ln2_small c) memx) fuel memi mem x a = Ret z /\
    rel_close c z (Rpower (rvalue c x) (rvalue c a))
      ((23000 + 20 * Rabs (rvalue c a) + 3 * Rabs (rvalue c a * ln (rvalue c x))) * r10 (- c_digits10 c)).
Proof.
  intros Hc Hk HF HJ H1 H2 H3 H4 HD HW HM HM9 Hf Nx X0 X1 Hx Na A0 A1 T1 T2. unfold Rpower.
  exact (pow_accurate c F W Hc Hk HF HJ HD HW HM HM9 memc memi mem memx fuel x a H1 H2 H3 H4 Hf Nx X0 X1 Hx Na A0 A1 T1 T2).
Qed.
Theorem C54_pow_zero (c : cfg) (F : ftype) core exp fuel memi mem (x a : dec) : cfg_ok c -> normal c a -> (value c a == 0)%Q ->
  exists z, pow_real c F core exp fuel memi mem x a = Ret z /\ (value c z == 1)%Q.
Proof.
  intros Hc Na Va. exists (one c). split; [|exact (Floor_proofs.one_value c Hc)]. unfold pow_real.
  replace (iszero a) with true; [reflexivity|]. symmetry. apply Bool.not_false_is_true. intros K. exact (Sum_proofs.value_nonzero c Hc a Na K Va).
Qed.

Example C54_case : let x := from_sll c50 2 in let a := from_sll c50 (-100) in
  cfg_ok c50 /\ newton_ok c50 /\ float_fits c50 f_double /\ (digit_loops c50 f_double <= nel c50)%nat /\ (forall j, memory_ok (mz j)) /\ (forall j, memory_ok (minear j)) /\ memory_ok mem0 /\
  16 <= c_digits10 c50 <= 51 /\ edc c50 * elem_number c50 <= 1000 /\ 6 * 1000 + 300 <= max_exp10_of (c_expo c50) /\ 900 <= max_exp10_of (c_expo c50) /\
  normal c50 x /\ (p10 (-100) <= value c50 x)%Q /\ (value c50 x <= p10 100)%Q /\ 1000 <= max_exp10_of (c_expo c50) /\ (1 <= value c50 x)%Q /\ (20 * r10 (- c_digits10 c50) <= Rabs (ln (rvalue c50 x)))%R /\
  normal c50 a /\ (p10 (- (1000 - c_digits10 c50)) <= Qabs (value c50 a))%Q /\ (Qabs (value c50 a) <= p10 (c_digits10 c50 - 8))%Q /\
  (Rabs (rvalue c50 a * ln (rvalue c50 x)) <= 200)%R.
Proof.
  cbv zeta. destruct func_case as (H1 & H2 & H3 & H4 & H5 & _). split; [exact H1|]. split; [exact H2|]. split; [exact H3|]. split; [exact H4|]. split; [intros j; exact H5|]. split; [intros j; exact H5|]. split; [exact H5|].
  split; [split; vm_compute; discriminate|]. split; [vm_compute; discriminate|]. split; [vm_compute; discriminate|]. split; [vm_compute; discriminate|].
  assert (V2 : rvalue c50 (from_sll c50 2) = 2%R).
  { unfold rvalue. assert (E : (value c50 (from_sll c50 2) == 2)%Q) by (vm_compute; reflexivity). rewrite (Qeq_eqR _ _ E). unfold Q2R. simpl. field. }
  assert (VA : rvalue c50 (from_sll c50 (-100)) = (-100)%R).
  { unfold rvalue. assert (E : (value c50 (from_sll c50 (-100)) == -100)%Q) by (vm_compute; reflexivity). rewrite (Qeq_eqR _ _ E). unfold Q2R. simpl. field. }
  pose proof ln2_bounds as LB.
  split; [apply normal_b_sound; vm_compute; reflexivity|]. split; [vm_compute; discriminate|]. split; [vm_compute; discriminate|]. split; [vm_compute; discriminate|]. split; [vm_compute; discriminate|].
  split. { rewrite V2, Rabs_pos_eq by lra. change (r10 (- c_digits10 c50)) with (Q2R (1 # 10 ^ 50)). rewrite Q2R_frac. change (Z.pos (10 ^ 50)) with 100000000000000000000000000000000000000000000000000. lra. }
  split; [apply normal_b_sound; vm_compute; reflexivity|]. split; [vm_compute; discriminate|]. split; [vm_compute; discriminate|].
  rewrite V2, VA, Rabs_mult, (Rabs_pos_eq (ln 2)) by lra. rewrite Rabs_left by lra. lra.
Qed.

Print Assumptions C54_pow_real_partial.
Print Assumptions C54_pow_zero.
