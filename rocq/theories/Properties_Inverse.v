(** Properties_Inverse.v - exp and log undo each other (C63); fmod (C48) of arbitrary operands; ldexp (C47) and sinh, cosh, tanh (C53) of zero. *)
From Verif Require Import Base Model_Exp Model_Conv Add_proofs Witness Refute_func.
From Verif Require Import Spec_Real Spec_Conv Const_proofs Const2_proofs Exp5_proofs Model_Log Log4_proofs Hyp_proofs Powr_proofs Refute_log Refute_exp.
From Verif Require Import Inverse_proofs Zero_proofs Model_Rem Fmod3_proofs.
From Coq Require Import Lra.
Local Open Scope Z_scope.

(** C63: exp(log(x)) gives x back. 16 to 51 digits, x = 1 or x in the range of log (C52) with |ln x| from
    20 units of the last digit to 9 10^8: both calls return, and the relative error against x is below
    (23000 + 3|ln x|) 10^-digits10. *)
Theorem C63_exp_of_log_partial (c : cfg) (F : ftype) (W : Z) (memc memx : memories) (memi : nat -> memory) (fuel : nat) (x : dec) :
  cfg_ok c -> newton_ok c -> float_fits c F -> (digit_loops c F <= nel c)%nat ->
  (forall j, memory_ok (memc j)) -> (forall j, memory_ok (memi j)) -> (forall j, memory_ok (memx j)) ->
  16 <= c_digits10 c <= 51 -> edc c * elem_number c <= W -> 6 * W + 300 <= max_exp10_of (c_expo c) -> 900 <= max_exp10_of (c_expo c) -> (2 <= fuel)%nat ->
  normal c x -> (p10 (- (max_exp10_of (c_expo c) - 60)) <= value c x)%Q -> (value c x <= p10 (max_exp10_of (c_expo c) - 50))%Q ->
  (value c x == 1)%Q \/
    ((1 <= value c x)%Q \/ ((value c x <= 1 - 8 * p10 (- (c_digits10 c + 2 * edc c)))%Q /\ ~ (value c x == p10 (dexp x))%Q)) /\
    (20 * r10 (- c_digits10 c) <= Rabs (ln (rvalue c x)))%R ->
  (Rabs (ln (rvalue c x)) <= 900000000)%R -> (Rabs (ln (rvalue c x)) <= IZR (2 * (max_exp10_of (c_expo c) - 110)))%R ->
  exists l z, log c F (log_core c F memc) fuel memi x = Ret l /\ wexp c F (ln2_small c) memx l = Some z /\
    rel_close c z (rvalue c x) ((23000 + 3 * Rabs (ln (rvalue c x))) * r10 (- c_digits10 c)).
Proof.
  intros Hc Hk HF HJ Hmc Hmi Hmx HD HW HM HM9 Hf Nx X0 X1 Hx T1 T2.
  exact (exp_log c F W Hc Hk HF HJ HD HW HM HM9 memc memi memx fuel x Hmc Hmi Hmx Hf Nx X0 X1 Hx T1 T2).
Qed.

(** C63: log(exp(x)) gives x back. Every x from 30000 units of the last digit to 9 10^8 (and below twice the
    largest decimal exponent): both calls return, and the error is below (23000 + 3x) 10^-digits10. *)
Theorem C63_log_of_exp_partial (c : cfg) (F : ftype) (W : Z) (memc memx : memories) (memi : nat -> memory) (fuel : nat) (x : dec) :
  cfg_ok c -> newton_ok c -> float_fits c F -> (digit_loops c F <= nel c)%nat ->
  (forall j, memory_ok (memc j)) -> (forall j, memory_ok (memi j)) -> (forall j, memory_ok (memx j)) ->
  16 <= c_digits10 c <= 51 -> edc c * elem_number c <= W -> 6 * W + 300 <= max_exp10_of (c_expo c) -> 900 <= max_exp10_of (c_expo c) -> (2 <= fuel)%nat ->
  normal c x -> (30000 * r10 (- c_digits10 c) <= rvalue c x)%R -> (rvalue c x <= 900000000)%R -> (rvalue c x <= IZR (2 * (max_exp10_of (c_expo c) - 110)))%R ->
  exists e z, wexp c F (ln2_small c) memx x = Some e /\ log c F (log_core c F memc) fuel memi e = Ret z /\
    (Rabs (rvalue c z - rvalue c x) <= (23000 + 3 * rvalue c x) * r10 (- c_digits10 c))%R.
Proof.
  intros Hc Hk HF HJ Hmc Hmi Hmx HD HW HM HM9 Hf Nx X0 T1 T2.
  exact (log_exp c F W Hc Hk HF HJ HD HW HM HM9 memc memi memx fuel x Hmc Hmi Hmx Hf Nx X0 T1 T2).
Qed.

Example C63_case : let x := from_sll c50 2 in
  cfg_ok c50 /\ newton_ok c50 /\ float_fits c50 f_double /\ (digit_loops c50 f_double <= nel c50)%nat /\ (forall j, memory_ok (mz j)) /\ (forall j, memory_ok (minear j)) /\
  16 <= c_digits10 c50 <= 51 /\ edc c50 * elem_number c50 <= 1000 /\ 6 * 1000 + 300 <= max_exp10_of (c_expo c50) /\ 900 <= max_exp10_of (c_expo c50) /\
  normal c50 x /\ (p10 (-100) <= value c50 x)%Q /\ (value c50 x <= p10 100)%Q /\ (1 <= value c50 x)%Q /\
  (20 * r10 (- c_digits10 c50) <= Rabs (ln (rvalue c50 x)))%R /\ (Rabs (ln (rvalue c50 x)) <= 1)%R /\
  (30000 * r10 (- c_digits10 c50) <= rvalue c50 x)%R /\ (rvalue c50 x <= 2)%R.
Proof.
  cbv zeta. destruct func_case as (H1 & H2 & H3 & H4 & H5 & _). split; [exact H1|]. split; [exact H2|]. split; [exact H3|]. split; [exact H4|]. split; [intros j; exact H5|]. split; [intros j; exact H5|].
  split; [split; vm_compute; discriminate|]. split; [vm_compute; discriminate|]. split; [vm_compute; discriminate|]. split; [vm_compute; discriminate|].
  assert (V2 : rvalue c50 (from_sll c50 2) = 2%R).
  { unfold rvalue. assert (E : (value c50 (from_sll c50 2) == 2)%Q) by (vm_compute; reflexivity). rewrite (Qeq_eqR _ _ E). unfold Q2R. simpl. field. }
  pose proof ln2_bounds as LB.
  split; [apply normal_b_sound; vm_compute; reflexivity|]. split; [vm_compute; discriminate|]. split; [vm_compute; discriminate|]. split; [vm_compute; discriminate|].
  rewrite V2, Rabs_pos_eq by lra. change (r10 (- c_digits10 c50)) with (Q2R (1 # 10 ^ 50)). rewrite Q2R_frac. change (Z.pos (10 ^ 50)) with 100000000000000000000000000000000000000000000000000.
  split; [lra|]. split; [lra|]. split; lra.
Qed.

Print Assumptions C63_exp_of_log_partial.
Print Assumptions C63_log_of_exp_partial.

(** C47 at zero: ldexp(0, e) is zero for every exponent whose power of two is representable. *)
Theorem C47_ldexp_of_zero : forall c, cfg_ok c -> newton_ok c -> forall FI mem v e,
  float_fits c FI -> (digit_loops c FI <= nel c)%nat -> memory_ok mem -> normal c v -> iszero v = true ->
  - 2 ^ 31 < e < 2 ^ 31 -> (inject_Z (4 * Z.abs e) * p10 (- (c_digits10 c + 2 * edc c)) <= 1)%Q ->
  (p2 (Z.abs e) <= p10 (max_exp10_of (c_expo c) - 40))%Q ->
  exists z, ldexp c FI mem v e = Some z /\ (value c z == 0)%Q.
Proof. exact ldexp_zero. Qed.
Print Assumptions C47_ldexp_of_zero.

(** C53 at zero: sinh(0) = 0, tanh(0) = 0 and cosh(0) = 1 to the last digit, whatever ln_two() returns. *)
Theorem C53_hyperbolic_of_zero (c : cfg) (F : ftype) (ln2 : dec) (mems : memories) (x : dec) :
  cfg_ok c -> newton_ok c -> float_fits c F -> (digit_loops c F <= nel c)%nat -> (forall j, memory_ok (mems j)) ->
  normal c x -> iszero x = true -> dneg x = false ->
  exists s h t, wsinh c F ln2 mems x = Some s /\ wcosh c F ln2 mems x = Some h /\ wtanh c F ln2 mems x = Some t /\
    (value c s == 0)%Q /\ (Qabs (value c h - 1) <= 2 * p10 (- c_digits10 c))%Q /\ (value c t == 0)%Q.
Proof. intros Hc Hk HF HJ Hm Nx Zx Sx. exact (hyp_zero c Hc Hk F HF HJ ln2 mems x Hm Nx Zx Sx). Qed.
Print Assumptions C53_hyperbolic_of_zero.

Example zero_case : cfg_ok c50 /\ newton_ok c50 /\ float_fits c50 f_double /\ (digit_loops c50 f_double <= nel c50)%nat /\ (forall j, memory_ok (mz j)) /\
  normal c50 (zero c50) /\ iszero (zero c50) = true /\ dneg (zero c50) = false /\
  (inject_Z (4 * Z.abs (-1000)) * p10 (- (c_digits10 c50 + 2 * edc c50)) <= 1)%Q /\
  (p2 (Z.abs (-1000)) <= p10 (400 - 40))%Q /\ 400 <= max_exp10_of (c_expo c50) /\
  wcosh c50 f_double (ln2_small c50) mz (zero c50) = Some (one c50).
Proof.
  destruct func_case as (H1 & H2 & H3 & H4 & H5 & _). split; [exact H1|]. split; [exact H2|]. split; [exact H3|]. split; [exact H4|]. split; [intros j; exact H5|].
  split; [exact (zero_normal c50)|]. split; [reflexivity|]. split; [reflexivity|]. split; [vm_compute; discriminate|]. split; [vm_compute; discriminate|]. split; [vm_compute; discriminate|].
  apply dec_is_true. vm_compute. reflexivity.
Qed.

(** C48 for arbitrary operands, of either sign: fmod(x, v) is x minus a whole multiple of v, up to the rounding
    of the last product and difference; the exact remainder is below |v| (up to 10^-digits10 |x|) and, for a
    positive divisor, does not have the sign opposite to the dividend (up to the same). *)
Theorem C48_remainder_partial : forall c F mem x v, cfg_ok c -> newton_ok c -> float_fits c F -> (digit_loops c F <= nel c)%nat -> memory_ok mem ->
  normal c x -> normal c v -> iszero x = false -> iszero v = false -> edc c <= c_digits10 c + 4 ->
  (Qabs (value c x) <= (p10 (c_digits10 c - 1) - 3) * Qabs (value c v))%Q ->
  (~ is_one c x /\ ~ is_nines c x) \/ ~ (Qabs (value c v) == p10 (dexp v))%Q ->
  - max_exp10_of (c_expo c) < dexp v < max_exp10_of (c_expo c) - 3 * edc c ->
  - max_exp10_of (c_expo c) + 2 * edc c < dexp x - dexp v < max_exp10_of (c_expo c) ->
  dexp x < max_exp10_of (c_expo c) - 3 * edc c -> exp_safe c (dexp x) ->
  exists z N, fmod c F mem x v = Some z /\
    let exact := (value c x - inject_Z N * value c v)%Q in
    (Qabs (value c z - exact) <= 5 * p10 (- (c_digits10 c + 2 * edc c)) * (Qabs (value c x) + Qabs (value c v)))%Q /\
    (Qabs exact <= Qabs (value c v) + p10 (- c_digits10 c) * Qabs (value c x))%Q /\
    (0 < value c v -> if dneg x then exact <= p10 (- c_digits10 c) * Qabs (value c x) else - (p10 (- c_digits10 c) * Qabs (value c x)) <= exact)%Q.
Proof. intros c F mem x v Hc Hk HF HJ. exact (fmod_general c F Hc Hk HF HJ mem x v). Qed.
Print Assumptions C48_remainder_partial.

Example C48_general_case : let x := mkx c50 false 0 [7; 35200000] in let v := mkx c50 true (-8) [10000000] in
  normal c50 x /\ normal c50 v /\ iszero x = false /\ iszero v = false /\ edc c50 <= c_digits10 c50 + 4 /\
  (Qabs (value c50 x) <= (p10 (c_digits10 c50 - 1) - 3) * Qabs (value c50 v))%Q /\ ~ (Qabs (value c50 v) == p10 (dexp v))%Q /\
  - max_exp10_of (c_expo c50) < dexp v < max_exp10_of (c_expo c50) - 3 * edc c50 /\
  - max_exp10_of (c_expo c50) + 2 * edc c50 < dexp x - dexp v < max_exp10_of (c_expo c50) /\
  dexp x < max_exp10_of (c_expo c50) - 3 * edc c50 /\ exp_safe c50 (dexp x).
Proof.
  cbv zeta. split; [apply normal_b_sound; vm_compute; reflexivity|]. split; [apply normal_b_sound; vm_compute; reflexivity|]. split; [reflexivity|]. split; [reflexivity|].
  split; [vm_compute; discriminate|]. split; [vm_compute; discriminate|]. split; [intros K; vm_compute in K; discriminate K|].
  split; [split; vm_compute; reflexivity|]. split; [split; vm_compute; reflexivity|]. split; [vm_compute; reflexivity|]. split; [vm_compute; discriminate|vm_compute; reflexivity].
Qed.
