(** Conv8_proofs.v - conversions: counterexamples and cases. *)
From Verif Require Export Conv7_proofs Model_Round.
From Coq Require Import Lqa.
Local Open Scope Z_scope.

Definition c16u : cfg := mkCfg U32 16 E32.
Lemma c16u_ok : cfg_ok c16u. Proof. unfold cfg_ok, c16u; vm_compute; repeat split; discriminate. Qed.

(** The double 1.0 becomes 0.99.. and then the integer 0. *)
Lemma from_one_fails : exists z, from_float c16u f_double f_double mem0 false 1 = Some z /\ normal c16u z /\
  (value c16u z < 1)%Q /\ to_ull c16u z = Some 0 /\ to_sll c16u z = Some 0.
Proof.
  eexists. split; [vm_compute; reflexivity|]. split; [apply normal_b_sound; vm_compute; reflexivity|].
  split; [vm_compute; reflexivity|]. split; vm_compute; reflexivity.
Qed.
Lemma from_hundred_fails : exists z, from_float c20 f_double f_double mem0 false 100 = Some z /\ (value c20 z < 100)%Q.
Proof. eexists. split; [vm_compute; reflexivity|vm_compute; reflexivity]. Qed.

(** The exponent's digits leave no room for the terminating zero. *)
Lemma no_terminator : exists x, normal c20 x /\ (value c20 x == p10 1001)%Q /\ ldbl_text c20 x = None.
Proof.
  exists (mkx c20 false 1000 [10]). split; [apply normal_b_sound; vm_compute; reflexivity|]. split; vm_compute; reflexivity.
Qed.
(** Rounding to long double and then to double is not rounding to double. *)
Lemma double_rounding : exists x, normal c50 x /\
  to_float c50 strtold_ref f_double x = Some 1%Q /\
  (Qabs (value c50 x - (1 + p2 (-52))) < Qabs (value c50 x - 1))%Q.
Proof.
  exists (mkx c50 false 0 [1;0;1;11022303]). split; [apply normal_b_sound; vm_compute; reflexivity|].
  split; vm_compute; reflexivity.
Qed.
Lemma ldexp_min c FI mem v : ldexp c FI mem v (- 2 ^ 31) = None.
Proof. reflexivity. Qed.

Ltac qd := first [vm_compute; discriminate | vm_compute; reflexivity].

Definition tenth : Q := 7205759403792794 # 72057594037927936.
Lemma tenth_normal : binary_normal f_double tenth 7205759403792794 (-56).
Proof. split; [cbn; lia|]. split; qd. Qed.
Lemma conv_case : cfg_ok c20 /\ newton_ok c20 /\ std_float f_double /\ binary_normal f_double tenth 7205759403792794 (-56) /\ memory_ok mem0 /\
  2 ^ f_bits f_double <= 10 ^ (edc c20 * elem_number c20) /\ (p10 (- max_exp10_of (c_expo c20) + 2 * edc c20 + 22) <= tenth)%Q /\
  (tenth <= p10 (max_exp10_of (c_expo c20) - 1))%Q /\ (inject_Z (4 * Z.abs (-56) + 4) * p10 (- (c_digits10 c20 + 2 * edc c20)) <= p10 (-21))%Q /\
  (2 * f_min f_long_double <= tenth)%Q /\ (2 * tenth <= f_max f_long_double)%Q /\
  (p10 (edc c20 + 1 - 10 ^ (exp_width c20 - 1)) <= tenth)%Q /\ (tenth <= p10 (10 ^ (exp_width c20 - 1) - 1))%Q.
Proof.
  split; [exact c20_ok|]. split; [exact c20_newton|]. split; [right; left; reflexivity|]. split; [exact tenth_normal|]. split; [exact mem0_ok|].
  split; [qd|]. split; [qd|]. split; [qd|]. split; [qd|]. split; [qd|]. split; [qd|]. split; [qd|qd].
Qed.
Lemma conv_int_case : cfg_ok c50 /\ newton_ok c50 /\ std_float f_double /\ binary_normal f_double 12345 (12345 * 2 ^ 39) (-39) /\
  (12345 == inject_Z 12345)%Q /\ 5 ^ (f_bits f_double - 1) < 10 ^ kept c50 /\ 12345 < 10 ^ kept c50 /\ (12345 <= p10 (max_exp10_of (c_expo c50) - 1))%Q.
Proof.
  split; [exact c50_ok|]. split; [exact c50_newton|]. split; [right; left; reflexivity|]. split; [split; [cbn; lia|split; qd]|].
  split; [reflexivity|]. split; [reflexivity|]. split; [reflexivity|]. apply Qle_trans with (p10 5); [qd|]. apply p10_le. cbn. lia.
Qed.
Lemma to_case : cfg_ok c20 /\ std_float f_float /\ strtold_ok strtold_ref /\ normal c20 x20 /\ text_room c20 x20 /\
  (2 * f_min f_float <= Qabs (value c20 x20))%Q /\ (Qabs (value c20 x20) <= f_max f_float)%Q.
Proof.
  split; [exact c20_ok|]. split; [left; reflexivity|]. split; [exact strtold_ref_ok|]. split; [apply normal_b_sound; vm_compute; reflexivity|].
  split; [split; [reflexivity|]; split; [reflexivity|]; right; reflexivity|]. split; qd.
Qed.
Lemma ldexp_case : cfg_ok c20 /\ newton_ok c20 /\ float_fits c20 f_double /\ (digit_loops c20 f_double <= nel c20)%nat /\ memory_ok mem0 /\
  2 ^ 63 < 10 ^ (edc c20 * elem_number c20) /\ normal c20 x20 /\ iszero x20 = false /\ - 2 ^ 31 < -100 < 2 ^ 31 /\
  (inject_Z (4 * Z.abs (-100)) * p10 (- (c_digits10 c20 + 2 * edc c20)) <= 1)%Q /\
  - max_exp10_of (c_expo c20) + 40 <= dexp x20 < max_exp10_of (c_expo c20) /\ (p2 (Z.abs (-100)) <= p10 (max_exp10_of (c_expo c20) - 40))%Q /\
  (p10 (- max_exp10_of (c_expo c20) + 60) <= Qabs (value c20 x20 * p2 (-100)))%Q /\ (Qabs (value c20 x20 * p2 (-100)) <= p10 (max_exp10_of (c_expo c20) - 60))%Q.
Proof.
  split; [exact c20_ok|]. split; [exact c20_newton|]. destruct pow_case as (_ & _ & F1 & F2 & _). split; [exact F1|]. split; [exact F2|].
  split; [exact mem0_ok|]. split; [qd|]. split; [apply normal_b_sound; vm_compute; reflexivity|]. split; [reflexivity|]. split; [lia|].
  split; [qd|]. split; [cbn; lia|]. split; [qd|]. split; qd.
Qed.
