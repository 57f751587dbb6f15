(** Fmod2_proofs.v - fmod: counterexamples and a case. *)
From Verif Require Export Fmod_proofs.
From Coq Require Import Lqa.
Local Open Scope Z_scope.

Lemma fmod_negative_divisor :
  (exists z, fmod c50 f_double mem0 (from_sll c50 5) (from_sll c50 (-3)) = Some z /\ (value c50 z == -(1))%Q) /\
  (exists z, fmod c50 f_double mem0 (zero c50) (from_sll c50 (-3)) = Some z /\ (value c50 z == -(3))%Q).
Proof. split; eexists; (split; [vm_compute; reflexivity|vm_compute; reflexivity]). Qed.
Lemma fmod_u8 : exists z, fmod c20 f_double mem0 (from_sll c20 8280) (from_sll c20 92) = Some z /\ (value c20 z == 92)%Q.
Proof. eexists. split; [vm_compute; reflexivity|vm_compute; reflexivity]. Qed.
Lemma fmod_case : let x := from_sll c50 (-98765432109876543) in let v := from_ull c50 1234567 in
  memory_ok mem0 /\ normal c50 x /\ normal c50 v /\ (value c50 x == inject_Z (-98765432109876543))%Q /\ (value c50 v == inject_Z 1234567)%Q /\
  4 <= edc c50 /\ edc c50 <= c_digits10 c50 + 4 /\ Z.abs (-98765432109876543) <= 10 ^ (c_digits10 c50 - 1) - 3 /\
  Z.abs (-98765432109876543) < 10 ^ int_digits c50 /\ dexp x < max_exp10_of (c_expo c50) - 3 * edc c50 /\
  dexp v < max_exp10_of (c_expo c50) - 3 * edc c50.
Proof.
  cbv zeta. split; [exact mem0_ok|]. split; [apply normal_b_sound; reflexivity|]. split; [apply normal_b_sound; reflexivity|].
  split; [reflexivity|]. split; [reflexivity|]. repeat split; try (vm_compute; reflexivity); vm_compute; discriminate.
Qed.
