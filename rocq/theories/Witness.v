(** Witness.v - executable checks used to exhibit concrete values meeting the theorems' hypotheses,
    and the concrete configurations and values themselves. *)
From Verif Require Export Spec_Dec.
From Coq Require Import Lia ZifyBool.
Local Open Scope Z_scope.

Definition normal_b (c : cfg) (x : dec) : bool :=
  (length (data x) =? nel c)%nat && forallb (fun d => (0 <=? d) && (d <? 10 ^ edc c)) (data x) &&
  (negb (nth 0 (data x) 0 =? 0) || forallb (fun d => d =? 0) (data x)) &&
  (dexp x mod edc c =? 0) && (- 2 ^ (ebits (c_expo c) - 1) <=? dexp x) &&
  (dexp x <? 2 ^ (ebits (c_expo c) - 1)) && (dprec x =? nel c)%nat.

Lemma forallb_repeat0 l : forallb (fun d => d =? 0) l = true -> l = repeat 0 (length l).
Proof. induction l as [|a l IH]; cbn; [auto|]. intros H. apply andb_true_iff in H. destruct H. f_equal; [lia|auto]. Qed.

Lemma normal_b_sound c x : normal_b c x = true -> normal c x.
Proof.
  unfold normal_b. rewrite !andb_true_iff. intros ((((((H1 & H2) & H3) & H4) & H5) & H6) & H7).
  apply Nat.eqb_eq in H1. unfold normal. split; [auto|]. split.
  { apply Forall_forall. intros d Hd. rewrite forallb_forall in H2. specialize (H2 d Hd). lia. }
  split.
  { intros H0. rewrite orb_true_iff in H3. destruct H3 as [H3|H3]; [lia|]. rewrite <- H1. apply forallb_repeat0; auto. }
  split.
  { apply Z.mod_divide; [unfold edc; destruct (c_limb c); cbn; lia|lia]. }
  split; [lia|]. apply Nat.eqb_eq; auto.
Qed.

(** 50 digits, 32-bit limbs, 64-bit exponent (the library's default choice of types): 10 limbs. *)
Definition c50 : cfg := mkCfg U32 50 E64.
(** 20 digits, 8-bit limbs, 16-bit exponent: 13 limbs. *)
Definition c20 : cfg := mkCfg U8 20 E16.
(** 1000 digits, 32-bit limbs: 128 limbs, Karatsuba multiplication. *)
Definition c1000 : cfg := mkCfg U32 1000 E64.
(** 160 digits, 16-bit limbs: 43 limbs, schoolbook multiplication. *)
Definition c160 : cfg := mkCfg U16 160 E32.
(** 9 digits, 32-bit limbs: 5 limbs. *)
Definition c9 : cfg := mkCfg U32 9 E32.

Definition mkx (c : cfg) (neg : bool) (e : Z) (l : list Z) : dec :=
  mkDec (l ++ repeat 0 (nel c - length l)) e neg (nel c).

(** Working memory of the right size filled with junk. *)
Definition junk_r (c : cfg) : list Z := repeat 77 (2 * Z.to_nat (a029750 (elem_number c))).
Definition junk_t (c : cfg) : list Z := repeat 5 (4 * Z.to_nat (a029750 (elem_number c))).
Lemma junk_pool c : pool_ok c (junk_r c) (junk_t c).
Proof. unfold pool_ok, junk_r, junk_t. cbv zeta. rewrite !repeat_length. auto. Qed.

Ltac cfgok := split; [vm_compute; discriminate|vm_compute; reflexivity].
Lemma c50_ok : cfg_ok c50. Proof. cfgok. Qed.
Lemma c20_ok : cfg_ok c20. Proof. cfgok. Qed.
Lemma c1000_ok : cfg_ok c1000. Proof. cfgok. Qed.
Lemma c160_ok : cfg_ok c160. Proof. cfgok. Qed.
Lemma c9_ok : cfg_ok c9. Proof. cfgok. Qed.
Lemma c50_mul : mul_ok c50. Proof. split; [reflexivity|]. intros _. right. reflexivity. Qed.
Lemma c20_mul : mul_ok c20. Proof. split; [reflexivity|]. intros _. left. reflexivity. Qed.
Lemma c1000_mul : mul_ok c1000. Proof. split; [reflexivity|]. intros H. vm_compute in H. discriminate. Qed.

(** 12345678.9 (eight digits, then .90000000 ...), -0.00000001 2345678..., and all-nines. *)
Definition xa : dec := mkx c50 false 0 [12345678; 90000000].
Definition xb : dec := mkx c50 false (-8) [1; 23456789].
Definition xn : dec := mkx c50 true (-8) [99999999; 99999999; 5].
(** 0.999...9 with all limbs nine, exponent -8. *)
Definition xnines : dec := mkDec (repeat 99999999 10) (-8) false 10.
Lemma xa_normal : normal c50 xa. Proof. apply normal_b_sound. reflexivity. Qed.
Lemma xb_normal : normal c50 xb. Proof. apply normal_b_sound. reflexivity. Qed.
Lemma xn_normal : normal c50 xn. Proof. apply normal_b_sound. reflexivity. Qed.
Lemma xnines_normal : normal c50 xnines. Proof. apply normal_b_sound. reflexivity. Qed.
