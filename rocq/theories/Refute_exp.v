(** Refute_exp.v - concrete runs of exp. *)
From Verif Require Import Base Model_Exp Add_proofs Value_proofs Mul_proofs Cmp_proofs Misc_proofs Witness Refute_func Spec_Real Const_proofs Const2_proofs Exp5_proofs.
From Coq Require Import Lra.
Local Open Scope Z_scope.

(** Equality of results, as one boolean: a single evaluation when a checker reruns it. *)
Fixpoint list_is (a b : list Z) : bool :=
  match a, b with [], [] => true | x :: a', y :: b' => (x =? y) && list_is a' b' | _, _ => false end.
Definition dec_is (o : option dec) (z : dec) : bool :=
  match o with Some r => list_is (data r) (data z) && ((dexp r =? dexp z) && (Bool.eqb (dneg r) (dneg z) && Nat.eqb (dprec r) (dprec z))) | None => false end.
Lemma list_is_true a : forall b, list_is a b = true -> a = b.
Proof.
  induction a as [|x a IH]; intros [|y b]; cbn [list_is]; intros H; try discriminate H; [reflexivity|]. apply andb_prop in H. destruct H as [H1 H2].
  apply Z.eqb_eq in H1. rewrite H1, (IH b H2). reflexivity.
Qed.
Lemma dec_is_true o z : dec_is o z = true -> o = Some z.
Proof.
  destruct o as [r|]; cbn [dec_is]; [|discriminate]. intros H. apply andb_prop in H. destruct H as [H1 H]. apply andb_prop in H. destruct H as [H2 H]. apply andb_prop in H. destruct H as [H3 H4].
  apply list_is_true in H1. apply Z.eqb_eq in H2. apply Bool.eqb_prop in H3. apply Nat.eqb_eq in H4. destruct r, z. cbn in *. subst. reflexivity.
Qed.

Definition mz : memories := fun _ => mem0.
Definition x352 : dec := mkx c50 false (-8) [35200000].

Lemma x352_normal : normal c50 x352.
Proof. apply normal_b_sound. vm_compute. reflexivity. Qed.

Definition e352 : dec := mkx c50 false 0 [1; 42190852; 37185774; 37649026; 50792516; 39459032; 95571323; 58923026; 70245189; 73319963].
Lemma e352_run : wexp c50 f_double (ln2_small c50) mz x352 = Some e352.
Proof. apply dec_is_true. vm_compute. reflexivity. Qed.

Lemma exp_352 : (142190852371857743764902650792516394590329557160563350 / 10 ^ 53 <= exp (352 / 1000))%R.
Proof.
  pose proof (esum_bounds 352 1000 (10 ^ 60) 40 ltac:(lia) ltac:(lia) ltac:(reflexivity) ltac:(lia) ltac:(lia)) as B.
  destruct (esum 352 1000 (10 ^ 60) 40) as [[[ls hs] lt] ht] eqn:Es. destruct B as (_ & B & _).
  eapply Rle_trans; [|exact B].
  assert (E2 : (142190852371857743764902650792516394590329557160563350 * 10 ^ 7 <= ls)%Z).
  { change ls with (fst (fst (fst (ls, hs, lt, ht)))). rewrite <- Es. vm_compute. discriminate. }
  apply IZR_le in E2. rewrite mult_IZR in E2. change (10 ^ 60) with 1000000000000000000000000000000000000000000000000000000000000. change (10 ^ 7) with 10000000 in E2. simpl. lra.
Qed.

(** exp (0.352) with 50 digits: wrong from the 46th digit on. *)
Lemma exp_loses_digits : ~ rel_close c50 e352 (exp (rvalue c50 x352)) (10000 * r10 (- c_digits10 c50)).
Proof.
  assert (VX : rvalue c50 x352 = (352 / 1000)%R).
  { unfold rvalue. assert (E : (value c50 x352 == 352 # 1000)%Q) by (vm_compute; reflexivity). rewrite (Qeq_eqR _ _ E). reflexivity. }
  rewrite VX. unfold rel_close. pose proof exp_352 as LB. intros H.
  assert (VZ : (value c50 e352 <= 142190852371857743764902650792516394590329557132358924 # (10 ^ 53))%Q) by (vm_compute; discriminate).
  apply Qle_Rle in VZ. fold (rvalue c50 e352) in VZ. unfold Q2R in VZ. cbn [Qnum Qden] in VZ.
  change (r10 (- c_digits10 c50)) with (Q2R (1 # 10 ^ 50)) in H. unfold Q2R in H. cbn [Qnum Qden] in H.
  rewrite (Rabs_pos_eq (exp _)) in H by (left; apply exp_pos).
  rewrite Rabs_minus_sym in H. pose proof (Rle_abs (exp (352 / 1000) - rvalue c50 e352)) as A.
  set (E := exp (352 / 1000)) in *. set (V := rvalue c50 e352) in *. clearbody E V.
  change (Z.pos (10 ^ 53)) with 100000000000000000000000000000000000000000000000000000 in VZ. change (Z.pos (10 ^ 50)) with 100000000000000000000000000000000000000000000000000 in H. simpl in LB. lra.
Qed.

(** exp (1500000000): the binary exponent no longer fits an int, and the result is tiny. *)
Definition xbig : dec := from_sll c50 1500000000.
Definition ebig : dec := mkx c50 false (-641472264) [2; 30704838; 46628991; 72167999; 43269975; 21809105; 40719566; 99491991; 34553124; 97000372].
Lemma exp_wraps : normal c50 xbig /\ (value c50 xbig == 1500000000)%Q /\ wexp c50 f_double (ln2_small c50) mz xbig = Some ebig /\ normal c50 ebig /\
  (0 < value c50 ebig < 1)%Q.
Proof.
  assert (N1 : normal c50 ebig) by (apply normal_b_sound; vm_compute; reflexivity).
  split; [apply normal_b_sound; vm_compute; reflexivity|]. split; [vm_compute; reflexivity|]. split; [apply dec_is_true; vm_compute; reflexivity|]. split; [exact N1|].
  assert (Z1 : iszero ebig = false) by (vm_compute; reflexivity). pose proof (value_sign c50 c50_ok ebig N1 Z1) as S. replace (dneg ebig) with false in S by (vm_compute; reflexivity).
  split; [exact S|]. destruct (value_bracket c50 c50_ok ebig N1 Z1) as [_ B]. rewrite Qabs_pos in B by (apply Qlt_le_weak; exact S).
  eapply Qlt_le_trans; [exact B|]. change 1%Q with (p10 0). apply p10_le. vm_compute. discriminate.
Qed.
