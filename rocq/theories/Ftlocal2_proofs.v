(** Ftlocal2_proofs.v - the limbs of an FFT product do not depend on the earlier contents of the pools. *)
From Coq Require Import Lia.
From Verif Require Export Model_Fft Ftlocal_proofs Transform5_proofs.
Import ListNotations.
Local Open Scope Z_scope.

Lemma release_ext L x y k : forall c acc, (forall j, (j + 2 <= 2 * k)%nat -> x j = y j) -> fft_release L x k c acc = fft_release L y k c acc.
Proof.
  induction k as [|k IH]; intros c acc H; [reflexivity|]. cbn [fft_release].
  rewrite (H (2 * k)%nat) by lia. destruct (k =? 0)%nat eqn:Q.
  - cbv zeta. apply IH. intros j Hj. apply H. lia.
  - apply Nat.eqb_neq in Q. rewrite (H (2 * k - 1)%nat) by lia. cbv zeta. apply IH. intros j Hj. apply H. lia.
Qed.

Theorem product_local : forall (A : arith Q) L P u v af bf af2 bf2, length u = length v ->
  (Z.of_nat (length u) <= 2 ^ 29)%Z -> let n := Z.to_nat (n_fft (length u)) in
  exists d d2, convolve A n (half_limbs L u) (half_limbs L v) af bf = Some d /\
    convolve A n (half_limbs L u) (half_limbs L v) af2 bf2 = Some d2 /\
    mul_loop_fft L P d (length u) = mul_loop_fft L P d2 (length u) /\
    (forall i, (n <= i)%nat -> d i = af i /\ d2 i = af2 i).
Proof.
  intros A L P u v af bf af2 bf2 Huv Hl n. destruct (n_fft_size (length u) Hl) as (p & Hp & Hn & _ & Hlen).
  unfold n. rewrite Hn.
  assert (HL : forall w, length (half_limbs L w) = (2 * length w)%nat).
  { intros w. unfold half_limbs. induction w as [|x w IH]; [reflexivity|]. cbn [flat_map app length]. lia. }
  destruct (convolve_local A p (half_limbs L u) (half_limbs L v) af bf af2 bf2 ltac:(lia) ltac:(rewrite HL; lia) ltac:(rewrite HL; lia))
    as (d & d2 & H1 & H2 & H3 & H4 & H5).
  exists d, d2. split; [exact H1|]. split; [exact H2|]. split.
  - unfold mul_loop_fft. f_equal. apply release_ext. intros j Hj. rewrite H3 by lia. reflexivity.
  - intros i Hi. split; auto.
Qed.
