(** Refute_log.v - concrete runs of log. *)
From Verif Require Import Base Model_Exp Model_Log Add_proofs Witness Refute_func Refute_exp Spec_Real Real_proofs Log4_proofs.
From Coq Require Import Reals Qreals Lra.
Local Open Scope Z_scope.

Definition xnear : dec := mkx c50 false 0 [1; 0; 99000].
Definition lnear : dec := mkx c50 false (-16) [98999; 99999950; 99500000; 3234329; 99997598; 50997500].
Definition minear : nat -> memory := fun _ => mem0.
Definition ret_is (o : outcome dec) (z : dec) : bool := match o with Ret r => dec_is (Some r) z | _ => false end.
Lemma ret_is_true o z : ret_is o z = true -> o = Ret z.
Proof. destruct o as [r| |]; cbn [ret_is]; try discriminate. intros H. apply dec_is_true in H. injection H as ->. reflexivity. Qed.
Lemma lnear_run : log c50 f_double (log_core c50 f_double mz) 2 minear xnear = Ret lnear.
Proof. apply ret_is_true. vm_compute. reflexivity. Qed.
Lemma xnear_normal : normal c50 xnear.
Proof. apply normal_b_sound. vm_compute. reflexivity. Qed.

(** log (1 + 99 10^-13) with 50 digits: wrong from the 45th digit on. *)
Lemma log_loses_digits : ~ rel_close c50 lnear (ln (rvalue c50 xnear)) (10000 * r10 (- c_digits10 c50)).
Proof.
  set (yq := 99 # 10000000000000).
  assert (VX : rvalue c50 xnear = (1 + Q2R yq)%R).
  { unfold rvalue. assert (E : (value c50 xnear == 1 + yq)%Q) by (vm_compute; reflexivity). rewrite (Qeq_eqR _ _ E), Q2R_plus. unfold Q2R at 1. simpl. field. }
  unfold rel_close. rewrite VX. set (y := Q2R yq). assert (Yv : y = (99 / 10000000000000)%R) by reflexivity.
  assert (Y0 : (0 < y < / 100000000000)%R) by (rewrite Yv; lra).
  pose proof (ln_tail y 5) as T. rewrite (Rabs_pos_eq y) in T by lra. specialize (T ltac:(lra)). unfold y in T at 2. rewrite <- lsum_R in T.
  assert (TB : (y ^ 6 / (1 - y) <= 2 * (1 / 10 ^ 66))%R).
  { assert (y ^ 6 <= (/ 100000000000) ^ 6)%R by (apply pow_incr; lra). apply Rmult_le_reg_r with (1 - y)%R; [lra|]. unfold Rdiv at 1. rewrite Rmult_assoc, Rinv_l, Rmult_1_r by lra.
    assert (K : (2 * (1 / 10 ^ 66) * (1 - y) >= 2 * (1 / 10 ^ 66) * / 2)%R).
    { apply Rle_ge. apply Rmult_le_compat_l; [|lra]. assert (0 < 1 / 10 ^ 66)%R by (apply Rdiv_lt_0_compat; [lra|apply pow_lt; lra]). lra. }
    replace (2 * (1 / 10 ^ 66) * / 2)%R with ((/ 100000000000) ^ 6)%R in K by (field). lra. }
  assert (DQ : (180 # 10 ^ 58 <= lsum yq 5 - value c50 lnear)%Q) by (vm_compute; discriminate).
  apply Qle_Rle in DQ. rewrite Q2R_minus, Q2R_frac in DQ. fold (rvalue c50 lnear) in DQ. intros H.
  change (r10 (- c_digits10 c50)) with (Q2R (1 # 10 ^ 50)) in H. rewrite Q2R_frac in H.
  assert (LN : (0 < ln (1 + y) <= y)%R).
  { split; [rewrite <- ln_1; apply ln_increasing; lra|]. rewrite <- (ln_exp y) at 2. destruct (exp_ge y) as [K|K]; [left; apply ln_increasing; lra|right; rewrite K; reflexivity]. }
  rewrite (Rabs_pos_eq (ln (1 + y))) in H by lra. rewrite Rabs_minus_sym in H. pose proof (Rle_abs (ln (1 + y) - rvalue c50 lnear)) as A1.
  rewrite Rabs_minus_sym in T. pose proof (Rle_abs (Q2R (lsum yq 5) - ln (1 + y))) as A2.
  set (l := ln (1 + y)) in *. set (v := rvalue c50 lnear) in *. set (s := Q2R (lsum yq 5)) in *. clearbody l v s.
  change (Z.pos (10 ^ 50)) with 100000000000000000000000000000000000000000000000000 in H. change (Z.pos (10 ^ 58)) with 10000000000000000000000000000000000000000000000000000000000 in DQ.
  replace (10 ^ 66)%R with 1000000000000000000000000000000000000000000000000000000000000000000%R in TB by (simpl; lra).
  assert (10000 * (1 / 100000000000000000000000000000000000000000000000000) * l <= 10000 * (1 / 100000000000000000000000000000000000000000000000000) * / 100000000000)%R by (apply Rmult_le_compat_l; lra).
  lra.
Qed.

Definition xbelow : dec := mkx c50 false (-8) [99990000].
Lemma xbelow_normal : normal c50 xbelow.
Proof. apply normal_b_sound. vm_compute. reflexivity. Qed.
