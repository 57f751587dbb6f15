(** Transform5_proofs.v - multiplication of limb arrays with the exact run of the transform code, and a run of
    the model with scaled integers. *)
From Coq Require Import Lra Lia QArith Qreals.
From Verif Require Import Spec_Fft Fft_proofs.
From Verif Require Export Transform4_proofs.
Import ListNotations.
Local Open Scope Z_scope.

Lemma n_fft_size len : Z.of_nat len <= 2 ^ 29 ->
  exists p, (5 <= p)%nat /\ Z.to_nat (n_fft len) = (2 ^ p)%nat /\ n_fft len = 2 ^ Z.of_nat p /\ (4 * len <= 2 ^ p)%nat.
Proof.
  intros Hl.
  assert (H : exists k, (3 <= k <= 29)%nat /\ a000079 (Z.of_nat len) = 2 ^ Z.of_nat k /\ Z.of_nat len <= 2 ^ Z.of_nat k).
  { unfold a000079, lower_bound.
    destruct (find (fun x => Z.of_nat len <=? x) a000079_table) eqn:F.
    - destruct (a000079_pos (Z.of_nat len)) as [_ B]. specialize (B Hl). unfold a000079, lower_bound in B. rewrite F in B.
      apply find_some in F. destruct F as [F1 F2]. apply Z.leb_le in F2.
      unfold a000079_table in F1. apply in_map_iff in F1. destruct F1 as (k & <- & Hk). apply in_seq in Hk.
      exists k. split; [|split; [reflexivity|exact F2]]. split; [lia|].
      assert (Z.of_nat k <= 29) by (apply (Z.pow_le_mono_r_iff 2); lia). lia.
    - exfalso. assert (I : In (2 ^ 29) a000079_table) by (unfold a000079_table; apply in_map_iff; exists 29%nat; split; [reflexivity|apply in_seq; lia]).
      pose proof (find_none _ _ F _ I) as N. cbn beta in N. apply Z.leb_gt in N. lia. }
  destruct H as (k & Hk & Ek & Hlk). exists (k + 2)%nat. split; [lia|].
  assert (En : n_fft len = 2 ^ Z.of_nat (k + 2)).
  { unfold n_fft. rewrite Ek. rewrite Nat2Z.inj_add, Z.pow_add_r by lia. change (2 ^ Z.of_nat 2) with 4. apply ucast_id.
    split; [apply Z.mul_nonneg_nonneg; [apply Z.pow_nonneg|]; lia|].
    apply Z.le_lt_trans with (2 ^ 29 * 4); [apply Z.mul_le_mono_nonneg_r; [lia|apply Z.pow_le_mono_r; lia]|reflexivity]. }
  assert (Ez : Z.of_nat (2 ^ (k + 2)) = 2 ^ Z.of_nat (k + 2)) by (rewrite Nat2Z.inj_pow; reflexivity).
  split; [rewrite En, <- Ez; apply Nat2Z.id|]. split; [exact En|].
  apply Nat2Z.inj_le. rewrite Ez, Nat2Z.inj_mul, Nat2Z.inj_add, Z.pow_add_r by lia. change (2 ^ Z.of_nat 2) with 4. lia.
Qed.

Lemma half_limbs_length L u : length (half_limbs L u) = (2 * length u)%nat.
Proof. unfold half_limbs. induction u as [|d u IH]; cbn [flat_map app length]; [reflexivity|]. rewrite IH. lia. Qed.

Local Open Scope R_scope.

(** The array the carry release reads, as exact real numbers. *)
Lemma convolve_limbs L u v af bf : length u = length v -> (Z.of_nat (length u) <= 2 ^ 29)%Z ->
  exists d, convolve exact (Z.to_nat (n_fft (length u))) (half_limbs L u) (half_limbs L v) af bf = Some d /\
  forall k, (k < 4 * length u)%nat ->
    d k = IZR (n_fft (length u) / 2) * IZR (convolution (half_limbs L u) (half_limbs L v) k).
Proof.
  intros Hl Hn. destruct (n_fft_size (length u) Hn) as (p & Hp & E & En & Hs).
  rewrite E.
  destruct (convolve_ok p (half_limbs L u) (half_limbs L v) af bf) as (d & Hd & D1 & _).
  - lia.
  - rewrite half_limbs_length. lia.
  - rewrite half_limbs_length, <- Hl. lia.
  - exists d. split; [exact Hd|]. intros k Hk. rewrite D1 by lia. f_equal. rewrite INR_IZR_INZ. f_equal.
    rewrite En, Nat2Z.inj_div, Nat2Z.inj_pow. reflexivity.
Qed.

Lemma transform_from_exact L u v af bf d (r : nat -> Q) : length u = length v -> (1 <= length u)%nat -> (Z.of_nat (length u) <= 2 ^ 29)%Z ->
  convolve exact (Z.to_nat (n_fft (length u))) (half_limbs L u) (half_limbs L v) af bf = Some d ->
  (forall k, (k <= 2 * length u - 2)%nat -> Rabs (Q2R (r k) - d k) <= IZR (n_fft (length u) / 2) / 4) ->
  transform_ok L r u v.
Proof.
  intros Hl H1 Hn Hd Hr. destruct (convolve_limbs L u v af bf Hl Hn) as (d' & Hd' & HD).
  rewrite Hd in Hd'. injection Hd' as <-.
  intros k Hk. specialize (Hr k Hk). rewrite HD in Hr by lia.
  apply Rle_Qle. 
  set (N := (n_fft (length u) / 2)%Z) in *. set (c := convolution _ _ _) in *. clearbody N c.
  assert (EI : forall z, Q2R (inject_Z z) = IZR z) by (intros z; unfold Q2R, inject_Z; cbn; field).
  assert (EA : forall q, Q2R (Qabs q) = Rabs (Q2R q)).
  { intros q. destruct (Qlt_le_dec q 0) as [Hq|Hq].
    - rewrite (Qeq_eqR _ _ (Qabs_neg q ltac:(apply Qlt_le_weak; exact Hq))). rewrite Q2R_opp.
      apply Qlt_Rlt in Hq. rewrite RMicromega.Q2R_0 in Hq. rewrite Rabs_left by exact Hq. reflexivity.
    - rewrite (Qeq_eqR _ _ (Qabs_pos q Hq)). apply Qle_Rle in Hq. rewrite RMicromega.Q2R_0 in Hq. rewrite Rabs_right by lra. reflexivity. }
  rewrite EA, Q2R_minus, !Q2R_mult, !EI. eapply Rle_trans; [exact Hr|]. right. unfold Q2R. cbn [Qnum Qden]. lra.
Qed.

Lemma fft_multiplication L P u v af bf d (r : nat -> Q) : (8 <= P <= 64)%Z -> digits_ok (mask L) u -> digits_ok (mask L) v ->
  length u = length v -> (1 <= length u)%nat -> (Z.of_nat (length u) <= 2 ^ 29)%Z ->
  (2 * Z.of_nat (length u) * mask L < 2 ^ (P - 4))%Z ->
  convolve exact (Z.to_nat (n_fft (length u))) (half_limbs L u) (half_limbs L v) af bf = Some d ->
  (forall k, (k <= 2 * length u - 2)%nat -> Rabs (Q2R (r k) - d k) <= IZR (n_fft (length u) / 2) / 4) ->
  let w := mul_loop_fft L P r (length u) in
  let W := (mask L ^ Z.of_nat (length u))%Z in
  length w = length u /\ digits_ok (mask L) w /\
  (limbs_value (mask L) w * W <= limbs_value (mask L) u * limbs_value (mask L) v
    < (limbs_value (mask L) w + 2 * Z.of_nat (length u) * mask_half L) * W)%Z.
Proof.
  intros HP Hu Hv Hl H1 Hn Hb Hd Hr w W.
  pose proof (transform_from_exact L u v af bf d r Hl H1 Hn Hd Hr) as Ht.
  destruct (mul_loop_fft_spec L P r u v HP Hu Hv Hl H1 Hn Hb Ht) as (A & B & _ & D).
  split; [exact A|]. split; [exact B|]. exact D.
Qed.

(** * A run of the model: numbers scaled by 10^9 *)
Definition fixed : arith Z :=
  mkArith Z (fun k => (k * 10 ^ 9)%Z) Z.add Z.sub (fun a b => ((a * b) / 10 ^ 9)%Z) Z.opp (fun a => (a / 2)%Z)
    (fun n => if (n =? 2)%nat then 1000000000%Z else if (n =? 4)%nat then 707106781%Z
              else if (n =? 8)%nat then 382683432%Z else if (n =? 16)%nat then 195090322%Z else 0%Z).
Definition run_matches (n : nat) (ha hb : list Z) (want : list Z) : bool :=
  match convolve fixed n ha hb (fun _ => 77%Z) (fun _ => 77%Z) with
  | Some d => forallb (fun k => (Z.abs (d k - Z.of_nat (n / 2) * 10 ^ 9 * nth k want 0) <? 10 ^ 6)%Z) (seq 0 n)
              && (d n =? 77)%Z
  | None => false
  end.
Lemma convolve_run : run_matches 16 [1; 2; 3; 4; 5]%Z [9; 0; 7; 1]%Z [9; 18; 34; 51; 68; 31; 39; 5]%Z = true.
Proof. vm_compute. reflexivity. Qed.
