(** Transform4_proofs.v - the statements of Spec_Transform, and the convolution of two digit arrays. *)
From Coq Require Import Lra Lia QArith Qreals.
From Verif Require Import Spec_Fft Fft_proofs.
From Verif Require Export Transform3_proofs.
Import ListNotations.
Local Open Scope R_scope.

Lemma rsum_ext n f g : (forall j, (j < n)%nat -> f j = g j) -> rsum n f = rsum n g.
Proof.
  induction n as [|n IH]; intros H; cbn; [reflexivity|]. rewrite IH, H by (auto with arith). reflexivity.
Qed.

Lemma dX_pair x n k : dX x n k = (rsum n (fun j => x j * cos (angle true n j k)), rsum n (fun j => x j * sin (angle true n j k))).
Proof.
  unfold dX. rewrite <- csum_pair. apply csum_ext. intros j _. rewrite om_angle. ceq.
Qed.

Lemma fft_is_dft fwd p d : (3 <= p)%nat ->
  exists d', fft exact fwd (2 ^ p) d = Some d' /\ is_dft fwd (2 ^ p) d d' /\ (forall i, (2 * 2 ^ p <= i)%nat -> d' i = d i).
Proof.
  intros Hp. destruct (fft_ok_c fwd p d Hp) as (d' & E & H1 & H2). exists d'. split; [exact E|]. split; [|exact H2].
  intros k Hk. specialize (H1 k Hk).
  rewrite (csum_ext _ _ (fun j => (d (2 * j)%nat * cos (angle fwd (2 ^ p) j k) - d (2 * j + 1)%nat * sin (angle fwd (2 ^ p) j k),
                         d (2 * j)%nat * sin (angle fwd (2 ^ p) j k) + d (2 * j + 1)%nat * cos (angle fwd (2 ^ p) j k)))) in H1.
  2:{ intros j _. rewrite om_angle. unfold zc, cmul. cbn [fst snd]. rewrite Nat.add_0_l. reflexivity. }
  rewrite csum_pair in H1. unfold zc in H1. rewrite Nat.add_0_l in H1.
  split; [exact (f_equal fst H1)|exact (f_equal snd H1)].
Qed.

Lemma angle_half h j : (0 < h)%nat -> angle true (2 * h) j h = PI * INR j.
Proof.
  intros Hh. unfold angle. rewrite mult_INR. change (INR 2) with 2. apply lt_0_INR in Hh. field. lra.
Qed.
Lemma angle_0 n j : angle true n j 0 = 0.
Proof. unfold angle. cbn [INR]. unfold Rdiv. ring. Qed.

Lemma real_dft_iff h x d : (0 < h)%nat ->
  is_real_dft (2 * h) x d <->
  d 0%nat = fst (dX x (2 * h) 0) /\ d 1%nat = fst (dX x (2 * h) h) /\
  (forall k, (1 <= k < h)%nat -> zc d 0 k = dX x (2 * h) k).
Proof.
  intros Hh.
  assert (E0 : fst (dX x (2 * h) 0) = rsum (2 * h) x).
  { rewrite dX_pair. cbn [fst]. apply rsum_ext. intros j _. rewrite angle_0, cos_0. ring. }
  assert (E1 : fst (dX x (2 * h) h) = rsum (2 * h) (fun j => x j * cos (PI * INR j))).
  { rewrite dX_pair. cbn [fst]. apply rsum_ext. intros j _. rewrite angle_half by exact Hh. reflexivity. }
  unfold is_real_dft. rewrite E0, E1. split; intros (H0 & H1 & H2); (split; [exact H0|split; [exact H1|]]).
  - intros k Hk. rewrite dX_pair. unfold zc. rewrite Nat.add_0_l. destruct (H2 k ltac:(lia) ltac:(lia)) as [-> ->]. reflexivity.
  - intros k Hk1 Hk2. specialize (H2 k ltac:(lia)). rewrite dX_pair in H2. unfold zc in H2. rewrite Nat.add_0_l in H2.
    split; [exact (f_equal fst H2)|exact (f_equal snd H2)].
Qed.

Lemma rfft_is_real_dft p x : (4 <= p)%nat ->
  exists d, rfft exact (2 ^ p) x = Some d /\ is_real_dft (2 ^ p) x d /\ (forall i, (2 ^ p <= i)%nat -> d i = x i).
Proof.
  intros Hp. destruct p as [|q]; [lia|]. rewrite pow_S.
  destruct (rfft_ok_c q x ltac:(lia)) as (d & E & H0 & H1 & H2 & H3). exists d. split; [exact E|].
  split; [|exact H3]. apply real_dft_iff; [pose proof (pow_pos q); lia|]. auto.
Qed.
Lemma irfft_inverts p x y : (4 <= p)%nat -> is_real_dft (2 ^ p) x y ->
  exists d, irfft exact (2 ^ p) y = Some d /\ (forall i, (i < 2 ^ p)%nat -> d i = INR (2 ^ p / 2) * x i) /\
    (forall i, (2 ^ p <= i)%nat -> d i = y i).
Proof.
  intros Hp H. destruct p as [|q]; [lia|]. rewrite pow_S in *. rewrite div_2.
  apply real_dft_iff in H; [|pose proof (pow_pos q); lia]. destruct H as (H0 & H1 & H2).
  apply irfft_ok_c; [lia|exact H0|exact H1|exact H2].
Qed.

(** * Pointwise products *)
Lemma product_loop h a b : (0 < h)%nat ->
  let a' := fold_left (product_turn exact b) (for_values 2 2 (2 * h)) a in
  a' 0%nat = a 0%nat /\ a' 1%nat = a 1%nat /\ (forall k, (1 <= k < h)%nat -> zc a' 0 k = cmul (zc a 0 k) (zc b 0 k)) /\
  (forall i, (2 * h <= i)%nat -> a' i = a i).
Proof.
  intros Hh. rewrite for_values_2.
  pose (P := fun (m : nat) (s : nat -> R) =>
    (forall i, (i < 2 \/ 2 * m <= i)%nat -> s i = a i) /\
    (forall k, (1 <= k < m)%nat -> zc s 0 k = cmul (zc a 0 k) (zc b 0 k))).
  assert (HP : P (1 + (h - 1))%nat (fold_left (product_turn exact b) (map (fun a => (2 * a)%nat) (seq 1 (h - 1))) a)).
  { apply (loop_inv P).
    - split; [reflexivity|]. intros; lia.
    - intros m s Hm [P1 P2]. unfold product_turn. cbn [fadd fsub fmul exact]. split.
      + intros i Hi. rewrite <- P1 by lia. store_tac. reflexivity.
      + intros k Hk. destruct (Nat.eq_dec k m) as [->|Hne].
        * unfold zc, cmul. cbn [fst snd]. rewrite Nat.add_0_l, Nat.add_0_r. rewrite <- (P1 (2 * m)%nat), <- (P1 (2 * m + 1)%nat) by lia.
          f_equal; store_tac; ring.
        * rewrite <- P2 by lia. unfold zc. f_equal; store_tac; reflexivity. }
  replace (1 + (h - 1))%nat with h in HP by lia. destruct HP as [P1 P2]. cbv zeta.
  split; [apply P1; lia|]. split; [apply P1; lia|]. split; [exact P2|]. intros i Hi. apply P1. lia.
Qed.

(** * Linear convolution *)
Definition lin (a b : nat -> R) (l : nat) : R := rsum (l + 1) (fun i => a i * b (l - i)%nat).

Lemma csum_rsum n f : csum n (fun j => creal (f j)) = creal (rsum n f).
Proof. unfold creal. rewrite csum_pair. f_equal. induction n; cbn; lra. Qed.
Lemma csum_cut n m f : (m <= n)%nat -> (forall j, (m <= j < n)%nat -> f j = c0) -> csum n f = csum m f.
Proof.
  intros H Hz. replace n with (m + (n - m))%nat by lia. rewrite csum_shift.
  rewrite (csum_zero (n - m)); [ring|]. intros j Hj. apply Hz. lia.
Qed.

Lemma dX_lin h a b k : (forall i, (h <= i)%nat -> a i = 0) -> (forall i, (h <= i)%nat -> b i = 0) ->
  dX (lin a b) (2 * h) k = cmul (dX a (2 * h) k) (dX b (2 * h) k).
Proof.
  intros Ha Hb. set (n := (2 * h)%nat). set (w := fun t => om true n (t * k)).
  assert (Ww : forall s t, w (s + t)%nat = cmul (w s) (w t)).
  { intros s t. unfold w. rewrite Nat.mul_add_distr_r. apply om_add. }
  transitivity (csum n (fun l => csum n (fun i => if (i <=? l)%nat then cmul (creal (a i * b (l - i)%nat)) (w l) else c0))).
  { unfold dX. fold n. apply csum_ext. intros l Hl. fold (w l).
    rewrite (csum_cut n (l + 1)) by (try lia; intros j Hj; replace (j <=? l)%nat with false by (symmetry; apply Nat.leb_gt; lia); reflexivity).
    unfold lin. rewrite <- csum_rsum. transitivity (cmul (w l) (csum (l + 1) (fun i => creal (a i * b (l - i)%nat)))); [ring|].
    rewrite <- csum_mul. apply csum_ext. intros j Hj. replace (j <=? l)%nat with true by (symmetry; apply Nat.leb_le; lia). ring. }
  rewrite csum_swap.
  transitivity (csum n (fun i => cmul (cmul (creal (a i)) (w i)) (dX b n k))).
  2:{ rewrite (csum_ext _ _ (fun i => cmul (dX b n k) (cmul (creal (a i)) (w i)))) by (intros; ring).
      rewrite csum_mul. unfold dX at 2. fold w. unfold w. ring. }
  apply csum_ext. intros i Hi. destruct (Nat.lt_ge_cases i h) as [Hlt|Hge].
  - replace n with (i + (n - i))%nat at 1 by lia. rewrite csum_shift.
    rewrite csum_zero by (intros j Hj; replace (i <=? j)%nat with false by (symmetry; apply Nat.leb_gt; lia); reflexivity).
    transitivity (csum (n - i) (fun j => cmul (cmul (creal (a i)) (w i)) (cmul (creal (b j)) (w j)))).
    + transitivity (csum (n - i) (fun j => cmul (creal (a i * b j)) (w (i + j)%nat))).
      { transitivity (csum (n - i) (fun j => if (i <=? i + j)%nat then cmul (creal (a i * b (i + j - i)%nat)) (w (i + j)%nat) else c0)); [ring|].
        apply csum_ext. intros j Hj. replace (i <=? i + j)%nat with true by (symmetry; apply Nat.leb_le; lia).
        replace (i + j - i)%nat with j by lia. reflexivity. }
      apply csum_ext. intros j Hj. rewrite Ww. destruct (w i), (w j). ceq.
    + rewrite csum_mul. f_equal. unfold dX. symmetry. apply csum_cut; [lia|].
      intros j Hj. rewrite Hb by (unfold n in Hj; lia). destruct (om true n (j * k)). ceq.
  - rewrite csum_zero.
    + rewrite Ha by exact Hge. destruct (w i), (dX b n k). ceq.
    + intros l _. destruct (i <=? l)%nat; [|reflexivity]. rewrite Ha by exact Hge. destruct (w l). ceq.
Qed.

Lemma lin_convolution ha hb l :
  lin (fun i => IZR (nth i ha 0%Z)) (fun i => IZR (nth i hb 0%Z)) l = IZR (convolution ha hb l).
Proof.
  unfold lin, convolution.
  assert (G : forall f m s, fold_right (fun i s => (f i + s)%Z) s (seq 0 m) = (fold_right (fun i s => (f i + s)%Z) 0%Z (seq 0 m) + s)%Z).
  { intros f m s. induction (seq 0 m) as [|y l0 IH]; cbn; [lia|]. rewrite IH. lia. }
  generalize (l + 1)%nat as m. induction m as [|m IH]; [reflexivity|].
  rewrite seq_S, fold_right_app. cbn [rsum fold_right Nat.add]. rewrite IH.
  rewrite (G (fun i => (nth i ha 0 * nth (l - i) hb 0)%Z) m (nth m ha 0 * nth (l - m) hb 0 + 0)%Z).
  rewrite plus_IZR, Z.add_0_r, mult_IZR. reflexivity.
Qed.

Lemma convolve_ok p ha hb af bf : (4 <= p)%nat -> (2 * length ha <= 2 ^ p)%nat -> (2 * length hb <= 2 ^ p)%nat ->
  exists d, convolve exact (2 ^ p) ha hb af bf = Some d /\
  (forall k, (k < 2 ^ p)%nat -> d k = INR (2 ^ p / 2) * IZR (convolution ha hb k)) /\
  (forall i, (2 ^ p <= i)%nat -> d i = af i).
Proof.
  intros Hp Hla Hlb. unfold convolve.
  set (fa := filled exact ha (2 ^ p) af). set (fb := filled exact hb (2 ^ p) bf).
  destruct (rfft_is_real_dft p fa Hp) as (a & -> & A1 & A2).
  destruct (rfft_is_real_dft p fb Hp) as (b & -> & B1 & _).
  destruct p as [|q]; [lia|]. rewrite pow_S in *. set (h := (2 ^ q)%nat) in *.
  assert (Hh : (0 < h)%nat) by (unfold h; pose proof (pow_pos q); lia).
  apply real_dft_iff in A1; [|exact Hh]. apply real_dft_iff in B1; [|exact Hh].
  set (xa := fun i => IZR (nth i ha 0%Z)). set (xb := fun i => IZR (nth i hb 0%Z)).
  assert (Za : forall i, (h <= i)%nat -> xa i = 0).
  { intros i Hi. unfold xa. rewrite nth_overflow by lia. reflexivity. }
  assert (Zb : forall i, (h <= i)%nat -> xb i = 0).
  { intros i Hi. unfold xb. rewrite nth_overflow by lia. reflexivity. }
  assert (Ea : forall k, dX fa (2 * h) k = dX xa (2 * h) k).
  { intros k. unfold dX. apply csum_ext. intros j Hj. f_equal. f_equal. unfold fa, filled, xa. cbn [fz exact]. change (2 ^ S q)%nat with (2 * h)%nat.
    destruct (Nat.ltb_spec j (length ha)); [reflexivity|].
    replace (j <? 2 * h)%nat with true by (symmetry; apply Nat.ltb_lt; exact Hj). rewrite nth_overflow by assumption. reflexivity. }
  assert (Eb : forall k, dX fb (2 * h) k = dX xb (2 * h) k).
  { intros k. unfold dX. apply csum_ext. intros j Hj. f_equal. f_equal. unfold fb, filled, xb. cbn [fz exact]. change (2 ^ S q)%nat with (2 * h)%nat.
    destruct (Nat.ltb_spec j (length hb)); [reflexivity|].
    replace (j <? 2 * h)%nat with true by (symmetry; apply Nat.ltb_lt; exact Hj). rewrite nth_overflow by assumption. reflexivity. }
  destruct A1 as (A0 & A1 & Ak). destruct B1 as (B0 & B1 & Bk).
  rewrite Ea in A0, A1. rewrite Eb in B0, B1.
  cbn [fmul exact].
  set (a1 := store (store a 0 _) 1 _).
  destruct (product_loop h a1 b Hh) as (P0 & P1 & P2 & P3).
  set (y := fold_left _ _ _) in *.
  assert (R0 : forall x k, (k = 0 \/ k = h)%nat -> snd (dX x (2 * h) k) = 0).
  { intros x k Hk. rewrite dX_pair. cbn [snd].
    rewrite (rsum_ext _ _ (fun _ => 0)).
    - generalize (2 * h)%nat. intros m. induction m; cbn; lra.
    - intros j _. replace (sin (angle true (2 * h) j k)) with 0; [ring|]. destruct Hk as [->| ->].
      + rewrite angle_0, sin_0. reflexivity.
      + rewrite angle_half by exact Hh. symmetry. apply sin_eq_0_1. exists (Z.of_nat j). rewrite <- INR_IZR_INZ. ring. }
  destruct (irfft_ok_c q y (lin xa xb) ltac:(lia)) as (d & E & D1 & D2).
  - fold h. rewrite P0. change (a1 0%nat) with (a 0%nat * b 0%nat). rewrite A0, B0, dX_lin by assumption.
    unfold cmul. cbn [fst]. rewrite (R0 xa 0%nat), (R0 xb 0%nat) by lia. ring.
  - fold h. rewrite P1. change (a1 1%nat) with (a 1%nat * b 1%nat). rewrite A1, B1, dX_lin by assumption.
    unfold cmul. cbn [fst]. rewrite (R0 xa h), (R0 xb h) by lia. ring.
  - fold h. intros k Hk. rewrite P2 by exact Hk. rewrite dX_lin by assumption. rewrite <- Ea, <- Eb, <- Ak, <- Bk by exact Hk.
    f_equal. unfold zc, a1. f_equal; rewrite !store_ne by lia; reflexivity.
  - fold h in E, D1, D2. exists d. split; [exact E|]. split.
    + intros k Hk. rewrite div_2, D1 by exact Hk. unfold xa, xb. rewrite lin_convolution. reflexivity.
    + intros i Hi. rewrite D2, P3 by exact Hi. unfold a1. rewrite !store_ne by lia. rewrite A2 by exact Hi. unfold fa, filled. change (2 ^ S q)%nat with (2 * h)%nat.
      replace (i <? length ha)%nat with false by (symmetry; apply Nat.ltb_ge; lia).
      replace (i <? 2 * h)%nat with false by (symmetry; apply Nat.ltb_ge; lia). reflexivity.
Qed.
