(** Transform2_proofs.v - the bit-reversal loop and the Danielson-Lanczos recursion compute the discrete
    Fourier transform. *)
From Coq Require Import Lra Lia.
From Verif Require Export Transform_proofs.
Import ListNotations.
Local Open Scope nat_scope.

(** the k-th complex number of the array at b *)
Definition zc (d : nat -> R) (b k : nat) : C := (d (b + 2 * k), d (b + 2 * k + 1)).

Lemma zc_ext d d' b b' k k' : b + 2 * k = b' + 2 * k' -> d (b + 2 * k) = d' (b + 2 * k) ->
  d (b + 2 * k + 1) = d' (b + 2 * k + 1) -> zc d b k = zc d' b' k'.
Proof. intros H H1 H2. unfold zc. rewrite <- H, H1, H2. reflexivity. Qed.

Ltac store_tac :=
  unfold store;
  repeat match goal with |- context [?i =? ?j] => destruct (Nat.eqb_spec i j); try lia end.

(** * Swapping *)
Definition swapc {T} (d : nat -> T) (i j : nat) : nat -> T :=
  let d := (let t := d (j - 1) in store (store d (j - 1) (d (i - 1))) (i - 1) t) in
  (let t := d j in store (store d j (d i)) i t).

Lemma swapc_zc (d : nat -> R) a b k : a <> b ->
  zc (swapc d (2 * a + 1) (2 * b + 1)) 0 k = if k =? a then zc d 0 b else if k =? b then zc d 0 a else zc d 0 k.
Proof.
  intros Hab. destruct (Nat.eqb_spec k a) as [->|Ha]; [|destruct (Nat.eqb_spec k b) as [->|Hb]];
    unfold zc, swapc; f_equal; store_tac; f_equal; lia.
Qed.
Lemma swapc_out (d : nat -> R) a b i : 2 * a + 1 < i -> 2 * b + 1 < i -> swapc d (2 * a + 1) (2 * b + 1) i = d i.
Proof. intros Ha Hb. unfold swapc. store_tac. reflexivity. Qed.

Lemma swap_loop (p : nat) (d : nat -> R) : let n := 2 ^ p in
  let d' := fst (fold_left (swap_turn n) (for_values 1 2 (n * 2)) (d, 1)) in
  (forall k, k < n -> zc d' 0 k = zc d 0 (rev p k)) /\ (forall i, 2 * n <= i -> d' i = d i).
Proof.
  intros n. rewrite for_values_1.
  pose (P := fun (a : nat) (s : (nat -> R) * nat) =>
    (a < n -> snd s = 2 * rev p a + 1) /\
    (forall k, k < n -> zc (fst s) 0 k = if (k <? a) || (rev p k <? a) then zc d 0 (rev p k) else zc d 0 k) /\
    (forall i, 2 * n <= i -> fst s i = d i)).
  assert (HP : P (0 + n) (fold_left (swap_turn n) (map (fun a => 2 * a + 1) (seq 0 n)) (d, 1))).
  { apply (loop_inv P).
    - repeat split; cbn [fst snd]; intros.
      + assert (rev p 0 = 0) as ->; [|reflexivity]. clear. induction p as [|p IH]; [reflexivity|].
        change 0 with (2 * 0) at 1. rewrite rev_even. exact IH.
    - intros a [d1 j] [_ Ha] (Hj & Hk & Ho). cbn [fst snd] in *. specialize (Hj ltac:(lia)). subst j.
      assert (Ha' : a < n) by lia. pose proof (rev_lt p a) as Hra. fold n in Hra.
      pose proof (rev_rev p a Ha') as Hrr.
      set (b := rev p a) in *. unfold swap_turn.
      fold (swapc d1 (2 * a + 1) (2 * b + 1)).
      split; [|split]; cbn [fst snd].
      + intros H. replace (a + 1) with (S a) in * by lia. apply next_rev; [|reflexivity|exact H].
        unfold n. clear. induction p as [|p IH]; [lia|]. rewrite pow_S. pose proof (pow_pos p). lia.
      + intros k Hkn.
        assert (Hkk : rev p k = a <-> k = b).
        { split; intros E; [unfold b; rewrite <- E; symmetry; apply rev_rev; exact Hkn|rewrite E; exact Hrr]. }
        assert (Hkb : rev p k = b <-> k = a).
        { split; intros E; [|rewrite E; reflexivity].
          rewrite <- (rev_rev p k Hkn), E. exact Hrr. }
        destruct (Nat.ltb_spec (2 * a + 1) (2 * b + 1)) as [Hlt|Hge].
        * rewrite swapc_zc by lia.
          destruct (Nat.eqb_spec k a) as [Ea|Na]; [subst k|destruct (Nat.eqb_spec k b) as [Eb|Nb]].
          -- fold b. replace (a <? a + 1) with true by (symmetry; apply Nat.ltb_lt; lia). cbn [orb].
             rewrite (Hk b Hra). rewrite Hrr.
             replace (b <? a) with false by (symmetry; apply Nat.ltb_ge; lia).
             rewrite Nat.ltb_irrefl. reflexivity.
          -- assert (Era : rev p k = a) by (apply Hkk; exact Eb). rewrite Era.
             replace (a <? a + 1) with true by (symmetry; apply Nat.ltb_lt; lia). rewrite orb_true_r.
             rewrite (Hk a Ha'). fold b.
             replace (b <? a) with false by (symmetry; apply Nat.ltb_ge; lia).
             rewrite Nat.ltb_irrefl. reflexivity.
          -- rewrite (Hk k Hkn).
             assert (rev p k <> a) by (intros E; apply Hkk in E; lia).
             replace (k <? a + 1) with (k <? a) by (destruct (Nat.ltb_spec k a), (Nat.ltb_spec k (a + 1)); auto; lia).
             replace (rev p k <? a + 1) with (rev p k <? a)
               by (destruct (Nat.ltb_spec (rev p k) a), (Nat.ltb_spec (rev p k) (a + 1)); auto; lia).
             reflexivity.
        * rewrite (Hk k Hkn).
          destruct (Nat.ltb_spec k a) as [K1|K1].
          { replace (k <? a + 1) with true by (symmetry; apply Nat.ltb_lt; lia). reflexivity. }
          destruct (Nat.ltb_spec (rev p k) a) as [K2|K2].
          { replace (rev p k <? a + 1) with true by (symmetry; apply Nat.ltb_lt; lia). rewrite !orb_true_r. reflexivity. }
          cbn [orb]. destruct (Nat.ltb_spec k (a + 1)) as [K3|K3].
          { assert (k = a) by lia. subst k. fold b in K2 |- *. cbn [orb]. replace b with a by lia. reflexivity. }
          destruct (Nat.ltb_spec (rev p k) (a + 1)) as [K4|K4]; [|reflexivity].
          assert (E : rev p k = a) by lia. apply Hkk in E. lia.
      + intros i Hi. destruct (2 * a + 1 <? 2 * b + 1); [|apply Ho; exact Hi].
        rewrite swapc_out by lia. apply Ho; exact Hi. }
  destruct HP as (_ & H1 & H2). split; [|exact H2].
  intros k Hk. rewrite (H1 k Hk). rewrite Nat.add_0_l.
  replace (k <? n) with true by (symmetry; apply Nat.ltb_lt; lia). reflexivity.
Qed.

(** * Twiddle factors *)
Local Open Scope R_scope.
Lemma twiddle_real f h : (0 < h)%nat ->
  1 + wp_real exact f (2 * h) = fst (om f (2 * h) 1) /\ wp_imag exact f (2 * h) = snd (om f (2 * h) 1).
Proof.
  intros Hh. unfold wp_real, wp_imag, wp_real_init, sin_order_2, om, cis. cbn [fadd fmul fsub fopp fsin fz exact fst snd].
  rewrite div_2. rewrite mult_INR. change (INR 2) with 2. change (INR 1) with 1.
  assert (Hp : 0 < INR h) by (apply lt_0_INR; lia).
  assert (E2 : PI / INR h = 2 * (PI / (2 * INR h))) by (field; lra).
  assert (E1 : 2 * PI * 1 / (2 * INR h) = 2 * (PI / (2 * INR h))) by (field; lra).
  rewrite E1, E2. set (t := PI / (2 * INR h)).
  destruct f; unfold sgn.
  - rewrite Rmult_1_l, cos_2a_sin. split; ring.
  - replace (-1 * (2 * t)) with (- (2 * t)) by ring. rewrite cos_neg, sin_neg, cos_2a_sin. split; ring.
Qed.
Lemma twiddle_first f h : (0 < h)%nat ->
  (fadd exact (fz exact 1) (wp_real exact f (2 * h)), wp_imag exact f (2 * h)) = om f (2 * h) 1.
Proof.
  intros Hh. destruct (twiddle_real f h Hh) as [E1 E2]. cbn [fadd fz exact]. rewrite E1, E2.
  destruct (om f (2 * h) 1); reflexivity.
Qed.
Lemma twiddle_next f h w : (0 < h)%nat -> next_twiddle exact f (2 * h) w = cmul w (om f (2 * h) 1).
Proof.
  intros Hh. destruct (twiddle_real f h Hh) as [E1 E2]. destruct w as [r i]. unfold next_twiddle, cmul.
  cbn [fadd fmul fsub exact fst snd]. rewrite <- E1, <- E2. f_equal; ring.
Qed.

(** * Butterflies *)
Lemma butterfly_loop f h b d : (0 < h)%nat ->
  let d' := fst (fold_left (butterfly exact f (2 * h) b) (for_values 0 2 (2 * h)) (d, (fz exact 1, fz exact 0))) in
  (forall k, (k < h)%nat -> zc d' b k = cadd (zc d b k) (cmul (om f (2 * h) k) (zc d (b + 2 * h) k))
                    /\ zc d' (b + 2 * h) k = csub (zc d b k) (cmul (om f (2 * h) k) (zc d (b + 2 * h) k))) /\
  (forall i, (i < b \/ b + 4 * h <= i)%nat -> d' i = d i).
Proof.
  intros Hh. rewrite for_values_0.
  pose (P := fun (a : nat) (s : (nat -> R) * (R * R)) =>
    (snd s : C) = om f (2 * h) a /\
    (forall k, (k < a)%nat -> (k < h)%nat ->
       zc (fst s) b k = cadd (zc d b k) (cmul (om f (2 * h) k) (zc d (b + 2 * h) k)) /\
       zc (fst s) (b + 2 * h) k = csub (zc d b k) (cmul (om f (2 * h) k) (zc d (b + 2 * h) k))) /\
    (forall k, (a <= k < h)%nat -> zc (fst s) b k = zc d b k /\ zc (fst s) (b + 2 * h) k = zc d (b + 2 * h) k) /\
    (forall i, (i < b \/ b + 4 * h <= i)%nat -> fst s i = d i)).
  assert (HP : P (0 + h)%nat (fold_left (butterfly exact f (2 * h) b) (map (fun a => (2 * a)%nat) (seq 0 h)) (d, (fz exact 1, fz exact 0)))).
  { apply (loop_inv P).
    - unfold P. cbn [fst snd]. rewrite om_0. repeat split; auto; intros; lia.
    - intros a [d1 w] [_ Ha] (Hw & H1 & H2 & H3). cbn [fst snd] in *.
      destruct (H2 a ltac:(lia)) as [Ea Eb].
      destruct w as [rp ip].
      assert (Ew : om f (2 * h) a = (rp, ip)) by (symmetry; exact Hw). 
      unfold butterfly. cbn [fadd fsub fmul exact].
      set (tr := (rp * d1 (b + (2 * a + (2 * h + 0)))%nat - ip * d1 (b + (2 * a + (2 * h + 1)))%nat)).
      set (ti := (rp * d1 (b + (2 * a + (2 * h + 1)))%nat + ip * d1 (b + (2 * a + (2 * h + 0)))%nat)).
      assert (Et : (tr, ti) = cmul (om f (2 * h) a) (zc d (b + 2 * h) a)).
      { rewrite Ew, <- Eb. unfold cmul, zc, tr, ti. cbn [fst snd].
        replace (b + (2 * a + (2 * h + 0)))%nat with (b + 2 * h + 2 * a)%nat by lia.
        replace (b + (2 * a + (2 * h + 1)))%nat with (b + 2 * h + 2 * a + 1)%nat by lia. f_equal; ring. }
      unfold P. cbn [fst snd]. split; [|split; [|split]].
      + rewrite twiddle_next by exact Hh. rewrite <- Ew. replace (a + 1)%nat with (S a) by lia. symmetry. apply om_S.
      + intros k Hk Hkh. destruct (Nat.eq_dec k a) as [->|Hne].
        * rewrite <- Et, <- Ea. unfold zc, cadd, csub. cbn [fst snd].
          split; f_equal; store_tac; subst tr ti; f_equal; try reflexivity; try (f_equal; lia); f_equal; f_equal; lia.
        * destruct (H1 k ltac:(lia) Hkh) as [F1 F2]. rewrite <- F1, <- F2. split; unfold zc; f_equal; store_tac; reflexivity.
      + intros k Hk. destruct (H2 k ltac:(lia)) as [F1 F2]. rewrite <- F1, <- F2. split; unfold zc; f_equal; store_tac; reflexivity.
      + intros i Hi. rewrite <- (H3 i Hi). store_tac. reflexivity. }
  destruct HP as (_ & H1 & _ & H3). split; [|exact H3].
  intros k Hk. apply H1; lia.
Qed.

(** * Even and odd halves *)
Lemma dft_split f p (x : nat -> C) k : (k < 2 ^ p)%nat ->
  let n := (2 * 2 ^ p)%nat in
  let E := csum (2 ^ p) (fun j => cmul (x (rev p j)) (om f (2 ^ p) (j * k))) in
  let O := csum (2 ^ p) (fun j => cmul (x (2 ^ p + rev p j)%nat) (om f (2 ^ p) (j * k))) in
  csum n (fun j => cmul (x (rev (S p) j)) (om f n (j * k))) = cadd E (cmul (om f n k) O) /\
  csum n (fun j => cmul (x (rev (S p) j)) (om f n (j * (2 ^ p + k)))) = csub E (cmul (om f n k) O).
Proof.
  intros Hk n E O. pose proof (pow_pos p) as Hp. unfold n. split.
  - rewrite csum_split. f_equal.
    + unfold E. apply csum_ext. intros j _. rewrite rev_even. f_equal.
      replace (2 * j * k)%nat with (2 * (j * k))%nat by lia. apply om_scale; lia.
    + unfold O. rewrite <- csum_mul. apply csum_ext. intros j _. rewrite rev_odd.
      replace ((2 * j + 1) * k)%nat with (2 * (j * k) + k)%nat by lia.
      rewrite om_add, om_scale by lia. ring.
  - rewrite csum_split.
    transitivity (cadd E (copp (cmul (om f (2 * 2 ^ p) k) O))); [|ring]. f_equal.
    + unfold E. apply csum_ext. intros j _. rewrite rev_even. f_equal.
      replace (2 * j * (2 ^ p + k))%nat with (2 * (2 ^ p * j + j * k))%nat by lia.
      rewrite om_scale, om_add, om_mul_n by lia. ring.
    + unfold O. transitivity (cmul (copp (om f (2 * 2 ^ p) k)) (csum (2 ^ p) (fun j => cmul (x (2 ^ p + rev p j)%nat) (om f (2 ^ p) (j * k)))));
        [|ring].
      rewrite <- csum_mul. apply csum_ext. intros j _. rewrite rev_odd.
      replace ((2 * j + 1) * (2 ^ p + k))%nat with (2 * (2 ^ p * j + j * k) + k + 2 ^ p)%nat by lia.
      rewrite !om_add, om_scale, om_add, om_mul_n, om_half by lia. ring.
Qed.

(** * The 4-point base case *)
Lemma om_4 f : om f 4 1 = (0, sgn f).
Proof.
  unfold om, cis. cbn [INR]. replace (2 * PI * 1 / (1 + 1 + 1 + 1)) with (PI / 2) by field.
  destruct f; unfold sgn.
  - rewrite Rmult_1_l, cos_PI2, sin_PI2. reflexivity.
  - replace (-1 * (PI / 2)) with (- (PI / 2)) by ring. rewrite cos_neg, sin_neg, cos_PI2, sin_PI2. f_equal; ring.
Qed.

Definition cells (d : nat -> R) (b : nat) (v : list R) : Prop := forall i, (i < 8)%nat -> d (b + i)%nat = nth i v 0.
Definition upd8 (v : list R) (j : nat) (w : R) : list R :=
  map (fun i => if (i =? j)%nat then w else nth i v 0) [0; 1; 2; 3; 4; 5; 6; 7]%nat.
Lemma cells_store d b v j w : cells d b v -> cells (store d (b + j) w) b (upd8 v j w).
Proof.
  intros H i Hi. unfold store, upd8.
  replace (b + i =? b + j)%nat with (i =? j)%nat
    by (destruct (Nat.eqb_spec i j), (Nat.eqb_spec (b + i) (b + j)); auto; lia).
  do 8 (destruct i as [|i]; [cbn [map nth]; destruct (_ =? _)%nat; [reflexivity|apply H; exact Hi]|]). lia.
Qed.
(** outside the eight cells *)
Definition same8 (b : nat) (d d' : nat -> R) : Prop := forall i, (i < b \/ b + 8 <= i)%nat -> d' i = d i.
Lemma same8_store b d d' j w : (j < 8)%nat -> same8 b d d' -> same8 b d (store d' (b + j) w).
Proof. intros Hj H i Hi. rewrite store_ne by lia. apply H. exact Hi. Qed.
Definition bc_post (b : nat) (d : nat -> R) (v : list R) (d' : nat -> R) : Prop := cells d' b v /\ same8 b d d'.

Ltac bc_read H :=
  match goal with
  | |- bc_post ?b ?d ?v (let x := ?m (?b + ?j)%nat in @?B x) =>
      change (bc_post b d v (B (m (b + j)%nat))); let E := fresh in pose proof (H j ltac:(lia)) as E; cbn [nth] in E; rewrite E; clear E; cbv beta
  end.
Ltac bc_rw H j :=
  let E := fresh in pose proof (H j ltac:(lia)) as E; cbn [nth] in E; rewrite ?E; clear E.
Ltac bc_store H HS :=
  bc_rw H 0%nat; bc_rw H 1%nat; bc_rw H 2%nat; bc_rw H 3%nat; bc_rw H 4%nat; bc_rw H 5%nat; bc_rw H 6%nat; bc_rw H 7%nat;
  match goal with
  | |- bc_post ?b ?d ?v (let x := store ?m (?b + ?j)%nat ?w in @?B x) =>
      let y := fresh "m" in
      let H' := fresh "Hc" in
      pose proof (cells_store m b _ j w H) as H';
      let HS' := fresh "Hs" in pose proof (same8_store b d m j w ltac:(lia) HS) as HS';
      cbn [nth upd8 map Nat.eqb] in H';
      change (bc_post b d v (B (store m (b + j)%nat w)));
      set (y := store m (b + j)%nat w) in *; clearbody y; cbv beta;
      clear H HS; rename H' into H; rename HS' into HS; try clear m
  end.

Lemma basecase_cells f b d x0 x1 x2 x3 x4 x5 x6 x7 :
  cells d b [x0; x1; x2; x3; x4; x5; x6; x7] ->
  bc_post b d
    [x0 + x2 + (x4 + x6); x1 + x3 + (x5 + x7);
     x0 - x2 + (0 * (x4 - x6) - sgn f * (x5 - x7)); x1 - x3 + (0 * (x5 - x7) + sgn f * (x4 - x6));
     x0 + x2 - (x4 + x6); x1 + x3 - (x5 + x7);
     x0 - x2 - (0 * (x4 - x6) - sgn f * (x5 - x7)); x1 - x3 - (0 * (x5 - x7) + sgn f * (x4 - x6))]
    (dl_basecase exact f b d).
Proof.
  intros H.
  destruct (twiddle_real f 2 ltac:(lia)) as [E1 E2]. change (2 * 2)%nat with 4%nat in *. rewrite om_4 in E1, E2. cbn [fst snd] in *.
  assert (E1' : fadd exact (wp_real exact f 4) (fz exact 1) = 0) by (cbn [fadd fz exact]; lra). clear E1.
  assert (HS : same8 b d d) by (intros i _; reflexivity).
  cbv delta [dl_basecase]; cbv beta.
  change (2 + 4)%nat with 6%nat. change (3 + 4)%nat with 7%nat. change (0 + 4)%nat with 4%nat. change (1 + 4)%nat with 5%nat.
  rewrite E1', E2. clear E1' E2.
  change (fadd exact) with Rplus. change (fsub exact) with Rminus. change (fmul exact) with Rmult.
  do 2 bc_read H. do 4 bc_store H HS.
  do 2 bc_read H. do 4 bc_store H HS.
  do 2 bc_read H. do 4 bc_store H HS.
  match goal with
  | |- bc_post ?b ?d ?v (let x := ?w1 in @?B x) => change (bc_post b d v (B w1)); cbv beta
  end.
  match goal with
  | |- bc_post ?b ?d ?v (let x := ?w1 in @?B x) => change (bc_post b d v (B w1)); cbv beta
  end.
  pose proof (H 6%nat ltac:(lia)) as E6. pose proof (H 7%nat ltac:(lia)) as E7. cbn [nth] in E6, E7. rewrite !E6, !E7. clear E6 E7.
  match goal with
  | |- bc_post ?b ?d ?v (let x := ?w1 in @?B x) => change (bc_post b d v (B w1)); cbv beta
  end.
  match goal with
  | |- bc_post ?b ?d ?v (let x := ?w1 in @?B x) => change (bc_post b d v (B w1)); cbv beta
  end.
  do 3 bc_store H HS.
  pose proof (cells_store m b _ 3%nat (m (b + 3)%nat + (0 * (x5 - x7) + sgn f * (x4 - x6))) H) as Hc.
  pose proof (same8_store b d m 3 (m (b + 3)%nat + (0 * (x5 - x7) + sgn f * (x4 - x6))) ltac:(lia) HS) as HS'.
  split; [|exact HS'].
  rewrite (H 3%nat ltac:(lia)) in Hc |- *. cbn [nth upd8 map Nat.eqb] in Hc |- *. exact Hc.
Qed.

Lemma basecase_ok f b d :
  let d' := dl_basecase exact f b d in
  (forall k, (k < 4)%nat -> zc d' b k = csum 4 (fun j => cmul (zc d b (rev 2 j)) (om f 4 (j * k)))) /\
  (forall i, (i < b \/ b + 8 <= i)%nat -> d' i = d i).
Proof.
  intros d'.
  destruct (basecase_cells f b d (d (b + 0)%nat) (d (b + 1)%nat) (d (b + 2)%nat) (d (b + 3)%nat)
              (d (b + 4)%nat) (d (b + 5)%nat) (d (b + 6)%nat) (d (b + 7)%nat)) as [H HS].
  { intros i Hi. do 8 (destruct i as [|i]; [reflexivity|]). lia. }
  fold d' in H, HS. split; [|exact HS]. clearbody d'.
  intros k Hk. cbn [csum].
  assert (T1 : om f 4 1 = (0, sgn f)) by apply om_4.
  assert (S2 : sgn f * sgn f = 1) by (destruct f; cbn; ring).
  assert (T2 : om f 4 2 = (-1, 0)).
  { rewrite om_S, T1. ceq. lra. }
  assert (T3 : om f 4 3 = (0, - sgn f)).
  { rewrite om_S, T2, T1. ceq. }
  assert (T4 : om f 4 4 = c1) by (apply om_n; lia).
  assert (T6 : om f 4 6 = (-1, 0)).
  { change 6%nat with (4 + 2)%nat. rewrite om_add, T4, T2. ceq. }
  assert (T9 : om f 4 9 = (0, sgn f)).
  { change 9%nat with (4 + (4 + 1))%nat. rewrite !om_add, T4, T1. ceq. }
  change (rev 2 0) with 0%nat. change (rev 2 1) with 2%nat. change (rev 2 2) with 1%nat. change (rev 2 3) with 3%nat.
  clear HS S2. unfold zc.
  destruct k as [|[|[|[|k]]]]; [| | | |lia]; cbn [Nat.mul Nat.add];
    rewrite ?om_0, ?T1, ?T2, ?T3, ?T4, ?T6, ?T9; clear T1 T2 T3 T4 T6 T9;
    rewrite <- ?Nat.add_assoc; cbn [Nat.add];
    rewrite ?(H 0%nat ltac:(lia)), ?(H 1%nat ltac:(lia)), ?(H 2%nat ltac:(lia)), ?(H 3%nat ltac:(lia)),
              ?(H 4%nat ltac:(lia)), ?(H 5%nat ltac:(lia)), ?(H 6%nat ltac:(lia)), ?(H 7%nat ltac:(lia));
    clear H; cbn [nth]; unfold cadd, cmul, c0, c1; cbn [fst snd]; f_equal; ring.
Qed.

(** * The recursion *)
Lemma dl_ok f p : (3 <= p)%nat -> forall fuel b d, (p <= fuel)%nat ->
  exists d', dl_apply exact fuel f (2 ^ p) b d = Some d' /\
  (forall k, (k < 2 ^ p)%nat -> zc d' b k = csum (2 ^ p) (fun j => cmul (zc d b (rev p j)) (om f (2 ^ p) (j * k)))) /\
  (forall i, (i < b \/ b + 2 * 2 ^ p <= i)%nat -> d' i = d i).
Proof.
  revert p.
  (* one level, given the two halves *)
  assert (Hlevel : forall p b d d2, 
    (forall k, (k < 2 ^ p)%nat -> zc d2 b k = csum (2 ^ p) (fun j => cmul (zc d b (rev p j)) (om f (2 ^ p) (j * k)))) ->
    (forall k, (k < 2 ^ p)%nat -> zc d2 (b + 2 * 2 ^ p) k = csum (2 ^ p) (fun j => cmul (zc d (b + 2 * 2 ^ p) (rev p j)) (om f (2 ^ p) (j * k)))) ->
    (forall i, (i < b \/ b + 2 * 2 ^ S p <= i)%nat -> d2 i = d i) ->
    let d' := fst (fold_left (butterfly exact f (2 ^ S p) b) (for_values 0 2 (2 ^ S p)) (d2, (fz exact 1, fz exact 0))) in
    (forall k, (k < 2 ^ S p)%nat -> zc d' b k = csum (2 ^ S p) (fun j => cmul (zc d b (rev (S p) j)) (om f (2 ^ S p) (j * k)))) /\
    (forall i, (i < b \/ b + 2 * 2 ^ S p <= i)%nat -> d' i = d i)).
  { intros p b d d2 H1 H2 H3. rewrite pow_S in *. pose proof (pow_pos p) as Hp.
    destruct (butterfly_loop f (2 ^ p) b d2 ltac:(lia)) as [B1 B2].
    set (d' := fst (fold_left _ _ _)) in *. cbv zeta. split.
    - assert (Hsh : forall k, (k < 2 ^ p)%nat -> zc d' (b + 2 * 2 ^ p) k = zc d' b (2 ^ p + k)).
      { intros k _. apply zc_ext; [lia|reflexivity|reflexivity]. }
      assert (Hx : forall k, zc d (b + 2 * 2 ^ p) k = zc d b (2 ^ p + k)).
      { intros k. apply zc_ext; [lia|reflexivity|reflexivity]. }
      intros k Hk. destruct (Nat.lt_ge_cases k (2 ^ p)) as [Hlt|Hge].
      + destruct (B1 k Hlt) as [-> _]. rewrite H1, H2 by exact Hlt.
        destruct (dft_split f p (zc d b) k Hlt) as [-> _]. f_equal. f_equal. apply csum_ext. intros j _. rewrite Hx. reflexivity.
      + set (k' := (k - 2 ^ p)%nat). assert (Hk' : (k' < 2 ^ p)%nat) by (unfold k'; lia).
        replace k with (2 ^ p + k')%nat by (unfold k'; lia).
        rewrite <- Hsh by exact Hk'. destruct (B1 k' Hk') as [_ ->]. rewrite H1, H2 by exact Hk'.
        destruct (dft_split f p (zc d b) k' Hk') as [_ ->]. f_equal. f_equal. apply csum_ext. intros j _. rewrite Hx. reflexivity.
    - intros i Hi. rewrite B2 by lia. apply H3. lia. }
  assert (Hagree : forall d1 d b p, (forall i, (i < b \/ b + 2 * 2 ^ p <= i)%nat -> d1 i = d i) ->
     forall b' k, (b' + 2 * k + 1 < b \/ b + 2 * 2 ^ p <= b' + 2 * k)%nat -> zc d1 b' k = zc d b' k).
  { intros d1 d b p H b' k Hk. unfold zc. rewrite !H by lia. reflexivity. }
  intros p Hp. assert (Hex : exists q, p = (3 + q)%nat) by (exists (p - 3)%nat; lia). destruct Hex as [q ->]. clear Hp.
  induction q as [|q IH]; intros fuel b d Hf.
  - destruct fuel as [|fuel]; [lia|]. cbn [dl_apply]. change (2 ^ (3 + 0))%nat with 8%nat in *.
    change (8 =? 8)%nat with true. cbv iota beta.
    set (d1 := dl_basecase exact f b d). set (d2 := dl_basecase exact f (b + 8) d1).
    destruct (basecase_ok f b d) as [C1 C2]. fold d1 in C1, C2.
    destruct (basecase_ok f (b + 8) d1) as [C3 C4]. fold d2 in C3, C4.
    eexists. split; [reflexivity|].
    apply (Hlevel 2%nat b d d2).
    + intros k Hk. change (2 ^ 2)%nat with 4%nat in *. rewrite <- C1 by exact Hk.
      apply zc_ext; [lia| |]; apply C4; lia.
    + intros k Hk. change (2 ^ 2)%nat with 4%nat in *. change (2 * 4)%nat with 8%nat. rewrite C3 by exact Hk.
      apply csum_ext. intros j Hj. f_equal. pose proof (rev_lt 2 j). unfold zc. f_equal; apply C2; lia.
    + intros i Hi. change (2 * 2 ^ 3)%nat with 16%nat in Hi. rewrite C4, C2 by lia. reflexivity.
  - destruct fuel as [|fuel]; [lia|]. cbn [dl_apply].
    replace (3 + S q)%nat with (S (3 + q)) in * by lia. set (p := (3 + q)%nat) in *.
    assert (Hp3 : (8 <= 2 ^ p)%nat). { unfold p. rewrite Nat.pow_add_r. pose proof (pow_pos q). change (2^3)%nat with 8%nat. lia. }
    replace (2 ^ S p =? 8)%nat with false by (symmetry; apply Nat.eqb_neq; rewrite pow_S; lia).
    replace (2 ^ S p / 2)%nat with (2 ^ p)%nat by (rewrite pow_S; symmetry; apply div_2).
    destruct (IH fuel b d ltac:(lia)) as (d1 & -> & A1 & A2).
    destruct (IH fuel (b + 2 ^ S p)%nat d1 ltac:(lia)) as (d2 & -> & A3 & A4).
    eexists. split; [reflexivity|].
    apply (Hlevel p b d d2).
    + intros k Hk. rewrite <- A1 by exact Hk. unfold zc. rewrite !A4 by (rewrite pow_S; lia). reflexivity.
    + intros k Hk. rewrite <- pow_S. rewrite A3 by exact Hk. apply csum_ext. intros j _. f_equal.
      unfold zc. rewrite pow_S. rewrite !A2 by lia. reflexivity.
    + intros i Hi. rewrite pow_S in Hi, A4. rewrite A4, A2 by lia. reflexivity.
Qed.

(** * The complex transform *)
Lemma fft_ok_c f p d : (3 <= p)%nat ->
  exists d', fft exact f (2 ^ p) d = Some d' /\
  (forall k, (k < 2 ^ p)%nat -> zc d' 0 k = csum (2 ^ p) (fun j => cmul (zc d 0 j) (om f (2 ^ p) (j * k)))) /\
  (forall i, (2 * 2 ^ p <= i)%nat -> d' i = d i).
Proof.
  intros Hp. unfold fft. destruct (swap_loop p d) as [S1 S2]. set (d1 := fst (fold_left _ _ _)) in *.
  assert (Hpn : (p <= 2 ^ p)%nat).
  { clear. induction p as [|p IH]; [lia|]. rewrite pow_S. pose proof (pow_pos p). lia. }
  destruct (dl_ok f p Hp (2 ^ p) 0 d1 Hpn) as (d' & -> & H1 & H2).
  exists d'. split; [reflexivity|]. split.
  - intros k Hk. rewrite H1 by exact Hk. apply csum_ext. intros j Hj. f_equal.
    rewrite S1 by apply rev_lt. rewrite rev_rev by exact Hj. reflexivity.
  - intros i Hi. rewrite H2 by lia. apply S2. exact Hi.
Qed.
