(** Transform3_proofs.v - the real transforms, forward and inverse, and the convolution. *)
From Coq Require Import Lra Lia.
From Verif Require Export Transform2_proofs.
Import ListNotations.
Local Open Scope R_scope.

(** * The transform of real numbers, split into even and odd indices *)
Definition dE (x : nat -> R) h k : C := csum h (fun j => cmul (creal (x (2 * j)%nat)) (om true h (j * k))).
Definition dO (x : nat -> R) h k : C := csum h (fun j => cmul (creal (x (2 * j + 1)%nat)) (om true h (j * k))).
Definition dX (x : nat -> R) n k : C := csum n (fun j => cmul (creal (x j)) (om true n (j * k))).
Definition dZ (x : nat -> R) h k : C := csum h (fun j => cmul (zc x 0 j) (om true h (j * k))).

Lemma dX_split x h k : (0 < h)%nat -> dX x (2 * h) k = cadd (dE x h k) (cmul (om true (2 * h) k) (dO x h k)).
Proof.
  intros Hh. unfold dX. rewrite csum_split. f_equal.
  - unfold dE. apply csum_ext. intros j _. f_equal. replace (2 * j * k)%nat with (2 * (j * k))%nat by lia.
    apply om_scale; lia.
  - unfold dO. rewrite <- csum_mul. apply csum_ext. intros j _.
    replace ((2 * j + 1) * k)%nat with (2 * (j * k) + k)%nat by lia. rewrite om_add, om_scale by lia. ring.
Qed.
Lemma dZ_split x h k : dZ x h k = cadd (dE x h k) (cmul ci (dO x h k)).
Proof.
  unfold dZ, dE, dO. rewrite <- csum_mul, <- csum_add. apply csum_ext. intros j _. unfold zc.
  rewrite Nat.add_0_l. destruct (om true h (j * k)) as [u v]. ceq.
Qed.
Lemma om_reflect f h j k : (k <= h)%nat -> (0 < h)%nat -> om f h (j * (h - k)) = conj (om f h (j * k)).
Proof.
  intros Hk Hh. rewrite <- om_conj.
  assert (E : cmul (om f h (j * (h - k))) (om f h (j * k)) = c1).
  { rewrite <- om_add. replace (j * (h - k) + j * k)%nat with (h * j)%nat by nia. apply om_mul_n. exact Hh. }
  transitivity (cmul (om f h (j * (h - k))) (cmul (om f h (j * k)) (om (negb f) h (j * k)))).
  - rewrite om_inv. ring.
  - transitivity (cmul (cmul (om f h (j * (h - k))) (om f h (j * k))) (om (negb f) h (j * k))); [ring|]. rewrite E. ring.
Qed.
Lemma conj_mul a b : conj (cmul a b) = cmul (conj a) (conj b).
Proof. destruct a, b. ceq. Qed.
Lemma conj_real x : conj (creal x) = creal x.
Proof. ceq. Qed.
Lemma dE_reflect x h k : (k <= h)%nat -> (0 < h)%nat -> dE x h (h - k) = conj (dE x h k).
Proof.
  intros Hk Hh. unfold dE. rewrite <- csum_conj. apply csum_ext. intros j _. rewrite om_reflect by assumption.
  rewrite conj_mul, conj_real. reflexivity.
Qed.
Lemma dO_reflect x h k : (k <= h)%nat -> (0 < h)%nat -> dO x h (h - k) = conj (dO x h k).
Proof.
  intros Hk Hh. unfold dO. rewrite <- csum_conj. apply csum_ext. intros j _. rewrite om_reflect by assumption.
  rewrite conj_mul, conj_real. reflexivity.
Qed.
Lemma om_mirror h k : (k <= h)%nat -> (0 < h)%nat -> om true (2 * h) (h - k) = copp (conj (om true (2 * h) k)).
Proof.
  intros Hk Hh. rewrite <- om_conj.
  assert (E : cmul (om true (2 * h) (h - k)) (om true (2 * h) k) = copp c1).
  { rewrite <- om_add. replace (h - k + k)%nat with h by lia. apply om_half. exact Hh. }
  transitivity (cmul (om true (2 * h) (h - k)) (cmul (om true (2 * h) k) (om (negb true) (2 * h) k))).
  - rewrite om_inv. ring.
  - transitivity (cmul (cmul (om true (2 * h) (h - k)) (om true (2 * h) k)) (om (negb true) (2 * h) k)); [ring|].
    rewrite E. ring.
Qed.
Lemma om_norm f n k : fst (om f n k) * fst (om f n k) + snd (om f n k) * snd (om f n k) = 1.
Proof.
  unfold om, cis. cbn [fst snd]. pose proof (sin2_cos2 (sgn f * (2 * PI * INR k / INR n))) as H. unfold Rsqr in H. lra.
Qed.
Lemma om_quarter g : (0 < g)%nat -> om true (2 * (2 * g)) g = ci.
Proof.
  intros Hg. replace (2 * (2 * g))%nat with (g * 4)%nat by lia. replace g with (g * 1)%nat at 2 by lia.
  rewrite om_scale by lia. rewrite om_4. reflexivity.
Qed.

(** * Orthogonality *)
Lemma om_ne_1 f h t : (0 < t < h)%nat -> om f h t <> c1.
Proof.
  intros Ht E. unfold om, cis, c1 in E. injection E as E _.
  assert (Hp : 0 < INR h) by (apply lt_0_INR; lia). assert (Ht1 : 0 < INR t) by (apply lt_0_INR; lia).
  assert (Ht2 : INR t < INR h) by (apply lt_INR; lia).
  set (a := PI * INR t / INR h).
  assert (E' : cos (2 * a) = 1).
  { rewrite <- E. unfold a. destruct f; unfold sgn; [f_equal; field; lra|].
    replace (-1 * (2 * PI * INR t / INR h)) with (- (2 * (PI * INR t / INR h))) by (field; lra). symmetry. apply cos_neg. }
  rewrite cos_2a_sin in E'.
  assert (Hs : 0 < sin a).
  { pose proof PI_RGT_0. apply sin_gt_0; unfold a.
    - apply Rmult_lt_0_compat; [apply Rmult_lt_0_compat; assumption|apply Rinv_0_lt_compat; exact Hp].
    - apply (Rmult_lt_reg_r (INR h)); [exact Hp|].
      unfold Rdiv. rewrite Rmult_assoc, Rinv_l, Rmult_1_r by lra. apply Rmult_lt_compat_l; assumption. }
  pose proof (Rmult_lt_0_compat _ _ Hs Hs). lra.
Qed.
Lemma c_integral a b : cmul a b = c0 -> a <> c0 -> b = c0.
Proof.
  destruct a as [a1 a2], b as [b1 b2]. unfold cmul, c0. cbn [fst snd]. intros E Ha. injection E as E1 E2.
  assert (Hn : 0 < a1 * a1 + a2 * a2).
  { destruct (Req_dec a1 0) as [->|H1].
    - destruct (Req_dec a2 0) as [->|H2]; [exfalso; apply Ha; reflexivity|].
      pose proof (Rsqr_pos_lt a2 H2) as K. unfold Rsqr in K. lra.
    - pose proof (Rsqr_pos_lt a1 H1) as K. pose proof (Rle_0_sqr a2) as K2. unfold Rsqr in K, K2. lra. }
  assert (F1 : (a1 * a1 + a2 * a2) * b1 = 0).
  { replace ((a1 * a1 + a2 * a2) * b1) with (a1 * (a1 * b1 - a2 * b2) + a2 * (a1 * b2 + a2 * b1)) by ring.
    rewrite E1, E2. ring. }
  assert (F2 : (a1 * a1 + a2 * a2) * b2 = 0).
  { replace ((a1 * a1 + a2 * a2) * b2) with (a1 * (a1 * b2 + a2 * b1) - a2 * (a1 * b1 - a2 * b2)) by ring.
    rewrite E1, E2. ring. }
  apply Rmult_integral in F1. apply Rmult_integral in F2.
  destruct F1 as [F1|F1]; [lra|]. destruct F2 as [F2|F2]; [lra|]. rewrite F1, F2. reflexivity.
Qed.
Lemma geometric f h t : (0 < t < h)%nat -> csum h (fun k => om f h (t * k)) = c0.
Proof.
  intros Ht. set (s := csum h (fun k => om f h (t * k))).
  assert (E : cmul (om f h t) s = s).
  { unfold s. rewrite <- csum_mul.
    assert (G : forall m, cadd (csum m (fun k => cmul (om f h t) (om f h (t * k)))) c1 = cadd (csum m (fun k => om f h (t * k))) (om f h (t * m))).
    { induction m as [|m IH]; [cbn [csum]; rewrite Nat.mul_0_r, om_0; ring|].
      cbn [csum]. rewrite <- om_add. replace (t + t * m)%nat with (t * S m)%nat by lia.
      transitivity (cadd (cadd (csum m (fun k => cmul (om f h t) (om f h (t * k)))) c1) (om f h (t * S m))); [ring|].
      rewrite IH. reflexivity. }
    specialize (G h). replace (t * h)%nat with (h * t)%nat in G by lia. rewrite om_mul_n in G by lia.
    transitivity (csub (cadd (csum h (fun k => cmul (om f h t) (om f h (t * k)))) c1) c1); [ring|]. rewrite G. ring. }
  apply (c_integral (csub (om f h t) c1)).
  - transitivity (csub (cmul (om f h t) s) s); [ring|]. rewrite E. ring.
  - intros K. apply (om_ne_1 f h t Ht). transitivity (cadd (csub (om f h t) c1) c1); [ring|]. rewrite K. ring.
Qed.
Lemma csum_const h a : csum h (fun _ => a) = cmul (creal (INR h)) a.
Proof.
  induction h as [|h IH]; [cbn; destruct a; ceq|]. cbn [csum]. rewrite IH, S_INR. destruct a. ceq.
Qed.
Lemma orthogonal h j l : (j < h)%nat -> (l < h)%nat ->
  csum h (fun k => cmul (om true h (j * k)) (om false h (k * l))) = if (j =? l)%nat then creal (INR h) else c0.
Proof.
  intros Hj Hl. destruct (Nat.eqb_spec j l) as [->|Hne].
  - rewrite (csum_ext _ _ (fun _ => c1)); [rewrite csum_const; ring|].
    intros k _. rewrite (Nat.mul_comm k l). apply (om_inv true).
  - destruct (Nat.lt_ge_cases j l) as [Hlt|Hge].
    + rewrite (csum_ext _ _ (fun k => om false h ((l - j) * k))); [apply geometric; lia|].
      intros k _. rewrite (Nat.mul_comm k l). replace (l * k)%nat with (j * k + (l - j) * k)%nat by nia.
      rewrite om_add. transitivity (cmul (cmul (om true h (j * k)) (om (negb true) h (j * k))) (om false h ((l - j) * k))); [cbn [negb]; ring|].
      rewrite om_inv. ring.
    + rewrite (csum_ext _ _ (fun k => om true h ((j - l) * k))); [apply geometric; lia|].
      intros k _. rewrite (Nat.mul_comm k l). replace (j * k)%nat with (l * k + (j - l) * k)%nat by nia.
      rewrite om_add. transitivity (cmul (cmul (om true h (l * k)) (om (negb true) h (l * k))) (om true h ((j - l) * k))); [cbn [negb]; ring|].
      rewrite om_inv. ring.
Qed.
Lemma inverse_c h (z : nat -> C) l : (l < h)%nat ->
  csum h (fun k => cmul (csum h (fun j => cmul (z j) (om true h (j * k)))) (om false h (k * l))) = cmul (creal (INR h)) (z l).
Proof.
  intros Hl.
  rewrite (csum_ext _ _ (fun k => csum h (fun j => cmul (z j) (cmul (om true h (j * k)) (om false h (k * l)))))).
  2:{ intros k _. transitivity (cmul (om false h (k * l)) (csum h (fun j => cmul (z j) (om true h (j * k))))); [ring|].
      rewrite <- csum_mul. apply csum_ext. intros j _. ring. }
  rewrite csum_swap. rewrite (csum_single _ _ l Hl).
  - rewrite csum_mul, orthogonal by assumption. rewrite Nat.eqb_refl. ring.
  - intros j Hj Hne. rewrite csum_mul, orthogonal by assumption. apply Nat.eqb_neq in Hne. rewrite Hne. ring.
Qed.

(** * The separating loop, forward *)
Lemma rfft_turn_zc h d w a : (1 <= a)%nat -> (2 * a < h)%nat ->
  let '(d', w') := rfft_turn exact (2 * h) (d, w) a in
  forall e o : C, zc d 0 a = cadd e (cmul ci o) -> zc d 0 (h - a) = cadd (conj e) (cmul ci (conj o)) ->
  w' = next_twiddle exact true (2 * h) w /\
  zc d' 0 a = cadd e (cmul w o) /\ zc d' 0 (h - a) = csub (conj e) (conj (cmul w o)) /\
  (forall k, k <> a -> k <> (h - a)%nat -> zc d' 0 k = zc d 0 k) /\
  (forall i, (2 * h <= i)%nat -> d' i = d i).
Proof.
  intros Ha1 Ha2. destruct w as [rp ip]. unfold rfft_turn.
  intros [e1 e2] [o1 o2] H1 H2. unfold zc in H1, H2. unfold cadd, cmul, ci, conj in H1, H2. cbn [fst snd] in H1, H2.
  pose proof (f_equal fst H1) as A1. pose proof (f_equal snd H1) as A2.
  pose proof (f_equal fst H2) as A3. pose proof (f_equal snd H2) as A4. clear H1 H2. cbn [fst snd] in A1, A2, A3, A4.
  rewrite Nat.add_0_l in A1, A2, A3, A4.
  replace (a + a)%nat with (2 * a)%nat in * by lia. replace (1 + 2 * a)%nat with (2 * a + 1)%nat by lia.
  replace (2 * h - 2 * a)%nat with (2 * (h - a))%nat in * by lia. replace (1 + 2 * (h - a))%nat with (2 * (h - a) + 1)%nat by lia.
  rewrite A1, A2, A3, A4.
  cbn [fadd fsub fmul fopp fhalf exact].
  split; [reflexivity|]. split; [|split; [|split]].
  - unfold zc, cadd, cmul. cbn [fst snd]. rewrite Nat.add_0_l. f_equal; store_tac; field.
  - unfold zc, csub, conj, cmul. cbn [fst snd]. rewrite Nat.add_0_l. f_equal; store_tac; field.
  - intros k K1 K2. unfold zc. rewrite Nat.add_0_l. f_equal; store_tac; reflexivity.
  - intros i Hi. store_tac. reflexivity.
Qed.

Lemma rfft_ok_c q x : (3 <= q)%nat -> let h := (2 ^ q)%nat in
  exists d, rfft exact (2 * h) x = Some d /\
  d 0%nat = fst (dX x (2 * h) 0) /\ d 1%nat = fst (dX x (2 * h) h) /\
  (forall k, (1 <= k < h)%nat -> zc d 0 k = dX x (2 * h) k) /\
  (forall i, (2 * h <= i)%nat -> d i = x i).
Proof.
  intros Hq h. unfold rfft. rewrite div_2.
  destruct (fft_ok_c true q x Hq) as (d0 & E0 & F1 & F2). fold h in E0, F1, F2. rewrite E0. clear E0.
  assert (Hg : exists g, h = (2 * g)%nat /\ (0 < g)%nat).
  { destruct q as [|q']; [lia|]. exists (2 ^ q')%nat. split; [reflexivity|]. pose proof (pow_pos q'); lia. }
  destruct Hg as (g & Eg & Hg). assert (Hh : (0 < h)%nat) by lia.
  replace (2 * h / 4)%nat with g by (apply (Nat.div_unique (2 * h) 4 g 0); lia).
  rewrite twiddle_first by exact Hh. rewrite for_values_3.
  set (d1 := fst (fold_left _ _ _)).
  assert (Z : forall k, (k < h)%nat -> zc d0 0 k = dZ x h k) by exact F1. clear F1.
  assert (G : zc d1 0 0 = dZ x h 0 /\ (forall k, (1 <= k < h)%nat -> zc d1 0 k = dX x (2 * h) k) /\
              (forall i, (2 * h <= i)%nat -> d1 i = x i)).
  { pose (P := fun (a : nat) (s : (nat -> R) * (R * R)) =>
      (snd s : C) = om true (2 * h) a /\
      (forall k, (1 <= k < a)%nat -> (k < g)%nat -> zc (fst s) 0 k = dX x (2 * h) k /\ zc (fst s) 0 (h - k) = dX x (2 * h) (h - k)) /\
      (forall k, (k < h)%nat -> (k = 0 \/ a <= k <= h - a)%nat -> zc (fst s) 0 k = dZ x h k) /\
      (forall i, (2 * h <= i)%nat -> fst s i = x i)).
    assert (HP : P (1 + (g - 1))%nat (fold_left (rfft_turn exact (2 * h)) (map (fun a => a) (seq 1 (g - 1))) (d0, om true (2 * h) 1))).
    { apply (loop_inv P).
      - unfold P. cbn [fst snd]. repeat split; auto; intros; try lia.
      - intros a [da w] Ha (W & P1 & P2 & P3). cbn [fst snd] in *.
        pose proof (rfft_turn_zc h da w a ltac:(lia) ltac:(lia)) as T.
        destruct (rfft_turn exact (2 * h) (da, w) a) as [db w'] eqn:Et.
        specialize (T (dE x h a) (dO x h a)).
        destruct T as (T0 & T1 & T2 & T3 & T4).
        { rewrite P2 by lia. apply dZ_split. }
        { rewrite P2 by lia. rewrite dZ_split, dE_reflect, dO_reflect by lia. reflexivity. }
        change (w = om true (2 * h) a) in W.
        unfold P. cbn [fst snd]. split; [|split; [|split]].
        + rewrite T0, W. rewrite twiddle_next by exact Hh. replace (a + 1)%nat with (S a) by lia. symmetry. apply om_S.
        + intros k Hk Hkg. destruct (Nat.eq_dec k a) as [->|Hne].
          * split.
            -- rewrite T1, W. symmetry. apply dX_split. exact Hh.
            -- rewrite T2, W. rewrite dX_split by exact Hh. rewrite dE_reflect, dO_reflect, om_mirror, conj_mul by lia. ring.
          * destruct (P1 k ltac:(lia) Hkg) as [Q1 Q2]. rewrite !T3 by lia. split; assumption.
        + intros k Hkh Hk. rewrite T3 by lia. apply P2; [exact Hkh|lia].
        + intros i Hi. rewrite T4 by exact Hi. apply P3. exact Hi. }
    rewrite map_id in HP. change (fst (fold_left (rfft_turn exact (2 * h)) (seq 1 (g - 1)) (d0, om true (2 * h) 1))) with d1 in HP.
    set (s := fold_left _ _ _) in HP. change (fst s) with d1 in HP. destruct HP as (_ & P1 & P2 & P3). change (fst s) with d1 in P1, P2, P3.
    replace (1 + (g - 1))%nat with g in * by lia.
    split; [apply P2; lia|]. split; [|exact P3].
    intros k Hk. destruct (lt_eq_lt_dec k g) as [[Hlt|Heq]|Hgt].
    - apply P1; lia.
    - subst k. rewrite P2 by lia. rewrite dZ_split, dX_split by exact Hh. f_equal. f_equal. rewrite Eg. symmetry. apply om_quarter. exact Hg.
    - replace k with (h - (h - k))%nat by lia. apply P1; lia. }
  clearbody d1. destruct G as (G0 & G1 & G2).
  assert (E0 : om true (2 * h) 0 = c1) by apply om_0.
  assert (Eh : om true (2 * h) h = copp c1) by (apply om_half; exact Hh).
  assert (Or : forall k, (k = 0 \/ k = h)%nat -> snd (dE x h k) = 0 /\ snd (dO x h k) = 0).
  { assert (H0 : snd (dE x h 0) = 0 /\ snd (dO x h 0) = 0).
    { unfold dE, dO. split.
      - rewrite (csum_ext _ _ (fun j => (x (2 * j)%nat, 0))) by (intros j _; rewrite Nat.mul_0_r, om_0; ceq).
        rewrite csum_pair. cbn [snd]. clear. induction h; cbn; lra.
      - rewrite (csum_ext _ _ (fun j => (x (2 * j + 1)%nat, 0))) by (intros j _; rewrite Nat.mul_0_r, om_0; ceq).
        rewrite csum_pair. cbn [snd]. clear. induction h; cbn; lra. }
    intros k [->| ->]; [exact H0|].
    replace h with (h - 0)%nat at 2 4 by lia. rewrite dE_reflect, dO_reflect by lia. unfold conj. cbn [snd]. lra. }
  assert (Eh0 : dE x h h = dE x h 0 /\ dO x h h = dO x h 0).
  { destruct (Or 0%nat ltac:(lia)) as [K1 K2].
    pose proof (dE_reflect x h 0 ltac:(lia) Hh) as L1. pose proof (dO_reflect x h 0 ltac:(lia) Hh) as L2.
    rewrite Nat.sub_0_r in L1, L2. rewrite L1, L2. unfold conj. rewrite K1, K2. 
    split; [rewrite (surjective_pairing (dE x h 0)) at 2; rewrite K1|rewrite (surjective_pairing (dO x h 0)) at 2; rewrite K2]; f_equal; ring. }
  destruct (Or 0%nat ltac:(lia)) as [K1 K2].
  assert (D0 : d1 0%nat = fst (dE x h 0) /\ d1 1%nat = fst (dO x h 0)).
  { rewrite dZ_split in G0. unfold zc, cadd, cmul, ci in G0. cbn [fst snd] in G0. pose proof (f_equal fst G0) as L1. pose proof (f_equal snd G0) as L2. cbn [fst snd] in L1, L2.
    cbn [Nat.add Nat.mul] in L1, L2. rewrite L1, L2, K1, K2. lra. }
  destruct D0 as [D0 D1].
  eexists. split; [reflexivity|]. cbn [fadd fsub exact].
  split; [|split; [|split]].
  - rewrite store_ne by lia. rewrite store_eq, D0, D1. rewrite dX_split, E0 by exact Hh. unfold cadd, cmul, c1. cbn [fst snd]. lra.
  - rewrite store_eq, store_ne by lia. rewrite D0, D1. rewrite dX_split, Eh by exact Hh. destruct Eh0 as [-> ->].
    unfold cadd, cmul, copp, c1. cbn [fst snd]. lra.
  - intros k Hk. rewrite <- G1 by exact Hk. unfold zc. f_equal; rewrite !store_ne by lia; reflexivity.
  - intros i Hi. rewrite !store_ne by lia. apply G2. exact Hi.
Qed.

(** * The joining loop, inverse *)
Lemma irfft_turn_zc h d w a : (1 <= a)%nat -> (2 * a < h)%nat ->
  let '(d', w') := irfft_turn exact (2 * h) (d, w) a in
  forall e o : C, fst w * fst w + snd w * snd w = 1 ->
  zc d 0 a = cadd e (cmul (conj w) o) -> zc d 0 (h - a) = csub (conj e) (conj (cmul (conj w) o)) ->
  w' = next_twiddle exact false (2 * h) w /\
  zc d' 0 a = cadd e (cmul ci o) /\ zc d' 0 (h - a) = cadd (conj e) (cmul ci (conj o)) /\
  (forall k, k <> a -> k <> (h - a)%nat -> zc d' 0 k = zc d 0 k) /\
  (forall i, (2 * h <= i)%nat -> d' i = d i).
Proof.
  intros Ha1 Ha2. destruct w as [rp ip]. unfold irfft_turn.
  intros [e1 e2] [o1 o2] Hn H1 H2. unfold zc in H1, H2. unfold cadd, csub, cmul, ci, conj in H1, H2. cbn [fst snd] in H1, H2, Hn.
  pose proof (f_equal fst H1) as A1. pose proof (f_equal snd H1) as A2.
  pose proof (f_equal fst H2) as A3. pose proof (f_equal snd H2) as A4. clear H1 H2. cbn [fst snd] in A1, A2, A3, A4.
  rewrite Nat.add_0_l in A1, A2, A3, A4.
  replace (a + a)%nat with (2 * a)%nat in * by lia. replace (1 + 2 * a)%nat with (2 * a + 1)%nat by lia.
  replace (2 * h - 2 * a)%nat with (2 * (h - a))%nat in * by lia. replace (1 + 2 * (h - a))%nat with (2 * (h - a) + 1)%nat by lia.
  rewrite A1, A2, A3, A4.
  cbn [fadd fsub fmul fopp fhalf exact].
  split; [reflexivity|].
  assert (N1 : o1 = (rp * rp + ip * ip) * o1) by (rewrite Hn; ring).
  assert (N2 : o2 = (rp * rp + ip * ip) * o2) by (rewrite Hn; ring).
  split; [|split; [|split]].
  - unfold zc, cadd, cmul, ci. cbn [fst snd]. rewrite Nat.add_0_l. f_equal; store_tac.
    + transitivity (e1 - (rp * rp + ip * ip) * o2); [field|]. rewrite <- N2. ring.
    + transitivity (e2 + (rp * rp + ip * ip) * o1); [field|]. rewrite <- N1. ring.
  - unfold zc, cadd, conj, cmul, ci. cbn [fst snd]. rewrite Nat.add_0_l. f_equal; store_tac.
    + transitivity (e1 + (rp * rp + ip * ip) * o2); [field|]. rewrite <- N2. ring.
    + transitivity (- e2 + (rp * rp + ip * ip) * o1); [field|]. rewrite <- N1. ring.
  - intros k K1 K2. unfold zc. rewrite Nat.add_0_l. f_equal; store_tac; reflexivity.
  - intros i Hi. store_tac. reflexivity.
Qed.

Lemma irfft_ok_c q y x : (3 <= q)%nat -> let h := (2 ^ q)%nat in
  y 0%nat = fst (dX x (2 * h) 0) -> y 1%nat = fst (dX x (2 * h) h) ->
  (forall k, (1 <= k < h)%nat -> zc y 0 k = dX x (2 * h) k) ->
  exists d, irfft exact (2 * h) y = Some d /\
  (forall i, (i < 2 * h)%nat -> d i = INR h * x i) /\
  (forall i, (2 * h <= i)%nat -> d i = y i).
Proof.
  intros Hq h Y0 Y1 Yk. unfold irfft. rewrite div_2.
  assert (Hg : exists g, h = (2 * g)%nat /\ (0 < g)%nat).
  { unfold h. destruct q as [|q']; [lia|]. exists (2 ^ q')%nat. split; [reflexivity|]. pose proof (pow_pos q'); lia. }
  destruct Hg as (g & Eg & Hg). assert (Hh : (0 < h)%nat) by lia.
  replace (2 * h / 4)%nat with g by (apply (Nat.div_unique (2 * h) 4 g 0); lia).
  rewrite twiddle_first by exact Hh. rewrite for_values_3.
  set (d1 := fst (fold_left _ _ _)).
  assert (G : d1 0%nat = y 0%nat /\ d1 1%nat = y 1%nat /\ (forall k, (1 <= k < h)%nat -> zc d1 0 k = dZ x h k) /\
              (forall i, (2 * h <= i)%nat -> d1 i = y i)).
  { pose (P := fun (a : nat) (s : (nat -> R) * (R * R)) =>
      (snd s : C) = om false (2 * h) a /\ zc (fst s) 0 0 = zc y 0 0 /\
      (forall k, (1 <= k < a)%nat -> (k < g)%nat -> zc (fst s) 0 k = dZ x h k /\ zc (fst s) 0 (h - k) = dZ x h (h - k)) /\
      (forall k, (a <= k <= h - a)%nat -> zc (fst s) 0 k = dX x (2 * h) k) /\
      (forall i, (2 * h <= i)%nat -> fst s i = y i)).
    assert (HP : P (1 + (g - 1))%nat (fold_left (irfft_turn exact (2 * h)) (map (fun a => a) (seq 1 (g - 1))) (y, om false (2 * h) 1))).
    { apply (loop_inv P).
      - unfold P. cbn [fst snd]. split; [reflexivity|]. split; [reflexivity|]. split; [intros; lia|].
        split; [intros; apply Yk; lia|reflexivity].
      - intros a [da w] Ha (W & P0 & P1 & P2 & P3). cbn [fst snd] in *.
        pose proof (irfft_turn_zc h da w a ltac:(lia) ltac:(lia)) as T.
        destruct (irfft_turn exact (2 * h) (da, w) a) as [db w'] eqn:Et.
        change (w = om false (2 * h) a) in W.
        assert (Wc : conj w = om true (2 * h) a) by (rewrite W; symmetry; apply (om_conj false)).
        specialize (T (dE x h a) (dO x h a)).
        destruct T as (T0 & T1 & T2 & T3 & T4).
        { rewrite W. apply om_norm. }
        { rewrite P2 by lia. rewrite Wc. apply dX_split. exact Hh. }
        { rewrite P2 by lia. rewrite Wc, dX_split, dE_reflect, dO_reflect, om_mirror, conj_mul by lia. ring. }
        unfold P. cbn [fst snd]. split; [|split; [|split; [|split]]].
        + rewrite T0, W. rewrite twiddle_next by exact Hh. replace (a + 1)%nat with (S a) by lia. symmetry. apply om_S.
        + rewrite T3 by lia. exact P0.
        + intros k Hk Hkg. destruct (Nat.eq_dec k a) as [->|Hne].
          * split.
            -- rewrite T1. symmetry. apply dZ_split.
            -- rewrite T2. rewrite dZ_split, dE_reflect, dO_reflect by lia. reflexivity.
          * destruct (P1 k ltac:(lia) Hkg) as [Q1 Q2]. rewrite !T3 by lia. split; assumption.
        + intros k Hk. rewrite T3 by lia. apply P2. lia.
        + intros i Hi. rewrite T4 by exact Hi. apply P3. exact Hi. }
    rewrite map_id in HP.
    set (s := fold_left _ _ _) in HP. destruct HP as (_ & P0 & P1 & P2 & P3). change (fst s) with d1 in P0, P1, P2, P3.
    replace (1 + (g - 1))%nat with g in * by lia.
    unfold zc in P0. cbn [Nat.add Nat.mul] in P0. pose proof (f_equal fst P0) as Q0. pose proof (f_equal snd P0) as Q1. cbn [fst snd] in Q0, Q1.
    split; [exact Q0|]. split; [exact Q1|]. split; [|exact P3].
    intros k Hk. destruct (lt_eq_lt_dec k g) as [[Hlt|Heq]|Hgt].
    - apply P1; lia.
    - subst k. rewrite P2 by lia. rewrite dZ_split, dX_split by exact Hh. f_equal. f_equal. rewrite Eg. apply om_quarter. exact Hg.
    - replace k with (h - (h - k))%nat by lia. apply P1; lia. }
  clearbody d1. destruct G as (D0 & D1 & G1 & G2).
  cbn [fadd fsub fhalf exact].
  set (d2 := store (store d1 0 _) 1 _).
  assert (Or : snd (dE x h 0) = 0 /\ snd (dO x h 0) = 0).
  { unfold dE, dO. split.
    - rewrite (csum_ext _ _ (fun j => (x (2 * j)%nat, 0))) by (intros j _; rewrite Nat.mul_0_r, om_0; ceq).
      rewrite csum_pair. cbn [snd]. clear. induction h; cbn; lra.
    - rewrite (csum_ext _ _ (fun j => (x (2 * j + 1)%nat, 0))) by (intros j _; rewrite Nat.mul_0_r, om_0; ceq).
      rewrite csum_pair. cbn [snd]. clear. induction h; cbn; lra. }
  destruct Or as [K1 K2].
  assert (Eh0 : fst (dE x h h) = fst (dE x h 0) /\ fst (dO x h h) = fst (dO x h 0)).
  { pose proof (dE_reflect x h 0 ltac:(lia) Hh) as L1. pose proof (dO_reflect x h 0 ltac:(lia) Hh) as L2.
    rewrite Nat.sub_0_r in L1, L2. rewrite L1, L2. split; reflexivity. }
  assert (Zk : forall k, (k < h)%nat -> zc d2 0 k = dZ x h k).
  { intros k Hk. destruct (Nat.eq_dec k 0) as [->|Hne].
    - unfold zc. cbn [Nat.add Nat.mul].
      change (d2 0%nat) with ((d1 0%nat + d1 1%nat) / 2). change (d2 1%nat) with ((d1 0%nat - d1 1%nat) / 2).
      rewrite D0, D1, Y0, Y1. rewrite !dX_split, om_0, om_half by exact Hh. rewrite dZ_split.
      unfold cadd, cmul, copp, c1, ci. cbn [fst snd]. destruct Eh0 as [-> ->]. rewrite K1, K2. f_equal; lra.
    - rewrite <- G1 by lia. unfold zc, d2. f_equal; rewrite !store_ne by lia; reflexivity. }
  destruct (fft_ok_c false q d2 Hq) as (d & E & F1 & F2). fold h in E, F1, F2.
  exists d. split; [exact E|]. split.
  - assert (Fz : forall l, (l < h)%nat -> zc d 0 l = cmul (creal (INR h)) (zc x 0 l)).
    { intros l Hl. rewrite F1 by exact Hl. rewrite <- (inverse_c h (zc x 0) l Hl).
      apply csum_ext. intros k Hk. rewrite Zk by exact Hk. reflexivity. }
    intros i Hi. destruct (even_case i) as [[l ->]|[l ->]].
    + specialize (Fz l ltac:(lia)). unfold zc, cmul, creal in Fz. cbn [fst snd] in Fz. pose proof (f_equal fst Fz) as A1. cbn [fst] in A1.
      rewrite Nat.add_0_l in A1. rewrite A1. ring.
    + specialize (Fz l ltac:(lia)). unfold zc, cmul, creal in Fz. cbn [fst snd] in Fz. pose proof (f_equal snd Fz) as A1. cbn [snd] in A1.
      rewrite Nat.add_0_l in A1. rewrite A1. ring.
  - intros i Hi. rewrite F2 by exact Hi. unfold d2. rewrite !store_ne by lia. apply G2. exact Hi.
Qed.
