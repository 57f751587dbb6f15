(** Transform_proofs.v - complex sums, roots of unity, bit reversal. *)
From Coq Require Import Lra Lia Ring.
From Verif Require Export Spec_Transform.
Local Open Scope R_scope.

(** * Complex numbers *)
Definition C : Type := (R * R)%type.
Definition c0 : C := (0, 0).
Definition c1 : C := (1, 0).
Definition cadd (a b : C) : C := (fst a + fst b, snd a + snd b).
Definition csub (a b : C) : C := (fst a - fst b, snd a - snd b).
Definition copp (a : C) : C := (- fst a, - snd a).
Definition cmul (a b : C) : C := (fst a * fst b - snd a * snd b, fst a * snd b + snd a * fst b).
Definition conj (a : C) : C := (fst a, - snd a).
Definition creal (x : R) : C := (x, 0).
Definition ci : C := (0, 1).

Ltac ceq := unfold cadd, csub, copp, cmul, conj, creal, ci, c0, c1 in *; cbn [fst snd] in *; f_equal; try ring.

Lemma c_ring : ring_theory c0 c1 cadd cmul csub copp (@eq C).
Proof.
  constructor; intros; repeat match goal with x : C |- _ => destruct x end; ceq.
Qed.
Add Ring c_ring_inst : c_ring.

Fixpoint csum (n : nat) (f : nat -> C) : C :=
  match n with O => c0 | S k => cadd (csum k f) (f k) end.

Lemma csum_ext n f g : (forall j, (j < n)%nat -> f j = g j) -> csum n f = csum n g.
Proof.
  induction n as [|n IH]; intros H; cbn; [reflexivity|]. rewrite IH, H by (auto with arith). reflexivity.
Qed.
Lemma csum_add n f g : csum n (fun j => cadd (f j) (g j)) = cadd (csum n f) (csum n g).
Proof. induction n as [|n IH]; cbn; [ceq|]. rewrite IH. ring. Qed.
Lemma csum_sub n f g : csum n (fun j => csub (f j) (g j)) = csub (csum n f) (csum n g).
Proof. induction n as [|n IH]; cbn; [ceq|]. rewrite IH. ring. Qed.
Lemma csum_mul n a f : csum n (fun j => cmul a (f j)) = cmul a (csum n f).
Proof. induction n as [|n IH]; cbn; [ceq|]. rewrite IH. ring. Qed.
Lemma csum_zero n f : (forall j, (j < n)%nat -> f j = c0) -> csum n f = c0.
Proof. induction n as [|n IH]; intros H; cbn; [reflexivity|]. rewrite IH, H by (auto with arith). ring. Qed.
Lemma csum_conj n f : csum n (fun j => conj (f j)) = conj (csum n f).
Proof. induction n as [|n IH]; cbn; [ceq|]. rewrite IH. destruct (csum n f), (f n). ceq. Qed.

(** even and odd indices *)
Lemma csum_split n f : csum (2 * n) f = cadd (csum n (fun j => f (2 * j)%nat)) (csum n (fun j => f (2 * j + 1)%nat)).
Proof.
  induction n as [|n IH]; [cbn; ring|]. replace (2 * S n)%nat with (S (S (2 * n))) by lia.
  cbn [csum]. rewrite IH. replace (2 * n + 1)%nat with (S (2 * n)) by lia. ring.
Qed.
Lemma csum_shift n m f : csum (n + m) f = cadd (csum n f) (csum m (fun j => f (n + j)%nat)).
Proof.
  induction m as [|m IH]; [rewrite Nat.add_0_r; cbn; ring|]. rewrite Nat.add_succ_r. cbn [csum]. rewrite IH. ring.
Qed.
Lemma csum_swap n m f : csum n (fun i => csum m (fun j => f i j)) = csum m (fun j => csum n (fun i => f i j)).
Proof.
  induction n as [|n IH]; [cbn; symmetry; apply csum_zero; reflexivity|].
  cbn [csum]. rewrite IH, <- csum_add. reflexivity.
Qed.
Lemma csum_single n f i : (i < n)%nat -> (forall j, (j < n)%nat -> j <> i -> f j = c0) -> csum n f = f i.
Proof.
  induction n as [|n IH]; intros Hi H; [lia|]. cbn. destruct (Nat.eq_dec i n) as [->|Hne].
  - rewrite csum_zero by (intros; apply H; lia). ring.
  - rewrite IH by (try lia; intros; apply H; lia). rewrite (H n) by lia. ring.
Qed.
Lemma csum_pair n f g : csum n (fun j => (f j, g j)) = (rsum n f, rsum n g).
Proof. induction n as [|n IH]; cbn; [reflexivity|]. rewrite IH. ceq. Qed.

(** * Roots of unity *)
Definition cis (a : R) : C := (cos a, sin a).
Lemma cis_add a b : cis (a + b) = cmul (cis a) (cis b).
Proof. unfold cis. rewrite cos_plus, sin_plus. ceq. Qed.
Lemma cis_0 : cis 0 = c1.
Proof. unfold cis. rewrite cos_0, sin_0. reflexivity. Qed.
Lemma cis_conj a : cis (- a) = conj (cis a).
Proof. unfold cis. rewrite cos_neg, sin_neg. reflexivity. Qed.
Lemma cis_2PI : cis (2 * PI) = c1.
Proof. unfold cis. rewrite cos_2PI, sin_2PI. reflexivity. Qed.
Lemma cis_PI : cis PI = copp c1.
Proof. unfold cis. rewrite cos_PI, sin_PI. ceq. Qed.

Definition sgn (fwd : bool) : R := if fwd then 1 else -1.
(** e^(+-2 pi i t / n) *)
Definition om (fwd : bool) (n t : nat) : C := cis (sgn fwd * (2 * PI * INR t / INR n)).

Lemma om_0 f n : om f n 0 = c1.
Proof. unfold om. cbn [INR]. replace (sgn f * (2 * PI * 0 / INR n)) with 0 by (unfold Rdiv; ring). apply cis_0. Qed.
Lemma om_add f n a b : om f n (a + b) = cmul (om f n a) (om f n b).
Proof. unfold om. rewrite <- cis_add. f_equal. rewrite plus_INR. unfold Rdiv. ring. Qed.
Lemma om_n f n : (0 < n)%nat -> om f n n = c1.
Proof.
  intros H. apply lt_0_INR in H. unfold om. replace (2 * PI * INR n / INR n) with (2 * PI) by (field; lra).
  destruct f; unfold sgn.
  - rewrite Rmult_1_l. apply cis_2PI.
  - replace (-1 * (2 * PI)) with (- (2 * PI)) by ring. rewrite cis_conj, cis_2PI. ceq.
Qed.
Lemma om_scale f k n t : (0 < k)%nat -> (0 < n)%nat -> om f (k * n) (k * t) = om f n t.
Proof.
  intros Hk Hn. unfold om. f_equal. apply lt_0_INR in Hk. apply lt_0_INR in Hn.
  rewrite !mult_INR. field. lra.
Qed.
Lemma om_half f h : (0 < h)%nat -> om f (2 * h) h = copp c1.
Proof.
  intros H. unfold om. apply lt_0_INR in H. rewrite mult_INR. change (INR 2) with 2.
  replace (2 * PI * INR h / (2 * INR h)) with PI by (field; lra).
  destruct f; unfold sgn.
  - rewrite Rmult_1_l. apply cis_PI.
  - replace (-1 * PI) with (- PI) by ring. rewrite cis_conj, cis_PI. ceq.
Qed.
Lemma om_mul_n f n k : (0 < n)%nat -> om f n (n * k) = c1.
Proof.
  intros H. induction k as [|k IH]; [rewrite Nat.mul_0_r; apply om_0|].
  rewrite Nat.mul_succ_r, om_add, IH, om_n by assumption. ring.
Qed.
Lemma om_S f n t : om f n (S t) = cmul (om f n t) (om f n 1).
Proof. rewrite <- om_add. f_equal. lia. Qed.
Lemma om_conj f n t : om (negb f) n t = conj (om f n t).
Proof.
  unfold om. rewrite <- cis_conj. f_equal. destruct f; cbn [negb sgn]; ring.
Qed.
Lemma om_inv f n t : cmul (om f n t) (om (negb f) n t) = c1.
Proof.
  unfold om. rewrite <- cis_add, <- cis_0. f_equal. destruct f; cbn [negb sgn]; ring.
Qed.
Lemma om_angle f n j k : om f n (j * k) = (cos (angle f n j k), sin (angle f n j k)).
Proof. unfold om, cis, angle. rewrite mult_INR. destruct f; reflexivity. Qed.

(** * Bit reversal *)
Local Open Scope nat_scope.
Fixpoint rev (p a : nat) : nat :=
  match p with
  | O => 0
  | S p => if Nat.even a then rev p (a / 2) else 2 ^ p + rev p (a / 2)
  end.

Lemma even_case a : (exists j, a = 2 * j) \/ (exists j, a = 2 * j + 1).
Proof. destruct (Nat.Even_or_Odd a) as [H|H]; [left|right]; exact H. Qed.
Lemma even_2 j : Nat.even (2 * j) = true.
Proof. apply Nat.even_spec. exists j. reflexivity. Qed.
Lemma even_2S j : Nat.even (2 * j + 1) = false.
Proof. rewrite Nat.even_add, even_2. reflexivity. Qed.
Lemma div_2 j : 2 * j / 2 = j.
Proof. rewrite Nat.mul_comm. apply Nat.div_mul. lia. Qed.
Lemma div_2S j : (2 * j + 1) / 2 = j.
Proof. symmetry. apply Nat.div_unique with 1; lia. Qed.

Lemma rev_even p j : rev (S p) (2 * j) = rev p j.
Proof. cbn [rev]. rewrite even_2, div_2. reflexivity. Qed.
Lemma rev_odd p j : rev (S p) (2 * j + 1) = 2 ^ p + rev p j.
Proof. cbn [rev]. rewrite even_2S, div_2S. reflexivity. Qed.
Lemma pow_S p : 2 ^ S p = 2 * 2 ^ p.
Proof. reflexivity. Qed.
Lemma pow_pos p : 1 <= 2 ^ p.
Proof. induction p; cbn [Nat.pow]; lia. Qed.
Lemma rev_lt p : forall a, rev p a < 2 ^ p.
Proof.
  induction p as [|p IH]; intros a; [cbn; lia|]. rewrite pow_S.
  destruct (even_case a) as [[j ->]|[j ->]]; [rewrite rev_even|rewrite rev_odd]; specialize (IH j); lia.
Qed.
Lemma rev_low p : forall a, a < 2 ^ p -> rev (S p) a = 2 * rev p a.
Proof.
  induction p as [|p IH]; intros a H; [cbn in H; assert (a = 0) by lia; subst; reflexivity|].
  rewrite pow_S in H. destruct (even_case a) as [[j ->]|[j ->]].
  - rewrite !rev_even. apply IH. lia.
  - rewrite !rev_odd, IH by lia. rewrite pow_S. lia.
Qed.
Lemma rev_high p : forall a, a < 2 ^ p -> rev (S p) (2 ^ p + a) = 2 * rev p a + 1.
Proof.
  induction p as [|p IH]; intros a H; [cbn in H; assert (a = 0) by lia; subst; reflexivity|].
  rewrite pow_S in *. destruct (even_case a) as [[j ->]|[j ->]].
  - replace (2 * 2 ^ p + 2 * j) with (2 * (2 ^ p + j)) by lia. rewrite !rev_even. apply IH. lia.
  - replace (2 * 2 ^ p + (2 * j + 1)) with (2 * (2 ^ p + j) + 1) by lia. rewrite !rev_odd, IH by lia. rewrite pow_S. lia.
Qed.
Lemma rev_rev p : forall a, a < 2 ^ p -> rev p (rev p a) = a.
Proof.
  induction p as [|p IH]; intros a H; [cbn in *; lia|]. rewrite pow_S in H.
  destruct (even_case a) as [[j ->]|[j ->]].
  - rewrite rev_even, rev_low, IH by (try apply rev_lt; lia). reflexivity.
  - rewrite rev_odd, rev_high, IH by (try apply rev_lt; lia). reflexivity.
Qed.

(** the reversed increment *)
Lemma next_rev p : forall fuel b a, p <= fuel -> b = rev p a -> S a < 2 ^ p ->
  next_reversed fuel (2 * b + 1) (2 ^ p) = 2 * rev p (S a) + 1.
Proof.
  induction p as [|p IH]; intros fuel b a Hf -> Ha; [cbn in Ha; lia|].
  destruct fuel as [|fuel]; [lia|]. cbn [next_reversed]. rewrite pow_S in *.
  pose proof (pow_pos p) as Hp. replace (1 <? 2 * 2 ^ p) with true by (symmetry; apply Nat.ltb_lt; lia). cbn [andb].
  destruct (even_case a) as [[j ->]|[j ->]].
  - rewrite rev_even. pose proof (rev_lt p j).
    replace (2 * 2 ^ p <? 2 * rev p j + 1) with false by (symmetry; apply Nat.ltb_ge; lia).
    replace (S (2 * j)) with (2 * j + 1) by lia. rewrite rev_odd. lia.
  - rewrite rev_odd. replace (2 * 2 ^ p <? 2 * (2 ^ p + rev p j) + 1) with true by (symmetry; apply Nat.ltb_lt; lia).
    rewrite div_2. replace (2 * (2 ^ p + rev p j) + 1 - 2 * 2 ^ p) with (2 * rev p j + 1) by lia.
    rewrite (IH fuel (rev p j) j) by (try reflexivity; lia).
    replace (S (2 * j + 1)) with (2 * S j) by lia. rewrite rev_even. reflexivity.
Qed.

(** * Loops *)
Lemma for_values_0 n : for_values 0 2 (2 * n) = map (fun a => 2 * a) (seq 0 n).
Proof.
  unfold for_values. replace ((2 * n - 0 + (2 - 1)) / 2) with n.
  - apply map_ext. intros a. lia.
  - replace (2 * n - 0 + (2 - 1)) with (2 * n + 1) by lia. symmetry. apply div_2S.
Qed.
Lemma for_values_1 n : for_values 1 2 (n * 2) = map (fun a => 2 * a + 1) (seq 0 n).
Proof.
  unfold for_values. destruct n as [|n]; [reflexivity|]. replace ((S n * 2 - 1 + (2 - 1)) / 2) with (S n).
  - apply map_ext. intros a. lia.
  - replace (S n * 2 - 1 + (2 - 1)) with (2 * S n) by lia. symmetry. apply div_2.
Qed.
Lemma for_values_2 n : for_values 2 2 (2 * n) = map (fun a => 2 * a) (seq 1 (n - 1)).
Proof.
  unfold for_values. replace ((2 * n - 2 + (2 - 1)) / 2) with (n - 1).
  - rewrite <- seq_shift, map_map. apply map_ext. intros a. lia.
  - replace (2 * n - 2 + (2 - 1)) with (2 * (n - 1) + 1) by lia. symmetry. apply div_2S.
Qed.
Lemma for_values_3 n : for_values 1 1 n = seq 1 (n - 1).
Proof.
  unfold for_values. replace ((n - 1 + (1 - 1)) / 1) with (n - 1) by (rewrite Nat.div_1_r; lia).
  rewrite <- seq_shift. apply map_ext. intros a. lia.
Qed.

Lemma loop_inv {S} (P : nat -> S -> Prop) (f : S -> nat -> S) (g : nat -> nat) : forall cnt start s,
  P start s -> (forall a s, start <= a < start + cnt -> P a s -> P (a + 1) (f s (g a))) ->
  P (start + cnt) (fold_left f (map g (seq start cnt)) s).
Proof.
  induction cnt as [|cnt IH]; intros start s H0 Hs; [rewrite Nat.add_0_r; exact H0|].
  cbn [seq map fold_left]. replace (start + Datatypes.S cnt) with (Datatypes.S start + cnt) by lia.
  apply IH.
  - replace (Datatypes.S start) with (start + 1) by lia. apply Hs; [lia|exact H0].
  - intros a s1 Ha. apply Hs. lia.
Qed.

Lemma store_eq {T} (m : nat -> T) i v : store m i v i = v.
Proof. unfold store. rewrite Nat.eqb_refl. reflexivity. Qed.
Lemma store_ne {T} (m : nat -> T) i v k : k <> i -> store m i v k = m k.
Proof. intros H. unfold store. apply Nat.eqb_neq in H. rewrite H. reflexivity. Qed.
