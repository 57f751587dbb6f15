(** Ftlocal_proofs.v - in any arithmetic whatsoever the transform code reads and writes only the array it is given. *)
From Coq Require Import Lia.
From Verif Require Export Transform_proofs.
Import ListNotations.
Local Open Scope nat_scope.

Lemma turn_range p i : 3 <= p -> In i (for_values 1 1 (2 ^ S p / 4)) -> 1 <= i /\ 4 * i + 4 <= 2 ^ S p.
Proof.
  intros Hp. destruct p as [|p]; [lia|]. rewrite !pow_S. replace (2 * (2 * 2 ^ p) / 4) with (2 ^ p).
  - rewrite for_values_3. intros H. apply in_seq in H. lia.
  - replace (2 * (2 * 2 ^ p)) with (2 ^ p * 4) by lia. symmetry. apply Nat.div_mul. lia.
Qed.

Section LOC.
Context {T : Type} (A : arith T).
Notation mem := (nat -> T).
Variable n : nat.
Variables e e2 : mem.   (* the two arrays at the start *)

(** Equal inside, each still its own old self outside. *)
Definition twin (d d2 : mem) : Prop :=
  (forall i, i < n -> d i = d2 i) /\ (forall i, n <= i -> d i = e i) /\ (forall i, n <= i -> d2 i = e2 i).

Lemma twin_read d d2 i : twin d d2 -> i < n -> d i = d2 i.
Proof. intros H. apply H. Qed.
Lemma twin_store d d2 i v v2 : twin d d2 -> i < n -> v = v2 -> twin (store d i v) (store d2 i v2).
Proof.
  intros (H1 & H2 & H3) Hi ->. split; [|split]; intros k Hk.
  - unfold store. destruct (k =? i); auto.
  - rewrite store_ne by lia. auto.
  - rewrite store_ne by lia. auto.
Qed.
Lemma let_T {X} (Q : X -> X -> Prop) (v v2 : T) (K K2 : T -> X) : v = v2 -> (forall x, Q (K x) (K2 x)) -> Q (let x := v in K x) (let x := v2 in K2 x).
Proof. intros -> H. apply H. Qed.
Lemma let_M {X} (Q : X -> X -> Prop) (v v2 : mem) (K K2 : mem -> X) : twin v v2 -> (forall x x2, twin x x2 -> Q (K x) (K2 x2)) ->
  Q (let x := v in K x) (let x := v2 in K2 x).
Proof. intros H1 H. apply H. exact H1. Qed.

Ltac reads := repeat match goal with H : twin ?d ?d2 |- context[?d ?i] => rewrite (twin_read d d2 i H) by lia end; try reflexivity.
Ltac steps := repeat first
  [ match goal with |- ?Q (let x := ?v in @?K x) (let y := ?v2 in @?K2 y) =>
      first [ refine (let_M Q v v2 K K2 _ _); [|intros ? ? ?]; [solve [apply twin_store; [assumption|lia|reads]]|]
            | refine (let_T Q v v2 K K2 _ _); [solve [reads]|intros ?] ]; cbv beta end ].
Ltac done := apply twin_store; [assumption|lia|reads].

Lemma basecase_twin f b d d2 : b + 8 <= n -> twin d d2 -> twin (dl_basecase A f b d) (dl_basecase A f b d2).
Proof.
  intros Hb H. cbv delta [dl_basecase]; cbv beta. steps. done.
Qed.

(** Loop states: two arrays and the same twiddle factors. *)
Definition twins {W} (s s2 : mem * W) : Prop := twin (fst s) (fst s2) /\ snd s = snd s2.
Lemma fold_twins {W} (f : mem * W -> nat -> mem * W) l : (forall i s s2, In i l -> twins s s2 -> twins (f s i) (f s2 i)) ->
  forall s s2, twins s s2 -> twins (fold_left f l s) (fold_left f l s2).
Proof.
  induction l as [|i l IH]; intros Hf s s2 H; [exact H|]. cbn [fold_left]. apply IH.
  - intros j t t2 Hj. apply Hf. right. exact Hj.
  - apply Hf; [left; reflexivity|exact H].
Qed.

Lemma butterfly_twin f np b i s s2 : b + (i + (np + 1)) < n -> twins s s2 -> twins (butterfly A f np b s i) (butterfly A f np b s2 i).
Proof.
  destruct s as [d [wr wi]], s2 as [d2 w2]. intros Hi [H1 H2]. cbn [fst snd] in *. subst w2.
  cbv delta [butterfly]; cbv beta iota. steps.
  split; [assumption|reflexivity].
Qed.

Lemma dl_twin f p : 3 <= p -> forall fuel b d d2, p <= fuel -> b + 2 * 2 ^ p <= n -> twin d d2 ->
  exists r r2, dl_apply A fuel f (2 ^ p) b d = Some r /\ dl_apply A fuel f (2 ^ p) b d2 = Some r2 /\ twin r r2.
Proof.
  induction p as [|p IH]; [lia|]. intros Hp fuel b d d2 Hf Hb H. destruct fuel as [|fuel]; [lia|]. cbn [dl_apply].
  assert (Q : exists r r2,
    (if 2 ^ S p =? 8 then Some (dl_basecase A f (b + 2 ^ S p) (dl_basecase A f b d))
     else match dl_apply A fuel f (2 ^ S p / 2) b d with Some d1 => dl_apply A fuel f (2 ^ S p / 2) (b + 2 ^ S p) d1 | None => None end) = Some r /\
    (if 2 ^ S p =? 8 then Some (dl_basecase A f (b + 2 ^ S p) (dl_basecase A f b d2))
     else match dl_apply A fuel f (2 ^ S p / 2) b d2 with Some d1 => dl_apply A fuel f (2 ^ S p / 2) (b + 2 ^ S p) d1 | None => None end) = Some r2 /\ twin r r2).
  { rewrite pow_S in *. rewrite div_2. destruct (2 * 2 ^ p =? 8) eqn:Q; [apply Nat.eqb_eq in Q|apply Nat.eqb_neq in Q].
    - do 2 eexists. split; [reflexivity|]. split; [reflexivity|]. apply basecase_twin; [lia|]. apply basecase_twin; [lia|exact H].
    - assert (Hp3 : 3 <= p). { assert (p <> 2) by (intros ->; apply Q; reflexivity). lia. }
      destruct (IH Hp3 fuel b d d2 ltac:(lia) ltac:(lia) H) as (r & r2 & -> & -> & R).
      apply (IH Hp3 fuel (b + 2 * 2 ^ p) r r2 ltac:(lia) ltac:(lia) R). }
  destruct Q as (r & r2 & -> & -> & R). do 2 eexists. split; [reflexivity|]. split; [reflexivity|].
  apply (fold_twins (butterfly A f (2 ^ S p) b)); [|split; [exact R|reflexivity]].
  intros i s s2 Hi. apply butterfly_twin. rewrite pow_S, for_values_0 in Hi. apply in_map_iff in Hi. destruct Hi as (a & <- & Ha).
  apply in_seq in Ha. rewrite pow_S in *. lia.
Qed.

Lemma loop_inv2 {S} (P : nat -> S -> S -> Prop) (f : S -> nat -> S) (g : nat -> nat) : forall cnt start s s2,
  P start s s2 -> (forall a s s2, start <= a < start + cnt -> P a s s2 -> P (a + 1) (f s (g a)) (f s2 (g a))) ->
  P (start + cnt) (fold_left f (map g (seq start cnt)) s) (fold_left f (map g (seq start cnt)) s2).
Proof.
  induction cnt as [|cnt IH]; intros start s s2 H0 Hs; [rewrite Nat.add_0_r; exact H0|].
  cbn [seq map fold_left]. replace (start + Datatypes.S cnt) with (Datatypes.S start + cnt) by lia.
  apply IH.
  - replace (Datatypes.S start) with (start + 1) by lia. apply Hs; [lia|exact H0].
  - intros a s1 s3 Ha. apply Hs. lia.
Qed.

Lemma swap_twin p d d2 : 2 * 2 ^ p <= n -> twin d d2 ->
  twin (fst (fold_left (swap_turn (2 ^ p)) (for_values 1 2 (2 ^ p * 2)) (d, 1))) (fst (fold_left (swap_turn (2 ^ p)) (for_values 1 2 (2 ^ p * 2)) (d2, 1))).
Proof.
  intros Hn H. rewrite for_values_1.
  pose (P := fun (a : nat) (s s2 : mem * nat) => (a < 2 ^ p -> snd s = 2 * rev p a + 1) /\ twins s s2).
  assert (HP : P (0 + 2 ^ p) (fold_left (swap_turn (2 ^ p)) (map (fun a => 2 * a + 1) (seq 0 (2 ^ p))) (d, 1))
                 (fold_left (swap_turn (2 ^ p)) (map (fun a => 2 * a + 1) (seq 0 (2 ^ p))) (d2, 1))).
  { apply (loop_inv2 P).
    - split; [|split; [exact H|reflexivity]]. intros _. cbn [snd].
      assert (rev p 0 = 0) as ->; [|reflexivity]. clear. induction p as [|p IH]; [reflexivity|].
      change 0 with (2 * 0) at 1. rewrite rev_even. exact IH.
    - intros a [x j] [y j2] [_ Ha] (Hj & Hx & Hw). cbn [fst snd] in *. subst j2. specialize (Hj ltac:(lia)). subst j.
      pose proof (rev_lt p a) as Hra. unfold swap_turn. split; [|split; [|reflexivity]]; cbn [fst snd].
      + intros Hlt. replace (a + 1) with (S a) in * by lia. apply next_rev; [|reflexivity|exact Hlt].
        clear. induction p as [|p IH]; [lia|]. rewrite pow_S. pose proof (pow_pos p). lia.
      + destruct (2 * a + 1 <? 2 * rev p a + 1); [|exact Hx].
        set (j := 2 * rev p a + 1) in *. assert (j < n) by lia. assert (2 * a + 1 < n) by lia. set (i := 2 * a + 1) in *. clearbody i j.
        cbv zeta. rewrite (twin_read x y (i - 1) Hx), (twin_read x y (j - 1) Hx) by lia.
        assert (Hz : twin (store (store x (j - 1) (y (i - 1))) (i - 1) (y (j - 1))) (store (store y (j - 1) (y (i - 1))) (i - 1) (y (j - 1)))).
        { repeat (apply twin_store; [|lia|reflexivity]). exact Hx. }
        rewrite (twin_read _ _ i Hz), (twin_read _ _ j Hz) by lia.
        apply twin_store; [apply twin_store; [exact Hz|lia|reflexivity]|lia|reflexivity]. }
  apply HP.
Qed.

Lemma fft_twin f p d d2 : 3 <= p -> 2 * 2 ^ p <= n -> twin d d2 ->
  exists r r2, fft A f (2 ^ p) d = Some r /\ fft A f (2 ^ p) d2 = Some r2 /\ twin r r2.
Proof.
  intros Hp Hn H. unfold fft. apply dl_twin; [exact Hp| |lia|].
  - clear. induction p as [|p IH]; [cbn; lia|]. rewrite pow_S. pose proof (pow_pos p). lia.
  - apply swap_twin; auto.
Qed.

Lemma rfft_turn_twin np i s s2 : 1 <= i -> 2 * i <= np -> np + 1 < n + i + i -> i + i + 1 < n -> twins s s2 -> twins (rfft_turn A np s i) (rfft_turn A np s2 i).
Proof.
  destruct s as [d [wr wi]], s2 as [d2 w2]. intros H1 H2 H3 H4 [Hd Hw]. cbn [fst snd] in *. subst w2.
  unfold rfft_turn. cbv zeta.
  pose (i1 := i + i). pose (i3 := np - i1).
  assert (I1 : i1 + 1 < n) by (unfold i1; lia). assert (I3 : i3 + 1 < n) by (unfold i3, i1; lia).
  fold i1. fold i3. clearbody i1 i3.
  split; [|reflexivity]. cbn [fst]. rewrite !(twin_read d d2 _ Hd) by lia.
  repeat (apply twin_store; [|lia|reflexivity]). exact Hd.
Qed.
Lemma irfft_turn_twin np i s s2 : 1 <= i -> 2 * i <= np -> np + 1 < n + i + i -> i + i + 1 < n -> twins s s2 -> twins (irfft_turn A np s i) (irfft_turn A np s2 i).
Proof.
  destruct s as [d [wr wi]], s2 as [d2 w2]. intros H1 H2 H3 H4 [Hd Hw]. cbn [fst snd] in *. subst w2.
  unfold irfft_turn. cbv zeta.
  pose (i1 := i + i). pose (i3 := np - i1).
  assert (I1 : i1 + 1 < n) by (unfold i1; lia). assert (I3 : i3 + 1 < n) by (unfold i3, i1; lia).
  fold i1. fold i3. clearbody i1 i3.
  split; [|reflexivity]. cbn [fst]. rewrite !(twin_read d d2 _ Hd) by lia.
  repeat (apply twin_store; [|lia|reflexivity]). exact Hd.
Qed.

Lemma rfft_twin p d d2 : 4 <= p -> 2 ^ p <= n -> twin d d2 ->
  exists r r2, rfft A (2 ^ p) d = Some r /\ rfft A (2 ^ p) d2 = Some r2 /\ twin r r2.
Proof.
  intros Hp Hn H. destruct p as [|p]; [lia|]. unfold rfft. replace (2 ^ S p / 2) with (2 ^ p) by (rewrite pow_S, div_2; reflexivity).
  destruct (fft_twin true p d d2 ltac:(lia) ltac:(rewrite pow_S in Hn; exact Hn) H) as (r & r2 & -> & -> & R).
  set (w := (fadd A (fz A 1) (wp_real A true (2 ^ S p)), wp_imag A true (2 ^ S p))).
  assert (L : twins (fold_left (rfft_turn A (2 ^ S p)) (for_values 1 1 (2 ^ S p / 4)) (r, w)) (fold_left (rfft_turn A (2 ^ S p)) (for_values 1 1 (2 ^ S p / 4)) (r2, w))).
  { apply fold_twins; [|split; [exact R|reflexivity]]. intros i s s2 Hi. apply turn_range in Hi; [|lia]. apply rfft_turn_twin; lia. }
  destruct L as [L _]. set (s := fold_left _ _ (r, w)) in *. set (s2 := fold_left _ _ (r2, w)) in *.
  do 2 eexists. split; [reflexivity|]. split; [reflexivity|].
  assert (2 <= 2 ^ S p) by (rewrite pow_S; pose proof (pow_pos p); lia).
  rewrite !(twin_read _ _ 0 L), !(twin_read _ _ 1 L) by lia.
  assert (L2 : twin (store (fst s) 0 (fadd A (fst s2 0) (fst s2 1))) (store (fst s2) 0 (fadd A (fst s2 0) (fst s2 1)))) by (apply twin_store; [exact L|lia|reflexivity]).
  apply twin_store; [exact L2|lia|]. rewrite (twin_read _ _ 1 L2) by lia. reflexivity.
Qed.

Lemma irfft_twin p d d2 : 4 <= p -> 2 ^ p <= n -> twin d d2 ->
  exists r r2, irfft A (2 ^ p) d = Some r /\ irfft A (2 ^ p) d2 = Some r2 /\ twin r r2.
Proof.
  intros Hp Hn R. destruct p as [|p]; [lia|]. unfold irfft. replace (2 ^ S p / 2) with (2 ^ p) by (rewrite pow_S, div_2; reflexivity).
  set (w := (fadd A (fz A 1) (wp_real A false (2 ^ S p)), wp_imag A false (2 ^ S p))).
  assert (L : twins (fold_left (irfft_turn A (2 ^ S p)) (for_values 1 1 (2 ^ S p / 4)) (d, w)) (fold_left (irfft_turn A (2 ^ S p)) (for_values 1 1 (2 ^ S p / 4)) (d2, w))).
  { apply fold_twins; [|split; [exact R|reflexivity]]. intros i s s2 Hi. apply turn_range in Hi; [|lia]. apply irfft_turn_twin; lia. }
  destruct L as [L _]. set (s := fold_left _ _ (d, w)) in *. set (s2 := fold_left _ _ (d2, w)) in *. cbv zeta.
  apply fft_twin; [lia|rewrite pow_S in Hn; exact Hn|].
  assert (2 <= 2 ^ S p) by (rewrite pow_S; pose proof (pow_pos p); lia).
  rewrite !(twin_read _ _ 0 L), !(twin_read _ _ 1 L) by lia.
  assert (L2 : twin (store (fst s) 0 (fhalf A (fadd A (fst s2 0) (fst s2 1)))) (store (fst s2) 0 (fhalf A (fadd A (fst s2 0) (fst s2 1))))) by (apply twin_store; [exact L|lia|reflexivity]).
  apply twin_store; [exact L2|lia|]. rewrite (twin_read _ _ 1 L2) by lia. reflexivity.
Qed.
End LOC.

Section CONV.
Context {T : Type} (A : arith T).
Notation mem := (nat -> T).
Definition agreed n (x y : mem) : Prop := forall i, i < n -> x i = y i.

Theorem convolve_local p ha hb (af bf af2 bf2 : mem) : 4 <= p -> length ha <= 2 ^ p -> length hb <= 2 ^ p ->
  exists r r2, convolve A (2 ^ p) ha hb af bf = Some r /\ convolve A (2 ^ p) ha hb af2 bf2 = Some r2 /\ twin (2 ^ p) af af2 r r2.
Proof.
  intros Hp Ha Hb. unfold convolve.
  assert (FT : forall h o o2, length h <= 2 ^ p -> twin (2 ^ p) o o2 (filled A h (2 ^ p) o) (filled A h (2 ^ p) o2)).
  { intros h o o2 Hh. unfold filled. split; [|split]; intros i Hi.
    - destruct (i <? length h); [reflexivity|]. replace (i <? 2 ^ p) with true by (symmetry; apply Nat.ltb_lt; exact Hi). reflexivity.
    - replace (i <? length h) with false by (symmetry; apply Nat.ltb_ge; lia). replace (i <? 2 ^ p) with false by (symmetry; apply Nat.ltb_ge; exact Hi). reflexivity.
    - replace (i <? length h) with false by (symmetry; apply Nat.ltb_ge; lia). replace (i <? 2 ^ p) with false by (symmetry; apply Nat.ltb_ge; exact Hi). reflexivity. }
  destruct (rfft_twin A (2 ^ p) af af2 p _ _ Hp (le_n _) (FT ha af af2 Ha)) as (a & a2 & -> & -> & Ra).
  destruct (rfft_twin A (2 ^ p) bf bf2 p _ _ Hp (le_n _) (FT hb bf bf2 Hb)) as (b & b2 & -> & -> & Rb).
  assert (Hpow : 16 <= 2 ^ p). { change 16 with (2 ^ 4). apply Nat.pow_le_mono_r; lia. }
  apply irfft_twin; [exact Hp|lia|].
  cbv zeta. rewrite (twin_read _ _ _ b b2 0 Rb), (twin_read _ _ _ b b2 1 Rb), (twin_read _ _ _ a a2 0 Ra) by lia.
  match goal with |- twin _ _ _ (fold_left _ _ ?x) (fold_left _ _ ?y) => assert (Q : twin (2 ^ p) af af2 x y) end.
  { assert (Q1 : twin (2 ^ p) af af2 (store a 0 (fmul A (a2 0) (b2 0))) (store a2 0 (fmul A (a2 0) (b2 0)))) by (apply twin_store; [exact Ra|lia|reflexivity]).
    rewrite (twin_read _ _ _ _ _ 1 Q1) by lia. apply twin_store; [exact Q1|lia|reflexivity]. }
  match goal with |- twin _ _ _ (fold_left _ ?l ?x) (fold_left _ _ ?y) => generalize Q; generalize x; generalize y; assert (Hl : forall j, In j l -> j + 1 < 2 ^ p) end.
  { destruct p as [|p]; [lia|]. rewrite pow_S, for_values_2. intros j Hj. apply in_map_iff in Hj. destruct Hj as (q & <- & Hq). apply in_seq in Hq. lia. }
  clear Q. induction (for_values 2 2 (2 ^ p)) as [|j l IH]; intros y x Q; [exact Q|]. cbn [fold_left].
  apply IH; [intros k Hk; apply Hl; right; exact Hk|]. specialize (Hl j (or_introl eq_refl)).
  unfold product_turn. cbv zeta.
  rewrite !(twin_read _ _ _ b b2 _ Rb) by lia. rewrite !(twin_read _ _ _ x y _ Q) by lia.
  match goal with |- twin _ _ _ (store ?u _ _) (store ?v _ _) => assert (Q1 : twin (2 ^ p) af af2 u v) by (apply twin_store; [exact Q|lia|reflexivity]) end.
  rewrite !(twin_read _ _ _ _ _ (j + 1) Q1) by lia. apply twin_store; [exact Q1|lia|reflexivity].
Qed.
End CONV.
