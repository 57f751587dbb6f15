(** Indep_proofs.v - multiplication reads only the lengths of its working memory, never the contents. *)
From Verif Require Export Refute_arith.
From Coq Require Import Arith.
Local Open Scope Z_scope.

(** Same length, same first [m] elements. *)
Definition agree (m : nat) (l l2 : list Z) : Prop :=
  length l = length l2 /\ forall i, (i < m)%nat -> nth_error l i = nth_error l2 i.
Lemma agree_refl m l : agree m l l.
Proof. split; auto. Qed.
Lemma agree_le m m' l l2 : (m' <= m)%nat -> agree m l l2 -> agree m' l l2.
Proof. intros H [A B]. split; [exact A|]. intros i Hi. apply B. lia. Qed.
Lemma agree_0 l l2 : length l = length l2 -> agree 0 l l2.
Proof. intros H. split; [exact H|]. intros i Hi. lia. Qed.
Lemma agree_all m l l2 : (length l <= m)%nat -> agree m l l2 -> l = l2.
Proof.
  revert m l2; induction l as [|x l IH]; intros m [|y l2] H [A B]; cbn in A; try discriminate; auto.
  cbn in H. destruct m as [|m]; [lia|]. pose proof (B 0%nat ltac:(lia)) as B0. cbn in B0. injection B0 as ->.
  f_equal. apply (IH m); [lia|]. split; [lia|]. intros i Hi. apply (B (S i)). lia.
Qed.

Lemma nth_error_firstn (l : list Z) k i : (i < k)%nat -> nth_error (firstn k l) i = nth_error l i.
Proof. revert k i; induction l as [|x l IH]; intros [|k] [|i] H; cbn; auto; try lia. apply IH. lia. Qed.
Lemma nth_error_skipn (l : list Z) k i : nth_error (skipn k l) i = nth_error l (k + i).
Proof. revert k; induction l as [|x l IH]; intros [|k]; cbn; auto. destruct i; reflexivity. Qed.

(** Two optional results that agree. *)
Definition osame {A} (R : A -> A -> Prop) (o o2 : option A) : Prop :=
  match o, o2 with Some a, Some b => R a b | None, None => True | _, _ => False end.

Lemma rd_len l off len v : rdsl l off len = Some v -> length v = len.
Proof.
  unfold rdsl. destruct (off + len <=? length l)%nat eqn:Q; [|discriminate]. intros H. injection H as <-.
  apply Nat.leb_le in Q. rewrite firstn_length, skipn_length. lia.
Qed.
Lemma rd_same m off len l l2 : agree m l l2 -> (off + len <= m)%nat -> rdsl l off len = rdsl l2 off len.
Proof.
  intros [A B] H. unfold rdsl. rewrite A. destruct (off + len <=? length l2)%nat eqn:Q; [|reflexivity]. apply Nat.leb_le in Q.
  f_equal. apply (agree_all len); [rewrite firstn_length; lia|]. split.
  - rewrite !firstn_length, !skipn_length. lia.
  - intros i Hi. rewrite !nth_error_firstn, !nth_error_skipn by lia. apply B. lia.
Qed.
Lemma rd_any off len l l2 : length l = length l2 -> osame (fun v v2 => length v = len /\ length v2 = len) (rdsl l off len) (rdsl l2 off len).
Proof.
  intros A. unfold rdsl. rewrite A. destruct (off + len <=? length l2)%nat eqn:Q; [|exact I]. apply Nat.leb_le in Q.
  cbn. rewrite !firstn_length, !skipn_length. lia.
Qed.

Lemma wr_nth l off vs l' i : wrsl l off vs = Some l' ->
  length l' = length l /\ nth_error l' i = (if (i <? off)%nat then nth_error l i else if (i <? off + length vs)%nat then nth_error vs (i - off) else nth_error l i).
Proof.
  unfold wrsl. destruct (off + length vs <=? length l)%nat eqn:Q; [|discriminate]. apply Nat.leb_le in Q. intros H. injection H as <-.
  split; [rewrite !app_length, firstn_length, skipn_length; lia|].
  assert (Lf : length (firstn off l) = off) by (rewrite firstn_length; lia).
  destruct (i <? off)%nat eqn:Q1; [apply Nat.ltb_lt in Q1|apply Nat.ltb_ge in Q1].
  - rewrite nth_error_app1 by lia. apply nth_error_firstn; auto.
  - rewrite nth_error_app2 by lia. rewrite Lf. destruct (i <? off + length vs)%nat eqn:Q2; [apply Nat.ltb_lt in Q2|apply Nat.ltb_ge in Q2].
    + apply nth_error_app1. lia.
    + rewrite nth_error_app2 by lia. rewrite nth_error_skipn. f_equal. lia.
Qed.
Lemma wr_same m m' off l l2 vs : agree m l l2 -> (off <= m)%nat -> (m' <= m \/ m' <= off + length vs)%nat ->
  osame (fun a b => agree m' a b /\ length a = length l) (wrsl l off vs) (wrsl l2 off vs).
Proof.
  intros [A B] H1 H2. destruct (wrsl l off vs) as [a|] eqn:Qa, (wrsl l2 off vs) as [b|] eqn:Qb; cbn; auto.
  - destruct (wr_nth l off vs a 0 Qa) as [La _]. destruct (wr_nth l2 off vs b 0 Qb) as [Lb _].
    split; [split; [lia|]|exact La]. intros i Hi. destruct (wr_nth l off vs a i Qa) as [_ Na]. destruct (wr_nth l2 off vs b i Qb) as [_ Nb].
    rewrite Na, Nb. destruct (i <? off)%nat eqn:Q1; [apply Nat.ltb_lt in Q1; apply B; lia|].
    destruct (i <? off + length vs)%nat eqn:Q2; [reflexivity|]. apply Nat.ltb_ge in Q2. apply Nat.ltb_ge in Q1. apply B. lia.
  - unfold wrsl in Qa, Qb. rewrite A in Qa. destruct (off + length vs <=? length l2)%nat; discriminate.
  - unfold wrsl in Qa, Qb. rewrite A in Qa. destruct (off + length vs <=? length l2)%nat; discriminate.
Qed.
Lemma wr_diff m off l l2 vs vs2 : agree m l l2 -> (m <= off)%nat -> length vs = length vs2 ->
  osame (fun a b => agree m a b /\ length a = length l) (wrsl l off vs) (wrsl l2 off vs2).
Proof.
  intros [A B] H1 H2. destruct (wrsl l off vs) as [a|] eqn:Qa, (wrsl l2 off vs2) as [b|] eqn:Qb; cbn; auto.
  - destruct (wr_nth l off vs a 0 Qa) as [La _]. destruct (wr_nth l2 off vs2 b 0 Qb) as [Lb _].
    split; [split; [lia|]|exact La]. intros i Hi. destruct (wr_nth l off vs a i Qa) as [_ Na]. destruct (wr_nth l2 off vs2 b i Qb) as [_ Nb].
    rewrite Na, Nb. replace (i <? off)%nat with true by (symmetry; apply Nat.ltb_lt; lia). apply B. exact Hi.
  - unfold wrsl in Qa, Qb. rewrite A, H2 in Qa. destruct (off + length vs2 <=? length l2)%nat; discriminate.
  - unfold wrsl in Qa, Qb. rewrite A, H2 in Qa. destruct (off + length vs2 <=? length l2)%nat; discriminate.
Qed.

Section L.
Variable L : limb_t.

Lemma add_n_len u v : length u = length v -> length (fst (add_n L u v)) = length u.
Proof.
  revert v; induction u as [|x u IH]; intros [|y v] H; cbn in H; try discriminate; auto.
  cbn [add_n]. specialize (IH v ltac:(lia)). destruct (add_n L u v) as [r k]. cbn [fst] in *. cbn. lia.
Qed.
Lemma sub_n_len u v : length u = length v -> length (fst (sub_n L u v)) = length u.
Proof.
  revert v; induction u as [|x u IH]; intros [|y v] H; cbn in H; try discriminate; auto.
  cbn [sub_n]. specialize (IH v ltac:(lia)). destruct (sub_n L u v) as [r k]. cbn [fst] in IH.
  match goal with |- context[if ?b then _ else _] => destruct b end; cbn [fst length]; lia.
Qed.
Lemma row_len ai b w : length b = length w -> length (fst (row_loop L ai b w)) = length w.
Proof.
  revert w; induction b as [|x b IH]; intros [|y w] H; cbn in H; try discriminate; auto.
  cbn [row_loop]. specialize (IH w ltac:(lia)). destruct (row_loop L ai b w) as [r k]. cbn [fst] in *. cbn. lia.
Qed.
Lemma rows_len a b k r r' : mul_rows L a b k r = Some r' -> length r' = length r.
Proof.
  revert r; induction k as [|i IH]; intros r; cbn [mul_rows]; [intros H; injection H as <-; reflexivity|].
  destruct (nth_error a i) as [ai|]; [|discriminate].
  destruct (i + 1 + length b <=? length r)%nat eqn:Q; [|discriminate]. apply Nat.leb_le in Q.
  pose proof (row_len ai b (firstn (length b) (skipn (i + 1) r)) ltac:(rewrite firstn_length, skipn_length; lia)) as RL.
  destruct (row_loop L ai b (firstn (length b) (skipn (i + 1) r))) as [w' carry]. cbn [fst] in RL.
  rewrite firstn_length, skipn_length in RL. intros H. rewrite (IH _ H). clear IH H.
  rewrite app_length. cbn [length]. rewrite app_length, firstn_length, skipn_length. lia.
Qed.
Lemma columns_len a b cols k acc r : col_columns L a b cols k acc = Some r -> length (fst r) = (length cols + length acc)%nat.
Proof.
  revert k acc; induction cols as [|ps cols IH]; intros k acc; cbn [col_columns]; [intros H; injection H as <-; reflexivity|].
  destruct (col_loop L a b ps k) as [s|]; [|discriminate]. intros H. apply IH in H. cbn [length] in *. lia.
Qed.
Lemma school_len a b p : (1 <= length a)%nat -> mul_school L a b = Some p -> length p = (2 * length a)%nat.
Proof.
  intros H1. assert (Hc : mul_school_cols L a b = Some p -> length p = (2 * length a)%nat).
  { unfold mul_school_cols. destruct (col_columns L a b _ 0 []) as [[acc k]|] eqn:Q; [|discriminate].
    intros H. injection H as <-. apply columns_len in Q. cbn [fst length] in Q. rewrite app_length, !map_length, !rev_length, !seq_length in Q. cbn [length]. lia. }
  unfold mul_school. destruct L eqn:EL; rewrite <- ?EL in *; auto.
  unfold mul_school_rows. intros H. apply rows_len in H. rewrite repeat_length in H. exact H.
Qed.
Lemma prop_carry_len t k : length (fst (prop_carry_aux L t k)) = length t.
Proof.
  induction t as [|x t IH]; [reflexivity|]. cbn [prop_carry_aux]. destruct (prop_carry_aux L t k) as [r q]. cbn [fst] in IH.
  destruct q; [|cbn; lia]. match goal with |- context[if ?b then _ else _] => destruct b end; cbn [fst length]; lia.
Qed.
Lemma prop_borrow_len t k : length (fst (prop_borrow_aux L t k)) = length t.
Proof.
  induction t as [|x t IH]; [reflexivity|]. cbn [prop_borrow_aux]. destruct (prop_borrow_aux L t k) as [r q]. cbn [fst] in IH.
  destruct q; [|cbn; lia]. match goal with |- context[if ?b then _ else _] => destruct b end; cbn [fst length]; lia.
Qed.

Lemma add_mid_same m nh n src r r2 : agree m r r2 -> (nh + n <= m)%nat ->
  osame (fun a b => agree m a b /\ length a = length r) (kara_add_mid L r nh n src) (kara_add_mid L r2 nh n src).
Proof.
  intros A H. unfold kara_add_mid. rewrite (rd_same m nh n r r2 A H).
  destruct (rdsl r2 nh n) as [r1|]; [|exact I]. destruct (add_n L r1 src) as [r1' k].
  pose proof (wr_same m m nh r r2 r1' A ltac:(lia) ltac:(lia)) as W.
  destruct (wrsl r nh r1') as [a|], (wrsl r2 nh r1') as [b|]; cbn in W; try tauto. destruct W as [W1 W2].
  rewrite (rd_same m 0 nh a b W1 ltac:(lia)). destruct (rdsl b 0 nh) as [r0|]; [|exact I].
  pose proof (wr_same m m 0 a b (propagate_carry L r0 k) W1 ltac:(lia) ltac:(lia)) as W.
  destruct (wrsl a 0 _) as [a'|], (wrsl b 0 _) as [b'|]; cbn in *; try tauto. destruct W. split; [auto|lia].
Qed.
Lemma sub_mid_same m nh n src r r2 : agree m r r2 -> (nh + n <= m)%nat ->
  osame (fun a b => agree m a b /\ length a = length r) (kara_sub_mid L r nh n src) (kara_sub_mid L r2 nh n src).
Proof.
  intros A H. unfold kara_sub_mid. rewrite (rd_same m nh n r r2 A H).
  destruct (rdsl r2 nh n) as [r1|]; [|exact I]. destruct (sub_n L r1 src) as [r1' k].
  pose proof (wr_same m m nh r r2 r1' A ltac:(lia) ltac:(lia)) as W.
  destruct (wrsl r nh r1') as [a|], (wrsl r2 nh r1') as [b|]; cbn in W; try tauto. destruct W as [W1 W2].
  rewrite (rd_same m 0 nh a b W1 ltac:(lia)). destruct (rdsl b 0 nh) as [r0|]; [|exact I].
  pose proof (wr_same m m 0 a b (propagate_borrow L r0 k) W1 ltac:(lia) ltac:(lia)) as W.
  destruct (wrsl a 0 _) as [a'|], (wrsl b 0 _) as [b'|]; cbn in *; try tauto. destruct W. split; [auto|lia].
Qed.
Lemma absdiff_same m off x y t t2 : agree m t t2 -> (off <= m)%nat ->
  osame (fun a b => agree m a b /\ length a = length t) (kara_absdiff L t off x y) (kara_absdiff L t2 off x y).
Proof.
  intros A H. unfold kara_absdiff. destruct (compare_ranges x y =? 1); [apply (wr_same m m); auto; lia|].
  destruct (compare_ranges x y =? -1); [apply (wr_same m m); auto; lia|]. cbn. auto.
Qed.

(** Karatsuba. *)
Definition ksame (n : nat) (r t : list Z) (x y : list Z * list Z) : Prop :=
  agree (2 * n) (fst x) (fst y) /\ length (fst x) = length r /\ length (snd x) = length t /\ length (snd y) = length t.

Lemma kara_same n : kara_size n -> forall fuel r r2 a b t t2, length r = length r2 -> length t = length t2 ->
  osame (ksame n r t) (kara fuel L r a b n t) (kara fuel L r2 a b n t2).
Proof.
  induction 1 as [n Hn|nh Hn Hs IH]; intros fuel r r2 a b t t2 Hr Ht; (destruct fuel as [|fuel]; [exact I|]); cbn [kara].
  - replace (n <=? 32)%nat with true by (symmetry; apply Nat.leb_le; lia).
    destruct (rdsl a 0 n) as [a'|] eqn:Qa; [|exact I]. destruct (rdsl b 0 n) as [b'|]; [|exact I].
    destruct (mul_school L a' b') as [p|] eqn:Qp; [|exact I].
    apply rd_len in Qa. apply school_len in Qp; [|lia].
    pose proof (wr_same 0 (2 * n) 0 r r2 p (agree_0 _ _ Hr) ltac:(lia) ltac:(lia)) as W.
    destruct (wrsl r 0 p) as [x|], (wrsl r2 0 p) as [y|]; cbn in W; try tauto. cbn. unfold ksame. cbn [fst snd]. intuition lia.
  - replace (2 * nh <=? 32)%nat with false by (symmetry; apply Nat.leb_gt; lia).
    replace (2 * nh / 2)%nat with nh by (rewrite Nat.mul_comm, Nat.div_mul; lia).
    set (n := (2 * nh)%nat) in *.
    destruct (rdsl a 0 nh) as [a1|]; [|exact I]. destruct (rdsl a nh nh) as [a0|]; [|exact I].
    destruct (rdsl b 0 nh) as [b1|]; [|exact I]. destruct (rdsl b nh nh) as [b0|]; [|exact I].
    pose proof (rd_any 0 n r r2 Hr) as R.
    destruct (rdsl r 0 n) as [rA|], (rdsl r2 0 n) as [rA2|]; cbn in R; try tauto. destruct R as [R1 R2].
    pose proof (IH fuel rA rA2 a1 b1 t t2 ltac:(lia) Ht) as K.
    destruct (kara fuel L rA a1 b1 nh t) as [[pA tA]|], (kara fuel L rA2 a1 b1 nh t2) as [[pA2 tA2]|]; cbn in K; try tauto.
    destruct K as (K1 & K2 & K3 & K4). cbn [fst snd] in *.
    assert (E1 : pA = pA2) by (apply (agree_all (2 * nh)); [fold n; lia|exact K1]). subst pA2. clear K1.
    pose proof (wr_same 0 n 0 r r2 pA (agree_0 _ _ Hr) ltac:(lia) ltac:(lia)) as W.
    destruct (wrsl r 0 pA) as [s|], (wrsl r2 0 pA) as [s2|]; cbn in W; try tauto. destruct W as [W1 W2].
    pose proof (rd_any n n s s2 (proj1 W1)) as R.
    destruct (rdsl s n n) as [rB|], (rdsl s2 n n) as [rB2|]; cbn in R; try tauto. destruct R as [R3 R4].
    pose proof (IH fuel rB rB2 a0 b0 tA tA2 ltac:(lia) ltac:(lia)) as K.
    destruct (kara fuel L rB a0 b0 nh tA) as [[pB tB]|], (kara fuel L rB2 a0 b0 nh tA2) as [[pB2 tB2]|]; cbn in K; try tauto.
    destruct K as (K1 & K5 & K6 & K7). cbn [fst snd] in *.
    assert (E1 : pB = pB2) by (apply (agree_all (2 * nh)); [fold n; lia|exact K1]). subst pB2. clear K1.
    pose proof (wr_same n (n + n) n s s2 pB W1 ltac:(lia) ltac:(lia)) as W.
    destruct (wrsl s n pB) as [u|], (wrsl s2 n pB) as [u2|]; cbn in W; try tauto. destruct W as [W3 W4].
    rewrite (rd_same (n + n) 0 (n + n) u u2 W3 ltac:(lia)). destruct (rdsl u2 0 (n + n)) as [rall|] eqn:Qr; [|exact I]. apply rd_len in Qr.
    pose proof (wr_same 0 (n + n) 0 tB tB2 rall (agree_0 tB tB2 ltac:(lia)) ltac:(lia) ltac:(lia)) as W.
    destruct (wrsl tB 0 rall) as [v|], (wrsl tB2 0 rall) as [v2|]; cbn in W; try tauto. destruct W as [W5 W6].
    rewrite (rd_same (n + n) 0 n v v2 W5 ltac:(lia)). destruct (rdsl v2 0 n) as [t0|]; [|exact I].
    pose proof (add_mid_same (n + n) nh n t0 u u2 W3 ltac:(lia)) as W.
    destruct (kara_add_mid L u nh n t0) as [x|], (kara_add_mid L u2 nh n t0) as [x2|]; cbn in W; try tauto. destruct W as [W7 W8].
    rewrite (rd_same (n + n) n n v v2 W5 ltac:(lia)). destruct (rdsl v2 n n) as [tt|]; [|exact I].
    pose proof (add_mid_same (n + n) nh n tt x x2 W7 ltac:(lia)) as W.
    destruct (kara_add_mid L x nh n tt) as [y|], (kara_add_mid L x2 nh n tt) as [y2|]; cbn in W; try tauto. destruct W as [W9 W10].
    pose proof (absdiff_same (n + n) 0 a1 a0 v v2 W5 ltac:(lia)) as W.
    destruct (kara_absdiff L v 0 a1 a0) as [d|], (kara_absdiff L v2 0 a1 a0) as [d2|]; cbn in W; try tauto. destruct W as [W11 W12].
    pose proof (absdiff_same (n + n) nh b0 b1 d d2 W11 ltac:(lia)) as W.
    destruct (kara_absdiff L d nh b0 b1) as [e|], (kara_absdiff L d2 nh b0 b1) as [e2|]; cbn in W; try tauto. destruct W as [W13 W14].
    rewrite (rd_same (n + n) 0 nh e e2 W13 ltac:(lia)). destruct (rdsl e2 0 nh) as [ta|]; [|exact I].
    rewrite (rd_same (n + n) nh nh e e2 W13 ltac:(lia)). destruct (rdsl e2 nh nh) as [tb|]; [|exact I].
    rewrite (rd_same (n + n) n n e e2 W13 ltac:(lia)). destruct (rdsl e2 n n) as [to|] eqn:Qo; [|exact I]. apply rd_len in Qo.
    rewrite (proj1 W13). pose proof (rd_any (n + n) (length e2 - (n + n)) e e2 (proj1 W13)) as R.
    destruct (rdsl e (n + n) _) as [t4|], (rdsl e2 (n + n) _) as [t42|]; cbn in R; try tauto. destruct R as [R5 R6].
    pose proof (IH fuel to to ta tb t4 t42 eq_refl ltac:(lia)) as K.
    destruct (kara fuel L to ta tb nh t4) as [[pC tC]|], (kara fuel L to ta tb nh t42) as [[pC2 tC2]|]; cbn in K; try tauto.
    destruct K as (K1 & K8 & K9 & K10). cbn [fst snd] in *.
    assert (E1 : pC = pC2) by (apply (agree_all (2 * nh)); [fold n; lia|exact K1]). subst pC2. clear K1.
    pose proof (wr_same (n + n) (n + n) n e e2 pC W13 ltac:(lia) ltac:(lia)) as W.
    destruct (wrsl e n pC) as [f|], (wrsl e2 n pC) as [f2|]; cbn in W; try tauto. destruct W as [W15 W16].
    pose proof (wr_diff (n + n) (n + n) f f2 tC tC2 W15 ltac:(lia) ltac:(lia)) as W.
    destruct (wrsl f (n + n) tC) as [g|], (wrsl f2 (n + n) tC2) as [g2|]; cbn in W; try tauto. destruct W as [W17 W18].
    rewrite (rd_same (n + n) n n g g2 W17 ltac:(lia)). destruct (rdsl g2 n n) as [tz|]; [|exact I].
    pose proof (proj1 W17) as LL.
    destruct (compare_ranges a1 a0 * compare_ranges b0 b1 =? 1).
    { pose proof (add_mid_same (n + n) nh n tz y y2 W9 ltac:(lia)) as W.
      destruct (kara_add_mid L y nh n tz) as [z|], (kara_add_mid L y2 nh n tz) as [z2|]; cbn in W; try tauto. destruct W as [W19 W20].
      cbn. unfold ksame. cbn [fst snd]. split; [exact (agree_le (n + n) (2 * n) _ _ ltac:(lia) W19)|]. lia. }
    destruct (compare_ranges a1 a0 * compare_ranges b0 b1 =? -1).
    { pose proof (sub_mid_same (n + n) nh n tz y y2 W9 ltac:(lia)) as W.
      destruct (kara_sub_mid L y nh n tz) as [z|], (kara_sub_mid L y2 nh n tz) as [z2|]; cbn in W; try tauto. destruct W as [W19 W20].
      cbn. unfold ksame. cbn [fst snd]. split; [exact (agree_le (n + n) (2 * n) _ _ ltac:(lia) W19)|]. lia. }
    cbn. unfold ksame. cbn [fst snd]. split; [exact (agree_le (n + n) (2 * n) _ _ ltac:(lia) W9)|]. lia.
Qed.
End L.

Lemma agree_nth m l l2 i d : agree m l l2 -> (i < m)%nat -> nth i l d = nth i l2 d.
Proof. intros [_ B] H. specialize (B i H). destruct (nth_error l i) eqn:Q.
  - symmetry in B. apply (nth_error_nth _ _ d) in Q. apply (nth_error_nth _ _ d) in B. congruence.
  - symmetry in B. apply nth_error_None in Q. apply nth_error_None in B. rewrite !nth_overflow by auto. reflexivity.
Qed.
Lemma agree_slice m l l2 k p : agree m l l2 -> (k + p <= m)%nat -> firstn p (skipn k l) = firstn p (skipn k l2).
Proof.
  intros [A B] H. apply (agree_all p); [rewrite firstn_length; lia|]. split.
  - rewrite !firstn_length, !skipn_length. lia.
  - intros i Hi. rewrite !nth_error_firstn, !nth_error_skipn by lia. apply B. lia.
Qed.

Theorem dispatch_same c r r2 t t2 x v e prec : length r = length r2 -> length t = length t2 ->
  mul_dispatch c r t x v e prec = mul_dispatch c r2 t2 x v e prec.
Proof.
  intros Hr Ht. unfold mul_dispatch. destruct (Z.of_nat prec <? elems_for_kara) eqn:Q1; [reflexivity|].
  destruct (Z.of_nat prec <? elems_for_fft) eqn:Q2; [|reflexivity].
  assert (H1 : elems_for_kara = 113) by reflexivity.
  destruct (pad_adequate (Z.of_nat prec) ltac:(lia)) as [P1 P2]. set (k := Z.to_nat (a029750 (Z.of_nat prec))) in *.
  match goal with |- context[kara k ?LL r ?a ?b k t] => pose proof (kara_same LL k P2 k r r2 a b t t2 Hr Ht) as K end.
  destruct (kara k _ r _ _ k t) as [[p s]|], (kara k _ r2 _ _ k t2) as [[p2 s2]|]; cbn in K; try tauto.
  destruct K as (K & _). cbn [fst] in K. f_equal. unfold store_product.
  rewrite (agree_nth _ p p2 0 0 K) by lia.
  rewrite (agree_slice _ p p2 1 prec K) by lia. pose proof (agree_slice _ p p2 0 prec K ltac:(lia)) as S0. cbn [skipn] in S0. rewrite S0. reflexivity.
Qed.

Theorem mul_same c r r2 t t2 x v : length r = length r2 -> length t = length t2 ->
  mul c r t x v = mul c r2 t2 x v.
Proof. intros Hr Ht. unfold mul. rewrite (dispatch_same c r r2 t t2 _ _ _ _ Hr Ht). reflexivity. Qed.
