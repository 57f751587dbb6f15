(** Properties_Util.v - the property theorems about the utility containers. *)
From Verif Require Import Util_proofs Spec_Util.
From Coq Require Import Lia.
Local Open Scope Z_scope.

(** C22. Over every history of allocations and (rightful) deallocations, the live pointers address
    whole slots inside the pool that do not overlap; allocation fails exactly when every slot is live,
    never returns a live slot, and succeeds after any live pointer is freed. *)
Theorem C22_live_slots_disjoint : forall base width count h s live,
  0 < base -> (0 < width)%nat ->
  client_ok base width (slots_init count, []) h ->
  lrun base width (slots_init count, []) h = (s, live) ->
  (forall p, In p live -> base <= p /\ p + Z.of_nat width <= base + Z.of_nat count * Z.of_nat width) /\
  (forall i j p q, nth_error live i = Some p -> nth_error live j = Some q -> i <> j ->
     p + Z.of_nat width <= q \/ q + Z.of_nat width <= p).
Proof. exact slots_disjoint_proof. Qed.
Print Assumptions C22_live_slots_disjoint.

Theorem C22_allocation_fails_only_when_full : forall base width count h s live n p s',
  0 < base -> (0 < width)%nat ->
  client_ok base width (slots_init count, []) h ->
  lrun base width (slots_init count, []) h = (s, live) ->
  allocate base width n s = (p, s') ->
  (p = 0 <-> length live = count) /\ (p <> 0 -> ~ In p live) /\
  (forall q, In q live -> fst (allocate base width n (deallocate base width q s)) <> 0).
Proof. exact slots_alloc_proof. Qed.
Print Assumptions C22_allocation_fails_only_when_full.

Definition hist22 : list lop := [LAlloc 10; LAlloc 10; LAlloc 7; LFree 1010; LAlloc 3; LFree 0; LAlloc 1].
Example C22_case : client_ok 1000 10 (slots_init 3, []) hist22 /\
  snd (lrun 1000 10 (slots_init 3, []) hist22) = [1010; 1020; 1000].
Proof. split; [cbn; intuition|reflexivity]. Qed.

(** C23. A successful allocation provides at least the requested elements - proved for requests within
    the slot width, refuted in general: the request is ignored, and a longer one overlaps a live slot. *)
Theorem C23_size_within_slot_partial : forall base width count h s live n p s',
  0 < base -> (0 < width)%nat -> n <= Z.of_nat width ->
  client_ok base width (slots_init count, []) h ->
  lrun base width (slots_init count, []) h = (s, live) ->
  allocate base width n s = (p, s') -> p <> 0 ->
  p + n <= base + Z.of_nat count * Z.of_nat width /\
  (forall q, In q live -> p + n <= q \/ q + Z.of_nat width <= p).
Proof.
  intros base width count h s live n p s' Hb Hw Hn C R A Hp.
  pose proof (slots_alloc_proof base width count h s live n p s' Hb Hw C R A) as (_ & HN & _).
  pose proof (linv_run base width count Hb Hw h _ (linv_init base width count) C) as I. rewrite R in I.
  pose proof (linv_step base width count Hb Hw _ (LAlloc n) I Logic.I) as I'. cbn [lstep] in I'. rewrite A in I'.
  destruct (p =? 0) eqn:E; [apply Z.eqb_eq in E; contradiction|].
  apply linv_facts in I'; auto. destruct I' as (ND & _ & HR & _).
  destruct (HR p (or_introl eq_refl)) as (i & Hi & Ep). split; [nia|].
  intros q Hq. destruct (HR q (or_intror Hq)) as (j & Hj & ->). specialize (HN Hp).
  assert (i <> j) by (intros ->; rewrite Ep in HN; contradiction).
  rewrite Ep. destruct (Nat.lt_ge_cases i j); [left; nia|right; nia].
Qed.
Print Assumptions C23_size_within_slot_partial.

Theorem C23_size_refuted : exists base width count h s live n p s' q,
  0 < base /\ (0 < width)%nat /\ client_ok base width (slots_init count, []) h /\
  lrun base width (slots_init count, []) h = (s, live) /\
  allocate base width n s = (p, s') /\ p <> 0 /\ In q live /\ p < q < p + n.
Proof.
  exists 1000, 10%nat, 3%nat, [LAlloc 10; LAlloc 10; LFree 1000]. eexists _, _, 11, _, _, 1010.
  split; [lia|]. split; [lia|]. split; [cbn; intuition|]. split; [reflexivity|]. split; [reflexivity|].
  split; [discriminate|]. split; [cbn; auto|split; reflexivity].
Qed.
Print Assumptions C23_size_refuted.

(** C24. Over every history of constructions, copies, moves, assignments, lvalue swaps, element writes
    and destructions, no undefined behaviour occurs, every allocated block has exactly one owner, every
    array behaves as an independent value, and nothing stays allocated once no array is left. *)
Theorem C24_unique_ownership : forall p v, vrun (fun _ => None) p = Some v ->
  exists w, arun world_init p = Some w /\ unique_ownership w /\ (forall d, contents w d = v d) /\
    ((forall d, v d = None) -> forall b, ~ allocated w b).
Proof. exact arrays_proof. Qed.
Print Assumptions C24_unique_ownership.

Definition hist24 : list aop :=
  [ANew 0 [1;2;3]; ACopy 1 0; APut 1 2 9; AMove 2 0; ANew 3 [7;7]; AAssign 3 1; AMoveAssign 1 3; ASwap 2 3; AFill 1 4; ADestroy 3].
Example C24_case : exists v, vrun (fun _ => None) hist24 = Some v /\
  v 0%nat = Some [] /\ v 1%nat = Some [4;4] /\ v 2%nat = Some [1;2;9] /\ v 3%nat = None.
Proof. eexists; repeat split; reflexivity. Qed.

(** Refuted for swap with an rvalue: one block is leaked, another gets two owners and destroying both
    arrays releases it twice. *)
Theorem C24_rvalue_swap_refuted : exists p w,
  arun world_init p = Some w /\ ~ unique_ownership w /\
  (exists b, allocated w b /\ forall d, ~ owns w d b) /\
  arun w [ADestroy 0; ADestroy 1] = None.
Proof.
  exists [ANew 0 [1]; ANew 1 [2]; ASwapR 0 1]. eexists. split; [reflexivity|]. split; [|split].
  - intros (U & _). assert (0 = 1)%nat; [|discriminate]. apply (U 0%nat 1%nat 1%nat); eexists; split; reflexivity.
  - exists 0%nat. split; [eexists; reflexivity|]. intros d (a & Ha & Hb). cbn in Ha. unfold set_var in Ha.
    destruct (d =? 0)%nat; [injection Ha as <-; discriminate|]. destruct (d =? 1)%nat; [injection Ha as <-; discriminate|discriminate].
  - reflexivity.
Qed.
Print Assumptions C24_rvalue_swap_refuted.

(** C25. Equality is equality; the order operators are the lexicographic order for arrays of equal
    length (and, for a non-empty left operand, exactly lexicographic order except for proper prefixes). *)
Theorem C25_equality : forall a b, (arr_eq a b = true <-> a = b) /\ (arr_ne a b = true <-> a <> b).
Proof.
  intros a b. split; [apply arr_eq_iff|]. unfold arr_ne. destruct (arr_eq a b) eqn:E; cbn.
  - apply arr_eq_iff in E. split; [discriminate|contradiction].
  - split; auto. intros _ H. apply arr_eq_iff in H. congruence.
Qed.
Print Assumptions C25_equality.

Theorem C25_order_equal_length_partial : forall a b, length a = length b ->
  (arr_lt a b = true <-> lex_lt a b) /\ (arr_gt a b = true <-> lex_lt b a) /\
  (arr_le a b = true <-> ~ lex_lt b a) /\ (arr_ge a b = true <-> ~ lex_lt a b).
Proof.
  intros a b H. assert (H' : length b = length a) by auto.
  pose proof (arr_lt_same a b H) as H1. pose proof (arr_lt_same b a H') as H2.
  unfold arr_gt, arr_le, arr_ge. repeat split; try tauto;
  try (destruct (arr_lt a b); cbn; intuition congruence); destruct (arr_lt b a); cbn; intuition congruence.
Qed.
Print Assumptions C25_order_equal_length_partial.

Theorem C25_order_prefix_partial : forall a b, a <> [] ->
  (arr_lt a b = true <-> lex_lt a b /\ ~ (a = firstn (length a) b /\ (length a < length b)%nat)).
Proof. exact arr_lt_iff. Qed.
Print Assumptions C25_order_prefix_partial.

(** Refuted in general: a proper prefix is not below its extension, and <= then holds both ways for
    different arrays. *)
Theorem C25_order_refuted : exists a b, lex_lt a b /\ arr_lt a b = false /\ arr_le b a = true /\
  arr_le a b = true /\ arr_eq a b = false.
Proof. exists [1], [1; 2]. split; [apply lex_tail; constructor|]. repeat split; reflexivity. Qed.
Print Assumptions C25_order_refuted.

(** C29. Decimal and hexadecimal text of any 64-bit unsigned number. *)
Theorem C29_decimal_text : forall u cap, 0 <= u < 2 ^ 64 -> u < 10 ^ Z.of_nat cap -> (0 < cap)%nat ->
  exists t, baselexical_cast 10 extract10 cap u = Some t /\ text_value 10 t = u /\
    (u = 0 -> t = [48]) /\ (u <> 0 -> hd 0 t <> 48) /\ (0 < length t <= cap)%nat /\
    Forall (fun ch => 48 <= ch <= 57) t.
Proof.
  intros u cap Hu Hc HC. destruct (baselexical_proof 10 extract10 cap u ltac:(lia) Hu extract10_value Hc HC)
    as (t & H1 & H2 & H3 & H4 & H5 & H6). exists t. repeat split; auto; try tauto.
  eapply Forall_impl; [|exact H6]. cbn. intros ch (dd & Hd & ->). unfold extract10.
  replace (dd <=? 9) with true by (symmetry; apply Z.leb_le; lia). lia.
Qed.
Print Assumptions C29_decimal_text.

Theorem C29_hexadecimal_text : forall upper u cap, 0 <= u < 2 ^ 64 -> u < 16 ^ Z.of_nat cap -> (0 < cap)%nat ->
  exists t, baselexical_cast 16 (extract16 upper) cap u = Some t /\ text_value 16 t = u /\
    (u = 0 -> t = [48]) /\ (u <> 0 -> hd 0 t <> 48) /\ (0 < length t <= cap)%nat /\
    Forall (fun ch => 48 <= ch <= 57 \/ (if upper then 65 <= ch <= 70 else 97 <= ch <= 102)) t.
Proof.
  intros upper u cap Hu Hc HC. destruct (baselexical_proof 16 (extract16 upper) cap u ltac:(lia) Hu (extract16_value upper) Hc HC)
    as (t & H1 & H2 & H3 & H4 & H5 & H6). exists t. repeat split; auto; try tauto.
  eapply Forall_impl; [|exact H6]. cbn. intros ch (dd & Hd & ->). unfold extract16.
  destruct (dd <=? 9) eqn:E; [apply Z.leb_le in E; lia|apply Z.leb_gt in E].
  replace (10 <=? dd) with true by (symmetry; apply Z.leb_le; lia).
  replace (dd <=? 15) with true by (symmetry; apply Z.leb_le; lia). cbn. destruct upper; lia.
Qed.
Print Assumptions C29_hexadecimal_text.

Example C29_case : baselexical_cast 10 extract10 20 18446744073709551615
  = Some [49;56;52;52;54;55;52;52;48;55;51;55;48;57;53;53;49;54;49;53]
  /\ baselexical_cast 16 (extract16 false) 4 48879 = Some [98;101;101;102].
Proof. split; reflexivity. Qed.

(** C41. Assignment makes the destination equal to the source - proved for equally long arrays (the
    limb arrays of two numbers neither of which was moved from). *)
Theorem C41_assignment_copies_partial : forall p v d s a b,
  vrun (fun _ => None) p = Some v -> v d = Some a -> v s = Some b -> length a = length b ->
  exists w, arun world_init (p ++ [AAssign d s]) = Some w /\ contents w d = Some b /\ contents w s = Some b.
Proof.
  intros p v d s a b H Ha Hb HL.
  assert (HV : vrun (fun _ => None) (p ++ [AAssign d s])
     = Some (vset v d (Some (firstn (length a) b ++ skipn (length b) a)))).
  { clear - H Ha Hb. revert H. generalize (fun _ : nat => @None (list Z)) as v0.
    induction p as [|o p IH]; cbn; intros v0 H; [injection H as ->; rewrite Ha, Hb; auto|].
    destruct (vstep v0 o); [auto|discriminate]. }
  destruct (arrays_proof _ _ HV) as (w & Hw & _ & HC & _). exists w. split; [auto|].
  assert (E : firstn (length a) b ++ skipn (length b) a = b).
  { rewrite HL, firstn_all, <- HL, skipn_all, app_nil_r. auto. }
  rewrite !HC, E. unfold vset. rewrite Nat.eqb_refl. destruct (s =? d)%nat; auto.
Qed.
Print Assumptions C41_assignment_copies_partial.

Example C41_case : exists v, vrun (fun _ => None) [ANew 0 [1;2]; ANew 1 [3;4]] = Some v /\ v 0%nat = Some [1;2] /\ v 1%nat = Some [3;4].
Proof. eexists; repeat split; reflexivity. Qed.

(** Refuted after a move: the moved-from array has no elements and assignment does not give it any. *)
Theorem C41_assign_after_move_refuted : exists w,
  arun world_init [ANew 0 [5; 6]; AMove 1 0; AAssign 0 1] = Some w /\
  contents w 0 = Some [] /\ contents w 1 = Some [5; 6].
Proof. eexists; repeat split; reflexivity. Qed.
Print Assumptions C41_assign_after_move_refuted.
