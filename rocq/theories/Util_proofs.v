(** Util_proofs.v - allocator, dynamic array and number-text proofs. *)
From Verif Require Import Spec_Util Base.
From Coq Require Import Lia ZifyBool FinFun.
Local Open Scope Z_scope.

(** * Lists *)
Lemma upd_length {A} (l : list A) i v : length (upd l i v) = length l.
Proof. revert i. induction l; intros [|i]; cbn; auto. Qed.
Lemma nth_error_upd {A} (l : list A) i j v :
  nth_error (upd l i v) j = if (i =? j)%nat then (if (i <? length l)%nat then Some v else None) else nth_error l j.
Proof.
  revert i j. induction l as [|a l IH]; intros i j.
  - cbn. destruct (i =? j)%nat eqn:E; destruct j; reflexivity.
  - destruct i, j; cbn [upd nth_error length]; auto.
    rewrite IH. change (S i =? S j)%nat with (i =? j)%nat. change (S i <? S (length l))%nat with (i <? length l)%nat. reflexivity.
Qed.

(** * Slot allocator *)
Section ALLOC.
Variables (base : Z) (width count : nat).
Hypothesis Hb : 0 < base.
Hypothesis Hw : (0 < width)%nat.
Notation addr := (slot_addr base width).

Lemma addr_inj i j : addr i = addr j -> i = j.
Proof. unfold slot_addr. nia. Qed.
Lemma addr_nz i : addr i <> 0.
Proof. unfold slot_addr. nia. Qed.

Lemma find_free_spec fl k :
  match find_free fl k with
  | Some i => exists j, i = (k + j)%nat /\ nth_error fl j = Some 0
  | None => forall j f, nth_error fl j = Some f -> f <> 0
  end.
Proof.
  revert k. induction fl as [|f fl IH]; intros k; cbn.
  - intros [|j] f; discriminate.
  - destruct (f =? 0) eqn:E.
    + exists O. cbn. split; [lia|]. f_equal. lia.
    + specialize (IH (S k)). destruct (find_free fl (S k)).
      * destruct IH as (j & -> & H). exists (S j). split; [lia|auto].
      * intros [|j] g; cbn; intros H; [injection H as <-; lia|eauto].
Qed.

Lemma find_slot_spec p n k :
  match find_slot base width p n k with
  | Some i => p = addr i /\ (k <= i < k + n)%nat
  | None => forall i, (k <= i < k + n)%nat -> p <> addr i
  end.
Proof.
  revert k. induction n as [|n IH]; intros k; cbn [find_slot].
  - intros; lia.
  - destruct (p =? addr k) eqn:E.
    + split; lia.
    + specialize (IH (S k)). destruct find_slot.
      * split; [tauto|]. lia.
      * intros i Hi. destruct (Nat.eq_dec i k); [subst; lia|]. apply IH. lia.
Qed.

Definition linv (sl : slots * list Z) : Prop :=
  let '(s, live) := sl in
  length (sl_flags s) = count /\ NoDup live /\
  (forall p, In p live -> exists i, (i < count)%nat /\ p = addr i) /\
  (forall i f, nth_error (sl_flags s) i = Some f -> (f <> 0 <-> In (addr i) live)).

Lemma linv_init : linv (slots_init count, []).
Proof.
  cbn. rewrite repeat_length. repeat split; auto using NoDup_nil; try easy.
  intros H0. apply nth_error_In, repeat_spec in H. congruence.
Qed.

Lemma linv_step sl o : linv sl ->
  match o with LFree p => p = 0 \/ In p (snd sl) | LAlloc _ => True end ->
  linv (lstep base width sl o).
Proof.
  destruct sl as [s live]. intros (HL & ND & HR & HF) Ho. destruct o as [n|p]; cbn [lstep].
  - unfold allocate. pose proof (find_free_spec (sl_flags s) 0) as FF.
    destruct (find_free (sl_flags s) 0) as [i|].
    + destruct FF as (j & E & Hj). cbn in E; subst j.
      assert (Hi : (i < count)%nat) by (rewrite <- HL; apply nth_error_Some; congruence).
      destruct (addr i =? 0) eqn:E0; [pose proof (addr_nz i); lia|].
      assert (NI : ~ In (addr i) live) by (intros H; apply (HF i 0 Hj) in H; lia).
      cbn [linv sl_flags]. rewrite upd_length. split; [auto|]. split; [constructor; auto|]. split.
      { intros p [<-|H]; eauto. }
      intros k f. rewrite nth_error_upd. destruct (i =? k)%nat eqn:Ek.
      * replace k with i by lia. replace (i <? length (sl_flags s))%nat with true by lia.
        intros H; injection H as <-. cbn. split; auto. intros _. lia.
      * intros H. rewrite (HF k f H). cbn. split; auto. intros [H'|H']; auto. apply addr_inj in H'. lia.
    + cbn. auto.
  - unfold deallocate. pose proof (find_slot_spec p (length (sl_flags s)) 0) as FS.
    cbn [snd] in Ho.
    assert (ND' : NoDup (remove Z.eq_dec p live)).
    { clear - ND. induction ND; cbn; [constructor|]. destruct (Z.eq_dec p x); auto.
      constructor; auto. intros H1. apply in_remove in H1. tauto. }
    destruct (find_slot base width p (length (sl_flags s)) 0) as [i|].
    + destruct FS as (-> & Hi). cbn [linv sl_flags]. rewrite upd_length. split; [auto|]. split; [auto|]. split.
      { intros q H. apply in_remove in H. apply HR. tauto. }
      intros k f. rewrite nth_error_upd. destruct (i =? k)%nat eqn:Ek.
      * replace k with i by lia. destruct (i <? length (sl_flags s))%nat; [|discriminate].
        intros H; injection H as <-. split; [easy|]. intros H. apply in_remove in H. tauto.
      * intros H. rewrite (HF k f H). split.
        { intros H1. apply in_in_remove; auto. intros H2. apply addr_inj in H2. lia. }
        { intros H1. apply in_remove in H1. tauto. }
    + assert (NI : ~ In p live).
      { intros H. destruct (HR p H) as (i & Hi & ->). apply (FS i); auto. lia. }
      rewrite notin_remove by auto. cbn. auto.
Qed.

Lemma linv_run h : forall sl, linv sl -> client_ok base width sl h -> linv (lrun base width sl h).
Proof. induction h as [|o h IH]; cbn; intros sl I C; auto. apply IH; [apply linv_step; tauto|tauto]. Qed.

Lemma addrs_NoDup : NoDup (map addr (seq 0 count)).
Proof. apply FinFun.Injective_map_NoDup; [intros x y; apply addr_inj|apply seq_NoDup]. Qed.

Lemma linv_facts s live : linv (s, live) ->
  NoDup live /\ (length live <= count)%nat /\
  (forall p, In p live -> exists i, (i < count)%nat /\ p = base + Z.of_nat i * Z.of_nat width) /\
  (forall n, fst (allocate base width n s) = 0 <-> length live = count) /\
  (forall n p, fst (allocate base width n s) = p -> p <> 0 -> ~ In p live).
Proof.
  intros (HL & ND & HR & HF). split; [auto|].
  assert (Inc : incl live (map addr (seq 0 count))).
  { intros p Hp. destruct (HR p Hp) as (i & Hi & ->). apply in_map. apply in_seq. lia. }
  assert (Le : (length live <= count)%nat).
  { pose proof (NoDup_incl_length ND Inc) as H. rewrite map_length, seq_length in H. auto. }
  split; [auto|]. split; [auto|]. 
  pose proof (find_free_spec (sl_flags s) 0) as FF. unfold allocate.
  destruct (find_free (sl_flags s) 0) as [i|]; cbn [fst].
  - destruct FF as (j & E & Hj). cbn in E; subst j.
    assert (Hi : (i < count)%nat) by (rewrite <- HL; apply nth_error_Some; congruence).
    assert (NI : ~ In (addr i) live) by (intros H; apply (HF i 0 Hj) in H; lia).
    split.
    + intros n. split; [intros H; exfalso; eapply addr_nz; eauto|]. intros Hfull. exfalso. apply NI.
      assert (Inc2 : incl (map addr (seq 0 count)) live).
      { apply NoDup_length_incl; auto. rewrite map_length, seq_length. lia. }
      apply Inc2, in_map, in_seq. lia.
    + intros n p <- _. auto.
  - split; [|intros n p <-; congruence].
    intros n. split; auto. intros _.
    assert (Inc2 : incl (map addr (seq 0 count)) live).
    { intros p Hp. apply in_map_iff in Hp. destruct Hp as (i & <- & Hi). apply in_seq in Hi.
      destruct (nth_error (sl_flags s) i) eqn:E.
      - apply (HF i z E). eapply FF; eauto.
      - apply nth_error_None in E. lia. }
    pose proof (NoDup_incl_length addrs_NoDup Inc2) as H. rewrite map_length, seq_length in H. lia.
Qed.

End ALLOC.

Lemma slots_disjoint_proof base width count h s live :
  0 < base -> (0 < width)%nat ->
  client_ok base width (slots_init count, []) h ->
  lrun base width (slots_init count, []) h = (s, live) ->
  (forall p, In p live -> base <= p /\ p + Z.of_nat width <= base + Z.of_nat count * Z.of_nat width) /\
  (forall i j p q, nth_error live i = Some p -> nth_error live j = Some q -> i <> j ->
     p + Z.of_nat width <= q \/ q + Z.of_nat width <= p).
Proof.
  intros Hb Hw C R. pose proof (linv_run base width count Hb Hw h _ (linv_init base width count) C) as I.
  rewrite R in I. apply linv_facts in I; auto. destruct I as (ND & _ & HR & _). split.
  - intros p Hp. destruct (HR p Hp) as (i & Hi & ->). nia.
  - intros i j p q Hp Hq Hij.
    assert (p <> q).
    { intros ->. apply Hij. apply NoDup_nth_error with (l := live); auto; [apply nth_error_Some; congruence|congruence]. }
    destruct (HR p) as (a & Ha & ->); [eapply nth_error_In; eauto|].
    destruct (HR q) as (b & Hb' & ->); [eapply nth_error_In; eauto|]. 
    destruct (Nat.lt_trichotomy a b) as [L|[->|L]]; [left; nia|congruence|right; nia].
Qed.

Lemma slots_alloc_proof base width count h s live n p s' :
  0 < base -> (0 < width)%nat ->
  client_ok base width (slots_init count, []) h ->
  lrun base width (slots_init count, []) h = (s, live) ->
  allocate base width n s = (p, s') ->
  (p = 0 <-> length live = count) /\ (p <> 0 -> ~ In p live) /\
  (forall q, In q live -> fst (allocate base width n (deallocate base width q s)) <> 0).
Proof.
  intros Hb Hw C R A. pose proof (linv_run base width count Hb Hw h _ (linv_init base width count) C) as I.
  rewrite R in I. pose proof (linv_facts base width count Hb Hw s live I) as (ND & Le & _ & H1 & H2).
  specialize (H1 n). specialize (H2 n p). rewrite A in H1, H2. cbn in H1, H2. split; [auto|]. split; [auto|].
  intros q Hq. 
  pose proof (linv_step base width count Hb Hw _ (LFree q) I (or_intror Hq)) as I'. cbn [lstep] in I'.
  apply linv_facts in I'; auto. destruct I' as (_ & _ & _ & H3 & _). specialize (H3 n).
  intros H0. apply H3 in H0.
  pose proof (remove_length_lt Z.eq_dec live q Hq). lia.
Qed.

(** * Dynamic arrays *)
Definition dinv (w : world) (v : vworld) : Prop :=
  (forall d, match w_vars w d, v d with
             | None, None => True
             | Some a, Some l =>
                 a_count a = length l /\
                 match a_elems a with
                 | None => l = []
                 | Some b => nth_error (w_heap w) b = Some (mkBlock true l) /\ l <> []
                 end
             | _, _ => False
             end) /\
  (forall d1 d2 b, owns w d1 b -> owns w d2 b -> d1 = d2) /\
  (forall b, allocated w b -> exists d, owns w d b).

Lemma dinv_init : dinv world_init (fun _ => None).
Proof.
  split; [cbn; auto|]. split.
  - intros d1 d2 b (a & H & _). discriminate.
  - intros b (cs & H). cbn in H. destruct b; discriminate.
Qed.

Lemma dinv_contents w v : dinv w v -> forall d, contents w d = v d.
Proof.
  intros (H & _) d. specialize (H d). unfold contents. destruct (w_vars w d) as [a|], (v d) as [l|]; try easy.
  destruct H as (HC & HE). unfold read_n. rewrite HC. destruct (length l =? 0)%nat eqn:E0.
  - destruct l; [auto|]. cbn in E0. lia.
  - destruct (a_elems a) as [b|].
    + destruct HE as (-> & _). replace (length l <=? length l)%nat with true by lia. rewrite firstn_all. auto.
    + subst l. cbn in E0. lia.
Qed.

Lemma dinv_unique w v : dinv w v -> unique_ownership w.
Proof.
  intros (H & U & NL). split; [auto|]. split; [|auto].
  intros d b (a & Ha & Hb). specialize (H d). rewrite Ha in H. destruct (v d) as [l|]; [|easy].
  rewrite Hb in H. destruct H as (_ & H & _). exists l; auto.
Qed.

(** Replacing the contents of one array in place. *)
Lemma dinv_write w v d a l b l' : dinv w v -> w_vars w d = Some a -> v d = Some l -> a_elems a = Some b ->
  length l' = length l ->
  dinv (mkWorld (upd (w_heap w) b (mkBlock true l')) (w_vars w)) (vset v d (Some l')).
Proof.
  intros (H & U & NL) Ha Hl Hb Hlen. pose proof (H d) as Hd. rewrite Ha, Hl, Hb in Hd.
  destruct Hd as (HC & HN & Hne).
  assert (Hlt : (b < length (w_heap w))%nat) by (apply nth_error_Some; congruence).
  split; [|split].
  - intros e. cbn [w_vars w_heap]. unfold vset. destruct (e =? d)%nat eqn:E.
    + replace e with d by lia. rewrite Ha. split; [congruence|]. rewrite Hb. rewrite nth_error_upd.
      rewrite Nat.eqb_refl. replace (b <? _)%nat with true by lia. split; auto. intros ->. destruct l; cbn in *; auto. discriminate.
    + specialize (H e). destruct (w_vars w e) as [a'|] eqn:Ee, (v e); auto. destruct H as (H1 & H2). split; auto.
      destruct (a_elems a') as [b'|] eqn:Eb; auto. rewrite nth_error_upd. destruct (b =? b')%nat eqn:Ebb; auto.
      exfalso. assert (e = d); [|lia]. apply (U e d b).
      * exists a'. split; auto. replace b with b' by lia; auto.
      * exists a; auto.
  - intros d1 d2 b' H1 H2. eapply U; eassumption.
  - intros b' (cs & Hcs). cbn [w_heap] in Hcs. rewrite nth_error_upd in Hcs. destruct (b =? b')%nat eqn:E.
    + exists d, a. split; auto. replace b' with b by lia. auto.
    + apply (NL b'). exists cs; auto.
Qed.

Lemma dinv_ext w v v' : (forall d, v d = v' d) -> dinv w v -> dinv w v'.
Proof. intros E (H & R). split; auto. intros d. specialize (H d). rewrite <- E. auto. Qed.

Lemma build_ok w v d vs : dinv w v -> w_vars w d = None ->
  exists w', build w d vs = Some w' /\ dinv w' (vset v d (Some vs)).
Proof.
  intros I Hd. pose proof (dinv_unique _ _ I) as (_ & AL & _). destruct I as (H & U & NL). unfold build.
  destruct (length vs =? 0)%nat eqn:E0.
  - eexists; split; [reflexivity|]. destruct vs; [|discriminate]. split; [|split].
    + intros e. cbn. unfold set_var, vset. destruct (e =? d)%nat; cbn; auto. apply H.
    + intros d1 d2 b (a1 & A1 & B1) (a2 & A2 & B2). cbn in A1, A2. unfold set_var in A1, A2.
      destruct (d1 =? d)%nat; [injection A1 as <-; discriminate|].
      destruct (d2 =? d)%nat; [injection A2 as <-; discriminate|]. eapply U; eexists; eauto.
    + intros b Hb. destruct (NL b Hb) as (e & a & He & Hae). exists e, a. split; auto. cbn. unfold set_var.
      destruct (e =? d)%nat eqn:E; auto. replace e with d in He by lia. congruence.
  - unfold halloc. cbv beta iota. unfold write_at. rewrite E0.
    rewrite nth_error_app2, Nat.sub_diag by lia. cbn [nth_error]. rewrite repeat_length.
    replace (0 + length vs <=? length vs)%nat with true by lia. eexists; split; [reflexivity|].
    rewrite firstn_O, skipn_all2 by (rewrite repeat_length; lia). rewrite app_nil_r. cbn [app].
    assert (HU : forall b', nth_error (upd (w_heap w ++ [mkBlock true (repeat 0 (length vs))]) (length (w_heap w)) (mkBlock true vs)) b'
       = if (b' =? length (w_heap w))%nat then Some (mkBlock true vs) else nth_error (w_heap w) b').
    { intros b'. rewrite nth_error_upd, app_length. cbn [length].
      rewrite (Nat.eqb_sym b'). destruct (length (w_heap w) =? b')%nat eqn:E.
      - replace (_ <? _)%nat with true by lia. auto.
      - destruct (Nat.lt_ge_cases b' (length (w_heap w))).
        + rewrite nth_error_app1; auto.
        + rewrite (proj2 (nth_error_None (w_heap w) b')) by lia. apply nth_error_None. rewrite app_length. cbn. lia. }
    split; [|split].
    + intros e. cbn [w_vars w_heap]. unfold set_var, vset. destruct (e =? d)%nat.
      * cbn [a_count a_elems]. split; auto. rewrite HU, Nat.eqb_refl. split; auto. intros ->; discriminate.
      * specialize (H e). destruct (w_vars w e) as [a|] eqn:Ee, (v e); auto. destruct H as (H1 & H2). split; auto.
        destruct (a_elems a) as [b|] eqn:Eb; auto. rewrite HU. destruct (b =? length (w_heap w))%nat eqn:E; auto.
        destruct H2 as (H2 & _). replace b with (length (w_heap w)) in H2 by lia.
        assert (nth_error (w_heap w) (length (w_heap w)) = None) by (apply nth_error_None; lia). congruence.
    + assert (FR : forall e b, owns w e b -> (b < length (w_heap w))%nat).
      { intros e b Ho. destruct (AL e b Ho) as (cs & Hc). apply nth_error_Some. congruence. }
      intros d1 d2 b (a1 & A1 & B1) (a2 & A2 & B2). cbn in A1, A2. unfold set_var in A1, A2.
      destruct (d1 =? d)%nat eqn:E1, (d2 =? d)%nat eqn:E2.
      * lia.
      * injection A1 as <-. cbn in B1. injection B1 as <-. pose proof (FR d2 (length (w_heap w)) (ex_intro _ _ (conj A2 B2))). lia.
      * injection A2 as <-. cbn in B2. injection B2 as <-. pose proof (FR d1 (length (w_heap w)) (ex_intro _ _ (conj A1 B1))). lia.
      * eapply U; eexists; eauto.
    + intros b (cs & Hb). cbn [w_heap] in Hb. rewrite HU in Hb. destruct (b =? length (w_heap w))%nat eqn:E.
      * exists d. eexists. cbn. unfold set_var. rewrite Nat.eqb_refl. split; [reflexivity|]. cbn. f_equal. lia.
      * destruct (NL b (ex_intro _ cs Hb)) as (e & a & He & Hae). exists e, a. split; auto. cbn. unfold set_var.
        destruct (e =? d)%nat eqn:E'; auto. replace e with d in He by lia. congruence.
Qed.

(** Permuting the handles of two arrays. *)
Lemma dinv_exchange w v d s a b la lb : dinv w v -> w_vars w d = Some a -> w_vars w s = Some b ->
  v d = Some la -> v s = Some lb ->
  dinv (mkWorld (w_heap w) (set_var (set_var (w_vars w) d (Some b)) s (Some a)))
       (vset (vset v d (Some lb)) s (Some la)).
Proof.
  intros (H & U & NL) Ha Hb Hla Hlb. pose proof (H d) as Hd. pose proof (H s) as Hs.
  rewrite Ha, Hla in Hd. rewrite Hb, Hlb in Hs.
  set (g := fun i => if (i =? s)%nat then d else if (i =? d)%nat then s else i).
  assert (G : forall i, set_var (set_var (w_vars w) d (Some b)) s (Some a) i = w_vars w (g i)).
  { intros i. unfold set_var, g. destruct (i =? s)%nat; auto. destruct (i =? d)%nat; auto. }
  assert (GI : forall i j, g i = g j -> i = j).
  { intros i j. unfold g. repeat match goal with |- context[(?x =? ?y)%nat] => destruct (x =? y)%nat eqn:?E end; lia. }
  assert (GG : forall i, g (g i) = i).
  { intros i. unfold g. destruct (i =? s)%nat eqn:E1; [|destruct (i =? d)%nat eqn:E2].
    - rewrite Nat.eqb_refl. destruct (d =? s)%nat eqn:E3; lia.
    - rewrite Nat.eqb_refl. lia.
    - rewrite E1, E2. auto. }
  split; [|split].
  - intros e. cbn [w_vars w_heap]. unfold set_var, vset. destruct (e =? s)%nat; auto. destruct (e =? d)%nat; auto. apply H.
  - intros d1 d2 b' (a1 & A1 & B1) (a2 & A2 & B2). cbn [w_vars] in A1, A2. rewrite G in A1, A2.
    apply GI. eapply U; eexists; eauto.
  - intros b' Hb'. destruct (NL b' Hb') as (e & a' & He & Hae). exists (g e), a'. split; auto.
    cbn [w_vars]. rewrite G, GG. auto.
Qed.

Lemma read_ok w v d a l k : dinv w v -> w_vars w d = Some a -> v d = Some l -> (k <= length l)%nat ->
  read_n (w_heap w) (a_elems a) k = Some (firstn k l).
Proof.
  intros (H & _) Ha Hl Hk. specialize (H d). rewrite Ha, Hl in H. destruct H as (_ & H). unfold read_n.
  destruct (k =? 0)%nat eqn:E. { replace k with O by lia. auto. }
  destruct (a_elems a) as [b|].
  - destruct H as (-> & _). replace (k <=? length l)%nat with true by lia. auto.
  - subst l. cbn in Hk. lia.
Qed.

(** Writing [vs] at offset [k] inside array [d]. *)
Lemma write_ok w v d a l k vs : dinv w v -> w_vars w d = Some a -> v d = Some l -> (k + length vs <= length l)%nat ->
  exists h, write_at (w_heap w) (a_elems a) k vs = Some h /\
    dinv (mkWorld h (w_vars w)) (vset v d (Some (firstn k l ++ vs ++ skipn (k + length vs) l))).
Proof.
  intros I Ha Hl Hk. pose proof (proj1 I d) as H. rewrite Ha, Hl in H. destruct H as (_ & H). unfold write_at.
  destruct (length vs =? 0)%nat eqn:E.
  - eexists; split; [reflexivity|]. destruct vs; [|discriminate]. cbn [app length]. rewrite Nat.add_0_r, firstn_skipn.
    destruct w. apply dinv_ext with v; auto. intros i. unfold vset. destruct (i =? d)%nat eqn:Ei; auto.
    replace i with d by lia; auto.
  - destruct (a_elems a) as [b|] eqn:Eb; [|subst l; cbn in Hk; lia].
    destruct H as (-> & _). replace (k + length vs <=? length l)%nat with true by lia.
    eexists; split; [reflexivity|]. eapply dinv_write; eauto.
    rewrite !app_length, firstn_length, skipn_length. lia.
Qed.

Lemma dinv_step w v o v' : dinv w v -> vstep v o = Some v' ->
  exists w', astep w o = Some w' /\ dinv w' v'.
Proof.
  intros I. 
  assert (EX : forall d, (v d = None -> w_vars w d = None) /\ (forall l, v d = Some l -> exists a, w_vars w d = Some a /\ a_count a = length l)).
  { intros d. pose proof (proj1 I d) as Hd. destruct (w_vars w d) as [a|], (v d) as [l|]; try easy.
    split; [easy|]. intros l0 E; injection E as <-. exists a. tauto. }
  destruct o as [d vs|d s|d s|d s|d s|d s|d s|d i x|d x|d]; cbn [vstep astep].
  - destruct (v d) eqn:Ed; [discriminate|]. intros E; injection E as <-. rewrite (proj1 (EX d) Ed).
    apply build_ok; auto. apply EX; auto.
  - destruct (v d) eqn:Ed; [discriminate|]. destruct (v s) as [l|] eqn:Es; [|discriminate]. intros E; injection E as <-.
    rewrite (proj1 (EX d) Ed). destruct (proj2 (EX s) l Es) as (a & Ha & HC). rewrite Ha, HC.
    rewrite (read_ok w v s a l (length l)) by auto. rewrite firstn_all. apply build_ok; auto. apply EX; auto.
  - destruct (v d) eqn:Ed; [discriminate|]. destruct (v s) as [l|] eqn:Es; [|discriminate]. intros E; injection E as <-.
    pose proof (proj1 (EX d) Ed) as Hd. rewrite Hd. destruct (proj2 (EX s) l Es) as (a & Ha & HC). rewrite Ha.
    eexists; split; [reflexivity|]. destruct I as (H & U & NL). 
    assert (Hds : d <> s) by (intros ->; congruence).
    pose proof (H s) as Hs. rewrite Ha, Es in Hs.
    split; [|split].
    + intros e. cbn [w_vars w_heap]. unfold set_var, vset. destruct (e =? d)%nat; auto. destruct (e =? s)%nat; cbn; auto. apply H.
    + assert (OW : forall e b', owns (mkWorld (w_heap w) (set_var (set_var (w_vars w) s (Some null_arr)) d (Some a))) e b' ->
        (e = d /\ owns w s b') \/ (e <> d /\ e <> s /\ owns w e b')).
      { intros e b' (a' & A & B). cbn in A. unfold set_var in A. destruct (e =? d)%nat eqn:E1.
        - injection A as <-. left. split; [lia|]. exists a; auto.
        - destruct (e =? s)%nat eqn:E2; [injection A as <-; discriminate|]. right. split; [lia|]. split; [lia|]. exists a'; auto. }
      intros d1 d2 b' O1 O2. apply OW in O1, O2.
      destruct O1 as [(-> & O1)|(N1 & N1' & O1)], O2 as [(-> & O2)|(N2 & N2' & O2)]; auto.
      * exfalso; apply N2'. eapply U; eauto.
      * exfalso; apply N1'. eapply U; eauto.
      * eapply U; eauto.
    + intros b' Hb'. destruct (NL b' Hb') as (e & a' & He & Hae). destruct (Nat.eq_dec e s) as [->|Hes].
      * exists d, a. cbn. unfold set_var. rewrite Nat.eqb_refl. split; auto. congruence.
      * exists e, a'. cbn. unfold set_var. replace (e =? s)%nat with false by lia.
        destruct (e =? d)%nat eqn:E; [replace e with d in He by lia; congruence|]. auto.
  - destruct (v d) as [ld|] eqn:Ed; [|discriminate]. destruct (v s) as [ls|] eqn:Es; [|discriminate].
    intros E; injection E as <-. destruct (proj2 (EX d) ld Ed) as (a & Ha & HC).
    destruct (proj2 (EX s) ls Es) as (b & Hb & HCb). rewrite Ha, Hb. destruct (d =? s)%nat eqn:E.
    + exists w; split; auto. replace s with d in * by lia. assert (ls = ld) by congruence; subst.
      apply dinv_ext with v; auto. intros i. unfold vset. destruct (i =? d)%nat eqn:Ei; auto.
      replace i with d by lia. rewrite Ed. f_equal. rewrite firstn_all, skipn_all, app_nil_r. auto.
    + erewrite (read_ok w v s b ls); eauto; [|lia].
      destruct (write_ok w v d a ld 0 (firstn (Nat.min (a_count a) (a_count b)) ls)) as (h & -> & Hh); auto.
      { rewrite firstn_length. lia. }
      eexists; split; [reflexivity|]. revert Hh. apply dinv_ext. intros i. unfold vset. destruct (i =? d)%nat; auto. f_equal.
      cbn [firstn app Nat.add]. rewrite firstn_length. rewrite HC, HCb.
      replace (Nat.min (Nat.min (length ld) (length ls)) (length ls)) with (Nat.min (length ld) (length ls)) by lia.
      destruct (Nat.le_ge_cases (length ld) (length ls)).
      * rewrite Nat.min_l by auto. rewrite !skipn_all2 by lia. auto.
      * rewrite Nat.min_r by auto. rewrite !firstn_all2 by lia. auto.
  - destruct (v d) as [ld|] eqn:Ed; [|discriminate]. destruct (v s) as [ls|] eqn:Es; [|discriminate].
    intros E; injection E as <-. destruct (proj2 (EX d) ld Ed) as (a & Ha & HC).
    destruct (proj2 (EX s) ls Es) as (b & Hb & HCb). rewrite Ha, Hb.
    eexists; split; [reflexivity|]. eapply dinv_exchange; eauto.
  - destruct (v d) as [ld|] eqn:Ed; [|discriminate]. destruct (v s) as [ls|] eqn:Es; [|discriminate].
    intros E; injection E as <-. destruct (proj2 (EX d) ld Ed) as (a & Ha & HC).
    destruct (proj2 (EX s) ls Es) as (b & Hb & HCb). rewrite Ha, Hb. destruct (d =? s)%nat eqn:E.
    + exists w; split; auto. replace s with d in * by lia. apply dinv_ext with v; auto. intros i. unfold vset.
      destruct (i =? d)%nat eqn:Ei; auto. replace i with d by lia; auto.
    + eexists; split; [reflexivity|]. eapply dinv_exchange; eauto.
  - discriminate.
  - destruct (v d) as [ld|] eqn:Ed; [|discriminate]. destruct (proj2 (EX d) ld Ed) as (a & Ha & HC). rewrite Ha, HC.
    destruct (i <? length ld)%nat eqn:Ei; [|discriminate]. intros E; injection E as <-.
    destruct (write_ok w v d a ld i [x]) as (h & -> & Hh); auto. { cbn. lia. }
    eexists; split; [reflexivity|]. revert Hh. apply dinv_ext. intros j. unfold vset. destruct (j =? d)%nat; auto. f_equal.
    cbn [length app]. replace (i + 1)%nat with (S i) by lia. auto.
  - destruct (v d) as [ld|] eqn:Ed; [|discriminate]. destruct (proj2 (EX d) ld Ed) as (a & Ha & HC). rewrite Ha, HC.
    intros E; injection E as <-.
    destruct (write_ok w v d a ld 0 (repeat x (length ld))) as (h & -> & Hh); auto. { rewrite repeat_length. lia. }
    eexists; split; [reflexivity|]. revert Hh. apply dinv_ext. intros j. unfold vset. destruct (j =? d)%nat; auto. f_equal.
    cbn [firstn app]. rewrite skipn_all2, app_nil_r; auto. rewrite repeat_length. lia.
  - destruct (v d) as [ld|] eqn:Ed; [|discriminate]. destruct (proj2 (EX d) ld Ed) as (a & Ha & HC). rewrite Ha.
    intros E; injection E as <-. destruct I as (H & U & NL). pose proof (H d) as Hd. rewrite Ha, Ed in Hd.
    destruct Hd as (_ & Hd). unfold hfree. 
    assert (OW : forall h e b', owns (mkWorld h (set_var (w_vars w) d None)) e b' -> e <> d /\ owns w e b').
    { intros h e b' (a' & A & B). cbn in A. unfold set_var in A. destruct (e =? d)%nat eqn:E1; [discriminate|].
      split; [lia|]. exists a'; auto. }
    destruct (a_elems a) as [b|] eqn:Eb.
    + destruct Hd as (Hd & _). rewrite Hd. eexists; split; [reflexivity|]. split; [|split].
      * intros e. cbn [w_vars w_heap]. unfold set_var, vset. destruct (e =? d)%nat eqn:Ee; auto.
        specialize (H e). destruct (w_vars w e) as [a'|] eqn:Ee', (v e); auto. destruct H as (H1 & H2). split; auto.
        destruct (a_elems a') as [b'|] eqn:Eb'; auto. rewrite nth_error_upd. destruct (b =? b')%nat eqn:Ebb; auto.
        exfalso. assert (e = d); [|lia]. apply (U e d b).
        { exists a'. split; auto. replace b with b' by lia; auto. } { exists a; auto. }
      * intros d1 d2 b' O1 O2. apply OW in O1, O2. eapply U; [apply O1|apply O2].
      * intros b' (cs & Hb'). cbn [w_heap] in Hb'. rewrite nth_error_upd in Hb'. destruct (b =? b')%nat eqn:E.
        { destruct (b <? length (w_heap w))%nat; discriminate. }
        destruct (NL b' (ex_intro _ cs Hb')) as (e & a' & He & Hae). exists e, a'. split; auto. cbn. unfold set_var.
        destruct (e =? d)%nat eqn:Ee; auto. replace e with d in He by lia. assert (a' = a) by congruence. subst. 
        assert (b' = b) by congruence. lia.
    + eexists; split; [reflexivity|]. split; [|split].
      * intros e. cbn [w_vars w_heap]. unfold set_var, vset. destruct (e =? d)%nat eqn:Ee; auto. apply H.
      * intros d1 d2 b' O1 O2. apply OW in O1, O2. eapply U; [apply O1|apply O2].
      * intros b' Hb'. destruct (NL b' Hb') as (e & a' & He & Hae). exists e, a'. split; auto. cbn. unfold set_var.
        destruct (e =? d)%nat eqn:Ee; auto. replace e with d in He by lia. congruence.
Qed.

Lemma dinv_run p : forall w v v', dinv w v -> vrun v p = Some v' -> exists w', arun w p = Some w' /\ dinv w' v'.
Proof.
  induction p as [|o p IH]; cbn; intros w v v' I H.
  - injection H as <-. exists w; auto.
  - destruct (vstep v o) as [v1|] eqn:E; [|discriminate]. destruct (dinv_step _ _ _ _ I E) as (w1 & -> & I1). eauto.
Qed.

Lemma arrays_proof p v : vrun (fun _ => None) p = Some v ->
  exists w, arun world_init p = Some w /\ unique_ownership w /\ (forall d, contents w d = v d) /\
    ((forall d, v d = None) -> forall b, ~ allocated w b).
Proof.
  intros H. destruct (dinv_run p _ _ _ dinv_init H) as (w & Hw & I). exists w.
  split; [auto|]. split; [eapply dinv_unique; eauto|]. split; [apply dinv_contents; auto|].
  intros HN b Hb. destruct I as (I & _ & NL). destruct (NL b Hb) as (d & a & Ha & _). specialize (I d).
  rewrite Ha, HN in I. auto.
Qed.

(** * Comparison *)
Lemma std_equal_iff a : forall b, length a = length b -> std_equal a b = true <-> a = b.
Proof.
  induction a as [|x a IH]; intros [|y b] H; try discriminate; cbn; [easy|].
  injection H as H. rewrite andb_true_iff, IH by auto. rewrite Z.eqb_eq. split; [intros (-> & ->); auto|]. intros E; injection E; auto.
Qed.
Lemma arr_eq_iff a b : arr_eq a b = true <-> a = b.
Proof.
  unfold arr_eq. destruct (length a =? length b)%nat eqn:E.
  - rewrite orb_true_iff, std_equal_iff by lia. split; auto. intros [H|H]; auto. destruct a, b; cbn in *; try discriminate; auto.
  - split; [discriminate|]. intros ->. rewrite Nat.eqb_refl in E. discriminate.
Qed.
Lemma std_lex_iff a : forall b, std_lex a b = true <-> lex_lt a b.
Proof.
  induction a as [|x a IH]; intros [|y b]; cbn.
  - split; [discriminate|]. inversion 1.
  - split; auto. constructor.
  - split; [discriminate|]. inversion 1.
  - destruct (x <? y) eqn:E1.
    + split; auto. intros _. apply lex_head. lia.
    + destruct (y <? x) eqn:E2.
      * split; [discriminate|]. inversion 1; subst; lia.
      * rewrite IH. assert (x = y) by lia. subst. split; [apply lex_tail|]. inversion 1; subst; [lia|auto].
Qed.
Lemma arr_lt_same a b : length a = length b -> (arr_lt a b = true <-> lex_lt a b).
Proof.
  intros H. unfold arr_lt. destruct (length a =? 0)%nat eqn:E.
  - destruct a; [|discriminate]. destruct b; [|discriminate]. cbn. split; [discriminate|inversion 1].
  - rewrite H, Nat.min_id, <- H, firstn_all, H, firstn_all. apply std_lex_iff.
Qed.
(** In general the order looks at the common prefix only. *)
Lemma lex_firstn_iff a b : 
  lex_lt a b <-> lex_lt (firstn (Nat.min (length a) (length b)) a) (firstn (Nat.min (length a) (length b)) b)
                 \/ (a = firstn (length a) b /\ (length a < length b)%nat).
Proof.
  revert b. induction a as [|x a IH]; intros [|y b]; cbn [length Nat.min firstn].
  - split; [inversion 1|]. intros [H|(_ & H)]; [inversion H|lia].
  - split; [intros _; right; split; auto; lia|]. intros _. constructor.
  - split; [inversion 1|]. intros [H|(_ & H)]; [inversion H|lia].
  - split.
    + inversion 1; subst; [left; apply lex_head; auto|].
      apply IH in H1. destruct H1 as [H1|(H1 & H2)]; [left; apply lex_tail; auto|]. right. split; [f_equal; auto|lia].
    + intros [H|(H & HL)].
      * inversion H; subst; [apply lex_head; auto|]. apply lex_tail. apply IH. auto.
      * injection H as -> H. apply lex_tail. apply IH. right. split; auto. lia.
Qed.
Lemma arr_lt_iff a b : a <> [] -> (arr_lt a b = true <-> lex_lt a b /\ ~ (a = firstn (length a) b /\ (length a < length b)%nat)).
Proof.
  intros Ha. unfold arr_lt. destruct (length a =? 0)%nat eqn:E; [destruct a; [easy|discriminate]|].
  rewrite std_lex_iff. rewrite (lex_firstn_iff a b). split.
  - intros H. split; auto. intros (H1 & H2). rewrite Nat.min_l in H by lia. rewrite firstn_all in H. rewrite <- H1 in H.
    clear - H. induction a; inversion H; subst; [lia|auto].
  - tauto.
Qed.

(** * Number text *)
Lemma blc_loop_spec base ex f x : 2 <= base -> 0 <= x < base ^ Z.of_nat f ->
  (forall dd, 0 <= dd < base -> char_value (ex dd) = dd) ->
  exists r, blc_loop f base ex x = Some r /\ text_value base (rev r) = x /\ 
    (x = 0 -> r = []) /\
    (x <> 0 -> base ^ (Z.of_nat (length r) - 1) <= x < base ^ Z.of_nat (length r) /\ (0 < length r)%nat /\ last r 0 <> ex 0) /\
    Forall (fun ch => exists dd, 0 <= dd < base /\ ch = ex dd) r.
Proof.
  intros HB Hx EX. revert x Hx. induction f as [|f IH]; intros x Hx.
  - cbn in Hx. replace x with 0 by lia. exists []. cbn. repeat split; auto; lia.
  - cbn [blc_loop]. destruct (x =? 0) eqn:E0.
    { exists []. replace x with 0 by lia. cbn. repeat split; auto; lia. }
    rewrite Nat2Z.inj_succ, Z.pow_succ_r in Hx by lia.
    assert (Hq : 0 <= x / base < base ^ Z.of_nat f).
    { split; [apply Z.div_pos; lia|]. apply Z.div_lt_upper_bound; lia. }
    destruct (IH _ Hq) as (r & -> & HV & HZ & HL & HF). eexists; split; [reflexivity|].
    assert (Hm : 0 <= x mod base < base) by (apply Z.mod_pos_bound; lia).
    pose proof (Z.div_mod x base ltac:(lia)) as DM.
    split; [|split; [lia|split]].
    + cbn [rev]. unfold text_value in *. rewrite map_app, limbs_value_app. cbn [map length]. rewrite HV, limbs_value_single, EX by auto.
      change (Z.of_nat 1) with 1. rewrite Z.pow_1_r. lia.
    + intros _. destruct (Z.eq_dec (x / base) 0) as [Hz|Hz].
      * rewrite (HZ Hz). cbn [length]. change (Z.of_nat 1) with 1. rewrite Z.pow_1_r. change (1-1) with 0. rewrite Z.pow_0_r.
        assert (Hxm : x mod base = x) by lia. split; [lia|]. split; [lia|]. cbn. rewrite Hxm. intros EE.
        assert (x = 0); [|lia]. rewrite <- (EX x), EE, EX; lia.
      * destruct (HL Hz) as (H1 & H2 & H3). cbn [length]. rewrite Nat2Z.inj_succ. replace (Z.succ (Z.of_nat (length r)) - 1) with (Z.of_nat (length r) - 1 + 1) by lia.
        rewrite Z.pow_succ_r by lia. rewrite Z.pow_add_r, Z.pow_1_r by lia. split; [nia|]. split; [lia|].
        destruct r; [cbn in H2; lia|]. exact H3.
    + constructor; auto. eexists; split; [|reflexivity]; auto.
Qed.

Lemma baselexical_proof base ex cap u : 2 <= base <= 16 -> 0 <= u < 2 ^ 64 ->
  (forall dd, 0 <= dd < base -> char_value (ex dd) = dd) ->
  u < base ^ Z.of_nat cap -> (0 < cap)%nat ->
  exists t, baselexical_cast base ex cap u = Some t /\ text_value base t = u /\
    (u = 0 -> t = [ex 0]) /\ (u <> 0 -> hd 0 t <> ex 0) /\ (0 < length t <= cap)%nat /\
    Forall (fun ch => exists dd, 0 <= dd < base /\ ch = ex dd) t.
Proof.
  intros HB Hu EX Hc HC. unfold baselexical_cast. destruct (u =? 0) eqn:E0.
  - exists [ex 0]. change (length [ex 0%Z]) with 1%nat. replace (1 <=? cap)%nat with true by lia. split; [auto|].
    split; [unfold text_value; cbn; rewrite EX by lia; lia|]. split; [auto|]. split; [lia|]. split; [cbn; lia|].
    constructor; auto. exists 0. split; [lia|auto].
  - assert (Hu' : 0 <= u < base ^ Z.of_nat 64).
    { split; [lia|]. apply Z.lt_le_trans with (2 ^ 64); [lia|]. change (Z.of_nat 64) with 64. apply Z.pow_le_mono_l. lia. }
    destruct (blc_loop_spec base ex 64 u ltac:(lia) Hu' EX) as (r & -> & HV & _ & HL & HF).
    destruct (HL ltac:(lia)) as (H1 & H2 & H3).
    assert (length r <= cap)%nat.
    { destruct (Nat.le_gt_cases (length r) cap); auto. exfalso.
      assert (base ^ Z.of_nat cap <= base ^ (Z.of_nat (length r) - 1)) by (apply Z.pow_le_mono_r; lia). lia. }
    rewrite rev_length. replace (length r <=? cap)%nat with true by lia. exists (rev r). split; [auto|]. split; [auto|].
    split; [lia|]. split.
    + intros _. intros E. apply H3. rewrite <- E. rewrite <- (rev_involutive r) at 1.
      destruct (rev r) eqn:Er; [apply (f_equal (@length Z)) in Er; rewrite rev_length in Er; cbn in Er; lia|].
      cbn. apply last_last.
    + split; [rewrite rev_length; lia|]. apply Forall_rev. auto.
Qed.

Lemma extract10_value dd : 0 <= dd < 10 -> char_value (extract10 dd) = dd.
Proof. intros. unfold extract10, char_value. replace (dd <=? 9) with true by lia. replace (dd + 48 <=? 57) with true by lia. lia. Qed.
Lemma extract16_value up dd : 0 <= dd < 16 -> char_value (extract16 up dd) = dd.
Proof.
  intros. unfold extract16, char_value. destruct (dd <=? 9) eqn:E.
  - replace (dd + 48 <=? 57) with true by lia. lia.
  - replace (10 <=? dd) with true by lia. replace (dd <=? 15) with true by lia. cbn [andb]. destruct up.
    + replace (65 + (dd - 10) <=? 57) with false by lia. replace (65 + (dd - 10) <=? 70) with true by lia. lia.
    + replace (97 + (dd - 10) <=? 57) with false by lia. replace (97 + (dd - 10) <=? 70) with false by lia. lia.
Qed.
