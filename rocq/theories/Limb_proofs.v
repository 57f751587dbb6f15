(** Limb_proofs.v - correctness lemmas for the limb loops. *)
From Verif Require Export Base Model_Limb.
Local Open Scope Z_scope.

Section L.
Variable L : limb_t.
Notation B := (mask L).
Notation V := (limbs_value B).
Notation ok := (digits_ok B).
Notation P n := (B ^ Z.of_nat n).

Let HB : 0 < B := mask_pos L.

Lemma ucl x : 0 <= x < 2 * B -> ucast (lbits L) x = x.
Proof. intros. apply ucast_id. pose proof (mask_fits L). lia. Qed.

Lemma add_n_spec u v : length u = length v -> ok u -> ok v ->
  let '(r, c) := add_n L u v in
  length r = length u /\ ok r /\ (c = 0 \/ c = 1) /\ V r + c * P (length u) = V u + V v.
Proof.
  revert v; induction u as [|x u IH]; intros [|y v] Hl Hu Hv; try discriminate.
  - cbn. repeat split; auto; try (right; auto); constructor.
  - injection Hl as Hl. apply digits_ok_cons in Hu, Hv.
    cbn [add_n]. specialize (IH v Hl (proj2 Hu) (proj2 Hv)).
    destruct (add_n L u v) as [r c]. destruct IH as (Hr & Hok & Hc & E).
    rewrite (ucl (x + y)) by lia. rewrite (ucl (x + y + c)) by lia.
    cbn [limbs_value length]. rewrite pow_succ_nat, Hr, Hl in *.
    destruct (x + y + c >=? B) eqn:Hge; cbn [Z.eqb].
    + rewrite ucl by lia. repeat split; auto; [|nia]. apply digits_ok_cons; split; auto; lia.
    + rewrite ucl by lia. repeat split; auto; [|nia]. apply digits_ok_cons; split; auto; lia.
Qed.

Lemma sub_n_spec u v : length u = length v -> ok u -> ok v ->
  let '(r, c) := sub_n L u v in
  length r = length u /\ ok r /\
  V r - (if c : bool then 1 else 0) * P (length u) = V u - V v.
Proof.
  revert v; induction u as [|x u IH]; intros [|y v] Hl Hu Hv; try discriminate.
  - cbn. repeat split; auto; try (right; auto); constructor.
  - injection Hl as Hl. apply digits_ok_cons in Hu, Hv.
    cbn [sub_n]. specialize (IH v Hl (proj2 Hu) (proj2 Hv)).
    destruct (sub_n L u v) as [r c]. destruct IH as (Hr & Hok & E).
    set (bc := if c then 1 else 0) in *. assert (Hbc : bc = 0 \/ bc = 1) by (subst bc; destruct c; auto).
    rewrite (ucl (y + bc)) by lia.
    pose proof (mask_fits_half L) as HM. pose proof (lbits_ge L) as HG.
    assert (Et : scast (lbits L) (ucast (lbits L) (x + ucast (lbits L) (- (y + bc)))) = x - (y + bc)).
    { unfold ucast at 2. unfold ucast. rewrite Zplus_mod_idemp_r.
      fold (ucast (lbits L) (x + - (y + bc))). rewrite scast_ucast by lia. lia. }
    rewrite Et. cbn [limbs_value length]. rewrite pow_succ_nat.
    destruct (x - (y + bc) <? 0) eqn:Hlt.
    + rewrite scast_id by lia. rewrite ucl by lia. cbn [length limbs_value].
      rewrite Hr, Hl in *. repeat split; auto; [apply digits_ok_cons; split; auto; lia|nia].
    + rewrite ucl by lia. cbn [length limbs_value]. rewrite Hr, Hl in *.
      repeat split; auto; [apply digits_ok_cons; split; auto; lia|nia].
Qed.

Lemma sub_n_ge u v : length u = length v -> ok u -> ok v -> V v <= V u ->
  V (fst (sub_n L u v)) = V u - V v /\ length (fst (sub_n L u v)) = length u /\ ok (fst (sub_n L u v))
  /\ snd (sub_n L u v) = false.
Proof.
  intros Hl Hu Hv Hle. pose proof (sub_n_spec u v Hl Hu Hv) as H.
  destruct (sub_n L u v) as [r c]; cbn [fst snd]. destruct H as (Hr & Hok & E).
  pose proof (limbs_value_bound B r HB Hok) as Hb. rewrite Hr in Hb.
  destruct c; [exfalso; lia|]. repeat split; auto. lia.
Qed.

Lemma compare_ranges_range a b :
  compare_ranges a b = 1 \/ compare_ranges a b = 0 \/ compare_ranges a b = -1.
Proof.
  revert b; induction a as [|x a IH]; intros [|y b]; cbn [compare_ranges]; auto.
  destruct (x =? y); auto. destruct (x >? y); auto.
Qed.

Lemma compare_ranges_spec a b : length a = length b -> ok a -> ok b ->
  compare_ranges a b = match V a ?= V b with Lt => -1 | Eq => 0 | Gt => 1 end.
Proof.
  revert b; induction a as [|x a IH]; intros [|y b] Hl Ha Hb; try discriminate; [reflexivity|].
  injection Hl as Hl. apply digits_ok_cons in Ha, Hb. cbn [compare_ranges limbs_value].
  pose proof (limbs_value_bound B a HB (proj2 Ha)). pose proof (limbs_value_bound B b HB (proj2 Hb)).
  rewrite Hl in *. pose proof (pow_pos_nat B (length b) HB).
  destruct (x =? y) eqn:E.
  - assert (x = y) by lia; subst. rewrite IH by tauto.
    destruct (Z.compare_spec (V a) (V b)); destruct (Z.compare_spec (y * P (length b) + V a) (y * P (length b) + V b)); auto; lia.
  - destruct (x >? y) eqn:E2.
    + destruct (Z.compare_spec (x * P (length b) + V a) (y * P (length b) + V b)); auto; nia.
    + destruct (Z.compare_spec (x * P (length b) + V a) (y * P (length b) + V b)); auto; nia.
Qed.

(** Row-wise multiplication. *)
Lemma row_fits t : 0 <= t <= B * B -> ucast (dbits L) t = t.
Proof. intros; apply ucast_id. destruct L; cbn in *; lia. Qed.

Lemma row_loop_spec ai b w : length b = length w -> 0 <= ai < B -> ok b -> ok w ->
  let '(r, c) := row_loop L ai b w in
  length r = length b /\ ok r /\ 0 <= c < B /\ V r + c * P (length b) = V w + ai * V b.
Proof.
  intros Hl Hai; revert w Hl; induction b as [|x b IH]; intros [|y w] Hl Hb Hw; try discriminate.
  - cbn. repeat split; auto; try lia; constructor.
  - injection Hl as Hl. apply digits_ok_cons in Hb, Hw. cbn [row_loop].
    specialize (IH w Hl (proj2 Hb) (proj2 Hw)).
    destruct (row_loop L ai b w) as [r c]. destruct IH as (Hr & Hok & Hc & E).
    assert (H1 : 0 <= ai * x <= (B-1)*(B-1)) by nia.
    rewrite (row_fits (ai * x)) by nia. rewrite (row_fits (c + ai * x)) by nia.
    rewrite (row_fits (c + ai * x + y)) by nia.
    set (t := c + ai * x + y) in *.
    assert (Ht : 0 <= t < B * B) by nia.
    pose proof (Z.div_mod t B ltac:(lia)) as Hdm. pose proof (Z.mod_pos_bound t B HB) as Hmb.
    assert (0 <= t / B < B) by (split; [apply Z.div_pos; lia | apply Z.div_lt_upper_bound; lia]).
    rewrite row_fits by nia. rewrite ucl by lia.
    cbn [length limbs_value]. rewrite pow_succ_nat. rewrite Hr, Hl in *.
    repeat split; auto; try lia; try (apply digits_ok_cons; split; auto; fail).
    all: subst t; nia.
Qed.

Lemma firstn_S_nth {A} (l : list A) i x : nth_error l i = Some x -> firstn (S i) l = firstn i l ++ [x].
Proof.
  revert l; induction i as [|i IH]; intros [|y l] E; cbn in *; try discriminate.
  - injection E as ->. reflexivity.
  - f_equal. apply IH; auto.
Qed.

Lemma mul_rows_spec a b k r : ok a -> ok b -> ok r -> (k <= length a)%nat ->
  length a = length b -> length r = (2 * length a)%nat ->
  firstn k r = repeat 0 k ->
  exists r', mul_rows L a b k r = Some r' /\ length r' = length r /\ ok r' /\
    V r' = V r + V (firstn k a) * V b * P (length a - k).
Proof.
  intros Ha Hb; revert r; induction k as [|i IH]; intros r Hr Hk Hab Hlen Hz.
  - cbn [mul_rows]. exists r. repeat split; auto. cbn. lia.
  - cbn [mul_rows].
    destruct (nth_error a i) as [ai|] eqn:Eai;
      [|apply nth_error_None in Eai; lia].
    pose proof (digits_ok_nth_error B a i ai Ha Eai) as Hai.
    replace (i + 1 + length b <=? length r)%nat with true by (symmetry; apply Nat.leb_le; lia).
    destruct (split3 r (i + 1) (length b)) as (p & w & s & Er & Hp & Hw & Hs); [lia|].
    assert (Hp0 : p = repeat 0 (i + 1)).
    { replace (S i) with (i + 1)%nat in Hz by lia. rewrite Er in Hz.
      rewrite firstn_app_exact in Hz by auto. exact Hz. }
    rewrite Er in Hr. apply digits_ok_app in Hr. destruct Hr as [Hrp Hr]. apply digits_ok_app in Hr.
    rewrite Er. rewrite skipn_app_exact by auto. rewrite firstn_app_exact by auto.
    pose proof (row_loop_spec ai b w ltac:(lia) Hai Hb (proj1 Hr)) as Hrow.
    destruct (row_loop L ai b w) as [w' c]. destruct Hrow as (Hw' & Hokw & Hc & Erow).
    rewrite ucl by lia.
    assert (Esk : skipn (i + 1 + length b) (p ++ w ++ s) = s).
    { rewrite app_assoc. apply skipn_app_exact. rewrite app_length. lia. }
    rewrite Esk.
    assert (Efi : firstn i (p ++ w ++ s) = repeat 0 i).
    { rewrite Hp0, repeat_app, <- app_assoc. apply firstn_app_exact, repeat_length. }
    rewrite Efi. clear Efi Esk.
    set (r1 := repeat 0 i ++ c :: w' ++ s).
    assert (Hr1len : length r1 = length r).
    { subst r1. rewrite Er. rewrite !app_length. cbn [length]. rewrite !app_length, repeat_length. lia. }
    assert (Hr1ok : ok r1).
    { subst r1. apply digits_ok_app; split; [apply digits_ok_repeat0; auto|].
      apply digits_ok_cons; split; auto. apply digits_ok_app; tauto. }
    destruct (IH r1) as (r' & E' & Hl' & Hok' & HV); try lia; auto.
    { subst r1. apply firstn_app_exact, repeat_length. }
    exists r'. repeat split; auto; [rewrite <- Er; lia|].
    rewrite HV. rewrite (firstn_S_nth a i ai Eai).
    rewrite !limbs_value_app, limbs_value_single. cbn [length].
    subst r1. rewrite !limbs_value_app. cbn [limbs_value]. rewrite !limbs_value_app.
    rewrite Hp0, !limbs_value_repeat0, !app_length, Hw', Hw.
    replace (length a - i)%nat with (S (length a - S i)) by lia. rewrite pow_succ_nat.
    assert (HsS : length s = (length a - S i)%nat) by lia. rewrite HsS.
    rewrite Nat2Z.inj_add, Z.pow_add_r by lia.
    change (P 1) with (B ^ 1). rewrite Z.pow_1_r.
    set (Q := P (length a - S i)) in *. set (R := P (length b)) in *.
    replace (V w) with (V w' + c * R - ai * V b) by lia. ring.
Qed.

Theorem mul_school_rows_spec a b : ok a -> ok b -> length a = length b ->
  exists r, mul_school_rows L a b = Some r /\ length r = (2 * length a)%nat /\ ok r /\
            V r = V a * V b.
Proof.
  intros Ha Hb Hl. unfold mul_school_rows.
  destruct (mul_rows_spec a b (length a) (repeat 0 (2 * length a)))
    as (r & E & Hlen & Hok & HV); auto; try lia.
  - apply digits_ok_repeat0; auto.
  - apply repeat_length.
  - replace (2 * length a)%nat with (length a + length a)%nat by lia.
    rewrite repeat_app. apply firstn_app_exact, repeat_length.
  - exists r. rewrite repeat_length in Hlen. repeat split; auto.
    rewrite HV, limbs_value_repeat0, firstn_all, Nat.sub_diag. cbn. lia.
Qed.

(** Column-wise multiplication. *)

(** Sum of a[i]*b[k] over index pairs (0 outside the arrays). *)
Definition psum (a b : list Z) (ps : list (nat * nat)) : Z :=
  fold_right (fun p s => nth (fst p) a 0 * nth (snd p) b 0 + s) 0 ps.

Lemma psum_nonneg a b ps : ok a -> ok b -> 0 <= psum a b ps <= Z.of_nat (length ps) * ((B-1)*(B-1)).
Proof.
  intros Ha Hb. induction ps as [|[i k] ps IH]; cbn [psum fold_right fst snd length]; [lia|].
  fold (psum a b ps).
  assert (forall l j, ok l -> 0 <= nth j l 0 <= B - 1) as Hn.
  { intros l j Hok. destruct (Nat.lt_ge_cases j (length l)) as [Hj|Hj].
    - assert (0 <= nth j l 0 < B); [|lia]. eapply Forall_forall in Hok; [exact Hok|]. apply nth_In; auto.
    - rewrite nth_overflow by auto. lia. }
  pose proof (Hn a i Ha). pose proof (Hn b k Hb). nia.
Qed.

Lemma col_loop_spec a b ps sum : ok a -> ok b -> 0 <= sum ->
  (forall i k, In (i, k) ps -> (i < length a)%nat /\ (k < length b)%nat) ->
  sum + Z.of_nat (length ps) * ((B-1)*(B-1)) < 2 ^ dbits L ->
  col_loop L a b ps sum = Some (sum + psum a b ps).
Proof.
  intros Ha Hb; revert sum; induction ps as [|[i k] ps IH]; intros sum Hs Hin Hfit;
    cbn [col_loop psum fold_right fst snd length] in *; [f_equal; lia|].
  fold (psum a b ps).
  destruct (Hin i k (or_introl eq_refl)) as [Hi Hk].
  rewrite (nth_error_nth' a 0 Hi), (nth_error_nth' b 0 Hk).
  assert (0 <= nth i a 0 < B) by (eapply Forall_forall in Ha; [exact Ha|]; apply nth_In; auto).
  assert (0 <= nth k b 0 < B) by (eapply Forall_forall in Hb; [exact Hb|]; apply nth_In; auto).
  assert (0 <= nth i a 0 * nth k b 0 <= (B-1)*(B-1)) by nia.
  rewrite (ucast_id _ (nth i a 0 * nth k b 0)) by nia.
  rewrite ucast_id by nia.
  rewrite IH; [f_equal; lia|lia| |nia].
  intros i' k' H'. apply Hin. right; auto.
Qed.

(** The columns, given that no accumulator overflows. *)
Lemma col_columns_spec a b M cols carry acc : ok a -> ok b ->
  (forall ps i k, In ps cols -> In (i, k) ps -> (i < length a)%nat /\ (k < length b)%nat) ->
  (forall ps, In ps cols -> (length ps <= M)%nat) ->
  (Z.of_nat M * ((B-1)*(B-1))) + Z.of_nat M * B < 2 ^ dbits L ->
  0 <= carry <= Z.of_nat M * (B - 1) -> ok acc ->
  exists acc' carry', col_columns L a b cols carry acc = Some (acc', carry') /\
    ok acc' /\ 0 <= carry' <= Z.of_nat M * (B - 1) /\
    length acc' = (length cols + length acc)%nat /\
    V acc' + carry' * P (length acc') =
      V acc + P (length acc) * (carry + fold_right (fun ps s => psum a b ps + B * s) 0 cols).
Proof.
  intros Ha Hb; revert carry acc; induction cols as [|ps cols IH];
    intros carry acc Hin HM Hfit Hc Hacc; cbn [col_columns].
  - exists acc, carry. repeat split; auto; try lia. cbn. ring_simplify. lia.
  - pose proof (HM ps (or_introl eq_refl)) as HMps.
    assert (HB1 : 0 <= (B-1)*(B-1)) by nia.
    rewrite col_loop_spec; auto; try lia; [|intros; eapply Hin; [left; eauto|auto]|nia].
    pose proof (psum_nonneg a b ps Ha Hb) as Hps.
    set (sum := carry + psum a b ps).
    assert (Hsum : 0 <= sum <= Z.of_nat M * (B * (B - 1))) by (subst sum; nia).
    pose proof (Z.div_mod sum B ltac:(lia)) as Hdm. pose proof (Z.mod_pos_bound sum B HB) as Hmb.
    assert (Hq : 0 <= sum / B <= Z.of_nat M * (B - 1)).
    { split; [apply Z.div_pos; lia|]. apply Z.div_le_upper_bound; nia. }
    rewrite ucast_id by nia. rewrite ucl by lia.
    destruct (IH (sum / B) (sum mod B :: acc)) as (acc' & carry' & E & Hok & Hc' & Hlen & HV); auto.
    { intros. eapply Hin; [right; eauto|auto]. }
    { intros; apply HM; right; auto. }
    { apply digits_ok_cons; auto. }
    exists acc', carry'. repeat split; auto; try lia; [cbn [length] in *; lia|].
    rewrite HV. cbn [limbs_value length fold_right]. rewrite pow_succ_nat.
    set (F := fold_right _ 0 cols).
    assert (Es : carry + (psum a b ps + B * F) = sum + B * F) by (subst sum; ring).
    rewrite Es. transitivity (V acc + P (length acc) * (B * (sum / B) + sum mod B + B * F)); [ring|].
    rewrite <- Hdm. ring.
Qed.

(** Polynomial view: little-endian coefficient lists and their convolution. *)
Fixpoint lev (l : list Z) : Z := match l with [] => 0 | x :: t => x + B * lev t end.

Lemma lev_app l x : lev (l ++ [x]) = lev l + x * P (length l).
Proof.
  induction l as [|y l IH]; cbn [app lev length]; [cbn; lia|].
  rewrite IH, pow_succ_nat. ring.
Qed.
Lemma lev_rev l : lev (rev l) = V l.
Proof.
  induction l as [|x l IH]; [reflexivity|]. cbn [rev limbs_value].
  rewrite lev_app, rev_length, IH. ring.
Qed.

Fixpoint conv (la lb : list Z) (k : nat) : Z :=
  match la with
  | [] => 0
  | x :: t => x * nth k lb 0 + (match k with O => 0 | S k' => conv t lb k' end)
  end.

Lemma nth_lev l m : (length l <= m)%nat ->
  fold_right (fun k s => nth k l 0 + B * s) 0 (seq 0 m) = lev l.
Proof.
  revert l; induction m as [|m IH]; intros l Hl.
  - destruct l; [reflexivity|cbn in Hl; lia].
  - cbn [seq fold_right]. destruct l as [|x l]; cbn [nth lev].
    + rewrite <- seq_shift.
      assert (forall q, fold_right (fun k s => nth k (@nil Z) 0 + B * s) 0 q = 0) as H0
        by (induction q as [|k q IHq]; cbn [fold_right]; [auto|rewrite IHq; destruct k; cbn; lia]).
      rewrite H0. lia.
    + rewrite <- seq_shift. rewrite <- (IH l) by (cbn in Hl; lia). f_equal. f_equal.
      generalize (seq 0 m) as q. induction q as [|k q IHq]; cbn [map fold_right nth]; auto. rewrite IHq; auto.
Qed.

Lemma fold_lin (f g : nat -> Z) x q :
  fold_right (fun k s => (x * f k + g k) + B * s) 0 q =
  x * fold_right (fun k s => f k + B * s) 0 q + fold_right (fun k s => g k + B * s) 0 q.
Proof. induction q as [|k q IH]; cbn [fold_right]; [lia|rewrite IH; ring]. Qed.

Lemma fold_ext_in (f g : nat -> Z) q : (forall k, In k q -> f k = g k) ->
  fold_right (fun k s => f k + B * s) 0 q = fold_right (fun k s => g k + B * s) 0 q.
Proof.
  induction q as [|k q IH]; intros H; cbn [fold_right]; auto.
  rewrite IH, (H k); auto; [left; auto | intros; apply H; right; auto].
Qed.

Lemma fold_shift (f : nat -> Z) q :
  fold_right (fun k s => f k + B * s) 0 (map S q) = fold_right (fun k s => f (S k) + B * s) 0 q.
Proof. induction q as [|k q IH]; cbn [map fold_right]; auto. rewrite IH; auto. Qed.

Lemma conv_lev la lb m : (length la + length lb <= m)%nat ->
  fold_right (fun k s => conv la lb k + B * s) 0 (seq 0 m) = lev la * lev lb.
Proof.
  revert m; induction la as [|x la IH]; intros m Hm.
  - cbn [conv lev]. generalize (seq 0 m). induction l as [|k l IHl]; cbn [fold_right] in *; lia.
  - cbn [conv lev]. rewrite fold_lin. rewrite nth_lev by (cbn in Hm; lia).
    destruct m as [|m]; [cbn in Hm; lia|].
    replace (fold_right (fun k s => match k with O => 0 | S k' => conv la lb k' end + B * s) 0 (seq 0 (S m)))
      with (B * (lev la * lev lb)); [ring|].
    cbn [seq fold_right]. rewrite <- seq_shift, fold_shift.
    rewrite IH by (cbn in Hm; lia). lia.
Qed.

Definition csum (la lb : list Z) (k : nat) : Z :=
  fold_right (fun i s => nth i la 0 * nth (k - i) lb 0 + s) 0 (seq 0 (k + 1)).

Lemma sum_shift (f : nat -> Z) q :
  fold_right (fun i s => f i + s) 0 (map S q) = fold_right (fun i s => f (S i) + s) 0 q.
Proof. induction q as [|k q IH]; cbn [map fold_right]; auto. rewrite IH; auto. Qed.

Lemma conv_csum la lb k : conv la lb k = csum la lb k.
Proof.
  unfold csum. revert k; induction la as [|x la IH]; intros k.
  - cbn [conv]. generalize (seq 0 (k + 1)). induction l as [|i l IHl]; cbn [fold_right]; auto.
    rewrite <- IHl. destruct i; cbn; lia.
  - cbn [conv]. replace (k + 1)%nat with (S k) by lia. cbn [seq fold_right nth].
    rewrite Nat.sub_0_r. f_equal. rewrite <- seq_shift, sum_shift.
    destruct k as [|k]; [reflexivity|]. rewrite IH. replace (k + 1)%nat with (S k) by lia.
    reflexivity.
Qed.


Lemma zero_sum (f : nat -> Z) q : (forall i, In i q -> f i = 0) -> fold_right (fun i s => f i + s) 0 q = 0.
Proof. induction q as [|k q IH]; intros H; cbn [fold_right]; auto. rewrite IH, H; auto; [left|intros; apply H; right]; auto. Qed.

Lemma sum_app (f : nat -> Z) p q :
  fold_right (fun i s => f i + s) 0 (p ++ q) = fold_right (fun i s => f i + s) 0 p + fold_right (fun i s => f i + s) 0 q.
Proof. induction p as [|k p IH]; cbn [app fold_right]; [lia|rewrite IH; lia]. Qed.

Lemma sum_rev (f : nat -> Z) q :
  fold_right (fun i s => f i + s) 0 (rev q) = fold_right (fun i s => f i + s) 0 q.
Proof. induction q as [|k q IH]; cbn [rev fold_right]; auto. rewrite sum_app, IH. cbn. lia. Qed.

Lemma sum_ext (f g : nat -> Z) q : (forall i, In i q -> f i = g i) ->
  fold_right (fun i s => f i + s) 0 q = fold_right (fun i s => g i + s) 0 q.
Proof.
  induction q as [|k q IH]; intros H; cbn [fold_right]; auto.
  rewrite IH, (H k); auto; [left; auto | intros; apply H; right; auto].
Qed.

Lemma sum_seq_shift (f : nat -> Z) m len :
  fold_right (fun i s => f i + s) 0 (seq m len) = fold_right (fun i s => f (m + i)%nat + s) 0 (seq 0 len).
Proof.
  revert f; induction m as [|m IH]; intros f; [apply sum_ext; auto|].
  rewrite <- seq_shift, sum_shift, IH. apply sum_ext. intros. f_equal. 
Qed.

Lemma psum_map a b (f : nat -> nat * nat) q :
  psum a b (map f q) = fold_right (fun i s => nth (fst (f i)) a 0 * nth (snd (f i)) b 0 + s) 0 q.
Proof. induction q as [|k q IH]; cbn [map psum fold_right]; auto. unfold psum in IH. rewrite IH. auto. Qed.


Lemma rev_seq j m : rev (seq j m) = map (fun p => j + m - 1 - p)%nat (seq 0 m).
Proof.
  induction m as [|m IH]; [reflexivity|].
  rewrite seq_S, rev_app_distr. cbn [rev app seq map]. f_equal; [lia|].
  rewrite IH, <- seq_shift, map_map. apply map_ext. intros. lia.
Qed.

Lemma low_csum a b k : length a = length b -> (k < length a)%nat ->
  psum a b (low_pairs (length a) (length a - 1 - k)) = csum (rev a) (rev b) k.
Proof.
  intros Hl Hk. unfold low_pairs, csum. rewrite rev_seq, map_map, psum_map. cbn [fst snd].
  replace (length a - (length a - 1 - k))%nat with (k + 1)%nat by lia.
  apply sum_ext. intros p Hp. apply in_seq in Hp.
  rewrite !rev_nth by lia. f_equal; f_equal; lia.
Qed.

Lemma high_csum a b j : length a = length b -> (j < length a)%nat ->
  psum a b (high_pairs j) = csum (rev a) (rev b) (2 * (length a - 1) - j).
Proof.
  intros Hl Hj. unfold high_pairs, csum. rewrite psum_map, sum_rev. cbn [fst snd].
  set (n := length a) in *. set (K := (2 * (n - 1) - j)%nat).
  replace (K + 1)%nat with ((n - 1 - j) + ((j + 1) + (K + 1 - n)))%nat by lia.
  remember (j + 1)%nat as J eqn:EJ.
  rewrite !seq_app, !sum_app.
  rewrite (zero_sum _ (seq 0 (n - 1 - j))).
  2:{ intros p Hp. apply in_seq in Hp. rewrite (nth_overflow (rev b)) by (rewrite rev_length; lia). lia. }
  rewrite (zero_sum _ (seq (0 + (n - 1 - j) + J) _)).
  2:{ intros p Hp. apply in_seq in Hp. rewrite (nth_overflow (rev a)) by (rewrite rev_length; fold n; lia). lia. }
  rewrite Z.add_0_l, Z.add_0_r. rewrite (sum_seq_shift _ (0 + (n - 1 - j))).
  apply sum_ext. intros q Hq. apply in_seq in Hq.
  rewrite !rev_nth by (fold n; lia). fold n. f_equal; f_equal; lia.
Qed.

Lemma fold_cols_map a b (f : nat -> list (nat * nat)) (g : nat -> Z) q (s : Z) :
  (forall k, In k q -> psum a b (f k) = g k) ->
  fold_right (fun ps s => psum a b ps + B * s) s (map f q) = fold_right (fun k s => g k + B * s) s q.
Proof.
  induction q as [|k q IH]; intros H; cbn [map fold_right]; auto.
  rewrite IH, H; auto; [left; auto|intros; apply H; right; auto].
Qed.

Definition all_cols (n : nat) : list (list (nat * nat)) :=
  map (low_pairs n) (rev (seq 1 (n - 1))) ++ map high_pairs (rev (seq 0 n)).

Lemma all_cols_sum a b : length a = length b -> (1 <= length a)%nat ->
  fold_right (fun ps s => psum a b ps + B * s) 0 (all_cols (length a)) = V a * V b.
Proof.
  intros Hl Hn. unfold all_cols. set (n := length a) in *.
  rewrite fold_right_app. rewrite !rev_seq, !map_map.
  rewrite (fold_cols_map a b (fun p => high_pairs (0 + n - 1 - p)) (fun p => conv (rev a) (rev b) ((n - 1) + p))).
  2:{ intros p Hp. apply in_seq in Hp. rewrite conv_csum, high_csum by (fold n; lia).
      f_equal. fold n. lia. }
  rewrite (fold_cols_map a b (fun p => low_pairs n (1 + (n - 1) - 1 - p)) (fun p => conv (rev a) (rev b) p)).
  2:{ intros p Hp. apply in_seq in Hp. rewrite conv_csum. rewrite <- low_csum by (fold n; lia).
      fold n. do 2 f_equal. lia. }
  assert (E : fold_right (fun k s => conv (rev a) (rev b) (n - 1 + k) + B * s) 0 (seq 0 n)
            = fold_right (fun k s => conv (rev a) (rev b) k + B * s) 0 (seq (n - 1) n)).
  { generalize (n - 1)%nat as m. generalize (conv (rev a) (rev b)) as f. clear.
    intros f m; revert f; induction m as [|m IH]; intros f; [reflexivity|].
    rewrite <- seq_shift, fold_shift, <- IH. apply fold_ext_in. intros; f_equal. }
  rewrite E, <- fold_right_app.
  replace (seq (n - 1) n) with (seq (0 + (n - 1)) n) by (f_equal; lia).
  rewrite <- seq_app. rewrite <- (lev_rev a), <- (lev_rev b).
  rewrite <- (conv_lev (rev a) (rev b) (n - 1 + n + 1)) by (rewrite !rev_length; fold n; lia).
  rewrite (seq_app (n - 1 + n) 1 0), fold_right_app. cbn [seq fold_right].
  assert (Z0 : conv (rev a) (rev b) (0 + (n - 1 + n)) = 0).
  { rewrite conv_csum. apply zero_sum. intros p Hp. apply in_seq in Hp.
    destruct (Nat.lt_ge_cases p n).
    - rewrite (nth_overflow (rev b)) by (rewrite rev_length; lia). lia.
    - rewrite (nth_overflow (rev a)) by (rewrite rev_length; fold n; lia). lia. }
  rewrite Z0. f_equal. lia.
Qed.

(** The number of limbs up to which the double-limb accumulator cannot overflow. *)
Definition school_fits (n : nat) : Prop :=
  Z.of_nat n * ((B - 1) * (B - 1)) + Z.of_nat n * B < 2 ^ dbits L.

Theorem mul_school_cols_spec a b : ok a -> ok b -> length a = length b -> (1 <= length a)%nat ->
  school_fits (length a) ->
  exists r, mul_school_cols L a b = Some r /\ length r = (2 * length a)%nat /\ ok r /\
            V r = V a * V b.
Proof.
  intros Ha Hb Hl Hn Hfit. unfold mul_school_cols. fold (all_cols (length a)).
  destruct (col_columns_spec a b (length a) (all_cols (length a)) 0 [])
    as (acc & carry & E & Hok & Hc & Hlen & HV); auto.
  - intros ps i k Hin Hik. unfold all_cols in Hin. apply in_app_or in Hin.
    destruct Hin as [Hin|Hin]; apply in_map_iff in Hin; destruct Hin as (j & <- & Hj);
      apply in_rev, in_seq in Hj.
    + unfold low_pairs in Hik. apply in_map_iff in Hik. destruct Hik as (i' & [= <- <-] & Hi').
      apply in_rev, in_seq in Hi'. lia.
    + unfold high_pairs in Hik. apply in_map_iff in Hik. destruct Hik as (i' & [= <- <-] & Hi').
      apply in_rev, in_seq in Hi'. lia.
  - intros ps Hin. unfold all_cols in Hin. apply in_app_or in Hin.
    destruct Hin as [Hin|Hin]; apply in_map_iff in Hin; destruct Hin as (j & <- & Hj);
      apply in_rev, in_seq in Hj; unfold low_pairs, high_pairs;
      rewrite map_length, rev_length, seq_length; lia.
  - nia.
  - constructor.
  - rewrite E. rewrite all_cols_sum in HV by auto. cbn [limbs_value length] in *.
    assert (Hlc : length (all_cols (length a)) = (2 * length a - 1)%nat).
    { unfold all_cols. rewrite app_length, !map_length, !rev_length, !seq_length. lia. }
    rewrite Hlc in Hlen. replace (2 * length a - 1 + 0)%nat with (2 * length a - 1)%nat in Hlen by lia.
    pose proof (limbs_value_bound B a HB Ha) as Ba. pose proof (limbs_value_bound B b HB Hb) as Bb.
    pose proof (limbs_value_bound B acc HB Hok) as Bacc.
    rewrite <- Hl in Bb. change (B ^ Z.of_nat 0) with 1 in HV.
    assert (HP : P (length acc) * B = P (length a) * P (length a)).
    { rewrite <- Z.pow_add_r, <- Nat2Z.inj_add by lia.
      replace (length a + length a)%nat with (S (length acc)) by lia. rewrite pow_succ_nat. ring. }
    pose proof (pow_pos_nat B (length acc) HB) as Pacc.
    assert (Hcb : 0 <= carry < B).
    { split; [lia|]. assert (V a * V b < P (length acc) * B) by nia. nia. }
    rewrite ucl by lia. exists (carry :: acc). repeat split; cbn [length limbs_value]; try lia.
    apply digits_ok_cons; auto.
Qed.

Theorem mul_school_spec a b : ok a -> ok b -> length a = length b -> (1 <= length a)%nat ->
  (L = U8 \/ school_fits (length a)) ->
  exists r, mul_school L a b = Some r /\ length r = (2 * length a)%nat /\ ok r /\
            V r = V a * V b.
Proof.
  intros Ha Hb Hl Hn Hfit. unfold mul_school.
  destruct L eqn:EL; rewrite <- EL in *.
  - apply mul_school_rows_spec; auto.
  - destruct Hfit; [congruence|]. apply mul_school_cols_spec; auto.
  - destruct Hfit; [congruence|]. apply mul_school_cols_spec; auto.
Qed.

End L.
