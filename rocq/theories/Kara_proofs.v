(** Kara_proofs.v - small-integer loops, carry propagation and Karatsuba. *)
From Verif Require Export Limb_proofs.
Local Open Scope Z_scope.

Section K.
Variable L : limb_t.
Notation B := (mask L).
Notation V := (limbs_value B).
Notation ok := (digits_ok B).
Notation P n := (B ^ Z.of_nat n).
Let HB : 0 < B := mask_pos L.

Lemma mul_loop_n_spec u n : ok u -> 0 <= n < B ->
  let '(r, c) := mul_loop_n L u n in
  length r = length u /\ ok r /\ 0 <= c < B /\ c <= n /\ V r + c * P (length u) = V u * n.
Proof.
  intros Hu Hn; induction u as [|x u IH].
  - cbn. repeat split; try lia; constructor.
  - apply digits_ok_cons in Hu. cbn [mul_loop_n]. specialize (IH (proj2 Hu)).
    destruct (mul_loop_n L u n) as [r c]. destruct IH as (Hr & Hok & Hc & Hcn & E).
    assert (H1 : 0 <= x * n <= (B-1)*(B-1)) by nia.
    rewrite (row_fits L (x * n)) by nia. rewrite (row_fits L (c + x * n)) by nia.
    set (t := c + x * n) in *.
    assert (Ht : 0 <= t < B * B) by nia. assert (Ht2 : t < B * (n + 1)) by nia.
    pose proof (Z.div_mod t B ltac:(lia)) as Hdm. pose proof (Z.mod_pos_bound t B HB) as Hmb.
    assert (0 <= t / B < B) by (split; [apply Z.div_pos; lia | apply Z.div_lt_upper_bound; lia]).
    assert (t / B < n + 1) by (apply Z.div_lt_upper_bound; lia).
    rewrite !ucl by lia.
    cbn [length limbs_value]. rewrite pow_succ_nat. rewrite Hr in *.
    split; [lia|]. split; [apply digits_ok_cons; split; auto|]. split; [lia|]. split; [lia|].
    transitivity (P (length u) * (B * (t / B) + t mod B) + V r); [ring|].
    rewrite <- Hdm. subst t. nia.
Qed.

Lemma div_loop_n_spec u n prev : ok u -> 0 < n < B -> 0 <= prev < n ->
  let '(r, last) := div_loop_n L u n prev in
  length r = length u /\ ok r /\ 0 <= last < n /\
  V r * n + last = prev * P (length u) + V u.
Proof.
  intros Hu Hn; revert prev; induction u as [|x u IH]; intros prev Hp.
  - cbn. repeat split; try lia; constructor.
  - apply digits_ok_cons in Hu. cbn [div_loop_n].
    assert (H1 : 0 <= prev * B <= (B-1)*B) by nia.
    rewrite (row_fits L (prev * B)) by nia. rewrite (row_fits L (x + prev * B)) by nia.
    set (t := x + prev * B) in *. assert (Ht : 0 <= t < n * B) by nia.
    pose proof (Z.div_mod t n ltac:(lia)) as Hdm. pose proof (Z.mod_pos_bound t n ltac:(lia)) as Hmb.
    assert (0 <= t / n < B) by (split; [apply Z.div_pos; lia | apply Z.div_lt_upper_bound; lia]).
    rewrite (ucl L (t mod n)) by lia. rewrite ucl by lia.
    specialize (IH (proj2 Hu) (t mod n) Hmb).
    destruct (div_loop_n L u n (t mod n)) as [r last]. destruct IH as (Hr & Hok & Hl & E).
    cbn [length limbs_value]. rewrite pow_succ_nat, Hr in *.
    split; [lia|]. split; [apply digits_ok_cons; split; auto|]. split; [lia|]. 
    transitivity (t / n * n * P (length u) + (V r * n + last)); [ring|]. rewrite E.
    transitivity (P (length u) * (n * (t / n) + t mod n) + V u); [ring|].
    rewrite <- Hdm. subst t. ring.
Qed.

Lemma prop_carry_spec t c : ok t ->
  let '(r, c') := prop_carry_aux L t c in
  length r = length t /\ ok r /\
  V r + (if c' : bool then 1 else 0) * P (length t) = V t + (if c : bool then 1 else 0).
Proof.
  intros Ht; induction t as [|x t IH].
  - cbn. repeat split; try constructor. destruct c; lia.
  - apply digits_ok_cons in Ht. cbn [prop_carry_aux]. specialize (IH (proj2 Ht)).
    destruct (prop_carry_aux L t c) as [r c']. destruct IH as (Hr & Hok & E).
    cbn [limbs_value]. destruct c'.
    + rewrite (ucl L (x + 1)) by lia. destruct (x + 1 >=? B) eqn:Hge; cbn [length limbs_value];
        rewrite ?pow_succ_nat, Hr in *; rewrite ?ucl by lia;
        (split; [lia|split; [apply digits_ok_cons; split; auto; lia|nia]]).
    + cbn [length limbs_value]; rewrite ?pow_succ_nat, Hr in *.
      split; [lia|split; [apply digits_ok_cons; split; auto; lia|nia]].
Qed.

Lemma prop_borrow_spec t c : ok t ->
  let '(r, c') := prop_borrow_aux L t c in
  length r = length t /\ ok r /\
  V r - (if c' : bool then 1 else 0) * P (length t) = V t - (if c : bool then 1 else 0).
Proof.
  intros Ht; induction t as [|x t IH].
  - cbn. repeat split; try constructor. destruct c; lia.
  - apply digits_ok_cons in Ht. cbn [prop_borrow_aux]. specialize (IH (proj2 Ht)).
    destruct (prop_borrow_aux L t c) as [r c']. destruct IH as (Hr & Hok & E).
    pose proof (mask_fits_half L) as HM. pose proof (lbits_ge L) as HG.
    cbn [limbs_value]. destruct c'.
    + rewrite (scast_id (lbits L) (x - 1)) by lia. destruct (x - 1 <? 0) eqn:Hge;
        cbn [length limbs_value]; rewrite ?pow_succ_nat, Hr in *; rewrite ?scast_id by lia; rewrite ?ucl by lia;
        (split; [lia|split; [apply digits_ok_cons; split; auto; lia|nia]]).
    + cbn [length limbs_value]; rewrite ?pow_succ_nat, Hr in *.
      split; [lia|split; [apply digits_ok_cons; split; auto; lia|nia]].
Qed.

Lemma rdsl_app p w s n m : length p = n -> length w = m -> rdsl (p ++ w ++ s) n m = Some w.
Proof.
  intros <- <-. unfold rdsl. rewrite !app_length.
  replace (_ <=? _)%nat with true by (symmetry; apply Nat.leb_le; lia).
  rewrite skipn_app_exact, firstn_app_exact; auto.
Qed.
Lemma rdsl_pre w s m : length w = m -> rdsl (w ++ s) 0 m = Some w.
Proof. apply (rdsl_app []). reflexivity. Qed.
Lemma rdsl_suf p w n m : length p = n -> length w = m -> rdsl (p ++ w) n m = Some w.
Proof. intros. rewrite <- (app_nil_r w) at 1. apply rdsl_app; auto. Qed.
Lemma rdsl_all w m : length w = m -> rdsl w 0 m = Some w.
Proof. intros. rewrite <- (app_nil_r w) at 1. apply rdsl_pre; auto. Qed.
Lemma wrsl_app p w s n w' : length p = n -> length w' = length w ->
  wrsl (p ++ w ++ s) n w' = Some (p ++ w' ++ s).
Proof.
  intros <- Hw. unfold wrsl. rewrite !app_length.
  replace (_ <=? _)%nat with true by (symmetry; apply Nat.leb_le; lia).
  rewrite firstn_app_exact by auto. do 3 f_equal.
  rewrite app_assoc. apply skipn_app_exact. rewrite app_length. lia.
Qed.
Lemma wrsl_pre w s w' : length w' = length w -> wrsl (w ++ s) 0 w' = Some (w' ++ s).
Proof. apply (wrsl_app []). reflexivity. Qed.
Lemma wrsl_suf p w n w' : length p = n -> length w' = length w -> wrsl (p ++ w) n w' = Some (p ++ w').
Proof. intros. rewrite <- (app_nil_r w). rewrite wrsl_app by auto. rewrite app_nil_r; auto. Qed.
Lemma wrsl_all w w' : length w' = length w -> wrsl w 0 w' = Some w'.
Proof. intros. rewrite <- (app_nil_r w). rewrite wrsl_pre by auto. rewrite app_nil_r; auto. Qed.

(** What one "add into the middle and propagate" does, modulo the size of the result. *)
Lemma kara_add_mid_spec r nh n src : length r = (2 * n)%nat -> (n = 2 * nh)%nat -> ok r -> ok src ->
  length src = n ->
  exists r' k, kara_add_mid L r nh n src = Some r' /\ length r' = length r /\ ok r' /\
               V r' = V r + V src * P nh + k * P (2 * n).
Proof.
  intros Hr Hn Hok Hsrc Hs.
  destruct (split3 r nh n) as (p & w & s & -> & Hp & Hw & Hsl); [lia|].
  apply digits_ok_app in Hok. destruct Hok as [Hop Hok]. apply digits_ok_app in Hok.
  unfold kara_add_mid. rewrite rdsl_app by auto.
  pose proof (add_n_spec L w src ltac:(lia) (proj1 Hok) Hsrc) as HA.
  destruct (add_n L w src) as [w' c]. destruct HA as (Hw' & Hokw & Hc & E).
  rewrite wrsl_app by lia. rewrite rdsl_pre by auto. unfold propagate_carry.
  pose proof (prop_carry_spec p (negb (c =? 0)) Hop) as HC.
  destruct (prop_carry_aux L p (negb (c =? 0))) as [p' c']. destruct HC as (Hp' & Hokp & E2).
  cbn [fst]. rewrite wrsl_pre by lia.
  exists (p' ++ w' ++ s), (- (if c' then 1 else 0)). split; auto. split; [rewrite !app_length; lia|].
  split; [rewrite !digits_ok_app; tauto|].
  rewrite !limbs_value_app, !app_length. rewrite Hw', Hw in *. rewrite Hp in *.
  assert (Hsl' : length s = nh) by (rewrite !app_length in Hsl, Hr; lia). rewrite Hsl' in *.
  replace (2 * n)%nat with (nh + (n + nh))%nat by lia. 
  rewrite !Nat2Z.inj_add, !Z.pow_add_r by lia.
  set (H := P nh) in *. set (N := P n) in *.
  assert (Ec : (if negb (c =? 0) then 1 else 0) = c) by (destruct Hc; subst; reflexivity).
  rewrite Ec in E2. set (k := if c' then 1 else 0) in *.
  replace (V w') with (V w + V src - c * N) by lia. replace (V p') with (V p + c - k * H) by lia. ring.
Qed.

Lemma kara_sub_mid_spec r nh n src : length r = (2 * n)%nat -> (n = 2 * nh)%nat -> ok r -> ok src ->
  length src = n ->
  exists r' k, kara_sub_mid L r nh n src = Some r' /\ length r' = length r /\ ok r' /\
               V r' = V r - V src * P nh + k * P (2 * n).
Proof.
  intros Hr Hn Hok Hsrc Hs.
  destruct (split3 r nh n) as (p & w & s & -> & Hp & Hw & Hsl); [lia|].
  apply digits_ok_app in Hok. destruct Hok as [Hop Hok]. apply digits_ok_app in Hok.
  unfold kara_sub_mid. rewrite rdsl_app by auto.
  pose proof (sub_n_spec L w src ltac:(lia) (proj1 Hok) Hsrc) as HA.
  destruct (sub_n L w src) as [w' c]. destruct HA as (Hw' & Hokw & E).
  rewrite wrsl_app by lia. rewrite rdsl_pre by auto. unfold propagate_borrow.
  pose proof (prop_borrow_spec p c Hop) as HC.
  destruct (prop_borrow_aux L p c) as [p' c']. destruct HC as (Hp' & Hokp & E2).
  cbn [fst]. rewrite wrsl_pre by lia.
  exists (p' ++ w' ++ s), (if c' then 1 else 0). split; auto. split; [rewrite !app_length; lia|].
  split; [rewrite !digits_ok_app; tauto|].
  rewrite !limbs_value_app, !app_length. rewrite Hw', Hw in *. rewrite Hp in *.
  assert (Hsl' : length s = nh) by (rewrite !app_length in Hsl, Hr; lia). rewrite Hsl' in *.
  replace (2 * n)%nat with (nh + (n + nh))%nat by lia.
  rewrite !Nat2Z.inj_add, !Z.pow_add_r by lia.
  set (H := P nh) in *. set (N := P n) in *.
  set (k := if c' then 1 else 0) in *. set (cz := if c then 1 else 0) in *.
  replace (V w') with (V w - V src + cz * N) by lia. replace (V p') with (V p - cz + k * H) by lia. ring.
Qed.

Lemma kara_absdiff_spec t p w s off x y : t = p ++ w ++ s -> length p = off -> length w = length x ->
  length x = length y -> ok x -> ok y -> ok w ->
  exists w', kara_absdiff L t off x y = Some (p ++ w' ++ s) /\ length w' = length w /\ ok w' /\
   (compare_ranges x y <> 0 -> V w' * compare_ranges x y = V x - V y) /\
   (compare_ranges x y = 0 -> V x = V y).
Proof.
  intros -> Hp Hw Hxy Hx Hy Hokw. unfold kara_absdiff.
  rewrite (compare_ranges_spec L x y) by auto.
  destruct (Z.compare_spec (V x) (V y)) as [E|E|E]; cbn.
  - exists w. repeat split; auto. lia.
  - destruct (sub_n_ge L y x) as (E1 & E2 & E3 & _); auto; try lia.
    rewrite wrsl_app by lia. eexists; split; [reflexivity|]. repeat split; auto; lia.
  - destruct (sub_n_ge L x y) as (E1 & E2 & E3 & _); auto; try lia.
    rewrite wrsl_app by lia. eexists; split; [reflexivity|]. repeat split; auto; lia.
Qed.

(** Sizes whose successive halvings stay even until the base case (at most 32 limbs). *)
Inductive kara_size : nat -> Prop :=
| ks_base n : (1 <= n <= 32)%nat -> kara_size n
| ks_step nh : (32 < 2 * nh)%nat -> kara_size nh -> kara_size (2 * nh).

Lemma school_fits_32 n : (n <= 32)%nat -> L = U8 \/ school_fits L n.
Proof. intros H. unfold school_fits. destruct L; auto; right; cbn [mask dbits]; lia. Qed.

Theorem kara_spec n : kara_size n -> forall fuel r a b t,
  (n <= fuel)%nat -> length r = (2 * n)%nat -> length a = n -> length b = n -> ok a -> ok b ->
  (4 * n <= length t)%nat ->
  exists r' t', kara fuel L r a b n t = Some (r', t') /\ length r' = (2 * n)%nat /\ ok r' /\
                length t' = length t /\ V r' = V a * V b.
Proof.
  induction 1 as [n Hn|nh Hnh Hks IH]; intros fuel r a b t Hfuel Hr Hla Hlb Ha Hb Ht.
  - destruct fuel as [|fuel]; [lia|]. cbn [kara].
    replace (n <=? 32)%nat with true by (symmetry; apply Nat.leb_le; lia).
    rewrite !rdsl_all by auto.
    destruct (mul_school_spec L a b) as (p & E & Hlp & Hokp & HV); auto; try lia.
    { apply school_fits_32. lia. }
    rewrite E. rewrite wrsl_all by lia. exists p, t. repeat split; auto. lia.
  - set (n := (2 * nh)%nat) in *.
    destruct fuel as [|fuel]; [lia|]. cbn [kara].
    replace (n <=? 32)%nat with false by (symmetry; apply Nat.leb_gt; lia).
    replace (n / 2)%nat with nh by (unfold n; rewrite (Nat.mul_comm 2 nh), Nat.div_mul; auto).
    cbv zeta.
    assert (Sa : exists a1 a0, a = a1 ++ a0 /\ length a1 = nh /\ length a0 = nh).
    { exists (firstn nh a), (skipn nh a). rewrite firstn_skipn, firstn_length, skipn_length. repeat split; auto; lia. }
    assert (Sb : exists b1 b0, b = b1 ++ b0 /\ length b1 = nh /\ length b0 = nh).
    { exists (firstn nh b), (skipn nh b). rewrite firstn_skipn, firstn_length, skipn_length. repeat split; auto; lia. }
    destruct Sa as (a1 & a0 & -> & Ha1 & Ha0). destruct Sb as (b1 & b0 & -> & Hb1 & Hb0).
    apply digits_ok_app in Ha, Hb. destruct Ha as [Oa1 Oa0]. destruct Hb as [Ob1 Ob0].
    rewrite (rdsl_pre a1), (rdsl_suf a1), (rdsl_pre b1), (rdsl_suf b1) by auto.
    assert (Sr : exists rA rB, r = rA ++ rB /\ length rA = n /\ length rB = n).
    { exists (firstn n r), (skipn n r). rewrite firstn_skipn, firstn_length, skipn_length. repeat split; auto; lia. }
    destruct Sr as (rA & rB & -> & HrA & HrB).
    rewrite rdsl_pre by auto.
    destruct (IH fuel rA a1 b1 t) as (rA' & tA & EA & HlA & OA & HtA & VA); auto; try lia.
    rewrite EA. rewrite wrsl_pre by lia. rewrite (rdsl_suf rA') by lia.
    destruct (IH fuel rB a0 b0 tA) as (rB' & tB & EB & HlB & OB & HtB & VB); auto; try lia.
    rewrite EB. rewrite wrsl_suf by lia.
    rewrite rdsl_all by (rewrite app_length; lia).
    assert (St : exists tX tY, tB = tX ++ tY /\ length tX = (n + n)%nat /\ length tY = (length t - (n + n))%nat).
    { exists (firstn (n + n) tB), (skipn (n + n) tB). rewrite firstn_skipn, firstn_length, skipn_length. repeat split; auto; lia. }
    destruct St as (tX & tY & -> & HtX & HtY).
    rewrite wrsl_pre by (rewrite app_length; lia).
    rewrite <- !app_assoc. rewrite rdsl_pre by lia.
    destruct (kara_add_mid_spec (rA' ++ rB') nh n rA') as (r1 & k1 & E1 & Hl1 & O1 & V1);
      auto; try (rewrite app_length; lia); try (apply digits_ok_app; auto); try lia.
    rewrite E1. rewrite (rdsl_app rA') by lia.
    destruct (kara_add_mid_spec r1 nh n rB') as (r2 & k2 & E2 & Hl2 & O2 & V2);
      auto; try (rewrite Hl1, app_length; lia); try lia.
    rewrite E2.
    (* scratch: t0 | t1 | t2 | rest *)
    assert (SA : exists t0 t1, rA' = t0 ++ t1 /\ length t0 = nh /\ length t1 = nh).
    { exists (firstn nh rA'), (skipn nh rA'). rewrite firstn_skipn, firstn_length, skipn_length. repeat split; auto; lia. }
    destruct SA as (t0 & t1 & -> & Ht0 & Ht1).
    pose proof OA as OA'. apply digits_ok_app in OA'. destruct OA' as [Ot0 Ot1].
    destruct (kara_absdiff_spec ((t0 ++ t1) ++ rB' ++ tY) [] t0 (t1 ++ rB' ++ tY) 0 a1 a0)
      as (t0' & E3 & Hl3 & O3 & V3 & V3z); auto; try lia.
    { rewrite <- app_assoc. reflexivity. }
    rewrite E3. cbn [app].
    destruct (kara_absdiff_spec (t0' ++ t1 ++ rB' ++ tY) t0' t1 (rB' ++ tY) nh b0 b1)
      as (t1' & E4 & Hl4 & O4 & V4 & V4z); auto; try lia.
    rewrite E4.
    rewrite rdsl_pre by lia. rewrite rdsl_app by lia.
    replace (t0' ++ t1' ++ rB' ++ tY) with ((t0' ++ t1') ++ rB' ++ tY) by (rewrite <- app_assoc; auto).
    rewrite (rdsl_app (t0' ++ t1')) by (try rewrite app_length; lia).
    replace (length ((t0' ++ t1') ++ rB' ++ tY) - (n + n))%nat with (length tY) by (rewrite !app_length; lia).
    rewrite (app_assoc (t0' ++ t1')). rewrite rdsl_suf by (try rewrite !app_length; lia).
    destruct (IH fuel rB' t0' t1' tY) as (t2' & t4' & E5 & Hl5 & O5 & Hl5t & V5); auto; try lia.
    rewrite E5. rewrite <- app_assoc. rewrite wrsl_app by (try rewrite !app_length; lia).
    rewrite (app_assoc (t0' ++ t1')). rewrite wrsl_suf by (try rewrite !app_length; lia).
    rewrite <- (app_assoc (t0' ++ t1')). rewrite rdsl_app by (try rewrite !app_length; lia).
    (* values *)
    set (H := P nh) in *.
    assert (HN : P n = H * H) by (subst n H; replace (2 * nh)%nat with (nh + nh)%nat by lia; rewrite Nat2Z.inj_add, Z.pow_add_r by lia; auto).
    assert (Va : V (a1 ++ a0) = V a1 * H + V a0) by (rewrite limbs_value_app, Ha0; auto).
    assert (Vb : V (b1 ++ b0) = V b1 * H + V b0) by (rewrite limbs_value_app, Hb0; auto).
    assert (Vr : V ((t0 ++ t1) ++ rB') = V a1 * V b1 * (H * H) + V a0 * V b0).
    { rewrite limbs_value_app, VA, VB. replace (length rB') with n by lia. rewrite HN. ring. }
    rewrite VA in V1. rewrite Vr in V1. rewrite VB in V2.
    assert (Bab : 0 <= V (a1 ++ a0) * V (b1 ++ b0) < P (2 * n)).
    { pose proof (limbs_value_bound B (a1 ++ a0) HB (proj2 (digits_ok_app _ _ _) (conj Oa1 Oa0))) as B1.
      pose proof (limbs_value_bound B (b1 ++ b0) HB (proj2 (digits_ok_app _ _ _) (conj Ob1 Ob0))) as B2.
      rewrite app_length in B1, B2. rewrite Ha1, Ha0 in B1. rewrite Hb1, Hb0 in B2.
      replace (2 * n)%nat with ((nh + nh) + (nh + nh))%nat by lia.
      rewrite (Nat2Z.inj_add (nh + nh)), Z.pow_add_r by lia. nia. }
    rewrite Va, Vb in Bab |- *.
    assert (Fin : forall r3 k, length r3 = (2 * n)%nat -> ok r3 ->
       V r3 = (V a1 * H + V a0) * (V b1 * H + V b0) + k * P (2 * n) ->
       V r3 = (V a1 * H + V a0) * (V b1 * H + V b0)).
    { intros r3 k Hl3' Ok3 E. pose proof (limbs_value_bound B r3 HB Ok3) as B3. rewrite Hl3' in B3.
      assert (k = 0) by nia. subst k. lia. }
    assert (Lt : length ((t0' ++ t1') ++ t2' ++ t4') = length t) by (rewrite !app_length; lia).
    assert (HL2 : length r2 = (2 * n)%nat) by (rewrite Hl2, Hl1, !app_length; lia).
    assert (Cx : forall x y, compare_ranges x y = 1 \/ compare_ranges x y = 0 \/ compare_ranges x y = -1)
      by (intros; apply compare_ranges_range).
    destruct (compare_ranges a1 a0 * compare_ranges b0 b1 =? 1) eqn:S1;
      [|destruct (compare_ranges a1 a0 * compare_ranges b0 b1 =? -1) eqn:S2].
    + destruct (kara_add_mid_spec r2 nh n t2') as (r3 & k3 & E6 & Hl6 & O6 & V6); auto; try lia.
      rewrite E6. eexists _, _. split; [reflexivity|].
      split; [rewrite Hl6; auto|]. split; [auto|]. split; [rewrite !app_length in *; lia|].
      apply (Fin r3 (k1 + k2 + k3)); auto; [lia|].
      fold H in V6. rewrite V6, V2, V1, V5.
      assert (V t0' * V t1' = (V a1 - V a0) * (V b0 - V b1)) as ->.
      { rewrite <- V3, <- V4 by lia.
        transitivity (V t0' * V t1' * (compare_ranges a1 a0 * compare_ranges b0 b1)); [|ring].
        replace (compare_ranges a1 a0 * compare_ranges b0 b1) with 1 by lia. ring. }
      ring.
    + destruct (kara_sub_mid_spec r2 nh n t2') as (r3 & k3 & E6 & Hl6 & O6 & V6); auto; try lia.
      rewrite E6. eexists _, _. split; [reflexivity|].
      split; [rewrite Hl6; auto|]. split; [auto|]. split; [rewrite !app_length in *; lia|].
      apply (Fin r3 (k1 + k2 + k3)); auto; [lia|].
      fold H in V6. rewrite V6, V2, V1, V5.
      assert (V t0' * V t1' = - ((V a1 - V a0) * (V b0 - V b1))) as ->.
      { rewrite <- V3, <- V4 by lia.
        transitivity (- (V t0' * V t1' * (compare_ranges a1 a0 * compare_ranges b0 b1))); [|ring].
        replace (compare_ranges a1 a0 * compare_ranges b0 b1) with (-1) by lia. ring. }
      ring.
    + eexists _, _. split; [reflexivity|].
      split; [auto|]. split; [auto|]. split; [rewrite !app_length in *; lia|].
      apply (Fin r2 (k1 + k2)); auto.
      rewrite V2, V1.
      assert ((V a1 - V a0) * (V b0 - V b1) = 0) as HZ.
      { destruct (Cx a1 a0) as [C|[C|C]]; destruct (Cx b0 b1) as [D|[D|D]]; rewrite C, D in S1, S2;
          try discriminate; try (rewrite (V3z C)); try (rewrite (V4z D)); ring. }
      transitivity (V a1 * V b1 * (H * H) + V a0 * V b0 + V a1 * V b1 * H + V a0 * V b0 * H
                    + (V a1 - V a0) * (V b0 - V b1) * H + (k1 + k2) * P (2 * n)); [rewrite HZ; ring|ring].
Qed.

End K.
