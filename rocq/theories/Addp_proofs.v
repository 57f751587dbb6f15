(** Addp_proofs.v - signed addition at a reduced working precision, as used inside the square-root
    iteration. *)
From Verif Require Export Newton3_proofs.
From Coq Require Import Lqa.
Local Open Scope Z_scope.

Section AP.
Variable c : cfg.
Notation L := (c_limb c).
Notation B := (mask L).
Notation V := (limbs_value B).
Notation ok := (digits_ok B).
Notation P n := (B ^ Z.of_nat n).
Notation E := (ebits (c_expo c)).
Notation n := (nel c).
Notation M := (max_exp10_of (c_expo c)).
Notation wk := (wk c).
Notation mag := (mag c).
Notation eta := (eta c).
Hypothesis Hc : cfg_ok c.
Let HB : 0 < B := mask_pos L.

(** Non-zero with all limbs in range, any precision and sign. *)
Definition nz (x : dec) : Prop := wk x /\ ok (data x).
(** Zero as far as the leading limb tells (limbs past the working precision may be junk). *)
Definition zl (x : dec) : Prop := iszero x = true /\ length (data x) = n /\ ok (data x) /\ dexp x = 0 /\ (2 <= dprec x <= n)%nat.
(** Signed magnitude; zero-like objects count as zero. *)
Definition sv (x : dec) : Q := (if iszero x then 0 else if dneg x then - mag x else mag x)%Q.
Definition unitp (p : nat) (e : Z) : Q := p10 (lowp c p e).

Lemma sv_nz x : nz x -> (sv x = if dneg x then - mag x else mag x)%Q.
Proof. intros [W _]. unfold sv. rewrite (wk_iszero c x W). reflexivity. Qed.
Lemma sv_zl x : zl x -> sv x = 0%Q.
Proof. intros (H & _). unfold sv. rewrite H. reflexivity. Qed.

Lemma mag_split r t p e s k : length r = p -> length t = (n - p)%nat -> (1 <= p <= n)%nat -> ok t ->
  (inject_Z (V r) * unitp p e <= mag (mkDec (r ++ t) e s k))%Q /\
  (mag (mkDec (r ++ t) e s k) < inject_Z (V r + 1) * unitp p e)%Q.
Proof.
  intros Hr Ht Hp Ot. unfold Prec_proofs.mag, unitp. cbn [data dexp].
  destruct (low_lowp c p e ltac:(lia)) as [Hlow Hd].
  assert (HP : P (n - p) = 10 ^ (lowp c p e - low c e)) by (rewrite Bpow, Hd by lia; reflexivity).
  rewrite !(scaleZ _ _ _ Hlow). rewrite sc_le, sc_lt, <- HP. rewrite limbs_value_app, Ht.
  pose proof (limbs_value_bound B t HB Ot) as Hb. rewrite Ht in Hb. lia.
Qed.

Lemma shift_prefix x k p : wk x -> ok (data x) -> (k < p <= n)%nat ->
  let m := shift_down k (data x) in
  let e := dexp x + Z.of_nat k * edc c in
  length m = n /\ ok m /\ (inject_Z (V (firstn p m)) * unitp p e <= mag x)%Q /\
  (mag x < inject_Z (V (firstn p m) + 1) * unitp p e)%Q /\
  V (firstn p m) < P (p - k) /\ P (p - k - 1) <= V (firstn p m).
Proof.
  intros W O Hk. cbv zeta. pose proof W as (Lx & _).
  destruct (shift_down_spec B k (data x) HB O ltac:(lia)) as (S1 & S2 & _).
  split; [lia|]. split; [auto|].
  assert (Fs : V (firstn p (shift_down k (data x))) = V (firstn (p - k) (data x))).
  { unfold shift_down. rewrite firstn_app, repeat_length, firstn_all2 by (rewrite repeat_length; lia).
    rewrite limbs_value_app, limbs_value_repeat0, Z.mul_0_l, Z.add_0_l.
    rewrite firstn_firstn. do 2 f_equal. lia. }
  rewrite Fs. destruct (mag_prefix c x (p - k) W ltac:(lia)) as (A1 & A2 & A3 & _).
  assert (El : lowp c (p - k) (dexp x) = lowp c p (dexp x + Z.of_nat k * edc c)).
  { unfold lowp. rewrite Nat2Z.inj_sub by lia. ring. }
  rewrite El in *. split; [auto|]. split; [auto|].
  pose proof (limbs_value_bound B _ HB (digits_ok_firstn B (p - k) _ O)) as Hb. rewrite firstn_length, Nat.min_l in Hb by lia.
  split; lia.
Qed.

(** Justification at [p] limbs. *)
Lemma justp_gen r t p e s k : (2 <= p <= n)%nat -> length r = p -> ok r -> length t = (n - p)%nat -> ok t ->
  (2 <= k <= n)%nat -> (edc c | e) -> - 2 ^ (E - 1) + Z.of_nat p * edc c <= e < 2 ^ (E - 1) ->
  let y := mkDec (r ++ t) e s k in
  let z := justify c y p in
  (V r = 0 -> zl z) /\
  (0 < V r -> nz z /\ dneg z = s /\ dprec z = k /\ (mag z == mag y)%Q /\ e - (Z.of_nat p - 1) * edc c <= dexp z <= e).
Proof.
  intros Hp Hr Or Ht Ot Hk De Re. cbv zeta. unfold justify. cbn [data dexp dneg dprec].
  rewrite firstn_app_exact by auto.
  assert (Od : ok (r ++ t)) by (apply digits_ok_app; auto).
  assert (Ld : length (r ++ t) = n) by (rewrite app_length; lia).
  pose proof (edc_pos c) as He.
  destruct (count_lead0_spec r) as (t' & E1 & E2 & E3). set (sj := count_lead0 r) in *.
  assert (Hlen : length r = (sj + length t')%nat) by (rewrite E1 at 1; rewrite app_length, repeat_length; auto).
  assert (Vr : V r = V t') by (rewrite E1, limbs_value_app, limbs_value_repeat0; lia).
  split.
  - intros H0.
    assert (Ar : r = repeat 0 (length r)) by (apply limbs_value_zero_iff in H0; auto).
    assert (Et : t' = []).
    { destruct E2 as [E2|E2]; auto. exfalso. apply E2. destruct t' as [|t0 t']; auto. cbn [nth].
      assert (In t0 r) by (rewrite E1; apply in_or_app; right; left; auto). rewrite Ar in H. apply repeat_spec in H. auto. }
    assert (Es : sj = length r) by (apply E3; auto).
    replace (sj =? 0)%nat with false by (symmetry; apply Nat.eqb_neq; lia).
    replace (sj =? length r)%nat with true by (symmetry; apply Nat.eqb_eq; lia). cbn [data].
    destruct (forallb (fun d => d =? 0) (r ++ t)).
    + unfold zl, zero, iszero. cbn [data dexp dprec]. pose proof (nel_ge4 c Hc) as Hn4. rewrite repeat_length.
      split; [destruct n; [lia|reflexivity]|]. split; auto. split; [apply digits_ok_repeat0; auto|]. split; auto. lia.
    + unfold zl, iszero. cbn [data dexp dprec]. rewrite app_nth1 by lia. rewrite Ar.
      split; [destruct r; [cbn in Hr; lia|reflexivity]|]. rewrite <- Ar. split; auto.
  - intros H0.
    assert (Hnz : nth 0 t' 0 <> 0) by (destruct E2 as [-> |]; auto; cbn in Vr; lia).
    assert (Hsj : (sj < p)%nat) by (destruct t'; [cbn in Hnz; lia|cbn in Hlen; lia]).
    destruct (sj =? 0)%nat eqn:Es.
    + apply Nat.eqb_eq in Es. rewrite Es in E1. cbn [repeat app] in E1. subst t'.
      cbn [data]. assert (Z1 : nth 0 (r ++ t) 0 <> 0) by (rewrite app_nth1; auto; lia).
      rewrite not_all_zero by auto. cbn [data dexp dneg dprec].
      split; [split; [split; [auto|split; [left; auto|auto]]|auto]|]. split; auto. split; auto. split; [reflexivity|nia].
    + apply Nat.eqb_neq in Es.
      replace (sj =? length r)%nat with false by (symmetry; apply Nat.eqb_neq; lia). cbn [data].
      assert (Esk : skipn sj (r ++ t) = t' ++ t).
      { rewrite E1 at 1. rewrite <- app_assoc. apply skipn_app_exact, repeat_length. }
      rewrite Esk. assert (Ot' : ok t') by (rewrite E1 in Or; apply digits_ok_app in Or; tauto).
      assert (Z1 : nth 0 ((t' ++ t) ++ repeat 0 sj) 0 <> 0) by (destruct t'; [cbn in Hnz; lia|exact Hnz]).
      rewrite not_all_zero by auto. cbn [data dexp dneg dprec].
      pose proof (nel_Z c Hc) as HnZ. pose proof (E_ge8 c) as HE8. pose proof (pow2E c) as H2E. destruct Hc as [_ HcE].
      change (ed L) with (edc c).
      assert (Sj1 : 1 <= Z.of_nat sj <= Z.of_nat p - 1) by (clear - Hsj Es; lia).
      assert (Sj2 : Z.of_nat sj * edc c <= (Z.of_nat p - 1) * edc c) by (apply Z.mul_le_mono_nonneg_r; lia).
      assert (Sj3 : Z.of_nat sj <= Z.of_nat sj * edc c) by nia.
      assert (Sj4 : Z.of_nat p * edc c <= elem_number c * edc c) by (apply Z.mul_le_mono_nonneg_r; lia).
      rewrite (scast_id E (Z.of_nat sj)) by lia. rewrite (scast_id E (Z.of_nat sj * edc c)) by lia.
      rewrite scast_id by lia.
      assert (Len2 : length ((t' ++ t) ++ repeat 0 sj) = n) by (rewrite !app_length, repeat_length; lia).
      assert (Ok2 : ok ((t' ++ t) ++ repeat 0 sj)).
      { apply digits_ok_app; split; [apply digits_ok_app; auto|apply digits_ok_repeat0; auto]. }
      split; [split; [split; [auto|split; [left; auto|split; [auto|]]]|auto]|].
      { apply Z.divide_sub_r; auto. apply Z.divide_factor_r. }
      split; auto. split; auto. split; [|cbn [dexp]; lia].
      unfold Prec_proofs.mag. cbn [data dexp].
      assert (VV : V ((t' ++ t) ++ repeat 0 sj) = V (r ++ t) * P sj).
      { rewrite limbs_value_app, limbs_value_repeat0, repeat_length, Z.add_0_r. f_equal. rewrite !limbs_value_app. f_equal. rewrite Vr. auto. }
      rewrite VV. rewrite (scaleZ (V (r ++ t)) (low c e) (low c (e - Z.of_nat sj * edc c))) by (unfold low; lia).
      rewrite low_sub. replace (e - (e - Z.of_nat sj * edc c)) with (edc c * Z.of_nat sj) by ring.
      rewrite Bpow by lia. reflexivity.
Qed.

Lemma ofs_gen a b : - 2 ^ (E - 1) <= a < 2 ^ (E - 1) -> - 2 ^ (E - 1) <= b < 2 ^ (E - 1) ->
  let o := uw_sub E (uw_make E a) (uw_make E b) in
  uw_neg o = (a <? b) /\ uw_val o = Z.abs (a - b).
Proof.
  intros Ha Hb. pose proof (E_ge8 c) as HE8. pose proof (pow2E c) as H2E. cbv zeta.
  destruct (uw_make_spec E a ltac:(lia) Ha) as [E1 O1]. destruct (uw_make_spec E b ltac:(lia) Hb) as [E2 O2].
  destruct (uw_sub_spec E _ _ O1 O2) as [E3 [O3 O4]]; [rewrite E1, E2; lia|]. rewrite E1, E2 in E3.
  set (o := uw_sub E (uw_make E a) (uw_make E b)) in *. unfold uw_value in E3. destruct (uw_neg o).
  - specialize (O4 eq_refl). split; [symmetry; apply Z.ltb_lt; lia|lia].
  - split; [symmetry; apply Z.ltb_ge; lia|lia].
Qed.

Definition ulpp (p : nat) (x v : dec) : Q := unitp p (Z.max (dexp x) (dexp v)).

Lemma small_other x v p : nz v -> dexp v + Z.of_nat p * edc c <= dexp x -> (mag v < unitp p (dexp x))%Q.
Proof.
  intros [W O] H. eapply Qlt_le_trans; [apply (mag_bracket_lt c Hc v W O)|]. unfold unitp, lowp.
  apply (proj2 (p10_le _ _)). lia.
Qed.
Lemma unitp_pos p e : (0 < unitp p e)%Q. Proof. apply p10_pos. Qed.

(** What the addition returns. *)
Definition add_ok (p : nat) (x v z : dec) : Prop :=
  (zl z \/ nz z /\ (dprec z = dprec x \/ dprec z = dprec v) /\ Z.max (dexp x) (dexp v) - (Z.of_nat p - 1) * edc c <= dexp z <= Z.max (dexp x) (dexp v) \/
   z = x \/ z = v) /\
  (- (2 * ulpp p x v) < sv z - (sv x + sv v) /\ sv z - (sv x + sv v) < 2 * ulpp p x v)%Q.

Lemma len_f (l : list Z) p : length l = n -> (p <= n)%nat -> length (firstn p l) = p.
Proof. clear. intros H1 H2. rewrite firstn_length. lia. Qed.
Lemma len_s (l : list Z) p : length l = n -> length (skipn p l) = (n - p)%nat.
Proof. clear. intros H1. rewrite skipn_length. lia. Qed.

(** Opposite signs. *)
Lemma addp_diff x v p : nz x -> nz v -> dneg v = negb (dneg x) -> Nat.min (dprec x) (dprec v) = p -> (2 <= p)%nat ->
  (dprec x <= n)%nat -> (dprec v <= n)%nat ->
  - 2 ^ (E - 1) + Z.of_nat p * edc c <= dexp x < 2 ^ (E - 1) -> - 2 ^ (E - 1) + Z.of_nat p * edc c <= dexp v < 2 ^ (E - 1) ->
  add_ok p x v (add c x v).
Proof.
  intros Nx Nv Hs Hp Hp2 Px Pv Rx Rv. pose proof Nx as [Wx Ox]. pose proof Nv as [Wv Ov].
  pose proof Wx as (Lx & _ & Zx & Dx). pose proof Wv as (Lv & _ & Zv & Dv).
  pose proof (edc_pos c) as He. assert (Hpn : (2 <= p <= n)%nat) by lia.
  unfold add. rewrite (wk_iszero c x Wx), (wk_iszero c v Wv), Hp, delta_p by auto. cbn [orb].
  assert (Hpe : 0 <= Z.of_nat p * edc c) by nia.
  destruct (ofs_gen (dexp x) (dexp v) ltac:(lia) ltac:(lia)) as [O1 O2]. rewrite O1, O2.
  assert (Sx := sv_nz x Nx). assert (Sv := sv_nz v Nv).
  pose proof (unitp_pos p (Z.max (dexp x) (dexp v))) as Up. fold (ulpp p x v) in Up.
  pose proof (mag_pos c Hc x Wx) as Mx. pose proof (mag_pos c Hc v Wv) as Mv.
  destruct (negb (dexp x <? dexp v) && (Z.abs (dexp x - dexp v) >=? Z.of_nat p * edc c)) eqn:C1.
  { assert (H : dexp v + Z.of_nat p * edc c <= dexp x) by (apply andb_true_iff in C1; destruct C1 as [C1 C2]; destruct (dexp x <? dexp v) eqn:C3; [discriminate|lia]).
    pose proof (small_other x v p Nv H) as Q. unfold add_ok, ulpp in *. rewrite Z.max_l in * by lia. split; [right; right; auto|]. rewrite Sv.
    destruct (dneg v); lra. }
  destruct ((dexp x <? dexp v) && (Z.abs (dexp x - dexp v) >=? Z.of_nat p * edc c)) eqn:C2.
  { assert (H : dexp x + Z.of_nat p * edc c <= dexp v) by (apply andb_true_iff in C2; destruct C2 as [C2 C3]; lia).
    pose proof (small_other v x p Nx H) as Q. unfold add_ok, ulpp in *. rewrite Z.max_r in * by lia. split; [right; right; auto|]. rewrite Sx.
    destruct (dneg x); lra. }
  assert (Hab : Z.abs (dexp x - dexp v) < Z.of_nat p * edc c) by (destruct (dexp x <? dexp v); cbn [negb andb] in C1, C2; lia).
  destruct Dx as [kx Dx]. destruct Dv as [kv Dv].
  assert (Hk : Z.abs (kx - kv) < Z.of_nat p). { rewrite Dx, Dv in Hab. replace (kx * edc c - kv * edc c) with ((kx - kv) * edc c) in Hab by ring. rewrite Z.abs_mul, (Z.abs_eq (edc c)) in Hab by lia. apply Z.mul_lt_mono_pos_r in Hab; lia. }
  assert (Ho : (if dexp x <? dexp v then - (Z.abs (dexp x - dexp v) / ed L) else Z.abs (dexp x - dexp v) / ed L) = kx - kv).
  { change (ed L) with (edc c). assert (Hlt : dexp x < dexp v <-> kx < kv) by (rewrite Dx, Dv; symmetry; apply Z.mul_lt_mono_pos_r; lia).
    destruct (dexp x <? dexp v) eqn:C.
    - replace (Z.abs (dexp x - dexp v)) with ((kv - kx) * edc c) by lia. rewrite Z.div_mul by lia. lia.
    - replace (Z.abs (dexp x - dexp v)) with ((kx - kv) * edc c) by lia. rewrite Z.div_mul by lia. lia. }
  rewrite Ho. clear Ho C1 C2 Hab O1 O2. set (o := kx - kv) in *.
  assert (Hexy : dexp x - dexp v = o * edc c) by (unfold o; clear - Dx Dv; lia). clearbody o.
  rewrite Hs. assert (Hb : eqb (dneg x) (negb (dneg x)) = false) by (destruct (dneg x); auto). rewrite Hb.
  assert (Lfx : length (firstn p (data x)) = p) by (apply len_f; [assumption|apply Hpn]).
  assert (Lfv : length (firstn p (data v)) = p) by (apply len_f; [assumption|apply Hpn]).
  unfold add_diff_sign.
  rewrite (compare_ranges_spec L) by (try (apply digits_ok_firstn; auto); lia).
  destruct ((o >? 0) || ((o =? 0) && (match V (firstn p (data x)) ?= V (firstn p (data v)) with Lt => -1 | Eq => 0 | Gt => 1 end >? 0))) eqn:Ebr.
  - (* x is the larger *)
    assert (Ebr2 : 0 < o \/ o = 0 /\ V (firstn p (data v)) < V (firstn p (data x))).
    { clear - Ebr. apply orb_true_iff in Ebr. destruct Ebr as [H|H]; [left; lia|right]. apply andb_true_iff in H. destruct H as [H1 H2].
      split; [lia|]. destruct (Z.compare_spec (V (firstn p (data x))) (V (firstn p (data v)))); cbn in H2; try discriminate. auto. }
    clear Ebr. assert (Ho0 : 0 <= o) by (clear - Ebr2; lia). assert (Emax : Z.max (dexp x) (dexp v) = dexp x) by (clear - Hexy Ho0 He; nia). unfold add_ok, ulpp in *. rewrite Emax in *.
    destruct (shift_prefix v (Z.to_nat o) p Wv Ov ltac:(lia)) as (M1 & M2 & M3 & M4 & M5 & _).
    rewrite Z2Nat.id in M3, M4 by lia. replace (dexp v + o * edc c) with (dexp x) in * by (clear - Hexy; lia).
    set (m := shift_down (Z.to_nat o) (data v)) in *.
    destruct (mag_prefix c x p Wx ltac:(lia)) as (A1 & A2 & A3 & _). fold (unitp p (dexp x)) in A2, A3.
    assert (Hle : V (firstn p m) <= V (firstn p (data x)) /\ (o = 0 -> V (firstn p m) < V (firstn p (data x)))).
    { destruct Ebr2 as [C|[C C']].
      - split; [|clear - C; lia]. assert (P (p - Z.to_nat o) <= P (p - 1)) by (apply Z.pow_le_mono_r; [exact HB|clear - C; lia]). clear - H A1 M5; lia.
      - unfold m. rewrite C. change (Z.to_nat 0) with 0%nat. unfold shift_down. cbn [repeat app]. rewrite Nat.sub_0_r, firstn_all. clear - C'; lia. }
    clear Ebr2 M5 A1. destruct Hle as [Hle _].
    assert (Lfm : length (firstn p m) = p) by (apply len_f; [assumption|apply Hpn]).
    destruct (sub_n_ge L (firstn p (data x)) (firstn p m)) as (R1 & R2 & R3 & _); try (apply digits_ok_firstn; auto); [rewrite Lfm; assumption|exact Hle|].
    set (r := fst (sub_n L (firstn p (data x)) (firstn p m))) in *.
    assert (Ot : ok (skipn p (data x))) by (apply digits_ok_skipn; auto).
    assert (Lt : length (skipn p (data x)) = (n - p)%nat) by (apply len_s; assumption).
    destruct (mag_split r (skipn p (data x)) p (dexp x) (dneg x) (dprec x) ltac:(rewrite R2; assumption) Lt ltac:(clear - Hpn; lia) Ot) as [G1 G2].
    destruct (justp_gen r (skipn p (data x)) p (dexp x) (dneg x) (dprec x) Hpn ltac:(rewrite R2; assumption) R3 Lt Ot ltac:(clear - Px Hp Hp2; lia)) as [J1 J2]; [exists kx; auto|exact Rx|].
    set (z := justify c (mkDec (r ++ skipn p (data x)) (dexp x) (dneg x) (dprec x)) p) in *.
    set (u := unitp p (dexp x)) in *.
    pose proof (limbs_value_bound B r HB R3) as Rb.
    rewrite inject_Z_plus in A3, M4, G2. change (inject_Z 1) with 1%Q in A3, M4, G2.
    rewrite R1 in G1, G2. unfold Z.sub in G1, G2. rewrite inject_Z_plus, inject_Z_opp in G1, G2.
    rewrite Sx, Sv, Hs.
    destruct (Z.eq_dec (V r) 0) as [C|C].
    + specialize (J1 C). split; [left; auto|]. rewrite (sv_zl z J1).
      assert (Eq : (inject_Z (V (firstn p (data x))) == inject_Z (V (firstn p m)))%Q) by (rewrite R1 in C; replace (V (firstn p (data x))) with (V (firstn p m)) by lia; reflexivity).
      rewrite Eq in *. destruct (dneg x); cbn [negb]; lra.
    + destruct (J2 ltac:(clear - C Rb; lia)) as (K1 & K2 & K3 & K4 & K5). split; [right; left; auto|].
      rewrite (sv_nz z K1), K2. destruct (dneg x); cbn [negb]; lra.
  - (* v is the larger, or they are equal *)
    assert (Ebr2 : o < 0 \/ o = 0 /\ V (firstn p (data x)) <= V (firstn p (data v))).
    { clear - Ebr. apply orb_false_iff in Ebr. destruct Ebr as [H1 H2]. destruct (Z.eq_dec o 0) as [C|C]; [right|left; lia]. split; auto.
      rewrite C in H2. cbn [Z.eqb andb] in H2. destruct (Z.compare_spec (V (firstn p (data x))) (V (firstn p (data v)))); cbn in H2; try discriminate; lia. }
    clear Ebr. assert (Ho0 : o <= 0) by (clear - Ebr2; lia). assert (Emax : Z.max (dexp x) (dexp v) = dexp v) by (clear - Hexy Ho0 He; nia). unfold add_ok, ulpp in *. rewrite Emax in *.
    set (dx := if o =? 0 then data x else shift_down (Z.to_nat (- o)) (data x)).
    assert (Edx : dx = shift_down (Z.to_nat (- o)) (data x)).
    { unfold dx. destruct (o =? 0) eqn:C; auto. replace o with 0 by lia. change (Z.to_nat (- 0)) with 0%nat. unfold shift_down. cbn [repeat app]. rewrite Nat.sub_0_r, firstn_all. auto. }
    destruct (shift_prefix x (Z.to_nat (- o)) p Wx Ox ltac:(lia)) as (M1 & M2 & M3 & M4 & M5 & _).
    rewrite <- Edx in *. rewrite Z2Nat.id in M3, M4 by lia. replace (dexp x + - o * edc c) with (dexp v) in * by (clear - Hexy; lia).
    destruct (mag_prefix c v p Wv ltac:(lia)) as (A1 & A2 & A3 & _). fold (unitp p (dexp v)) in A2, A3.
    assert (Hle : V (firstn p dx) <= V (firstn p (data v))).
    { destruct Ebr2 as [C|[C C']].
      - assert (P (p - Z.to_nat (- o)) <= P (p - 1)) by (apply Z.pow_le_mono_r; [exact HB|clear - C; lia]). clear - H A1 M5; lia.
      - unfold dx. rewrite C. cbn [Z.eqb]. exact C'. }
    clear Ebr2 M5 A1.
    assert (Lfm : length (firstn p dx) = p) by (apply len_f; [assumption|apply Hpn]).
    destruct (sub_n_ge L (firstn p (data v)) (firstn p dx)) as (R1 & R2 & R3 & _); try (apply digits_ok_firstn; auto); [rewrite Lfm; assumption|exact Hle|].
    set (r := fst (sub_n L (firstn p (data v)) (firstn p dx))) in *.
    assert (Ot : ok (skipn p dx)) by (apply digits_ok_skipn; auto).
    assert (Lt : length (skipn p dx) = (n - p)%nat) by (apply len_s; assumption).

    destruct (mag_split r (skipn p dx) p (dexp v) (dneg v) (dprec x) ltac:(rewrite R2; assumption) Lt ltac:(clear - Hpn; lia) Ot) as [G1 G2].
    destruct (justp_gen r (skipn p dx) p (dexp v) (dneg v) (dprec x) Hpn ltac:(rewrite R2; assumption) R3 Lt Ot ltac:(clear - Px Hp Hp2; lia)) as [J1 J2]; [exists kv; auto|exact Rv|].
    set (z := justify c (mkDec (r ++ skipn p dx) (dexp v) (dneg v) (dprec x)) p) in *.
    set (u := unitp p (dexp v)) in *.
    pose proof (limbs_value_bound B r HB R3) as Rb.
    rewrite inject_Z_plus in A3, M4, G2. change (inject_Z 1) with 1%Q in A3, M4, G2.
    rewrite R1 in G1, G2. unfold Z.sub in G1, G2. rewrite inject_Z_plus, inject_Z_opp in G1, G2.
    rewrite Sx, Sv, Hs.
    destruct (Z.eq_dec (V r) 0) as [C|C].
    + specialize (J1 C). split; [left; auto|]. rewrite (sv_zl z J1).
      assert (Eq : (inject_Z (V (firstn p (data v))) == inject_Z (V (firstn p dx)))%Q) by (rewrite R1 in C; replace (V (firstn p (data v))) with (V (firstn p dx)) by lia; reflexivity).
      rewrite Eq in *. destruct (dneg x); cbn [negb]; lra.
    + destruct (J2 ltac:(clear - C Rb; lia)) as (K1 & K2 & K3 & K4 & K5). split; [right; left; auto|].
      rewrite (sv_nz z K1), K2, Hs. destruct (dneg x); cbn [negb]; lra.
Qed.

(** Same sign, the second operand not larger in exponent, no carry out of the leading limb. *)
Lemma addp_same x v p : nz x -> nz v -> dneg v = dneg x -> Nat.min (dprec x) (dprec v) = p -> (2 <= p)%nat ->
  (dprec x <= n)%nat -> (dprec v <= n)%nat ->
  - 2 ^ (E - 1) <= dexp x < 2 ^ (E - 1) -> - 2 ^ (E - 1) <= dexp v < 2 ^ (E - 1) ->
  dexp v <= dexp x -> (mag x + mag v < p10 (dexp x + edc c))%Q ->
  add_ok p x v (add c x v).
Proof.
  intros Nx Nv Hs Hp Hp2 Px Pv Rx Rv Hle Hnc. pose proof Nx as [Wx Ox]. pose proof Nv as [Wv Ov].
  pose proof Wx as (Lx & _ & Zx & Dx). pose proof Wv as (Lv & _ & Zv & Dv).
  pose proof (edc_pos c) as He. assert (Hpn : (2 <= p <= n)%nat) by lia.
  unfold add. rewrite (wk_iszero c x Wx), (wk_iszero c v Wv), Hp, delta_p by auto. cbn [orb].
  assert (Hpe : 0 <= Z.of_nat p * edc c) by nia.
  destruct (ofs_gen (dexp x) (dexp v) ltac:(lia) ltac:(lia)) as [O1 O2]. rewrite O1, O2.
  assert (Sx := sv_nz x Nx). assert (Sv := sv_nz v Nv).
  unfold add_ok, ulpp. rewrite Z.max_l by lia. pose proof (unitp_pos p (dexp x)) as Up.
  pose proof (mag_pos c Hc x Wx) as Mx. pose proof (mag_pos c Hc v Wv) as Mv.
  replace (dexp x <? dexp v) with false by lia. cbn [negb andb].
  destruct (Z.abs (dexp x - dexp v) >=? Z.of_nat p * edc c) eqn:C1.
  { pose proof (small_other x v p Nv ltac:(lia)) as Q. split; [right; right; auto|]. rewrite Sv.
    destruct (dneg v); lra. }
  destruct Dx as [kx Dx]. destruct Dv as [kv Dv].
  set (o := kx - kv). assert (Hexy : dexp x - dexp v = o * edc c) by (unfold o; lia).
  assert (Ho0 : 0 <= o) by nia. assert (Hop : o < Z.of_nat p) by nia.
  rewrite Z.abs_eq, Hexy by lia. change (ed L) with (edc c). rewrite Z.div_mul by lia.
  rewrite Hs. replace (eqb (dneg x) (dneg x)) with true by (destruct (dneg x); auto).
  unfold add_same_sign. replace (o >=? 0) with true by lia.
  destruct (shift_prefix v (Z.to_nat o) p Wv Ov ltac:(lia)) as (M1 & M2 & M3 & M4 & M5 & _).
  rewrite Z2Nat.id in M3, M4 by lia. replace (dexp v + o * edc c) with (dexp x) in * by (clear - Hexy; lia).
  set (m := shift_down (Z.to_nat o) (data v)) in *.
  destruct (mag_prefix c x p Wx ltac:(lia)) as (A1 & A2 & A3 & _). fold (unitp p (dexp x)) in A2, A3.
  assert (Lfx : length (firstn p (data x)) = p) by (apply len_f; [assumption|apply Hpn]).
  assert (Lfm : length (firstn p m) = p) by (apply len_f; [assumption|apply Hpn]).
  pose proof (add_n_spec L (firstn p (data x)) (firstn p m) ltac:(lia) (digits_ok_firstn B p _ Ox) (digits_ok_firstn B p _ M2)) as HA.
  destruct (add_n L (firstn p (data x)) (firstn p m)) as [r cy]. destruct HA as (R1 & R2 & R3 & R4). rewrite Lfx in *.
  set (u := unitp p (dexp x)) in *.
  (* no carry *)
  assert (Hlt : V (firstn p (data x)) + V (firstn p m) < P p).
  { apply (sc_lt _ _ (lowp c p (dexp x))). fold (unitp p (dexp x)). fold u. rewrite inject_Z_plus, Bp10.
    apply Qle_lt_trans with (mag x + mag v)%Q; [lra|]. eapply Qlt_le_trans; [exact Hnc|].
    unfold u, unitp. rewrite <- p10_add. apply (proj2 (p10_le _ _)). unfold lowp. lia. }
  pose proof (limbs_value_bound B r HB R2) as Rb. rewrite R1 in Rb.
  assert (cy = 0) by (destruct R3; auto; subst cy; exfalso; lia). subst cy. cbn [Z.eqb].
  rewrite Z.mul_0_l, Z.add_0_r in R4.
  assert (Ot : ok (skipn p (data x))) by (apply digits_ok_skipn; auto).
  assert (Lt : length (skipn p (data x)) = (n - p)%nat) by (apply len_s; assumption).
  destruct (mag_split r (skipn p (data x)) p (dexp x) (dneg x) (dprec x) R1 Lt ltac:(clear - Hpn; lia) Ot) as [G1 G2].
  set (z := mkDec (r ++ skipn p (data x)) (dexp x) (dneg x) (dprec x)) in *.
  assert (Hlead : nth 0 r 0 <> 0).
  { apply (lead_pos c r (p - 1)); auto; [clear - R1 Hp2; lia|]. pose proof (limbs_value_bound B _ HB (digits_ok_firstn B p _ M2)) as Hb. clear - Hb A1 R4. lia. }
  assert (Nz : nz z).
  { split; [|apply digits_ok_app; auto]. split; [unfold z; cbn [data]; rewrite app_length; clear - R1 Lt Hpn; lia|]. split; [left; apply digits_ok_app; auto|].
    split; [unfold z; cbn [data]; rewrite app_nth1 by (clear - R1 Hp2; lia); auto|]. exists kx; auto. }
  rewrite inject_Z_plus in A3, M4, G2. change (inject_Z 1) with 1%Q in A3, M4, G2.
  rewrite R4 in G1, G2. rewrite inject_Z_plus in G1, G2. fold u in G1, G2.
  split; [right; left; split; auto; split; [left; auto|]; change (dexp z) with (dexp x); clear - He Hp2; nia|].
  rewrite (sv_nz z Nz), Sx, Sv, Hs. change (dneg z) with (dneg x). destruct (dneg x); lra.
Qed.
End AP.
