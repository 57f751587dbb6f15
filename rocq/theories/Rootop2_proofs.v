(** Rootop2_proofs.v - adding one, and the integer power, at reduced precision. *)
From Verif Require Export Floor_proofs Sqrt_proofs Rootop_proofs.
From Coq Require Import Lqa.
Local Open Scope Z_scope.

Section RP.
Variable c : cfg.
Notation L := (c_limb c).
Notation B := (mask L).
Notation V := (limbs_value B).
Notation ok := (digits_ok B).
Notation P n := (B ^ Z.of_nat n).
Notation E := (ebits (c_expo c)).
Notation n := (nel c).
Notation M := (max_exp10_of (c_expo c)).
Notation wk := (wk c).
Notation mag := (mag c).
Notation eta := (eta c).
Notation nz := (nz c).
Notation zl := (zl c).
Notation sv := (sv c).
Hypothesis Hc : cfg_ok c.
Hypothesis Hk : newton_ok c.
Let HB : 0 < B := mask_pos L.

Lemma eta_mono p q : (p <= q)%nat -> (eta q <= eta p)%Q.
Proof. clear. intros H. unfold Newton_proofs.eta. apply (proj2 (p10_le _ _)). pose proof (edc_pos c) as He. nia. Qed.

Lemma one_nz : nz (one c) /\ (mag (one c) == 1)%Q /\ dprec (one c) = n.
Proof.
  destruct (normal_facts c Hc _ (one_normal c Hc)) as (L1 & O1 & P1 & _).
  assert (Z1 : iszero (one c) = false).
  { destruct (iszero (one c)) eqn:Z; auto. apply (value_zero_iff c Hc _ (one_normal c Hc)) in Z. rewrite (one_value c Hc) in Z. discriminate. }
  split; [split; [apply normal_wk; auto; apply one_normal; auto|auto]|]. split; auto.
  rewrite <- (mag_value c (one c)), (one_value c Hc) by auto. reflexivity.
Qed.

(** Same signs, the first operand being the smaller one. *)
Lemma addp_same_sw x v p : nz x -> nz v -> dneg v = dneg x -> Nat.min (dprec x) (dprec v) = p -> (2 <= p)%nat ->
  (dprec x <= n)%nat -> (dprec v <= n)%nat ->
  - 2 ^ (E - 1) <= dexp x < 2 ^ (E - 1) -> - 2 ^ (E - 1) <= dexp v < 2 ^ (E - 1) ->
  dexp x < dexp v -> (mag x + mag v < p10 (dexp v + edc c))%Q ->
  add_ok c p x v (add c x v).
Proof.
  intros Nx Nv Hs Hp Hp2 Px Pv Rx Rv Hle Hnc. pose proof Nx as [Wx Ox]. pose proof Nv as [Wv Ov].
  pose proof Wx as (Lx & _ & Zx & Dx). pose proof Wv as (Lv & _ & Zv & Dv).
  pose proof (edc_pos c) as He. assert (Hpn : (2 <= p <= n)%nat) by lia.
  unfold add. rewrite (wk_iszero c x Wx), (wk_iszero c v Wv), Hp, (delta_p c) by auto. cbn [orb].
  assert (Hpe : 0 <= Z.of_nat p * edc c) by nia.
  destruct (ofs_gen c (dexp x) (dexp v) ltac:(lia) ltac:(lia)) as [O1 O2]. rewrite O1, O2.
  assert (Sx := sv_nz c x Nx). assert (Sv := sv_nz c v Nv).
  unfold add_ok, ulpp. rewrite Z.max_r by lia. pose proof (unitp_pos c p (dexp v)) as Up.
  pose proof (mag_pos c Hc x Wx) as Mx. pose proof (mag_pos c Hc v Wv) as Mv.
  replace (dexp x <? dexp v) with true by lia. cbn [negb andb].
  destruct (Z.abs (dexp x - dexp v) >=? Z.of_nat p * edc c) eqn:C1.
  { pose proof (small_other c Hc v x p Nx ltac:(lia)) as Q. split; [right; right; auto|]. rewrite Sx.
    destruct (dneg x); lra. }
  destruct Dx as [kx Dx]. destruct Dv as [kv Dv].
  set (o := kv - kx). assert (Hexy : dexp v - dexp x = o * edc c) by (unfold o; lia).
  assert (Ho0 : 0 < o) by nia. assert (Hop : o < Z.of_nat p) by nia.
  replace (Z.abs (dexp x - dexp v)) with (o * edc c) by lia. change (ed L) with (edc c). rewrite Z.div_mul by lia.
  rewrite Hs. replace (eqb (dneg x) (dneg x)) with true by (destruct (dneg x); auto).
  unfold add_same_sign. replace (- o >=? 0) with false by lia. rewrite Z.opp_involutive.
  destruct (shift_prefix c x (Z.to_nat o) p Wx Ox ltac:(lia)) as (M1 & M2 & M3 & M4 & M5 & _).
  rewrite Z2Nat.id in M3, M4 by lia. replace (dexp x + o * edc c) with (dexp v) in * by (clear - Hexy; lia).
  set (m := shift_down (Z.to_nat o) (data x)) in *.
  destruct (mag_prefix c v p Wv ltac:(lia)) as (A1 & A2 & A3 & _). fold (unitp c p (dexp v)) in A2, A3.
  assert (Lfx : length (firstn p (data v)) = p) by (apply (len_f c); [assumption|apply Hpn]).
  assert (Lfm : length (firstn p m) = p) by (apply (len_f c); [assumption|apply Hpn]).
  pose proof (add_n_spec L (firstn p m) (firstn p (data v)) ltac:(lia) (digits_ok_firstn B p _ M2) (digits_ok_firstn B p _ Ov)) as HA.
  destruct (add_n L (firstn p m) (firstn p (data v))) as [r cy]. destruct HA as (R1 & R2 & R3 & R4). rewrite Lfm in *.
  set (u := unitp c p (dexp v)) in *.
  assert (Hlt : V (firstn p m) + V (firstn p (data v)) < P p).
  { apply (sc_lt _ _ (lowp c p (dexp v))). fold (unitp c p (dexp v)). fold u. rewrite inject_Z_plus, Bp10.
    apply Qle_lt_trans with (mag x + mag v)%Q; [lra|]. eapply Qlt_le_trans; [exact Hnc|].
    unfold u, unitp. rewrite <- p10_add. apply (proj2 (p10_le _ _)). unfold lowp. lia. }
  pose proof (limbs_value_bound B r HB R2) as Rb. rewrite R1 in Rb.
  assert (cy = 0) by (destruct R3; auto; subst cy; exfalso; lia). subst cy. cbn [Z.eqb].
  rewrite Z.mul_0_l, Z.add_0_r in R4.
  assert (Ot : ok (skipn p (data x))) by (apply digits_ok_skipn; auto).
  assert (Lt : length (skipn p (data x)) = (n - p)%nat) by (apply (len_s c); assumption).
  destruct (mag_split c r (skipn p (data x)) p (dexp v) (dneg x) (dprec x) R1 Lt ltac:(clear - Hpn; lia) Ot) as [G1 G2].
  set (z := mkDec (r ++ skipn p (data x)) (dexp v) (dneg x) (dprec x)) in *.
  assert (Hlead : nth 0 r 0 <> 0).
  { apply (lead_pos c r (p - 1)); auto; [clear - R1 Hp2; lia|]. pose proof (limbs_value_bound B _ HB (digits_ok_firstn B p _ M2)) as Hb. clear - Hb A1 R4. lia. }
  assert (Nz : nz z).
  { split; [|apply digits_ok_app; auto]. split; [unfold z; cbn [data]; rewrite app_length; clear - R1 Lt Hpn; lia|]. split; [left; apply digits_ok_app; auto|].
    split; [unfold z; cbn [data]; rewrite app_nth1 by (clear - R1 Hp2; lia); auto|]. exists kv; auto. }
  rewrite inject_Z_plus in A3, M4, G2. change (inject_Z 1) with 1%Q in A3, M4, G2.
  rewrite R4 in G1, G2. rewrite inject_Z_plus in G1, G2. fold u in G1, G2.
  split; [right; left; split; auto; split; [left; auto|]; change (dexp z) with (dexp v); clear - He Hp2; nia|].
  rewrite (sv_nz c z Nz), Sx, Sv, Hs. change (dneg z) with (dneg x). destruct (dneg x); lra.
Qed.

Lemma small_exp x : nz x -> (mag x <= 1 # 100)%Q -> dexp x <= - edc c.
Proof.
  intros [W O] H. destruct (mag_bracket c Hc x W) as [H1 _]. pose proof W as (_ & _ & _ & D). pose proof (edc_pos c).
  assert (K : dexp x < 0) by (apply p10_lt_pow with (mag x); auto; rewrite p10_0; lra).
  pose proof (div_le_step (edc c) (dexp x) 0 ltac:(lia) D (Z.divide_0_r _) K). lia.
Qed.

(** "term += 1" for a small signed term. *)
Lemma add_one s p : (iszero s = true \/ nz s) -> (2 <= p <= n)%nat -> (nz s -> (p <= dprec s <= n)%nat) ->
  (nz s -> - 2 ^ (E - 1) + Z.of_nat n * edc c <= dexp s < 2 ^ (E - 1)) -> Z.of_nat n * edc c <= 2 ^ (E - 1) ->
  (Qabs (sv s) <= 1 # 100)%Q ->
  exists e, let z := add c s (one c) in nz z /\ dneg z = false /\ (p <= dprec z <= n)%nat /\ - edc c <= dexp z <= 0 /\
    (mag z == 1 + sv s + e)%Q /\ (Qabs e <= 2 * eta p)%Q.
Proof.
  intros Hs Hp Hps Rs Rn Hb. destruct one_nz as (N1 & V1 & P1). pose proof (edc_pos c) as He.
  pose proof (eta_small c p ltac:(lia)) as [E0 E1].
  destruct Hs as [Zs|Ns].
  { exists 0%Q. cbv zeta. unfold add. rewrite Zs. split; auto. split; [reflexivity|]. split; [lia|]. split; [change (dexp (one c)) with 0; lia|].
    split; [rewrite V1; unfold Addp_proofs.sv; rewrite Zs; reflexivity|]. change (Qabs 0) with 0%Q. lra. }
  specialize (Hps Ns). specialize (Rs Ns). pose proof (proj1 (pm_bnd _ _) Hb) as Hb'. rewrite (sv_abs c Hc s Ns) in Hb.
  pose proof (small_exp s Ns Hb) as De. pose proof (mag_pos c Hc s (proj1 Ns)) as Ms.
  set (q := Nat.min (dprec s) (dprec (one c))).
  assert (Hq : (p <= q <= n)%nat) by (unfold q; rewrite P1; lia).
  assert (Kq : Z.of_nat q * edc c <= Z.of_nat n * edc c) by (apply Z.mul_le_mono_nonneg_r; lia).
  assert (Kq0 : 0 <= Z.of_nat q * edc c) by (apply Z.mul_nonneg_nonneg; lia).
  assert (X1 : dexp (one c) = 0) by reflexivity.
  assert (A : add_ok c q s (one c) (add c s (one c))).
  { destruct (dneg s) eqn:Ds.
    - apply (addp_diff c Hc); auto; try lia. rewrite Ds. reflexivity.
    - apply addp_same_sw; auto; try lia; try congruence. rewrite V1, X1. apply Qlt_le_trans with (p10 1); [change (p10 1) with 10%Q; lra|]. apply (proj2 (p10_le _ _)); lia. }
  destruct A as [A1 A2]. unfold ulpp in A2. rewrite X1, Z.max_r, (unit_eta c q 0), p10_0, Qmult_1_l in A2 by lia.
  pose proof (eta_mono p q ltac:(lia)) as Em.
  assert (S1 : sv (one c) = mag (one c)) by (rewrite (sv_nz c _ N1); reflexivity). rewrite S1, V1 in A2.
  set (z := add c s (one c)) in *.
  assert (Nz : nz z /\ (p <= dprec z <= n)%nat /\ dexp z <= 0).
  { destruct A1 as [A1|[(A1 & A3 & A4)|[A1|A1]]].
    - exfalso. rewrite (sv_zl c z A1) in A2. lra.
    - split; auto. split; [destruct A3 as [-> | ->]; [auto|rewrite P1; lia]|]. rewrite X1 in A4. lia.
    - exfalso. rewrite A1 in A2. lra.
    - rewrite A1. split; auto. split; [lia|]. rewrite X1. lia. }
  destruct Nz as (Nz & Pz & Xz).
  assert (Dz : dneg z = false).
  { destruct (dneg z) eqn:D; auto. exfalso. rewrite (sv_nz c z Nz), D in A2. pose proof (mag_pos c Hc z (proj1 Nz)). lra. }
  rewrite (sv_nz c z Nz), Dz in A2.
  exists (mag z - (1 + sv s))%Q. split; auto. split; auto. split; auto. split.
  { split; auto. pose proof (mag_bracket_lt c Hc z (proj1 Nz) (proj2 Nz)) as Bz. 
    assert (K : -1 < dexp z + edc c) by (apply p10_lt_pow with (mag z); auto; change (p10 (-1)) with (1 # 10)%Q; lra). lia. }
  split; [ring|]. apply pm_bnd. lra.
Qed.

Lemma div_zl bd x u : iszero x = true -> 0 < u < 2 ^ 64 -> exists z, div_sll c bd x u = Some z /\ iszero z = true.
Proof.
  intros Z Hu. unfold div_sll. replace (u <? 0) with false by lia. cbn [negb]. rewrite ucast_id by lia. unfold div_ull.
  replace (u =? 0) with false by lia. change (iszero (set_neg x false)) with (iszero x). rewrite Z. eexists. split; [reflexivity|exact Z].
Qed.
End RP.
