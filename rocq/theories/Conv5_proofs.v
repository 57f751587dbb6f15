(** Conv5_proofs.v - accuracy of the conversion to built-in floating-point types, and round trips. *)
From Verif Require Export Conv4_proofs.
From Coq Require Import Lqa.
Local Open Scope Z_scope.

Lemma fl_opp P v : (v < 0)%Q -> (fl P v == - fl P (- v))%Q.
Proof.
  intros H. unfold fl. destruct (Qeq_bool v 0) eqn:E0; [apply Qeq_bool_iff in E0; lra|].
  destruct (Qeq_bool (- v) 0) eqn:E1; [apply Qeq_bool_iff in E1; lra|].
  destruct (Qle_bool 0 v) eqn:E2; [apply Qle_bool_iff in E2; lra|].
  destruct (Qle_bool 0 (- v)) eqn:E3.
  - rewrite !Qred_correct. reflexivity.
  - assert (Qle_bool 0 (- v) = true) by (apply Qle_bool_iff; lra). congruence.
Qed.

Lemma fl_abs P v : 2 <= P -> (Qabs (fl P v - v) <= p2 (- P) * Qabs v)%Q.
Proof.
  intros HP. destruct (Qlt_le_dec v 0) as [H|H].
  - rewrite fl_opp by auto. pose proof (fl_err P HP (- v) ltac:(lra)) as E. rewrite (Qabs_neg v) by lra.
    setoid_replace (- fl P (- v) - v)%Q with (- (fl P (- v) - - v))%Q by ring. rewrite Qabs_opp. exact E.
  - rewrite (Qabs_pos v) by auto. apply fl_err; auto.
Qed.

(** Rounding returns a number that is much closer than half a unit. *)
Lemma fl_near P mu p v : 2 <= P -> 2 ^ (P - 1) <= mu < 2 ^ P -> (Qabs (v - inject_Z mu * p2 p) < (1 # 4) * p2 p)%Q ->
  (fl P v == inject_Z mu * p2 p)%Q.
Proof.
  intros HP Hmu Hv. pose proof (p2_pos p) as Pp. apply Qabs_Qlt_condition in Hv.
  assert (H2 : 2 <= 2 ^ (P - 1)) by (change 2 with (2 ^ 1) at 1; apply Z.pow_le_mono_r; lia).
  assert (Pow : 2 ^ P = 2 * 2 ^ (P - 1)) by (replace P with (1 + (P - 1)) at 1 by ring; rewrite Z.pow_add_r by lia; reflexivity).
  assert (M2 : (2 <= inject_Z mu)%Q) by (change 2%Q with (inject_Z 2); rewrite <- Zle_Qle; lia).
  assert (MP : (2 * p2 p <= inject_Z mu * p2 p)%Q) by (apply Qmult_le_compat_r; lra).
  assert (V0 : (0 < v)%Q) by lra.
  destruct (fl_pos_core P HP v V0) as (m & e & F1 & F2 & F3 & F4 & F5 & _).
  rewrite (fl_pos_eq P v V0), F1.
  (* e is p or p - 1 *)
  assert (Ele : e <= p).
  { destruct (Z_le_gt_dec e p) as [|C]; auto. exfalso.
    assert (K : (p2 (P - 1) * p2 (p + 1) <= v)%Q).
    { eapply Qle_trans; [|exact F4]. apply Qmult_le_l; [apply p2_pos|]. apply p2_le. lia. }
    rewrite p2_succ, p2_Z in K by lia.
    assert (K2 : (inject_Z mu * p2 p <= (inject_Z (2 ^ P) - 1) * p2 p)%Q).
    { apply Qmult_le_compat_r; [|lra]. setoid_replace (inject_Z (2 ^ P) - 1)%Q with (inject_Z (2 ^ P - 1)).
      - rewrite <- Zle_Qle. lia.
      - replace (2 ^ P - 1) with (2 ^ P + -1) by ring. rewrite inject_Z_plus. reflexivity. }
    rewrite Pow, inject_Z_mult in K2. change (inject_Z 2) with 2%Q in K2. lra. }
  assert (Ege : p - 1 <= e).
  { destruct (Z_le_gt_dec (p - 1) e) as [|C]; auto. exfalso.
    assert (K : (v < p2 P * p2 (p - 2))%Q).
    { eapply Qlt_le_trans; [exact F5|]. apply Qmult_le_l; [apply p2_pos|]. apply p2_le. lia. }
    assert (K3 : (p2 p == 4 * p2 (p - 2))%Q).
    { replace p with (2 + (p - 2)) at 1 by ring. rewrite p2_add. change (p2 2) with 4%Q. reflexivity. }
    rewrite p2_Z in K by lia. rewrite Pow, inject_Z_mult in K. change (inject_Z 2) with 2%Q in K.
    assert (K2 : (inject_Z (2 ^ (P - 1)) * p2 p <= inject_Z mu * p2 p)%Q) by (apply Qmult_le_compat_r; [rewrite <- Zle_Qle; lia|lra]).
    assert (K4 : (2 * p2 (p - 2) <= inject_Z (2 ^ (P - 1)) * p2 (p - 2))%Q).
    { apply Qmult_le_compat_r; [|apply Qlt_le_weak, p2_pos]. change 2%Q with (inject_Z 2). rewrite <- Zle_Qle. lia. }
    rewrite K3 in *. pose proof (p2_pos (p - 2)). lra. }
  rewrite F1 in F3. 
  assert (D : (Qabs (inject_Z m * p2 e - inject_Z mu * p2 p) < (1 # 4) * p2 p + (1 # 2) * p2 e)%Q).
  { apply Qabs_Qle_condition in F3. apply Qabs_Qlt_condition. lra. }
  assert (C : e = p \/ e = p - 1) by lia. destruct C as [-> | ->].
  - assert (m = mu).
    { setoid_replace (inject_Z m * p2 p - inject_Z mu * p2 p)%Q with (inject_Z (m - mu) * p2 p)%Q in D
        by (replace (m - mu) with (m + - mu) by ring; rewrite inject_Z_plus, inject_Z_opp; ring).
      rewrite Qabs_Qmult, (Qabs_pos (p2 p)) in D by lra.
      assert (D1 : (Qabs (inject_Z (m - mu)) * p2 p < 1 * p2 p)%Q) by lra. apply Qmult_lt_r in D1; auto.
      assert (A : (Qabs (inject_Z (m - mu)) == inject_Z (Z.abs (m - mu)))%Q) by (destruct (m - mu); reflexivity).
      rewrite A in D1. change 1%Q with (inject_Z 1) in D1. rewrite <- Zlt_Qlt in D1. lia. }
    rewrite H. reflexivity.
  - pose proof (p2_pos (p - 1)) as P1.
    assert (K3 : (p2 p == 2 * p2 (p - 1))%Q) by (replace p with (p - 1 + 1) at 1 by ring; apply p2_succ).
    assert (m = 2 * mu).
    { rewrite K3 in D.
      setoid_replace (inject_Z m * p2 (p - 1) - inject_Z mu * (2 * p2 (p - 1)))%Q with (inject_Z (m - 2 * mu) * p2 (p - 1))%Q in D
        by (replace (m - 2 * mu) with (m + - (2 * mu)) by ring; rewrite inject_Z_plus, inject_Z_opp, inject_Z_mult; change (inject_Z 2) with 2%Q; ring).
      rewrite Qabs_Qmult, (Qabs_pos (p2 (p - 1))) in D by lra.
      assert (D1 : (Qabs (inject_Z (m - 2 * mu)) * p2 (p - 1) < 1 * p2 (p - 1))%Q) by lra. apply Qmult_lt_r in D1; auto.
      assert (A : (Qabs (inject_Z (m - 2 * mu)) == inject_Z (Z.abs (m - 2 * mu)))%Q) by (destruct (m - 2 * mu); reflexivity).
      rewrite A in D1. change 1%Q with (inject_Z 1) in D1. rewrite <- Zlt_Qlt in D1. lia. }
    rewrite H, K3, inject_Z_mult. change (inject_Z 2) with 2%Q. ring.
Qed.

Lemma rep_le P P' q : P <= P' -> rep P q -> rep P' q.
Proof. intros H (m & e & Hm & E). exists m, e. split; [|auto]. pose proof (Z.pow_le_mono_r 2 P P'). lia. Qed.

(** Numbers within a quarter of a unit stay there under rounding to 64 bits. *)
Lemma fl64_near P mu p v : 24 <= P <= 61 -> 2 ^ (P - 1) <= mu < 2 ^ P -> (Qabs (v - inject_Z mu * p2 p) <= (1 # 8) * p2 p)%Q ->
  (Qabs (fl 64 v - inject_Z mu * p2 p) <= (1 # 8) * p2 p)%Q.
Proof.
  intros HP Hmu Hv. pose proof (p2_pos p) as Pp. apply Qabs_Qle_condition in Hv.
  assert (H2 : 2 <= 2 ^ (P - 1)) by (change 2 with (2 ^ 1) at 1; apply Z.pow_le_mono_r; lia).
  assert (M2 : (2 <= inject_Z mu)%Q) by (change 2%Q with (inject_Z 2); rewrite <- Zle_Qle; lia).
  assert (MP : (2 * p2 p <= inject_Z mu * p2 p)%Q) by (apply Qmult_le_compat_r; lra).
  assert (K8 : (p2 p == 8 * p2 (p - 3))%Q).
  { replace p with (3 + (p - 3)) at 1 by ring. rewrite p2_add. change (p2 3) with 8%Q. reflexivity. }
  assert (M64 : 8 * mu + 1 < 2 ^ 64).
  { assert (2 ^ P <= 2 ^ 61) by (apply Z.pow_le_mono_r; lia). change (2 ^ 61) with 2305843009213693952 in *. change (2 ^ 64) with 18446744073709551616. lia. }
  assert (U : (fl 64 v <= inject_Z mu * p2 p + (1 # 8) * p2 p)%Q).
  { apply fl_le_rep; [lia|lra| |lra]. exists (8 * mu + 1), (p - 3). split; [lia|]. rewrite K8, inject_Z_plus, inject_Z_mult.
    change (inject_Z 8) with 8%Q. change (inject_Z 1) with 1%Q. ring. }
  assert (W : (inject_Z mu * p2 p - (1 # 8) * p2 p <= fl 64 v)%Q).
  { apply fl_ge_rep; [lia| |lra|lra]. exists (8 * mu - 1), (p - 3). split; [lia|]. replace (8 * mu - 1) with (8 * mu + -1) by ring.
    rewrite K8, inject_Z_plus, inject_Z_mult.
    change (inject_Z 8) with 8%Q. change (inject_Z (-1)) with (-(1))%Q. ring. }
  apply Qabs_Qle_condition. lra.
Qed.

Section TF.
Variable c : cfg.
Notation M := (max_exp10_of (c_expo c)).
Notation E := (ebits (c_expo c)).
Hypothesis Hc : cfg_ok c.

Lemma text_close x : normal c x -> text_room c x ->
  exists l, ldbl_text c x = Some (lit_text l) /\ lit_ok l /\ l_int l <> [] /\ (forall u s ds, l_exp l = Some (u, s, ds) -> ds <> []) /\
    (Qabs (lit_value l) <= Qabs (value c x))%Q /\ (Qabs (lit_value l - value c x) <= p10 (-21) * Qabs (value c x))%Q /\
    (lit_value l == (if dneg x then -(1) else 1) * Qabs (lit_value l))%Q.
Proof.
  intros Nx Rx. destruct (ldbl_text_spec c Hc x Nx Rx) as (l & T1 & T2 & T3 & T4 & (es & T5 & T5') & T6 & T7 & T8 & T9 & T10).
  exists l. split; [exact T1|]. split; [exact T2|]. split; [exact T3|].
  split; [intros u s ds K; rewrite T5 in K; injection K; intros; subst; exact T5'|]. split; [exact T6|]. split; [|exact T10].
  assert (A0 : (0 <= Qabs (value c x))%Q) by apply Qabs_nonneg.
  assert (P21 : (0 < p10 (-21))%Q) by apply p10_pos.
  destruct (elems_facts c Hc) as [_ [K|K]].
  - assert (D : (Qabs (lit_value l - value c x) == Qabs (value c x) - Qabs (lit_value l))%Q).
    { rewrite T9, T10 at 1. 
      setoid_replace ((if dneg x then -(1) else 1) * Qabs (lit_value l) - (if dneg x then -(1) else 1) * Qabs (value c x))%Q
        with ((if dneg x then -(1) else 1) * - (Qabs (value c x) - Qabs (lit_value l)))%Q by ring.
      rewrite Qabs_Qmult, Qabs_opp, (Qabs_pos (Qabs (value c x) - Qabs (lit_value l))) by lra.
      destruct (dneg x); [change (Qabs (-(1))) with 1%Q|change (Qabs 1) with 1%Q]; ring. }
    rewrite D. destruct (iszero x) eqn:Zx.
    + pose proof (value_zero c Hc x Nx Zx) as V0. pose proof (Qabs_nonneg (lit_value l)) as L0. rewrite V0 in *. change (Qabs 0) with 0%Q in *. lra.
    + destruct (value_bracket c Hc x Nx Zx) as [B1 _].
      assert (X : (p10 (dexp x - edc c * (ldbl_elems c - 1)) <= p10 (-21) * Qabs (value c x))%Q).
      { rewrite <- Z.add_opp_r, p10_add. rewrite Qmult_comm.
        apply Qmult_le_compat_nonneg; split; try (apply Qlt_le_weak, p10_pos); [|exact B1]. apply p10_le. lia. }
      lra.
  - rewrite (T8 K). setoid_replace (value c x - value c x)%Q with 0%Q by ring. change (Qabs 0) with 0%Q. apply Qmult_le_0_compat; lra.
Qed.

Lemma fmax_rep F : std_float F -> rep (f_bits F) (f_max F).
Proof.
  intros HF. exists (2 ^ f_bits F - 1), ((if f_bits F =? 24 then 128 else if f_bits F =? 53 then 1024 else 16384) - f_bits F). split; [|reflexivity].
  pose proof (Z.pow_pos_nonneg 2 (f_bits F)). destruct HF as [-> | [-> | ->]]; cbn; lia.
Qed.
Lemma fmin_rep F P : 2 <= P -> rep P (f_min F).
Proof.
  intros HP. exists 1, (if f_bits F =? 24 then -126 else if f_bits F =? 53 then -1022 else -16382). split; [|unfold f_min; ring].
  pose proof (Z.pow_le_mono_r 2 2 P). lia.
Qed.
Lemma fmin_le F : std_float F -> (f_min f_long_double <= f_min F)%Q.
Proof. intros [-> | [-> | ->]]; apply p2_le; cbn; lia. Qed.
Lemma fmax_le F : std_float F -> (f_max F <= f_max f_long_double)%Q.
Proof.
  intros HF. assert (K : (f_max F < p2 (if f_bits F =? 24 then 128 else if f_bits F =? 53 then 1024 else 16384))%Q).
  { unfold f_max. set (e := if f_bits F =? 24 then 128 else if f_bits F =? 53 then 1024 else 16384).
    replace e with (f_bits F + (e - f_bits F)) at 2 by ring. rewrite p2_add. apply Qmult_lt_compat_r; [apply p2_pos|].
    rewrite p2_Z by (pose proof (std_bits F HF); lia). rewrite <- Zlt_Qlt. lia. }
  assert (G : (p2 1024 <= f_max f_long_double)%Q).
  { unfold f_max. cbn [f_bits f_long_double Z.eqb Pos.eqb].
    apply Qle_trans with (1 * p2 (16384 - 64))%Q; [rewrite Qmult_1_l; apply p2_le; lia|]. apply Qmult_le_compat_r; [|apply Qlt_le_weak, p2_pos].
    change 1%Q with (inject_Z 1). rewrite <- Zle_Qle. vm_compute. discriminate. }
  destruct HF as [-> | [-> | ->]]; [| |apply Qle_refl]; cbn [f_bits f_float f_double Z.eqb Pos.eqb] in K.
  - assert (T : (p2 128 <= p2 1024)%Q) by (apply p2_le; lia). lra.
  - lra.
Qed.

(** Rounding a signed number keeps it between representable magnitudes. *)
Lemma fl_mag P v lo hi : 2 <= P -> rep P lo -> rep P hi -> (0 < lo)%Q -> (lo <= Qabs v)%Q -> (Qabs v <= hi)%Q ->
  (lo <= Qabs (fl P v))%Q /\ (Qabs (fl P v) <= hi)%Q /\ ((0 < v)%Q -> (0 < fl P v)%Q) /\ ((v < 0)%Q -> (fl P v < 0)%Q).
Proof.
  intros HP Rl Rh L0 H1 H2. destruct (Qlt_le_dec v 0) as [H|H].
  - rewrite (Qabs_neg v) in * by lra.
    assert (A : (lo <= fl P (- v))%Q) by (apply fl_ge_rep; auto; lra).
    assert (Bd : (fl P (- v) <= hi)%Q) by (apply fl_le_rep; auto; lra).
    pose proof (fl_opp P v H) as O. rewrite O. rewrite Qabs_opp, Qabs_pos by lra. repeat split; auto; intros; lra.
  - rewrite (Qabs_pos v) in * by lra.
    assert (A : (lo <= fl P v)%Q) by (apply fl_ge_rep; auto; lra).
    assert (Bd : (fl P v <= hi)%Q) by (apply fl_le_rep; auto; lra).
    rewrite Qabs_pos by lra. repeat split; auto; intros; lra.
Qed.

Theorem to_float_accurate strtold F x : std_float F -> strtold_ok strtold -> normal c x -> text_room c x ->
  (2 * f_min F <= Qabs (value c x))%Q -> (Qabs (value c x) <= f_max F)%Q ->
  exists r, to_float c strtold F x = Some r /\ (f_min F <= Qabs r)%Q /\ (Qabs r <= f_max F)%Q /\
    ((0 < r)%Q <-> dneg x = false) /\
    (Qabs (r - value c x) <= (17 # 16) * p2 (- f_bits F) * Qabs (value c x))%Q.
Proof.
  intros HF Hs Nx Rx Hlo Hhi. destruct (text_close x Nx Rx) as (l & T1 & T2 & T3 & T4 & T5 & T6 & T7).
  pose proof (std_bits F HF) as HBt. set (v := value c x) in *. set (w := lit_value l) in *. set (a := Qabs v) in *.
  assert (P21 : (p10 (-21) <= p2 (-69))%Q) by (vm_compute; discriminate).
  pose proof (std_min F HF) as Hm0. assert (A0 : (0 < a)%Q) by lra.
  assert (D1 : (Qabs (w - v) <= p2 (-69) * a)%Q) by (eapply Qle_trans; [exact T6|]; apply Qmult_le_compat_r; lra).
  assert (P69 : (p2 (-69) <= 1 # 2)%Q) by (vm_compute; discriminate).
  assert (D2 : (p2 (-69) * a <= (1 # 2) * a)%Q) by (apply Qmult_le_compat_r; lra).
  assert (W1 : (f_min F <= Qabs w)%Q).
  { pose proof (Qabs_triangle_reverse v w) as R. rewrite Qabs_Qminus in R. fold a in R. lra. }
  assert (W2 : (Qabs w <= f_max F)%Q) by lra.
  unfold to_float. rewrite T1.
  assert (S : (strtold (lit_text l) == fl 64 w)%Q).
  { apply Hs; auto. right. split; [pose proof (fmin_le F HF); fold w; lra|pose proof (fmax_le F HF); fold w; lra]. }
  set (s := strtold (lit_text l)) in *.
  destruct (fl_mag 64 w (f_min F) (f_max F) ltac:(lia) (fmin_rep F 64 ltac:(lia)) (rep_le (f_bits F) 64 _ (proj2 HBt) (fmax_rep F HF)) Hm0 W1 W2) as (G1 & G2 & G3 & G4).
  rewrite <- S in G1, G2, G3, G4.
  assert (E1 : (Qabs (s - w) <= p2 (-64) * Qabs w)%Q) by (rewrite S; apply fl_abs; lia).
  assert (E1a : (p2 (-64) * Qabs w <= p2 (-64) * a)%Q) by (apply Qmult_le_l; [apply p2_pos|exact T5]).
  assert (SV : (Qabs (s - v) <= (p2 (-64) + p2 (-69)) * a)%Q).
  { setoid_replace (s - v)%Q with ((s - w) + (w - v))%Q by ring. eapply Qle_trans; [apply Qabs_triangle|]. lra. }
  assert (SG : ((0 < s)%Q <-> dneg x = false) /\ ((s < 0)%Q <-> dneg x = true)).
  { destruct (dneg x).
    - assert (w < 0)%Q by lra. specialize (G4 H). split; split; intros; try lra; try discriminate; auto.
    - assert (0 < w)%Q by lra. specialize (G3 H). split; split; intros; try lra; try discriminate; auto. }
  destruct (f_bits F =? 64) eqn:C64.
  - exists s. split; [reflexivity|]. split; [exact G1|]. split; [exact G2|]. split; [apply SG|].
    assert (f_bits F = 64) by lia. rewrite H. change (- (64)) with (-64).
    eapply Qle_trans; [exact SV|]. apply Qmult_le_compat_r; [|lra]. vm_compute. discriminate.
  - set (P := f_bits F) in *.
    destruct (fl_mag P s (f_min F) (f_max F) (proj1 HBt) (fmin_rep F P (proj1 HBt)) (fmax_rep F HF) Hm0 G1 G2) as (I1 & I2 & I3 & I4).
    exists (fl P s). split; [reflexivity|]. split; [exact I1|]. split; [exact I2|]. split.
    { destruct SG as [SG1 SG2]. destruct (dneg x).
      - specialize (I4 (proj2 SG2 eq_refl)). split; intros; [lra|discriminate].
      - specialize (I3 (proj2 SG1 eq_refl)). split; auto. }
    pose proof (fl_abs P s ltac:(lia)) as E2.
    assert (SA : (Qabs s <= (1 + p2 (-64) + p2 (-69)) * a)%Q).
    { pose proof (Qabs_triangle_reverse s v) as R. fold a in R. lra. }
    assert (E3 : (p2 (- P) * Qabs s <= p2 (- P) * ((1 + p2 (-64) + p2 (-69)) * a))%Q) by (apply Qmult_le_l; [apply p2_pos|exact SA]).
    setoid_replace (fl P s - v)%Q with ((fl P s - s) + (s - v))%Q by ring. eapply Qle_trans; [apply Qabs_triangle|].
    eapply Qle_trans; [apply Qplus_le_compat; [eapply Qle_trans; [exact E2|exact E3]|exact SV]|].
    setoid_replace (p2 (- P) * ((1 + p2 (-64) + p2 (-69)) * a) + (p2 (-64) + p2 (-69)) * a)%Q
      with ((p2 (- P) * (1 + p2 (-64) + p2 (-69)) + (p2 (-64) + p2 (-69))) * a)%Q by ring.
    apply Qmult_le_compat_r; [|lra]. unfold P. clear - HF C64. destruct HF as [-> | [-> | ->]]; [| |discriminate C64]; vm_compute; discriminate.
Qed.

Theorem to_float_zero strtold F x : std_float F -> strtold_ok strtold -> normal c x -> text_room c x -> iszero x = true ->
  exists r, to_float c strtold F x = Some r /\ (r == 0)%Q.
Proof.
  intros HF Hs Nx Rx Zx. destruct (text_close x Nx Rx) as (l & T1 & T2 & T3 & T4 & T5 & T6 & T7).
  unfold to_float. rewrite T1. pose proof (value_zero c Hc x Nx Zx) as V0.
  assert (L0 : (lit_value l == 0)%Q).
  { rewrite V0 in T5. change (Qabs 0) with 0%Q in T5. pose proof (Qabs_nonneg (lit_value l)) as K.
    assert (Z : (Qabs (lit_value l) == 0)%Q) by lra. rewrite Z in T7. rewrite T7. ring. }
  assert (S : (strtold (lit_text l) == 0)%Q) by (rewrite (Hs l T2 T3 T4 (or_introl L0)); apply fl_0; auto).
  destruct (f_bits F =? 64); eexists; (split; [reflexivity|]); [exact S|]. apply fl_0. exact S.
Qed.

(** A decimal number this close to a number of the built-in type converts to it. *)
Theorem to_float_near strtold F x q mu p (neg : bool) : std_float F -> strtold_ok strtold -> normal c x -> text_room c x ->
  binary_normal F q mu p -> (2 * f_min f_long_double <= q)%Q -> (2 * q <= f_max f_long_double)%Q ->
  (Qabs (value c x - (if neg then - q else q)) <= 2 * p10 (-21) * q)%Q ->
  exists r, to_float c strtold F x = Some r /\ (r == (if neg then - q else q))%Q.
Proof.
  intros HF Hs Nx Rx HB Hlo Hhi Hv. destruct (text_close x Nx Rx) as (l & T1 & T2 & T3 & T4 & T5 & T6 & T7).
  destruct (binary_pos F q mu p HF HB) as [Hq Hmu]. destruct HB as (H1 & H2 & H3).
  pose proof (std_bits F HF) as HBt. set (v := value c x) in *. set (w := lit_value l) in *.
  set (P := f_bits F) in *. set (qq := (if neg then - q else q)%Q) in *.
  assert (AQ : (Qabs qq == q)%Q) by (unfold qq; destruct neg; [rewrite Qabs_opp|]; apply Qabs_pos; lra).
  assert (P21 : (0 < p10 (-21))%Q) by apply p10_pos.
  assert (P22 : (p10 (-21) <= 1 # 1000)%Q) by (vm_compute; discriminate).
  assert (PQ : (2 * p10 (-21) * q <= (1 # 500) * q)%Q) by (apply Qmult_le_compat_r; lra).
  assert (AV : (Qabs v <= (501 # 500) * q)%Q) by (pose proof (Qabs_triangle_reverse v qq) as R; lra).
  assert (D0 : (p10 (-21) * Qabs v <= p10 (-21) * ((501 # 500) * q))%Q) by (apply Qmult_le_l; auto).
  assert (D1 : (Qabs (w - qq) <= 4 * p10 (-21) * q)%Q).
  { setoid_replace (w - qq)%Q with ((w - v) + (v - qq))%Q by ring. eapply Qle_trans; [apply Qabs_triangle|].
    assert (0 <= p10 (-21) * q)%Q by (apply Qmult_le_0_compat; lra). lra. }
  assert (PP : (4 * p10 (-21) * q < (1 # 8) * p2 p)%Q).
  { rewrite H2. setoid_replace (4 * p10 (-21) * (inject_Z mu * p2 p))%Q with (4 * p10 (-21) * inject_Z mu * p2 p)%Q by ring.
    apply Qmult_lt_compat_r; [apply p2_pos|]. eapply Qle_lt_trans; [apply Qmult_le_l; [lra|]; rewrite <- Zle_Qle; apply Z.lt_le_incl, Hmu|].
    vm_compute. reflexivity. }
  assert (WR : (f_min f_long_double <= Qabs w)%Q /\ (Qabs w <= f_max f_long_double)%Q).
  { assert (R1 : (Qabs qq - Qabs w <= Qabs (w - qq))%Q) by (rewrite Qabs_Qminus; apply Qabs_triangle_reverse).
    pose proof (Qabs_triangle_reverse w qq) as R2.
    assert (4 * p10 (-21) * q <= (1 # 250) * q)%Q by (apply Qmult_le_compat_r; lra). lra. }
  unfold to_float. rewrite T1. fold P.
  assert (S : (strtold (lit_text l) == fl 64 w)%Q) by (apply Hs; auto).
  set (s := strtold (lit_text l)) in *.
  (* reduce to positive numbers *)
  assert (sgn_red : forall Q0 u, 2 <= Q0 -> (Qabs (u - qq) < (1 # 2) * q)%Q ->
     exists u', (0 < u')%Q /\ (fl Q0 u == if neg then - fl Q0 u' else fl Q0 u')%Q /\ (Qabs (u' - q) == Qabs (u - qq))%Q).
  { intros Q0 u HQ0 Hu. unfold qq in *. apply Qabs_Qlt_condition in Hu. destruct neg.
    - exists (- u)%Q. split; [lra|]. split; [apply fl_opp; lra|]. rewrite <- Qabs_opp. apply Qabs_wd. ring.
    - exists u. split; [lra|]. split; reflexivity. }
  assert (Q8 : ((1 # 8) * p2 p <= (1 # 4) * q)%Q).
  { rewrite H2. assert (1 <= inject_Z mu)%Q by (change 1%Q with (inject_Z 1); rewrite <- Zle_Qle; lia).
    assert (1 * p2 p <= inject_Z mu * p2 p)%Q by (apply Qmult_le_compat_r; [auto|apply Qlt_le_weak, p2_pos]). pose proof (p2_pos p). lra. }
  destruct (sgn_red 64 w) as (w' & W0 & W1 & W2); [lia|lra|].
  destruct (P =? 64) eqn:C64.
  - exists s. split; [reflexivity|]. rewrite S, W1.
    assert (N : (fl 64 w' == inject_Z mu * p2 p)%Q).
    { apply (fl_near 64); [lia|replace 64 with P by lia; exact H1|]. rewrite <- H2, W2. pose proof (p2_pos p). lra. }
    unfold qq. destruct neg; rewrite N, <- H2; reflexivity.
  - assert (HP : 24 <= P <= 61).
    { unfold P. clear - HF C64. destruct HF as [-> | [-> | ->]]; cbn in *; [lia|lia|discriminate]. }
    pose proof (fl64_near P mu p w' HP H1) as N. rewrite <- H2 in N. specialize (N ltac:(rewrite W2; lra)).
    assert (SQ : (Qabs (s - qq) <= (1 # 8) * p2 p)%Q).
    { rewrite S, W1. unfold qq. destruct neg; [|exact N].
      setoid_replace (- fl 64 w' - - q)%Q with (- (fl 64 w' - q))%Q by ring. rewrite Qabs_opp. exact N. }
    destruct (sgn_red P s) as (s' & S0 & S1 & S2); [lia|lra|].
    exists (fl P s). split; [reflexivity|]. rewrite S1.
    assert (N2 : (fl P s' == inject_Z mu * p2 p)%Q).
    { apply fl_near; [lia|exact H1|]. rewrite <- H2, S2. pose proof (p2_pos p). lra. }
    unfold qq. destruct neg; rewrite N2, <- H2; reflexivity.
Qed.

(** Numbers in this range leave room for their text. *)
Lemma room_range x : normal c x -> iszero x = false ->
  (p10 (edc c - 10 ^ (exp_width c - 1)) <= Qabs (value c x))%Q -> (Qabs (value c x) < p10 (10 ^ (exp_width c - 1)))%Q -> text_room c x.
Proof.
  intros Nx Zx H1 H2. destruct (value_bracket c Hc x Nx Zx) as [B1 B2].
  assert (X1 : (p10 (edc c - 10 ^ (exp_width c - 1)) < p10 (dexp x + edc c))%Q) by (eapply Qle_lt_trans; [exact H1|exact B2]).
  assert (X2 : (p10 (dexp x) < p10 (10 ^ (exp_width c - 1)))%Q) by (eapply Qle_lt_trans; [exact B1|exact H2]).
  apply (proj1 (p10_lt _ _)) in X1. apply (proj1 (p10_lt _ _)) in X2.
  assert (A : Z.abs (dexp x) < 10 ^ (exp_width c - 1)) by lia.
  assert (A1 : 10 ^ (exp_width c - 1) <= 2 ^ (E - 1) /\ 10 ^ (exp_width c - 1) <= 10 ^ exp_width c).
  { clear. unfold exp_width. destruct (c_expo c); split; vm_compute; discriminate. }
  split; [lia|]. split; [lia|]. right. exact A.
Qed.
End TF.
