(** Exp4_proofs.v - exp as a whole, in rationals. *)
From Verif Require Export Exp3_proofs.
From Verif Require Import Frexp_proofs ToInt_proofs Floor_proofs Mul_proofs Value_proofs.
From Coq Require Import Lqa.
Local Open Scope Z_scope.
Notation near := Exp_proofs.near.

Lemma Qpow_mono (p : positive) (a b : Q) : (0 <= a -> a <= b -> 0 <= Qpower_positive a p /\ Qpower_positive a p <= Qpower_positive b p)%Q.
Proof.
  intros H0 H1. induction p as [p IH|p IH|].
  - destruct IH as [I0 I1]. change (Qpower_positive ?x p~1) with (x * (Qpower_positive x p * Qpower_positive x p))%Q.
    set (s := Qpower_positive a p) in *. set (t := Qpower_positive b p) in *. split.
    + apply Qmult_le_0_compat; [auto|]. apply Qmult_le_0_compat; auto.
    + apply Qmult_le_compat_nonneg; split; auto; [apply Qmult_le_0_compat; auto|]. apply Qmult_le_compat_nonneg; split; auto.
  - destruct IH as [I0 I1]. change (Qpower_positive ?x p~0) with (Qpower_positive x p * Qpower_positive x p)%Q.
    set (s := Qpower_positive a p) in *. set (t := Qpower_positive b p) in *. split; [apply Qmult_le_0_compat; auto|]. apply Qmult_le_compat_nonneg; split; auto.
  - split; auto.
Qed.

Lemma pow2048 (h : Q) : (999 # 1000 <= h -> h <= 1001 # 1000 -> 1 # 10 <= h ^ 2048 /\ h ^ 2048 <= 10)%Q.
Proof.
  intros H1 H2. assert (E : (h ^ 2048 == ((h ^ 8) ^ 16) ^ 16)%Q) by (rewrite <- !Qpower_mult; reflexivity).
  assert (A : forall (p : positive) a b k, (0 <= a -> a <= b -> k <= Qpower_positive a p -> k <= b ^ Zpos p)%Q).
  { intros p a b k Ha Hab Hk. destruct (Qpow_mono p a b Ha Hab) as [_ X]. eapply Qle_trans; [exact Hk|exact X]. }
  assert (B : forall (p : positive) a b k, (0 <= a -> a <= b -> Qpower_positive b p <= k -> a ^ Zpos p <= k)%Q).
  { intros p a b k Ha Hab Hk. destruct (Qpow_mono p a b Ha Hab) as [_ X]. eapply Qle_trans; [exact X|exact Hk]. }
  assert (L1 : (992 # 1000 <= h ^ 8)%Q) by (apply (A 8%positive (999 # 1000)); [lra|lra|apply Qle_bool_imp_le; vm_compute; reflexivity]).
  assert (U1 : (h ^ 8 <= 10081 # 10000)%Q) by (apply (B 8%positive _ (1001 # 1000)); [lra|lra|apply Qle_bool_imp_le; vm_compute; reflexivity]).
  set (g := (h ^ 8)%Q) in *. clearbody g.
  assert (L2 : (879 # 1000 <= g ^ 16)%Q) by (apply (A 16%positive (992 # 1000)); [lra|lra|apply Qle_bool_imp_le; vm_compute; reflexivity]).
  assert (U2 : (g ^ 16 <= 1138 # 1000)%Q) by (apply (B 16%positive _ (10081 # 10000)); [lra|lra|apply Qle_bool_imp_le; vm_compute; reflexivity]).
  set (f := (g ^ 16)%Q) in *. clearbody f. set (h' := (h ^ 2048)%Q) in *. clearbody h'.
  assert (L3 : (1 # 10 <= f ^ 16)%Q) by (apply (A 16%positive (879 # 1000)); [lra|lra|apply Qle_bool_imp_le; vm_compute; reflexivity]).
  assert (U3 : (f ^ 16 <= 10)%Q) by (apply (B 16%positive _ (1138 # 1000)); [lra|lra|apply Qle_bool_imp_le; vm_compute; reflexivity]).
  split; lra.
Qed.

Lemma p2_under u : 0 <= u -> (p2 u <= p10 (28 * (u / 93 + 1)))%Q.
Proof.
  intros Hu. pose proof (Z.div_mod u 93 ltac:(lia)) as E1. pose proof (Z.mod_pos_bound u 93 ltac:(lia)) as E2.
  assert (Hq : 0 <= u / 93) by (apply Z.div_pos; lia).
  assert (A : (p2 u == inject_Z (2 ^ u))%Q) by (rewrite p2_Z by lia; reflexivity). rewrite A. rewrite p10_Z by lia. rewrite <- Zle_Qle. rewrite E1 at 1. rewrite Z.pow_add_r, Z.pow_mul_r by lia.
  replace (28 * (u / 93 + 1)) with (28 * (u / 93) + 28) by ring. rewrite Z.pow_add_r, Z.pow_mul_r by lia.
  apply Z.mul_le_mono_nonneg; try (apply Z.pow_nonneg; lia).
  - apply Z.pow_le_mono_l. split; [apply Z.pow_nonneg; lia|]. vm_compute. discriminate.
  - apply Z.le_trans with (2 ^ 93); [apply Z.pow_le_mono_r; lia|]. vm_compute. discriminate.
Qed.

Lemma qsum_near X m : (Qabs X <= 1 # 2800 -> Qabs (qsum X m - 1) <= (2 - p10 (- Z.of_nat m)) * Qabs X)%Q.
Proof.
  intros H. induction m.
  - cbn [qsum]. change (Qabs (1 - 1)) with 0%Q. change (p10 (- Z.of_nat 0)) with 1%Q. pose proof (Qabs_nonneg X). lra.
  - cbn [qsum]. setoid_replace (qsum X m + qterm X (S m) - 1)%Q with ((qsum X m - 1) + qterm X (S m))%Q by ring.
    eapply Qle_trans; [apply Qabs_triangle|]. pose proof (qterm_shrink X m) as T. pose proof (qterm_bound X m ltac:(lra)) as B.
    pose proof (Qabs_nonneg X) as X0. pose proof (p10_pos (- Z.of_nat m)) as P0.
    replace (- Z.of_nat (S m)) with (- Z.of_nat m + -1) by lia. rewrite p10_add. change (p10 (-1)) with (1 # 10)%Q.
    assert (Bm : (Qabs (qterm X m) <= (9 # 10) * p10 (- Z.of_nat m) \/ m = 0%nat)%Q).
    { destruct m; [right; reflexivity|left]. eapply Qle_trans; [exact B|]. replace (- (3 * Z.of_nat (S m))) with (- Z.of_nat (S m) + - (2 * Z.of_nat (S m))) by lia. rewrite p10_add.
      assert (p10 (- (2 * Z.of_nat (S m))) <= p10 (-1))%Q by (apply p10_le; lia). change (p10 (-1)) with (1 # 10)%Q in H0.
      rewrite (Qmult_comm (9 # 10)). rewrite !(Qmult_comm (p10 (- Z.of_nat (S m)))). apply Qmult_le_compat_r; lra. }
    destruct Bm as [Bm| ->].
    + assert (Qabs (qterm X m) * Qabs X <= (9 # 10) * p10 (- Z.of_nat m) * Qabs X)%Q by (apply Qmult_le_compat_r; lra). lra.
    + change (p10 (- Z.of_nat 0)) with 1%Q in *. cbn [qterm] in T. change (Qabs 1) with 1%Q in T. cbn [qsum]. change (Qabs (1 - 1)) with 0%Q.
      change (qterm X 1) with (1 * X / inject_Z (Z.of_nat 1))%Q. change (inject_Z (Z.of_nat 1)) with 1%Q. setoid_replace (1 * X / 1)%Q with X by field. lra.
Qed.

Section ALL.
Variable c : cfg.
Variable F : ftype.
Variable W : Z.
Notation L := (c_limb c).
Notation n := (nel c).
Notation M := (max_exp10_of (c_expo c)).
Notation E := (ebits (c_expo c)).
Notation D := (c_digits10 c).
Notation eps := (p10 (- (c_digits10 c + 2 * edc c))).
Notation dl := (p10 (- c_digits10 c)).
Notation ste := ((3 # 10000) * dl)%Q.
Hypothesis Hc : cfg_ok c.
Hypothesis Hk : newton_ok c.
Hypothesis HF : float_fits c F.
Hypothesis HJ : (digit_loops c F <= n)%nat.
Hypothesis HD : 16 <= D <= 2000.
Hypothesis HW : edc c * elem_number c <= W.
Hypothesis HM : 6 * W + 300 <= M.
Variable ln2 : dec.
Hypothesis Nl : normal c ln2.
Notation l2 := (value c ln2).
Hypothesis L2 : (69 # 100 <= l2 /\ l2 <= 7 # 10)%Q.

(** Scaling by a non-negative power of two gives a number in normal form. *)
Lemma ldexp_up mem v e : memory_ok mem -> normal c v -> iszero v = false -> 0 <= e <= 1460000000 -> (1 # 20 <= value c v <= 20)%Q ->
  (p2 e <= p10 (M - 100))%Q ->
  exists z, ldexp c F mem v e = Some z /\ normal c z /\ near (2 * dl + inject_Z (5 * e) * eps) (value c z) (value c v * p2 e).
Proof.
  intros Hmem Nv Zv He Bv Pe. destruct (dl_tiny c Hc HD) as (D0 & D1 & E0 & E1). destruct (W_big c W Hc HD HW HM) as (W1 & W2 & W3 & W4).
  pose proof (edc_pos c) as Hed. destruct (big_enough c Hc ltac:(lia)) as [BE _].
  assert (H63 : 2 ^ 63 < 10 ^ (edc c * elem_number c)).
  { eapply Z.lt_le_trans; [|exact BE]. reflexivity. }
  assert (Av : (Qabs (value c v) == value c v)%Q) by (apply Qabs_pos; lra).
  assert (Uv : dexp v <= 2). { apply (exp_le_of_value c Hc v 2 Nv Zv). change (p10 2) with 100%Q. lra. }
  assert (Lv : -2 - edc c < dexp v). { apply (exp_gt_of_value c Hc v (-2) Nv Zv). change (p10 (-2)) with (1 # 100)%Q. lra. }
  assert (He4 : (inject_Z (4 * Z.abs e) * eps <= 1)%Q).
  { rewrite Z.abs_eq by lia. assert (inject_Z (4 * e) <= 6000000000)%Q by (change 6000000000%Q with (inject_Z 6000000000); rewrite <- Zle_Qle; lia).
    apply Qle_trans with (6000000000 * (1 # 100000000000000000000))%Q; [|lra]. apply Qmult_le_compat_nonneg; split; try lra. apply Zq; lia. }
  assert (P1 : (1 <= p2 e)%Q) by (apply p2_ge1; lia).
  assert (VE : (Qabs (value c v * p2 e) == value c v * p2 e)%Q) by (apply Qabs_pos; apply Qmult_le_0_compat; lra).
  assert (Vl : (1 # 20 <= value c v * p2 e)%Q).
  { apply Qle_trans with (value c v * 1)%Q; [lra|]. rewrite !(Qmult_comm (value c v)). apply Qmult_le_compat_r; lra. }
  assert (Vu : (value c v * p2 e <= 20 * p10 (M - 100))%Q) by (apply Qmult_le_compat_nonneg; split; lra).
  destruct (ldexp_accurate c Hc Hk F mem v e HF HJ Hmem H63 Nv Zv) as (z & Z1 & Az).
  { change (2 ^ 31) with 2147483648. lia. } { exact He4. } { lia. }
  { rewrite Z.abs_eq by lia. eapply Qle_trans; [exact Pe|]. apply p10_le. lia. }
  { rewrite VE. apply Qle_trans with (p10 (-2)); [apply p10_le; lia|]. change (p10 (-2)) with (1 # 100)%Q. lra. }
  { rewrite VE. apply Qle_trans with (p10 (2 + (M - 100))); [|apply p10_le; lia]. rewrite p10_add. change (p10 2) with 100%Q. pose proof (p10_pos (M - 100)). lra. }
  exists z. split; [exact Z1|]. split.
  - revert Z1. unfold ldexp. destruct (e =? 0) eqn:C0; [intros [= <-]; exact Nv|].
    replace (e <=? -64) with false by lia. destruct (e >=? 64) eqn:C1.
    + destruct (pow_two c F Hc Hk HJ (later mem 1) e) as (h & G1 & G2 & _).
      { apply later_ok; auto. } { change (2 ^ 63) with 9223372036854775808. lia. } { rewrite Z.abs_eq in He4 by lia. exact He4. }
      { eapply Qle_trans; [exact Pe|]. apply p10_le. lia. }
      unfold pow_int. replace (e <? 0) with false by lia. rewrite G1. cbn beta iota. unfold mulm. intros K.
      assert (Dx : dprec (if iszero v || iszero h then zero c else v) = n) by (destruct (iszero v || iszero h); [apply zero_normal|apply Nv]).
      assert (Dh : dprec h = n) by apply G2. rewrite Dx, Dh, Nat.min_id in K.
      destruct (mul_normal c Hc (newton_mul_ok c Hc Hk) _ _ v h (memory_pool c Hc mem 0 Hmem) Nv G2) as (z' & Z2 & Z3). rewrite Z2 in K. injection K as <-. exact Z3.
    + replace (e <? 0) with false by lia. cbv zeta. intros K. assert (Dv : dprec v = n) by apply Nv. rewrite Dv in K.
      assert (SH : 1 <= Z.shiftl 1 e < 2 ^ 64 /\ Z.shiftl 1 e < 10 ^ (edc c * elem_number c)).
      { rewrite Z.shiftl_mul_pow2, Z.mul_1_l by lia. pose proof (Z.pow_pos_nonneg 2 e ltac:(lia) ltac:(lia)). assert (2 ^ e <= 2 ^ 63) by (apply Z.pow_le_mono_r; lia).
        change (2 ^ 64) with (2 * 2 ^ 63). lia. }
      destruct (order_spec (Z.shiftl 1 e) ltac:(lia)) as [O1 _].
      destruct (mul_ull_rel c Hc Hk (fst (mem 0%nat n)) (snd (mem 0%nat n)) v (Z.shiftl 1 e)) as (z' & Z2 & Z3 & _); auto; try lia.
      { apply (memory_pool c Hc); auto. }
      rewrite Z2 in K. injection K as <-. exact Z3.
  - unfold near. eapply Qle_trans; [exact Az|]. apply Qmult_le_compat_r; [|apply Qabs_nonneg]. rewrite Z.abs_eq by lia. lra.
Qed.

(** The positive branch up to the final reciprocal. *)
Definition exp_body (mems : memories) (x xx : dec) : option dec :=
    do q <- divide c F (mems (-1)) xx ln2;
    do u <- to_ull c q;
    let nf := ucast 32 u in
    let m := mems (-2) 0%nat (dprec ln2) in
    do nl <- mul_ull c (fst m) (snd m) ln2 nf;
    do d <- div_unsigned c F (mems (-3)) (sub c xx nl) 2048;
    let xh := precision c d (get_precision c x) in
    let h0 := precision c (add c (one c) xh) (get_precision c x) in
    do goal <- exp_goal c x;
    do h <- exp_loop c F (Z.to_nat 99998) mems 2 goal xh xh h0;
    do r <- pow_int c F (mems (-4)) h 2048;
    (if negb (nf =? 0) then ldexp c F (mems (-5)) r (scast 32 nf) else Some r).

Lemma exp_body_spec mems x xx : (forall j, memory_ok (mems j)) -> normal c x -> normal c xx ->
  (0 < value c xx)%Q -> (value c xx <= 1000000000)%Q -> (value c xx <= inject_Z (2 * (M - 100)))%Q -> (p10 (- W) <= value c xx)%Q ->
  exists u (X H R : Q) m r2, exp_body mems x xx = Some r2 /\ normal c r2 /\ 0 <= u <= 1460000000 /\
    (Qabs (2048 * X - (value c xx - inject_Z u * l2)) <= ((15 # 10) + (1 # 1000) * value c xx) * dl)%Q /\
    (inject_Z u * l2 <= value c xx + (1 # 10000000))%Q /\
    (Qabs X <= 1 # 2800)%Q /\ 3 * Z.of_nat m <= D /\ (Qabs (H - qsum X m) <= inject_Z (Z.of_nat m) * ste)%Q /\ (Qabs (qterm X (S m)) <= (1001 # 100) * dl)%Q /\
    near ((41 # 100) * dl) R (H ^ 2048) /\ near (2 * dl + inject_Z (5 * u) * eps) (value c r2) (R * p2 u) /\ (1 # 20 <= R <= 20)%Q /\ (p2 u <= p10 (M - 100))%Q.
Proof.
  intros Hmem Nx Nxx X0 X1 XM X2. destruct (reduce_spec c F W Hc Hk HF HJ HD HW HM ln2 Nl L2 (mems (-1)) (mems (-2)) (mems (-3)) xx (Hmem _) (Hmem _) (Hmem _) Nxx X0 X1 X2)
    as (q & u & nl & d & Q1 & Q2 & U1 & N1 & Y1 & Nd & U2 & AX & Xd).
  destruct (dl_tiny c Hc HD) as (D0 & D1 & E0 & E1). destruct (W_big c W Hc HD HW HM) as (W1 & W2 & W3 & W4). pose proof (edc_pos c) as Hed.
  pose proof (goal_value c F W Hc HJ HD HW HM x Nx) as G.
  assert (C32 : ucast 32 u = u) by (unfold ucast; apply Z.mod_small; change (2 ^ 32) with 4294967296; lia).
  assert (S32 : scast 32 u = u) by (apply scast_id; [lia|]; change (2 ^ (32 - 1)) with 2147483648; lia).
  pose proof (one_normal c Hc) as N1'. assert (V1 : (value c (one c) == 1)%Q) by apply (Floor_proofs.one_value c Hc).
  assert (Z1 : iszero (one c) = false) by (apply (pos_facts c Hc (one c) N1'); lra).
  assert (LOOP : exists h m, exp_loop c F (Z.to_nat 99998) mems 2 (D - 1) d d (precision c (add c (one c) d) (get_precision c x)) = Some h /\ normal c h /\
    3 * Z.of_nat m <= D /\ (Qabs (value c h - qsum (value c d) m) <= inject_Z (Z.of_nat m) * ste)%Q /\ (Qabs (qterm (value c d) (S m)) <= (1001 # 100) * dl)%Q).
  { pose proof (add_normal c Hc (one c) d N1' Nd) as Na. rewrite (precision_id c F Hc HJ _ x Na Nx). destruct Xd as [->|[Xl Xu]].
    - exists (one c), 0%nat. pose proof (zero_normal c) as Nz. pose proof (zero_iszero c Hc) as Zz.
      rewrite (add_zero_r c (one c) (zero c) N1' Nz Zz Z1).
      split; [apply (exp_loop_zero c F Hc Hk HJ HD mems Hmem); auto; lia|]. split; [exact N1'|]. split; [lia|].
      pose proof (value_zero c Hc _ Nz Zz) as V0. split.
      + cbn [qsum]. rewrite V1. change (Qabs (1 - 1)) with 0%Q. change (inject_Z (Z.of_nat 0)) with 0%Q. lra.
      + change (qterm (value c (zero c)) 1) with (1 * value c (zero c) / 1)%Q. assert (Q0 : (1 * value c (zero c) / 1 == 0)%Q) by (rewrite V0; field). rewrite Q0. change (Qabs 0) with 0%Q. lra.
    - assert (Zd : iszero d = false).
      { destruct (iszero d) eqn:K; [|reflexivity]. exfalso. rewrite (value_zero c Hc d Nd K) in Xl. change (Qabs 0) with 0%Q in Xl. pose proof (p10_pos (- (W + 4))). lra. }
      assert (Ud : dexp d <= 0). { apply (exp_le_of_value c Hc d 0 Nd Zd). change (p10 0) with 1%Q. lra. }
      assert (Q1' : (qterm (value c d) 1 == value c d)%Q) by (cbn [qterm]; change (inject_Z (Z.of_nat 1)) with 1%Q; field).
      destruct (exp_loop_spec c F W Hc Hk HF HJ HD HW HM d Nd ltac:(lra) Xl mems Hmem (Z.to_nat 99998) 1 d (add c (one c) d)) as (h & m & T1 & T2 & T3 & T4 & T5); auto; try lia.
      + change (inject_Z (3 * (Z.of_nat 1 - 1))) with 0%Q. apply Exp_proofs.near_compat with (value c d) (value c d); [reflexivity|symmetry; exact Q1'|]. apply Exp_proofs.near_refl. lra.
      + intros _. rewrite Q1'. eapply Qle_trans; [|exact Xl]. apply p10_le. lia.
      + change (inject_Z (Z.of_nat 1)) with 1%Q. assert (QS : (qsum (value c d) 1 == 1 + value c d)%Q) by (cbn [qsum]; rewrite Q1'; reflexivity). rewrite QS.
        assert (Sf : exp_safe c (Z.max (dexp (one c)) (dexp d))).
        { pose proof (exp_gt_of_value c Hc (one c) 0 N1' Z1 ltac:(rewrite V1; apply Qle_refl)) as G1. pose proof (exp_le_of_value c Hc (one c) 0 N1' Z1 ltac:(rewrite V1; apply Qle_refl)) as G2.
          apply (safe_of c W4); clear - G1 G2 Ud Hed HM W3; lia. }
        pose proof (add_abs c Hc (one c) d N1' Nd (fun _ _ => Sf)) as AA. rewrite V1 in AA. change (Qabs 1) with 1%Q in AA.
        assert (T : (eps * (1 + Qabs (value c d)) <= (1 # 10000) * dl * 2)%Q) by (apply Qmult_le_compat_nonneg; split; try lra; pose proof (Qabs_nonneg (value c d)); lra).
        lra.
      + exists h, m. auto. }
  destruct LOOP as (h & m & T1 & Nh & T3 & T4 & T5).
  assert (Xu : (Qabs (value c d) <= 1 # 2800)%Q).
  { destruct Xd as [->|[_ Xu]]; [|exact Xu]. rewrite (value_zero c Hc _ (zero_normal c) (zero_iszero c Hc)). change (Qabs 0) with 0%Q. lra. }
  (* h is close to one *)
  assert (HH : (999 # 1000 <= value c h /\ value c h <= 1001 # 1000)%Q).
  { pose proof (qsum_near (value c d) m Xu) as QN. pose proof (p10_pos (- Z.of_nat m)) as P0. pose proof (Qabs_nonneg (value c d)) as A0.
    assert (M1 : (inject_Z (Z.of_nat m) * ste <= 667 * ste)%Q).
    { apply Qmult_le_compat_r; [|lra]. change 667%Q with (inject_Z 667). rewrite <- Zle_Qle. lia. }
    assert (QN2 : (Qabs (qsum (value c d) m - 1) <= 2 * Qabs (value c d))%Q).
    { eapply Qle_trans; [exact QN|]. apply Qmult_le_compat_r; lra. }
    apply Qabs_Qle_condition in T4. apply Qabs_Qle_condition in QN2. lra. }
  destruct HH as [H1 H2]. destruct (pow2048 _ H1 H2) as [P1 P2].
  assert (Ph : (0 < value c h)%Q) by lra. destruct (pos_facts c Hc h Nh Ph) as [Zh Sh].
  assert (AP : (Qabs (value c h ^ 2048) == value c h ^ 2048)%Q) by (apply Qabs_pos; lra).
  destruct (pow_pos_accurate c F (mems (-4)) h 2048 Hc Hk (Hmem _) Nh Zh) as (r & R1 & Nr & Ar).
  { change (2 ^ 63) with 9223372036854775808. lia. } { change (inject_Z (4 * 2048)) with 8192%Q. lra. }
  { rewrite AP. eapply Qle_trans; [|exact P1]. change (1 # 10)%Q with (p10 (-1)). apply p10_le. lia. }
  { rewrite AP. eapply Qle_trans; [exact P2|]. change 10%Q with (p10 1). apply p10_le. lia. }
  change (inject_Z (2 * (2048 - 1))) with 4094%Q in Ar.
  assert (Ar' : near ((41 # 100) * dl) (value c r) (value c h ^ 2048)).
  { eapply Exp_proofs.near_le; [|exact Ar]. lra. }
  assert (Br : (1 # 20 <= value c r <= 20)%Q).
  { unfold near in Ar'. rewrite AP in Ar'. apply Qabs_Qle_condition in Ar'. clear - Ar' P1 P2 D0 D1. set (P := (value c h ^ 2048)%Q) in *. clearbody P. set (v := value c r) in *. clearbody v.
    assert (K : ((41 # 100) * dl * P <= (1 # 1000) * 10)%Q) by (apply Qmult_le_compat_nonneg; split; lra). lra. }
  assert (Pr : (0 < value c r)%Q) by lra. destruct (pos_facts c Hc r Nr Pr) as [Zr Sr].
  assert (PU : (p2 u <= p10 (M - 100))%Q).
  { eapply Qle_trans; [apply p2_under; lia|]. apply p10_le.
    assert (K : (inject_Z u * (69 # 100) <= inject_Z (2 * (M - 100)) + 1)%Q).
    { apply Qle_trans with (inject_Z u * l2)%Q; [|lra]. rewrite !(Qmult_comm (inject_Z u)). apply Qmult_le_compat_r; [lra|apply Zq; lia]. }
    assert (K2 : 69 * u <= 200 * (M - 100) + 100).
    { rewrite Zle_Qle, inject_Z_plus, !inject_Z_mult. rewrite inject_Z_mult in K. change (inject_Z 69) with 69%Q. change (inject_Z 200) with 200%Q. change (inject_Z 100) with 100%Q. change (inject_Z 2) with 2%Q in K. lra. }
    clear - K2 HM W3 U1. pose proof (Z.div_mod u 93 ltac:(lia)). pose proof (Z.mod_pos_bound u 93 ltac:(lia)). lia. }
  assert (Y5 : exists r2, (if negb (u =? 0) then ldexp c F (mems (-5)) r (scast 32 u) else Some r) = Some r2 /\ normal c r2 /\
     near (2 * dl + inject_Z (5 * u) * eps) (value c r2) (value c r * p2 u)).
  { destruct (Z.eq_dec u 0) as [E0'|E0'].
    - subst u. exists r. split; [reflexivity|]. split; [exact Nr|]. apply Exp_proofs.near_compat with (value c r) (value c r); [reflexivity|change (p2 0) with 1%Q; ring|].
      apply Exp_proofs.near_refl. change (inject_Z (5 * 0)) with 0%Q. lra.
    - replace (u =? 0) with false by lia. cbn [negb]. rewrite S32. apply ldexp_up; auto. }
  destruct Y5 as (r2 & Y5 & N2 & A2).
  exists u, (value c d), (value c h), (value c r), m, r2.
  split.
  { unfold exp_body. rewrite Q1, Q2. cbv zeta. rewrite C32, N1, Y1. rewrite (precision_id c F Hc HJ d x Nd Nx), G, T1, R1. exact Y5. }
  split; [exact N2|]. split; [exact U1|]. split; [exact AX|]. split; [exact U2|]. split; [exact Xu|]. split; [exact T3|]. split; [exact T4|]. split; [exact T5|].
  split; [exact Ar'|]. split; [exact A2|]. split; [exact Br|exact PU].
Qed.
End ALL.
