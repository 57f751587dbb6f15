(** Frexp3_proofs.v - frexp: accuracy; a refutation and a case. *)
From Verif Require Export Frexp2_proofs Fmod2_proofs.
From Coq Require Import Lqa.
Local Open Scope Z_scope.

Lemma p2_le_p10 k : 0 <= k -> (p2 k <= p10 k)%Q.
Proof. intros. rewrite p2_Z, p10_Z by auto. rewrite <- Zle_Qle. apply Z.pow_le_mono_l. lia. Qed.

(** The scaled number lies near one. *)
Lemma scaled_range k t a : 3322 * Z.abs k <= 1000 * (Z.abs t + 1) -> 10000 * Z.abs t <= 33223 * Z.abs k ->
  (0 <= k -> 0 <= t) -> (k <= 0 -> t <= 0) -> (p10 k <= a)%Q -> (a < p10 (k + 1))%Q ->
  (1 <= a * p2 (- t) * p2 (Z.abs k / 2500 + 1))%Q /\ (a * p2 (- t) < 20 * p2 (Z.abs k / 2500 + 1))%Q.
Proof.
  intros H1 H2 H3 H4 A1 A2. pose proof (Z.abs_nonneg k) as Bk. pose proof (Z.abs_nonneg t) as Bt.
  destruct (ten_two (Z.abs k) (Z.abs t) Bk Bt H1 H2) as [T1 T2].
  set (K := Z.abs k / 2500 + 1) in *. assert (K0 : 1 <= K) by (unfold K; pose proof (Z.div_pos (Z.abs k) 2500); lia). clearbody K.
  rewrite Zle_Qle in T1, T2. rewrite <- p2_Z, <- p10_Z in T1 by lia. rewrite inject_Z_mult, <- !p2_Z, <- p10_Z in T2 by lia. rewrite p2_succ in T1.
  rewrite p10_add in A2. change (p10 1) with 10%Q in A2.
  pose proof (p2_pos K) as PK. pose proof (p10_pos (Z.abs k)) as PT. pose proof (p2_le 1 K K0) as PK1. change (p2 1) with 2%Q in PK1. pose proof (p2_pos (Z.abs t)) as PA.
  destruct (Z.lt_ge_cases k 0) as [Kn|Kp].
  - specialize (H4 ltac:(lia)). replace (- t) with (Z.abs t) by lia.
    assert (I : (p10 k * p10 (Z.abs k) == 1)%Q) by (rewrite <- p10_add; replace (k + Z.abs k) with 0 by lia; reflexivity).
    set (s := p2 (Z.abs t)) in *. set (q := p10 (Z.abs k)) in *. set (p := p10 k) in *. set (u := p2 K) in *. clearbody s q p u.
    assert (Pp : (0 < p)%Q) by (destruct (Qlt_le_dec 0 p); auto; exfalso; assert (p * q <= 0 * q)%Q by (apply Qmult_le_compat_r; lra); lra).
    assert (A0 : (0 < a)%Q) by lra.
    split.
    + assert (X1 : (p * (q * 1) <= p * (2 * s))%Q) by (apply Qmult_le_l; lra).
      assert (X2 : (p * s <= a * s)%Q) by (apply Qmult_le_compat_r; lra).
      assert (X3 : ((1 # 2) <= a * s)%Q) by lra.
      assert (X4 : ((1 # 2) * u <= a * s * u)%Q) by (apply Qmult_le_compat_r; lra).
      lra.
    + assert (X1 : (a * s <= p * 10 * s)%Q) by (apply Qmult_le_compat_r; lra).
      assert (X2 : (p * s <= p * (q * u))%Q) by (apply Qmult_le_l; lra).
      setoid_replace (p * (q * u))%Q with (p * q * u)%Q in X2 by ring. rewrite I in X2. lra.
  - specialize (H3 Kp). assert (Ek : Z.abs k = k) by lia. assert (Et : Z.abs t = t) by lia. rewrite Ek, Et in *.
    assert (I : (p2 (- t) * p2 t == 1)%Q) by apply p2_neg. pose proof (p2_pos (- t)) as PI.
    set (s := p2 t) in *. set (i := p2 (- t)) in *. set (q := p10 k) in *. set (u := p2 K) in *. clearbody s i q u.
    split.
    + assert (X1 : (s * i <= q * u * i)%Q) by (apply Qmult_le_compat_r; lra).
      assert (X2 : (q * (i * u) <= a * (i * u))%Q) by (apply Qmult_le_compat_r; [lra|]; apply Qmult_le_0_compat; lra).
      lra.
    + assert (X1 : (a * i < q * 10 * i)%Q) by (apply Qmult_lt_compat_r; lra).
      assert (X2 : (q * i <= 2 * s * i)%Q) by (apply Qmult_le_compat_r; lra). lra.
Qed.

Section FX.
Variable c : cfg.
Variable F : ftype.
Notation n := (nel c).
Notation M := (max_exp10_of (c_expo c)).
Notation E := (ebits (c_expo c)).
Notation eps := (p10 (- (c_digits10 c + 2 * edc c))).
Notation dlt := (p10 (- c_digits10 c)).
Hypothesis Hc : cfg_ok c.
Hypothesis Hk : newton_ok c.
Hypothesis HF : float_fits c F.
Hypothesis HJ : (digit_loops c F <= n)%nat.

(** The error budget. *)
Lemma budget (kq tq mq d e : Q) : (0 <= kq -> 0 <= tq -> tq <= (33223 # 10000) * kq -> 0 <= mq -> mq <= kq * (1 # 2500) + 7 -> 0 < d -> 0 < e -> e <= (1 # 10000) * d ->
  (kq + 6000) * ((1 # 100) * d) <= 1 # 10 ->
  (4 * tq) * e <= 1 /\ (5 * tq + 20) * e <= (kq * (2 # 1000) + 1) * d /\ (5 * tq + 20) * e <= 1 # 10 /\
  (5 * tq + 20) * e + 3 * (2 * mq) * d <= 1 # 10 /\
  (5 * tq + 20) * e + 3 * (2 * mq) * d + 2 * (2 * mq) * e <= (kq + 6000) * ((1 # 100) * d) /\ d <= 1 # 600)%Q.
Proof.
  intros K0 T0 T1 M0 M1 D0 E0 E1 H.
  assert (KD : (0 <= kq * d)%Q) by (apply Qmult_le_0_compat; lra).
  assert (A1 : (tq * e <= (33223 # 10000) * kq * e)%Q) by (apply Qmult_le_compat_r; lra).
  assert (A2 : (e * kq <= (1 # 10000) * d * kq)%Q) by (apply Qmult_le_compat_r; lra).
  assert (A3 : (mq * d <= (kq * (1 # 2500) + 7) * d)%Q) by (apply Qmult_le_compat_r; lra).
  assert (A4 : (mq * e <= (kq * (1 # 2500) + 7) * e)%Q) by (apply Qmult_le_compat_r; lra).
  repeat split; lra.
Qed.

Theorem frexp_accurate mem fuel x k : memory_ok mem -> normal c x -> iszero x = false -> leading_exponent (value c x) k ->
  (Z.to_nat (2 * (Z.abs k / 2500 + 7)) <= fuel)%nat -> Z.abs k + Z.abs k / 2500 + 1 <= M - 34 -> 4 * Z.abs k + 28 < 2 ^ (E - 1) -> 4 * Z.abs k + 28 < 2 ^ 31 ->
  (inject_Z (Z.abs k + 6000) * p10 (- (c_digits10 c + 2)) <= 1 # 10)%Q ->
  exists r e, frexp c F fuel mem x = Some (r, e) /\ normal c r /\ dneg r = dneg x /\
    ((1 # 2) <= Qabs (value c r))%Q /\ (Qabs (value c r) < 1)%Q /\
    (Qabs (value c r * p2 e - value c x) <= inject_Z (Z.abs k + 6000) * p10 (- (c_digits10 c + 2)) * Qabs (value c x))%Q.
Proof.
  intros Hm Nx Zx [K1 K2] Hf R1 R2 R3 Hsm. pose proof (edc_pos c) as He. pose proof (max_exp10_bounds c) as (HM & HM2 & _). pose proof (E_ge8 c) as HE8.
  unfold frexp. rewrite Zx. set (a := if dneg x then negate x else x).
  assert (Na : normal c a) by (unfold a; destruct (dneg x); auto; apply (negate_normal c); auto).
  assert (Va : (value c a == Qabs (value c x))%Q).
  { pose proof (value_sign c Hc x Nx Zx) as S. unfold a. destruct (dneg x); [rewrite (value_negate c Hc) by auto; rewrite Qabs_neg by lra; reflexivity|rewrite Qabs_pos by lra; reflexivity]. }
  assert (Pa : (0 < value c a)%Q) by (rewrite Va; pose proof (p10_pos k); lra).
  destruct (pos_facts c Hc a Na Pa) as [Za Sa]. set (X := Qabs (value c x)) in *. 
  assert (Aa : (Qabs (value c a) == X)%Q) by (rewrite Qabs_pos by lra; exact Va).
  assert (Il : ilogb c a = k).
  { destruct (ilogb_spec c Hc a Na Za) as [I1 I2].
    - assert (dexp a <= k + 1) by (apply (exp_le_of_value c Hc); auto; rewrite Aa; lra). lia.
    - rewrite Aa in I1, I2. assert (J1 : (p10 (ilogb c a) < p10 (k + 1))%Q) by lra. assert (J2 : (p10 k < p10 (ilogb c a + 1))%Q) by lra.
      apply (proj1 (p10_lt _ _)) in J1. apply (proj1 (p10_lt _ _)) in J2. lia. }
  destruct (start_spec c k ltac:(lia)) as (t & S1 & S2 & S3 & S4 & S5). rewrite Il, S1. cbv beta iota.
  assert (Xp : (0 < X)%Q) by lra.
  destruct (scaled_range k t X S2 S3 S4 S5 K1 K2) as [W1 W2].
  pose proof (Z.abs_nonneg k) as Bk. pose proof (Z.abs_nonneg t) as Bt. pose proof (Z.div_pos (Z.abs k) 2500 Bk ltac:(lia)) as Bd.
  pose proof (Z.mul_div_le (Z.abs k) 2500 ltac:(lia)) as Bd2.
  set (K := Z.abs k / 2500 + 1) in *. set (m := Z.abs k / 2500 + 7) in *. assert (Em : m = K + 6) by (unfold m, K; ring).
  (* budget *)
  assert (DE : (eps <= (1 # 10000) * dlt)%Q) by (change (1 # 10000)%Q with (p10 (-4)); rewrite <- p10_add; apply p10_le; lia).
  assert (D2 : (p10 (- (c_digits10 c + 2)) == (1 # 100) * dlt)%Q).
  { change (1 # 100)%Q with (p10 (-2)). rewrite <- p10_add. replace (- (c_digits10 c + 2)) with (-2 + - c_digits10 c) by ring. reflexivity. }
  rewrite D2 in *. rewrite inject_Z_plus in *. change (inject_Z 6000) with 6000%Q in *.
  assert (Kq : (0 <= inject_Z (Z.abs k))%Q) by (change 0%Q with (inject_Z 0); rewrite <- Zle_Qle; lia).
  assert (Tq : (0 <= inject_Z (Z.abs t))%Q) by (change 0%Q with (inject_Z 0); rewrite <- Zle_Qle; lia).
  assert (Tk : (inject_Z (Z.abs t) <= (33223 # 10000) * inject_Z (Z.abs k))%Q).
  { rewrite Zle_Qle in S3. rewrite !inject_Z_mult in S3. change (inject_Z 10000) with 10000%Q in S3. change (inject_Z 33223) with 33223%Q in S3. lra. }
  assert (Mq : (0 <= inject_Z m)%Q) by (change 0%Q with (inject_Z 0); rewrite <- Zle_Qle; lia).
  assert (Mk : (inject_Z m <= inject_Z (Z.abs k) * (1 # 2500) + 7)%Q).
  { assert (Y : (inject_Z (2500 * m) <= inject_Z (Z.abs k + 17500))%Q) by (rewrite <- Zle_Qle; unfold m; lia).
    rewrite inject_Z_mult, inject_Z_plus in Y. change (inject_Z 2500) with 2500%Q in Y. change (inject_Z 17500) with 17500%Q in Y. lra. }
  pose proof (p10_pos (- (c_digits10 c + 2 * edc c))) as E0. pose proof (p10_pos (- c_digits10 c)) as D0.
  destruct (budget (inject_Z (Z.abs k)) (inject_Z (Z.abs t)) (inject_Z m) dlt eps) as (G1 & G2 & G3 & G4 & G5 & G6); auto.
  assert (Dd : (dlt <= 1 # 1000)%Q).
  { change (1 # 1000)%Q with (p10 (-3)). apply p10_le. assert (Y : (p10 (- c_digits10 c) < p10 (-2))%Q) by (change (p10 (-2)) with (1 # 100)%Q; lra).
    apply (proj1 (p10_lt _ _)) in Y. lia. }
  assert (Pt : (p2 (Z.abs t) <= p10 (M - 34))%Q).
  { destruct (ten_two (Z.abs k) (Z.abs t) Bk Bt S2 S3) as [_ T2]. fold K in T2. assert (K0 : 0 <= K) by lia.
    rewrite Zle_Qle, inject_Z_mult, <- !p2_Z, <- p10_Z in T2 by lia.
    pose proof (p2_le_p10 K K0) as T3. apply Qle_trans with (p10 (Z.abs k) * p10 K)%Q.
    - eapply Qle_trans; [exact T2|]. rewrite !(Qmult_comm (p10 (Z.abs k))). apply Qmult_le_compat_r; [exact T3|apply Qlt_le_weak, p10_pos].
    - rewrite <- p10_add. apply p10_le. lia. }
  pose proof (p2_pos K) as PK. assert (PK2 : (2 <= p2 K)%Q) by (change 2%Q with (p2 1); apply p2_le; lia).
  assert (P5 : (p2 m == 64 * p2 K)%Q) by (rewrite Em, p2_add; change (p2 6) with 64%Q; ring).
  assert (P10m : (p2 m <= p10 m)%Q) by (apply p2_le_p10; lia).
  pose proof (p2_pos (- t)) as PI. set (w := (X * p2 (- t))%Q) in *. assert (Wp : (0 < w)%Q) by (unfold w; apply Qmult_lt_0_compat; lra).
  assert (Vw : (value c a * p2 (- t) == w)%Q) by (unfold w; rewrite Va; reflexivity).
  assert (Lo : (p10 (- m) <= w)%Q).
  { assert (I : (p10 (- m) * p10 m == 1)%Q) by (rewrite <- p10_add, Z.add_opp_diag_l; reflexivity). pose proof (p10_pos (- m)) as Pm.
    assert (Y : (w * p2 K <= w * p10 m)%Q) by (rewrite !(Qmult_comm w); apply Qmult_le_compat_r; lra).
    assert (Y2 : (1 * p10 (- m) <= w * p10 m * p10 (- m))%Q) by (apply Qmult_le_compat_r; lra).
    setoid_replace (w * p10 m * p10 (- m))%Q with (w * (p10 (- m) * p10 m))%Q in Y2 by ring. rewrite I in Y2. lra. }
  destruct (scale_two c F Hc Hk HF HJ mem (later mem 1) a t m Hm (later_ok _ _ Hm) Na Pa) as (h & r0 & H1 & H2 & N0 & A0).
  { lia. }
  { rewrite inject_Z_mult. exact G1. }
  { exact Pt. }
  { intros Tp. assert (1 <= k) by lia. rewrite Va. assert (Y : (p10 1 <= p10 k)%Q) by (apply p10_le; lia). change (p10 1) with 10%Q in Y. lra. }
  { lia. } { unfold m, K in *. lia. }
  { rewrite Vw. exact Lo. }
  { rewrite Vw. lra. }
  rewrite H1, H2. cbv beta iota. clear H1 H2 h. rewrite Vw in A0.
  rewrite inject_Z_plus, inject_Z_mult in A0. change (inject_Z 5) with 5%Q in A0. change (inject_Z 20) with 20%Q in A0.
  set (d0 := ((5 * inject_Z (Z.abs t) + 20) * eps)%Q) in *. assert (D00 : (0 <= d0)%Q) by (unfold d0; apply Qmult_le_0_compat; lra).
  assert (Dw : (d0 * w <= (1 # 10) * w)%Q) by (apply Qmult_le_compat_r; lra).
  pose proof A0 as A1. apply Qabs_Qle_condition in A1. set (v0 := value c r0) in *.
  assert (Pv : (0 < v0)%Q) by lra.
  (* count *)
  set (N := Z.to_nat m). assert (EN : Z.of_nat N = m) by (unfold N; lia).
  assert (EN2 : (Z.to_nat (2 * m) = 2 * N)%nat) by (unfold N; lia).
  pose proof (pw_two N) as PW. rewrite EN, P5 in PW.
  assert (I : (p2 (- K) * p2 K == 1)%Q) by apply p2_neg. pose proof (p2_pos (- K)) as PmK.
  assert (Iw : (p2 (- K) <= w)%Q).
  { assert (Y2 : (1 * p2 (- K) <= w * p2 K * p2 (- K))%Q) by (apply Qmult_le_compat_r; lra).
    setoid_replace (w * p2 K * p2 (- K))%Q with (w * (p2 (- K) * p2 K))%Q in Y2 by ring. rewrite I in Y2. lra. }
  assert (Ih : (p2 (- K) <= 1 # 2)%Q) by (change (1 # 2)%Q with (p2 (-1)); apply p2_le; lia).
  assert (Er0 : (Qabs (v0 * p2 t - X) <= d0 * X)%Q).
  { pose proof (p2_pos t) as PT. assert (It : (p2 (- t) * p2 t == 1)%Q) by apply p2_neg.
    assert (Ew : (w * p2 t == X)%Q) by (unfold w; setoid_replace (X * p2 (- t) * p2 t)%Q with (X * (p2 (- t) * p2 t))%Q by ring; rewrite It; ring).
    rewrite <- Ew. setoid_replace (v0 * p2 t - w * p2 t)%Q with ((v0 - w) * p2 t)%Q by ring. rewrite Qabs_Qmult, (Qabs_pos (p2 t)) by lra.
    rewrite Qmult_assoc. apply Qmult_le_compat_r; lra. }
  destruct (down_spec c F Hc Dd (2 * N) fuel (later mem 3000) r0 t X d0 ((1 # 4) * p2 (- K)) ) as (r1 & t1 & F1 & N1 & L1 & U1 & B1 & Er1); auto; fold v0; try lra.
  { lia. } { apply later_ok; auto. }
  { clear - EN S3 R2 Bd2 Em Bk Bt. unfold m in *. lia. }
  { rewrite Nat2Z.inj_mul, EN, !inject_Z_mult. change (inject_Z 3) with 3%Q. change (inject_Z (Z.of_nat 2)) with 2%Q. exact G4. }
  rewrite Nat2Z.inj_mul, EN, !inject_Z_mult in Er1. change (inject_Z 3) with 3%Q in Er1. change (inject_Z (Z.of_nat 2)) with 2%Q in Er1.
  set (d1 := (d0 + 3 * (2 * inject_Z m) * dlt)%Q) in *.
  assert (D11 : (0 <= d1)%Q) by (unfold d1; assert (0 <= 3 * (2 * inject_Z m) * dlt)%Q by (apply Qmult_le_0_compat; lra); lra).
  rewrite F1. cbn [fst snd]. cbv beta iota.
  destruct (up_spec c Hc Hk) with (k := (2 * N)%nat) (fuel := fuel) (mem := later mem 4000) (r := r1) (t := t1) (X := X) (d := d1)
    as (r2 & t2 & F2 & N2 & L2 & U2 & B2 & Er2); auto; try lra.
  { lia. } { apply later_ok; auto. }
  { assert (Y : ((1 # 4) * p2 (- K) * pw (2 * N) <= value c r1 * pw (2 * N))%Q) by (apply Qmult_le_compat_r; [lra|]; pose proof (pw_pos (2 * N)); lra).
    assert (Y2 : (p2 (- K) * (64 * p2 K) <= p2 (- K) * pw (2 * N))%Q) by (apply Qmult_le_l; lra).
    setoid_replace (p2 (- K) * (64 * p2 K))%Q with (64 * (p2 (- K) * p2 K))%Q in Y2 by ring. rewrite I in Y2. lra. }
  { clear - EN R1 HM Bd2 Em Bk. unfold m, K in *. lia. }
  { clear - EN S3 R2 Bd2 Em Bk Bt B1. unfold m in *. lia. }
  { rewrite Nat2Z.inj_mul, EN, !inject_Z_mult. change (inject_Z (Z.of_nat 2)) with 2%Q. change (inject_Z 2) with 2%Q. lra. }
  rewrite Nat2Z.inj_mul, EN, !inject_Z_mult in Er2. change (inject_Z (Z.of_nat 2)) with 2%Q in Er2. change (inject_Z 2) with 2%Q in Er2.
  rewrite F2. cbv beta iota.
  assert (T2 : scast 32 t2 = t2) by (apply scast_id; [lia|]; change (32 - 1) with 31; clear - EN S3 R3 Bd2 Em Bk Bt B1 B2; unfold m in *; lia).
  rewrite T2. set (z := if dneg x then negate r2 else r2).
  assert (P2 : (0 < value c r2)%Q) by lra. destruct (pos_facts c Hc r2 N2 P2) as [Z2 Sg2].
  assert (Er3 : (Qabs (value c r2 * p2 t2 - X) <= (inject_Z (Z.abs k) + 6000) * ((1 # 100) * dlt) * X)%Q).
  { eapply Qle_trans; [exact Er2|]. apply Qmult_le_compat_r; lra. }
  exists z, t2. split; [reflexivity|]. unfold z. pose proof (value_sign c Hc x Nx Zx) as Sx. destruct (dneg x) eqn:Dx.
  - pose proof (value_negate c Hc r2 N2) as Vn. split; [apply (negate_normal c); auto|].
    split; [unfold negate; rewrite Z2; cbn; rewrite Sg2; reflexivity|].
    assert (Ez : (Qabs (value c (negate r2)) == value c r2)%Q) by (rewrite Vn, Qabs_opp, Qabs_pos by lra; reflexivity).
    rewrite Ez. split; [lra|]. split; [lra|].
    assert (Ex : (value c x == - X)%Q) by (unfold X; rewrite Qabs_neg by lra; ring).
    setoid_replace (value c (negate r2) * p2 t2 - value c x)%Q with (- (value c r2 * p2 t2 - X))%Q by (rewrite Vn, Ex; ring). rewrite Qabs_opp, D2. exact Er3.
  - split; [auto|]. split; [exact Sg2|]. rewrite (Qabs_pos (value c r2)) by lra. split; [lra|]. split; [lra|].
    assert (Ex : (value c x == X)%Q) by (unfold X; rewrite Qabs_pos by lra; reflexivity). 
    assert (Ex2 : (value c r2 * p2 t2 - value c x == value c r2 * p2 t2 - X)%Q) by (rewrite Ex; reflexivity). rewrite Ex2, D2. exact Er3.
Qed.
End FX.

Lemma frexp_zero c F fuel mem x : iszero x = true -> frexp c F fuel mem x = Some (x, 0).
Proof. intros H. unfold frexp. rewrite H. reflexivity. Qed.

(** 2^107 is stored exactly, but its fraction comes out as 0.99..9 with exponent 107. *)
Definition x107 : dec := mkx c50 false 32 [1; 62259276; 82921336; 33915780; 10288128].
Lemma frexp_power_of_two : normal c50 x107 /\ (value c50 x107 == inject_Z (2 ^ 107))%Q /\
  exists r, frexp c50 f_double 20 mem0 x107 = Some (r, 107) /\ (value c50 r < 1)%Q /\ ((9 # 10) < value c50 r)%Q.
Proof.
  split; [apply normal_b_sound; reflexivity|]. split; [reflexivity|].
  eexists. split; [vm_compute; reflexivity|]. split; vm_compute; reflexivity.
Qed.
(** With the 8-bit exponent type the first estimate for 10^40 is not representable. *)
Lemma frexp_small_exponent : let c := mkCfg U32 9 E8 in cfg_ok c /\ normal c (mkx c false 40 [1]) /\ (value c (mkx c false 40 [1%Z]) == p10 40)%Q /\
  forall fuel mem, frexp c f_double fuel mem (mkx c false 40 [1]) = None.
Proof.
  cbv zeta. split; [split; vm_compute; first [reflexivity|discriminate]|]. split; [apply normal_b_sound; reflexivity|]. split; [vm_compute; reflexivity|].
  intros. unfold frexp. assert (Z1 : iszero (mkx (mkCfg U32 9 E8) false 40 [1]) = false) by reflexivity. rewrite Z1. cbv zeta.
  assert (S1 : frexp_start (mkCfg U32 9 E8) (ilogb (mkCfg U32 9 E8) (mkx (mkCfg U32 9 E8) false 40 [1])) = None) by (vm_compute; reflexivity).
  change (dneg (mkx (mkCfg U32 9 E8) false 40 [1])) with false. cbv iota. rewrite S1. reflexivity.
Qed.
Lemma frexp_case : memory_ok mem0 /\ normal c50 xa /\ iszero xa = false /\ leading_exponent (value c50 xa) (ilogb c50 xa) /\
  Z.abs (ilogb c50 xa) + Z.abs (ilogb c50 xa) / 2500 + 1 <= max_exp10_of (c_expo c50) - 34 /\
  4 * Z.abs (ilogb c50 xa) + 28 < 2 ^ (ebits (c_expo c50) - 1) /\ 4 * Z.abs (ilogb c50 xa) + 28 < 2 ^ 31 /\
  (inject_Z (Z.abs (ilogb c50 xa) + 6000) * p10 (- (c_digits10 c50 + 2)) <= 1 # 10)%Q.
Proof.
  split; [exact mem0_ok|]. split; [apply normal_b_sound; reflexivity|]. split; [reflexivity|].
  split; [split; vm_compute; first [reflexivity|discriminate]|].
  repeat split; vm_compute; try reflexivity; discriminate.
Qed.
