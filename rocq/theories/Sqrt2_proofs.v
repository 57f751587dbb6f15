(** Sqrt2_proofs.v - the square-root iteration: exponents never change, errors shrink quadratically. *)
From Verif Require Export Sqrt_proofs Estimate3_proofs.
From Coq Require Import Lqa.
Local Open Scope Z_scope.

(** Squares of positive numbers order them. *)
Lemma sq_lt_inv (a b : Q) : (0 <= b -> a * a < b * b -> a < b)%Q.
Proof.
  intros Hb H. apply Qnot_le_lt. intros C. apply (Qlt_not_le _ _ H). apply Qmult_le_compat_nonneg; split; auto.
Qed.
Lemma sq_le_mono (a b : Q) : (0 <= a -> a <= b -> a * a <= b * b)%Q.
Proof. intros. apply Qmult_le_compat_nonneg; split; auto. Qed.

(** Error recurrences, quadratic phase: [q] is 10^-d. *)
Lemma ph_step (K C K' C' a b a' b' q h : Q) : (0 <= q -> q <= 1 # 10000 -> 0 <= h -> h <= q * q * (1 # 100) -> 0 <= K -> 0 <= C ->
  K * C + (26 # 100) * (K * K) + (1 # 10) <= K' -> (C + (52 # 100) * K + (1 # 1000)) * (C + (52 # 100) * K + (1 # 1000)) <= C' ->
  Qabs a <= K * q -> b * b <= C * q ->
  Qabs a' <= Qabs a * (b * b) + (26 # 100) * (a * a) + 10 * h -> Qabs b' <= b * b + (52 # 100) * Qabs a + 15 * h ->
  Qabs a' <= K' * (q * q) /\ b' * b' <= C' * (q * q))%Q.
Proof.
  intros Q0 Q1 H0 H1 K0 C0 HK HC Ha Hb Ha' Hb'. pose proof (Qabs_nonneg a) as Aa. pose proof (Qabs_nonneg b') as Ab.
  assert (B0 : (0 <= b * b)%Q) by (rewrite <- abs_sq; apply Qmult_le_0_compat; apply Qabs_nonneg).
  assert (QQ : (0 <= q * q)%Q) by (apply Qmult_le_0_compat; auto).
  assert (T1 : (Qabs a * (b * b) <= K * q * (C * q))%Q) by (apply Qmult_le_compat_nonneg; split; auto).
  assert (T2 : (a * a <= K * q * (K * q))%Q) by (rewrite <- abs_sq; apply Qmult_le_compat_nonneg; split; auto).
  split.
  - assert (T3 : ((K * C + (26 # 100) * (K * K) + (1 # 10)) * (q * q) <= K' * (q * q))%Q) by (apply Qmult_le_compat_r; auto). lra.
  - assert (T4 : (q * q <= (1 # 10000) * q)%Q) by (apply Qmult_le_compat_r; auto).
    assert (T5 : (Qabs b' <= (C + (52 # 100) * K + (1 # 1000)) * q)%Q) by lra.
    rewrite <- abs_sq. eapply Qle_trans; [apply (sq_le_mono _ _ Ab T5)|].
    setoid_replace ((C + (52 # 100) * K + (1 # 1000)) * q * ((C + (52 # 100) * K + (1 # 1000)) * q))%Q
      with ((C + (52 # 100) * K + (1 # 1000)) * (C + (52 # 100) * K + (1 # 1000)) * (q * q))%Q by ring.
    apply Qmult_le_compat_r; auto.
Qed.

(** The last step(s), at full precision. *)
Lemma pl_step (K C a b a' b' q h : Q) : (0 <= q -> q <= 1 # 10000 -> 0 <= h -> h <= 1 # 1000000 -> q * q <= h -> 0 <= K -> 0 <= C ->
  K * C + (26 # 100) * (K * K) <= 1 -> C + (52 # 100) * K <= 56 # 100 ->
  Qabs a <= K * q -> b * b <= C * q ->
  Qabs a' <= Qabs a * (b * b) + (26 # 100) * (a * a) + 10 * h -> Qabs b' <= b * b + (52 # 100) * Qabs a + 15 * h ->
  Qabs a' <= 11 * h /\ b' * b' <= (35 # 100) * h)%Q.
Proof.
  intros Q0 Q1 H0 H1 Hqh K0 C0 HK HC Ha Hb Ha' Hb'. pose proof (Qabs_nonneg a) as Aa. pose proof (Qabs_nonneg b') as Ab.
  assert (B0 : (0 <= b * b)%Q) by (rewrite <- abs_sq; apply Qmult_le_0_compat; apply Qabs_nonneg).
  assert (QQ : (0 <= q * q)%Q) by (apply Qmult_le_0_compat; auto).
  assert (T1 : (Qabs a * (b * b) <= K * q * (C * q))%Q) by (apply Qmult_le_compat_nonneg; split; auto).
  assert (T2 : (a * a <= K * q * (K * q))%Q) by (rewrite <- abs_sq; apply Qmult_le_compat_nonneg; split; auto).
  split.
  - assert (T3 : ((K * C + (26 # 100) * (K * K)) * (q * q) <= 1 * (q * q))%Q) by (apply Qmult_le_compat_r; auto). lra.
  - assert (T3 : ((C + (52 # 100) * K) * q <= (56 # 100) * q)%Q) by (apply Qmult_le_compat_r; auto).
    assert (T5 : (Qabs b' <= (56 # 100) * q + 15 * h)%Q) by lra.
    rewrite <- abs_sq. eapply Qle_trans; [apply (sq_le_mono _ _ Ab T5)|].
    assert (T6 : (q * h <= (1 # 10000) * h)%Q) by (apply Qmult_le_compat_r; auto).
    assert (T7 : (h * h <= (1 # 1000000) * h)%Q) by (apply Qmult_le_compat_r; auto). lra.
Qed.

Lemma pl_stay (a b a' b' h : Q) : (0 <= h -> h <= 1 # 1000000 -> Qabs a <= 11 * h -> b * b <= (35 # 100) * h ->
  Qabs a' <= Qabs a * (b * b) + (26 # 100) * (a * a) + 10 * h -> Qabs b' <= b * b + (52 # 100) * Qabs a + 15 * h ->
  Qabs a' <= 11 * h /\ b' * b' <= (35 # 100) * h)%Q.
Proof.
  intros H0 H1 Ha Hb Ha' Hb'. pose proof (Qabs_nonneg a) as Aa. pose proof (Qabs_nonneg b') as Ab.
  assert (B0 : (0 <= b * b)%Q) by (rewrite <- abs_sq; apply Qmult_le_0_compat; apply Qabs_nonneg).
  assert (T1 : (Qabs a * (b * b) <= 11 * h * ((35 # 100) * h))%Q) by (apply Qmult_le_compat_nonneg; split; auto).
  assert (T2 : (a * a <= 11 * h * (11 * h))%Q) by (rewrite <- abs_sq; apply Qmult_le_compat_nonneg; split; auto).
  assert (T7 : (h * h <= (1 # 1000000) * h)%Q) by (apply Qmult_le_compat_r; auto).
  split; [lra|]. assert (T5 : (Qabs b' <= 22 * h)%Q) by lra.
  rewrite <- abs_sq. eapply Qle_trans; [apply (sq_le_mono _ _ Ab T5)|]. lra.
Qed.

(** Coarse bounds that hold throughout. *)
Lemma coarse (a b a' b' h tau : Q) : (0 <= tau -> tau <= 1 # 10000 -> 0 <= h -> h <= tau * (1 # 100) ->
  Qabs a <= tau -> Qabs b <= (7 # 10) * tau ->
  Qabs a' <= Qabs a * (b * b) + (26 # 100) * (a * a) + 10 * h -> Qabs b' <= b * b + (52 # 100) * Qabs a + 15 * h ->
  Qabs a' <= tau /\ Qabs b' <= (7 # 10) * tau)%Q.
Proof.
  intros T0 T1 H0 H1 Ha Hb Ha' Hb'. pose proof (Qabs_nonneg a) as Aa. pose proof (Qabs_nonneg b) as Ab.
  assert (B1 : (b * b <= (7 # 10) * tau * ((7 # 10) * tau))%Q) by (rewrite <- abs_sq; apply sq_le_mono; auto).
  assert (B0 : (0 <= b * b)%Q) by (rewrite <- abs_sq; apply Qmult_le_0_compat; apply Qabs_nonneg).
  assert (TT : (tau * tau <= (1 # 10000) * tau)%Q) by (apply Qmult_le_compat_r; auto).
  assert (T2 : (a * a <= tau * tau)%Q) by (rewrite <- abs_sq; apply sq_le_mono; auto).
  assert (T3 : (Qabs a * (b * b) <= 1 * (b * b))%Q) by (apply Qmult_le_compat_r; lra).
  split; lra.
Qed.

(** A root within [tau] stays on its side of a power, if the radicand is clear of the power's square. *)
Lemma side_S (X S a tau u : Q) : (0 < tau -> tau <= 1 # 10000 -> 0 < S -> 0 < u -> S * S == X * (1 - a) -> Qabs a <= tau ->
  10 * tau * (u * u) <= Qabs (X - u * u) -> S <= u -> S * (1 + tau) < u)%Q.
Proof.
  intros T0 T1 S0 U0 HS Ha Hx Hu. apply pm_bnd in Ha.
  assert (SS : (0 < S * S)%Q) by (apply Qmult_lt_0_compat; auto).
  assert (UU : (0 < u * u)%Q) by (apply Qmult_lt_0_compat; auto).
  assert (Su : (S * S <= u * u)%Q) by (apply sq_le_mono; lra).
  assert (TU : (0 < tau * (u * u))%Q) by (apply Qmult_lt_0_compat; auto).
  assert (TT : (tau * (tau * (u * u)) <= (1 # 10000) * (tau * (u * u)))%Q) by (apply Qmult_le_compat_r; lra).
  assert (X0 : (0 < X)%Q).
  { apply Qnot_le_lt. intros C. assert (X * (1 - a) <= 0 * (1 - a))%Q by (apply Qmult_le_compat_r; lra). lra. }
  (* X is not much above u^2 *)
  assert (X1 : (X * (1 - tau) <= S * S)%Q) by (rewrite HS, !(Qmult_comm X); apply Qmult_le_compat_r; lra).
  assert (X2 : (S * S <= X * (1 + tau))%Q) by (rewrite HS, !(Qmult_comm X); apply Qmult_le_compat_r; lra).
  assert (X3 : (X <= u * u + 2 * (tau * (u * u)))%Q).
  { apply Qnot_lt_le. intros C. assert (K : ((u * u + 2 * (tau * (u * u))) * (1 - tau) < X * (1 - tau))%Q) by (apply Qmult_lt_compat_r; lra). lra. }
  assert (X4 : (X <= u * u - 10 * (tau * (u * u)))%Q).
  { destruct (Qlt_le_dec (X - u * u) 0) as [C|C]; [rewrite Qabs_neg in Hx by lra; lra|rewrite Qabs_pos in Hx by lra; lra]. }
  apply sq_lt_inv; [lra|].
  setoid_replace (S * (1 + tau) * (S * (1 + tau)))%Q with (S * S * ((1 + tau) * (1 + tau)))%Q by ring.
  assert (Y1 : ((1 + tau) * (1 + tau) <= 1 + 3 * tau)%Q).
  { assert (tau * tau <= (1 # 10000) * tau)%Q by (apply Qmult_le_compat_r; lra). lra. }
  eapply Qle_lt_trans; [apply Qmult_le_compat_nonneg; [split; [lra|exact X2]|split; [apply Qmult_le_0_compat; lra|exact Y1]]|].
  assert (Y2 : ((1 + tau) * (1 + 3 * tau) <= 1 + 5 * tau)%Q).
  { assert (tau * tau <= (1 # 10000) * tau)%Q by (apply Qmult_le_compat_r; lra). lra. }
  rewrite <- Qmult_assoc.
  eapply Qle_lt_trans; [apply Qmult_le_compat_nonneg; [split; [lra|exact X4]|split; [apply Qmult_le_0_compat; lra|exact Y2]]|].
  assert (0 < tau * (tau * (u * u)))%Q by (apply Qmult_lt_0_compat; auto). lra.
Qed.

Lemma side_W (X S W a b tau u v : Q) : (0 < tau -> tau <= 1 # 10000 -> 0 < S -> 0 < W -> 0 < u -> u * v == 1 -> S * S == X * (1 - a) -> 2 * S * W == 1 - b ->
  Qabs a <= tau -> Qabs b <= (7 # 10) * tau ->
  10 * tau * (v * v) <= Qabs (4 * X - v * v) -> W <= u -> W * (1 + tau) < u)%Q.
Proof.
  intros T0 T1 S0 W0 U0 UV HS HW Ha Hb Hx Hu. apply pm_bnd in Ha, Hb.
  assert (WW : (0 < W * W)%Q) by (apply Qmult_lt_0_compat; auto).
  assert (UU : (0 < u * u)%Q) by (apply Qmult_lt_0_compat; auto).
  assert (V0 : (0 < v)%Q). { apply Qnot_le_lt. intros C. assert (v * u <= 0 * u)%Q by (apply Qmult_le_compat_r; lra). lra. }
  assert (VV : (0 < v * v)%Q) by (apply Qmult_lt_0_compat; auto).
  assert (UVV : (u * u * (v * v) == 1)%Q) by (setoid_replace (u * u * (v * v))%Q with (u * v * (u * v))%Q by ring; rewrite UV; reflexivity).
  assert (TT : (tau * tau <= (1 # 10000) * tau)%Q) by (apply Qmult_le_compat_r; lra).
  assert (TT0 : (0 < tau * tau)%Q) by (apply Qmult_lt_0_compat; auto).
  assert (SS : (0 < S * S)%Q) by (apply Qmult_lt_0_compat; auto).
  assert (X0 : (0 < X)%Q).
  { apply Qnot_le_lt. intros C. assert (X * (1 - a) <= 0 * (1 - a))%Q by (apply Qmult_le_compat_r; lra). lra. }
  assert (Wu : (W * W <= u * u)%Q) by (apply sq_le_mono; lra).
  (* 4 X (1 - a) W^2 = (1 - b)^2 *)
  assert (EQ : (4 * X * (1 - a) * (W * W) == (1 - b) * (1 - b))%Q).
  { setoid_replace (4 * X * (1 - a) * (W * W))%Q with (4 * (X * (1 - a)) * (W * W))%Q by ring. rewrite <- HS, <- HW. ring. }
  assert (B1 : ((1 - b) * (1 - b) <= 1 + 2 * tau)%Q).
  { eapply Qle_trans; [apply (sq_le_mono (1 - b) (1 + (7 # 10) * tau)); lra|]. lra. }
  assert (B2 : (1 - (15 # 10) * tau <= (1 - b) * (1 - b))%Q).
  { eapply Qle_trans; [|apply (sq_le_mono (1 - (7 # 10) * tau) (1 - b)); lra]. lra. }
  assert (F0 : (0 < 4 * X)%Q) by lra.
  assert (XW : (0 < 4 * X * (W * W))%Q) by (apply Qmult_lt_0_compat; auto).
  assert (XW1 : (4 * X * (W * W) * (1 - tau) <= 1 + 2 * tau)%Q).
  { eapply Qle_trans; [|exact B1]. rewrite <- EQ. setoid_replace (4 * X * (1 - a) * (W * W))%Q with ((1 - a) * (4 * X * (W * W)))%Q by ring.
    rewrite (Qmult_comm _ (1 - tau)). apply Qmult_le_compat_r; lra. }
  assert (XW2 : (1 - (15 # 10) * tau <= 4 * X * (W * W) * (1 + tau))%Q).
  { eapply Qle_trans; [exact B2|]. rewrite <- EQ. setoid_replace (4 * X * (1 - a) * (W * W))%Q with ((1 - a) * (4 * X * (W * W)))%Q by ring.
    rewrite (Qmult_comm _ (1 + tau)). apply Qmult_le_compat_r; lra. }
  (* lower bound on 4X *)
  assert (Y0 : (4 * X * (W * W) <= 4 * X * (u * u))%Q) by (rewrite !(Qmult_comm (4 * X)); apply Qmult_le_compat_r; lra).
  assert (Y1 : (1 - (15 # 10) * tau <= 4 * X * (u * u) * (1 + tau))%Q).
  { eapply Qle_trans; [exact XW2|]. apply Qmult_le_compat_r; lra. }
  assert (TV : (0 < tau * (v * v))%Q) by (apply Qmult_lt_0_compat; auto).
  assert (Y2 : (v * v - 3 * (tau * (v * v)) <= 4 * X)%Q).
  { assert (K : ((1 - (15 # 10) * tau) * (v * v) <= 4 * X * (u * u) * (1 + tau) * (v * v))%Q) by (apply Qmult_le_compat_r; lra).
    setoid_replace (4 * X * (u * u) * (1 + tau) * (v * v))%Q with (4 * X * (1 + tau) * (u * u * (v * v)))%Q in K by ring. rewrite UVV, Qmult_1_r in K.
    apply Qnot_lt_le. intros C. assert (K2 : (4 * X * (1 + tau) < (v * v - 3 * (tau * (v * v))) * (1 + tau))%Q) by (apply Qmult_lt_compat_r; lra).
    assert (0 < tau * (tau * (v * v)))%Q by (apply Qmult_lt_0_compat; auto). lra. }
  assert (Y3 : (v * v + 10 * (tau * (v * v)) <= 4 * X)%Q).
  { destruct (Qlt_le_dec (4 * X - v * v) 0) as [C|C]; [rewrite Qabs_neg in Hx by lra; lra|rewrite Qabs_pos in Hx by lra; lra]. }
  assert (Y4 : (1 + 10 * tau <= 4 * X * (u * u))%Q).
  { assert (K : ((v * v + 10 * (tau * (v * v))) * (u * u) <= 4 * X * (u * u))%Q) by (apply Qmult_le_compat_r; lra).
    setoid_replace ((v * v + 10 * (tau * (v * v))) * (u * u))%Q with ((1 + 10 * tau) * (u * u * (v * v)))%Q in K by ring. rewrite UVV in K. lra. }
  apply sq_lt_inv; [lra|].
  setoid_replace (W * (1 + tau) * (W * (1 + tau)))%Q with (W * W * ((1 + tau) * (1 + tau)))%Q by ring.
  apply Qmult_lt_r with (4 * X)%Q; [lra|].
  assert (Z1 : ((1 + tau) * (1 + tau) <= (1 + 3 * tau) * 1)%Q) by lra.
  assert (Z2 : (4 * X * (W * W) <= 1 + 4 * tau)%Q).
  { apply Qnot_lt_le. intros C. assert (K : ((1 + 4 * tau) * (1 - tau) < 4 * X * (W * W) * (1 - tau))%Q) by (apply Qmult_lt_compat_r; lra). lra. }
  setoid_replace (W * W * ((1 + tau) * (1 + tau)) * (4 * X))%Q with (4 * X * (W * W) * ((1 + tau) * (1 + tau)))%Q by ring.
  eapply Qle_lt_trans; [apply Qmult_le_compat_nonneg; [split; [lra|exact Z2]|split; [apply Qmult_le_0_compat; lra|exact Z1]]|].
  rewrite (Qmult_comm (u * u)). lra.
Qed.

Section SL.
Variable c : cfg.
Notation L := (c_limb c).
Notation B := (mask L).
Notation V := (limbs_value B).
Notation ok := (digits_ok B).
Notation P n := (B ^ Z.of_nat n).
Notation E := (ebits (c_expo c)).
Notation n := (nel c).
Notation M := (max_exp10_of (c_expo c)).
Notation wk := (wk c).
Notation mag := (mag c).
Notation eta := (eta c).
Notation nz := (nz c).
Hypothesis Hc : cfg_ok c.
Hypothesis Hk : newton_ok c.
Let HB : 0 < B := mask_pos L.

(** Neither X nor 4X is within a relative 10 tau of an even power of the limb base. *)
Definition clear_of (tau X : Q) : Prop := forall k, (edc c | k) ->
  (10 * tau * p10 (2 * k) <= Qabs (X - p10 (2 * k)) /\ 10 * tau * p10 (2 * k) <= Qabs (4 * X - p10 (2 * k)))%Q.

Definition phase (d : Z) (a b : Q) : Prop :=
  ((Qabs a <= 1 * p10 (- d) /\ b * b <= (1 # 100) * p10 (- d)) \/
   (Qabs a <= (4 # 10) * p10 (- d) /\ b * b <= (32 # 100) * p10 (- d)) \/
   (Qabs a <= (27 # 100) * p10 (- d) /\ b * b <= (29 # 100) * p10 (- d)) \/
   (Qabs a <= 11 * eta n /\ b * b <= (35 # 100) * eta n /\ (edc c * (Z.of_nat n - 1) <= 2 * d)%Z))%Q.

Lemma p10_dbl k : (p10 (2 * k) == p10 k * p10 k)%Q.
Proof. rewrite <- p10_add. replace (2 * k) with (k + k) by ring. reflexivity. Qed.

Lemma sides tau x s w a b : (0 < tau)%Q -> (tau <= 1 # 10000)%Q -> wk s -> wk w ->
  (mag s * mag s == mag x * (1 - a))%Q -> (2 * mag s * mag w == 1 - b)%Q -> (Qabs a <= tau)%Q -> (Qabs b <= (7 # 10) * tau)%Q ->
  clear_of tau (mag x) ->
  (mag s * (1 + tau) < p10 (dexp s + edc c))%Q /\ (mag w * (1 + tau) < p10 (dexp w + edc c))%Q.
Proof.
  intros T0 T1 Ws Ww HS HW Ha Hb Hx. pose proof (mag_pos c Hc s Ws) as Ms. pose proof (mag_pos c Hc w Ww) as Mw.
  destruct (mag_bracket c Hc s Ws) as [_ Bs]. destruct (mag_bracket c Hc w Ww) as [_ Bw].
  destruct Ws as (_ & _ & _ & Ds). destruct Ww as (_ & _ & _ & Dw).
  assert (D1 : (edc c | dexp s + edc c)) by (apply Z.divide_add_r; [auto|apply Z.divide_refl]).
  assert (D2 : (edc c | - (dexp w + edc c))) by (apply Z.divide_opp_r, Z.divide_add_r; [auto|apply Z.divide_refl]).
  split.
  - destruct (Hx _ D1) as [X1 _]. rewrite !p10_dbl in X1.
    apply (side_S (mag x) (mag s) a tau (p10 (dexp s + edc c))); auto. apply p10_pos.
  - destruct (Hx _ D2) as [_ X2]. rewrite !p10_dbl in X2.
    apply (side_W (mag x) (mag s) (mag w) a b tau (p10 (dexp w + edc c)) (p10 (- (dexp w + edc c)))); auto; [apply p10_pos|].
    rewrite <- p10_add, Z.add_opp_diag_r. reflexivity.
Qed.

Lemma precision_nz x k : nz x -> nz (precision c x k).
Proof. intros H. exact H. Qed.

Lemma phase_step d p a b a' b' : 4 <= d -> (0 < eta p)%Q -> (2 <= p <= n)%nat ->
  (p = n /\ edc c * (Z.of_nat n - 1) <= 2 * d \/ 2 * d + 2 <= edc c * (Z.of_nat p - 1)) ->
  phase d a b ->
  (Qabs a' <= Qabs a * (b * b) + (26 # 100) * (a * a) + 10 * eta p)%Q -> (Qabs b' <= b * b + (52 # 100) * Qabs a + 15 * eta p)%Q ->
  phase (d * 2) a' b' /\ (p = n -> 2 * d + 2 <= edc c * (Z.of_nat p - 1) \/ (Qabs a' <= 11 * eta n)%Q).
Proof.
  intros Hd E0 Hp Hpd Hph Ha' Hb'.
  assert (Half : (p10 (- (d * 2)) == p10 (- d) * p10 (- d))%Q) by (rewrite <- p10_add; replace (- d + - d) with (- (d * 2)) by ring; reflexivity).
  pose proof (p10_pos (- d)) as Q0.
  assert (Q1 : (p10 (- d) <= 1 # 10000)%Q) by (change (1 # 10000)%Q with (p10 (-4)); apply (proj2 (p10_le _ _)); lia).
  destruct (eta_n c Hc) as [En0 En1].
  destruct Hpd as [[Hp1 Hp2]|Hp2].
  - assert (Hq : (p10 (- d) * p10 (- d) <= eta n)%Q) by (rewrite <- Half; unfold Newton_proofs.eta; apply (proj2 (p10_le _ _)); lia).
    rewrite Hp1 in Ha', Hb'.
    assert (R : (Qabs a' <= 11 * eta n)%Q /\ (b' * b' <= (35 # 100) * eta n)%Q).
    { destruct Hph as [[A1 A2]|[[A1 A2]|[[A1 A2]|(A1 & A2 & _)]]].
      - apply (pl_step 1 (1 # 100) a b a' b' (p10 (- d)) (eta n)); auto; lra.
      - apply (pl_step (4 # 10) (32 # 100) a b a' b' (p10 (- d)) (eta n)); auto; lra.
      - apply (pl_step (27 # 100) (29 # 100) a b a' b' (p10 (- d)) (eta n)); auto; lra.
      - apply (pl_stay a b a' b' (eta n)); auto; lra. }
    destruct R as [R1 R2]. split; [right; right; right; split; [auto|split; [auto|lia]]|auto].
  - split; auto. assert (Hh : (eta p <= p10 (- d) * p10 (- d) * (1 # 100))%Q).
    { rewrite <- Half. change (1 # 100)%Q with (p10 (-2)). rewrite <- p10_add. unfold Newton_proofs.eta. apply (proj2 (p10_le _ _)). lia. }
    destruct Hph as [[A1 A2]|[[A1 A2]|[[A1 A2]|(_ & _ & A3)]]].
    + right; left. rewrite Half. apply (ph_step 1 (1 # 100) (4 # 10) (32 # 100) a b a' b' (p10 (- d)) (eta p)); auto; try lra.
    + right; right; left. rewrite Half. apply (ph_step (4 # 10) (32 # 100) (27 # 100) (29 # 100) a b a' b' (p10 (- d)) (eta p)); auto; lra.
    + right; right; left. rewrite Half. apply (ph_step (27 # 100) (29 # 100) (27 # 100) (29 # 100) a b a' b' (p10 (- d)) (eta p)); auto; lra.
    + exfalso. assert (edc c * (Z.of_nat p - 1) <= edc c * (Z.of_nat n - 1)) by (apply Z.mul_le_mono_nonneg_l; pose proof (edc_pos c); lia). lia.
Qed.

Lemma sqrt_loop_spec mem f d0 : memory_ok mem -> 4 <= d0 -> d0 + 2 <= edc c * (Z.of_nat n - 1) ->
  forall i d x s w a b, nz x -> nz s -> nz w -> dneg x = false -> dneg s = false -> dneg w = false ->
  - M + edc c * (Z.of_nat n + 8) < dexp x < M - edc c * (Z.of_nat n + 8) ->
  (mag s * mag s == mag x * (1 - a))%Q -> (2 * mag s * mag w == 1 - b)%Q ->
  (Qabs a <= p10 (- d0))%Q -> (Qabs b <= (7 # 10) * p10 (- d0))%Q -> clear_of (p10 (- d0)) (mag x) ->
  d0 <= d -> phase d a b -> d < Z.of_nat n * edc c -> Z.of_nat n * edc c <= d * 2 ^ Z.of_nat f ->
  exists s' a', sqrt_loop c (S f) mem n i d x s w = Some s' /\ nz s' /\ dneg s' = false /\
    (mag s' * mag s' == mag x * (1 - a'))%Q /\ (Qabs a' <= 11 * eta n)%Q.
Proof.
  intros Hmem Hd0 Hdn. induction f as [|f IH]; intros i d x s w a b Nx Ns Nw Sx Ss Sw Rx HS HW Ha Hb Hcl Hd Hph Hlt Hfuel.
  { change (2 ^ Z.of_nat 0) with 1 in Hfuel. lia. }
  pose proof (edc_pos c) as He.
  change (sqrt_loop c (S (S f)) mem n i d x s w) with
    (if d <? Z.of_nat n * ed L then
        let np := newton_prec c d in
        do (vi', s') <- sqrt_step c mem i (precision c x np) (precision c s np) (precision c w np);
        sqrt_loop c (S f) mem n (i + 4) (d * 2) (precision c x np) s' vi'
      else Some s).
  change (ed L) with (edc c). replace (d <? Z.of_nat n * edc c) with true by lia. cbv zeta.
  set (np := newton_prec c d).
  destruct (newton_prec_spec c Hc x d ltac:(lia)) as [Hp Hpd]. fold np in Hp, Hpd.
  assert (Px : dprec (precision c s np) = dprec (precision c x np)) by reflexivity.
  assert (Pw : dprec (precision c w np) = dprec (precision c x np)) by reflexivity.
  set (x1 := precision c x np) in *. set (s1 := precision c s np) in *. set (w1 := precision c w np) in *. set (p := dprec x1) in *.
  assert (N1 : nz x1) by exact Nx. assert (N2 : nz s1) by exact Ns. assert (N3 : nz w1) by exact Nw.
  assert (M1 : mag x1 = mag x) by reflexivity. assert (M2 : mag s1 = mag s) by reflexivity. assert (M3 : mag w1 = mag w) by reflexivity.
  set (tau := p10 (- d0)) in *.
  assert (T0 : (0 < tau)%Q) by apply p10_pos.
  assert (T1 : (tau <= 1 # 10000)%Q) by (change (1 # 10000)%Q with (p10 (-4)); apply (proj2 (p10_le _ _)); lia).
  assert (Hh : (eta p <= tau * (1 # 100))%Q).
  { unfold tau. change (1 # 100)%Q with (p10 (-2)). rewrite <- p10_add. unfold Newton_proofs.eta. apply (proj2 (p10_le _ _)).
    destruct Hpd as [[-> _]|Hpd]; lia. }
  destruct (eta_small c p ltac:(lia)) as [E0 _].
  destruct (sides tau x s w a b T0 T1 (proj1 Ns) (proj1 Nw) HS HW Ha Hb Hcl) as [C1 C2].
  destruct (sqrt_step_spec c Hc Hk mem i x1 s1 w1 p a b tau Hmem N1 N2 N3 Sx Ss Sw eq_refl Px Pw Hp) as (s' & w' & a' & b' & R1 & R2 & R3 & R4 & R5 & R6 & R7 & R8 & R9 & R10 & R11); auto; try lra.
  rewrite R1. rewrite M1 in R8.
  destruct (coarse a b a' b' (eta p) tau) as [G1 G2]; auto; try lra.
  destruct (phase_step d p a b a' b' ltac:(lia) E0 Hp Hpd Hph R10 R11) as [G3 G4].
  destruct (Z_lt_le_dec (d * 2) (Z.of_nat n * edc c)) as [D|D].
  - destruct (IH (i + 4)%nat (d * 2) x1 s' w' a' b') as (sf & af & F1 & F2 & F3 & F4 & F5); auto; try lia.
    { clear - Hfuel. rewrite Nat2Z.inj_succ, Z.pow_succ_r in Hfuel by lia. lia. }
    exists sf, af. auto.
  - assert (Pn : p = n).
    { destruct Hpd as [[C _]|C]; auto. exfalso. assert (edc c * (Z.of_nat p - 1) <= edc c * (Z.of_nat n - 1)) by (apply Z.mul_le_mono_nonneg_l; clear - He Hp; lia). clear - H C D He. lia. }
    cbn [sqrt_loop]. change (ed L) with (edc c). replace (d * 2 <? Z.of_nat n * edc c) with false by (clear - D; lia).
    exists s', a'. split; auto. split; auto. split; auto. split; auto.
    destruct (G4 Pn) as [G|G]; auto. exfalso. rewrite Pn in G. clear - G D He. lia.
Qed.
End SL.
