(** Fft_proofs.v - the carry release after the FFT: what the limbs denote when the transform delivers the
    convolution. *)
From Verif Require Export Mul_proofs Laws_proofs Float_proofs Spec_Fft.
From Coq Require Import Lqa.
Local Open Scope Z_scope.

(** Horner sums from the most significant coefficient. *)
Fixpoint horner (h : Z) (f : nat -> Z) (k : nat) : Z :=
  match k with O => 0 | S i => h * horner h f i + f i end.

Lemma horner_ext h f g k : (forall i, (i < k)%nat -> f i = g i) -> horner h f k = horner h g k.
Proof.
  induction k as [|k IH]; intros H; cbn [horner]; auto.
  rewrite IH, (H k); auto.
Qed.
Lemma horner_lin h x f g k : horner h (fun i => x * f i + g i) k = x * horner h f k + horner h g k.
Proof. induction k as [|k IH]; cbn [horner]; [lia|rewrite IH; ring]. Qed.
Lemma horner_shift h f k : horner h (fun i => match i with O => 0 | S j => f j end) (S k) = horner h f k.
Proof. induction k as [|k IH]; [cbn; lia|]. cbn [horner] in *. rewrite IH. reflexivity. Qed.
Lemma horner_nth h l k : (length l <= k)%nat ->
  horner h (fun i => nth i l 0) k = limbs_value h l * h ^ Z.of_nat (k - length l).
Proof.
  intros H. replace k with (length l + (k - length l))%nat at 1 by lia.
  generalize (k - length l)%nat as m. clear H. intros m. induction m as [|m IH].
  - rewrite Nat.add_0_r. change (Z.of_nat 0) with 0. rewrite Z.pow_0_r, Z.mul_1_r.
    induction l as [|x l IH] using rev_ind; [reflexivity|].
    rewrite app_length. cbn [length]. rewrite Nat.add_1_r. cbn [horner].
    rewrite (horner_ext h _ (fun i => nth i l 0)) by (intros; apply app_nth1; auto).
    rewrite IH. rewrite app_nth2, Nat.sub_diag by lia. cbn [nth].
    rewrite limbs_value_app. cbn [limbs_value length]. change (Z.of_nat 1) with 1. change (Z.of_nat 0) with 0.
    rewrite Z.pow_0_r, Z.pow_1_r. ring.
  - rewrite Nat.add_succ_r. cbn [horner]. rewrite IH, nth_overflow by lia. rewrite pow_succ_nat. ring.
Qed.
Lemma horner_conv h la lb m : (length la + length lb <= m + 1)%nat -> (1 <= length lb)%nat ->
  horner h (conv la lb) m = limbs_value h la * limbs_value h lb * h ^ Z.of_nat (m + 1 - length la - length lb).
Proof.
  revert m. induction la as [|x la IH]; intros m Hm Hb.
  - cbn [limbs_value]. rewrite !Z.mul_0_l. clear.
    induction m as [|m IH]; cbn [horner]; [lia|rewrite IH; cbn; lia].
  - cbn [length] in Hm. destruct m as [|m]; [lia|].
    rewrite (horner_ext h _ (fun k => x * nth k lb 0 + match k with O => 0 | S k' => conv la lb k' end)) by (intros; reflexivity).
    rewrite horner_lin, horner_shift, horner_nth, IH by lia.
    cbn [limbs_value length].
    replace (S m + 1 - S (length la) - length lb)%nat with (m + 1 - length la - length lb)%nat by lia.
    set (k := (m + 1 - length la - length lb)%nat).
    replace (S m - length lb)%nat with (length la + k)%nat by lia.
    rewrite Nat2Z.inj_add, Z.pow_add_r by lia. ring.
Qed.
Lemma convolution_conv a b k : convolution a b k = conv a b k.
Proof. rewrite conv_csum. reflexivity. Qed.
Lemma horner_split h f a b : horner h f (a + b) = horner h f a * h ^ Z.of_nat b + horner h (fun i => f (a + i)%nat) b.
Proof.
  induction b as [|b IH]; [rewrite Nat.add_0_r; change (Z.of_nat 0) with 0; cbn [horner]; rewrite Z.pow_0_r; ring|].
  rewrite Nat.add_succ_r. cbn [horner]. rewrite IH, pow_succ_nat. ring.
Qed.
Lemma horner_le h f M k : 1 <= h -> (forall i, (i < k)%nat -> 0 <= f i <= M * (h - 1)) ->
  0 <= horner h f k <= M * (h ^ Z.of_nat k - 1).
Proof.
  intros Hh. induction k as [|k IH]; intros H; [cbn [horner]; change (Z.of_nat 0) with 0; rewrite Z.pow_0_r; lia|].
  cbn [horner]. rewrite pow_succ_nat. specialize (IH ltac:(intros; apply H; lia)). specialize (H k ltac:(lia)).
  set (p := h ^ Z.of_nat k) in *. set (s := horner h f k) in *. clearbody p s.
  split; [nia|]. transitivity (h * (M * (p - 1)) + M * (h - 1)); [nia|]. ring_simplify. lia.
Qed.

Section L.
Variable L : limb_t.
Notation B := (mask L).
Notation h := (mask_half L).
Notation V := (limbs_value B).
Notation ok := (digits_ok B).
Notation P n := (B ^ Z.of_nat n).

Lemma half_sq : h * h = B. Proof. destruct L; reflexivity. Qed.
Lemma half_pos : 10 <= h <= 10000. Proof. destruct L; cbn; lia. Qed.

Lemma half_length u : length (half_limbs L u) = (2 * length u)%nat.
Proof. induction u as [|x u IH]; [reflexivity|]. cbn [half_limbs flat_map app length]. fold (half_limbs L u). lia. Qed.
Lemma half_ok u : ok u -> digits_ok h (half_limbs L u).
Proof.
  pose proof half_pos as H. pose proof half_sq as Hs. induction 1 as [|x u Hx Hu IH]; [constructor|].
  cbn [half_limbs flat_map app]. apply digits_ok_cons. split; [|apply digits_ok_cons; split; [|exact IH]].
  - split; [apply Z.div_pos; lia|apply Z.div_lt_upper_bound; lia].
  - apply Z.mod_pos_bound. lia.
Qed.
Lemma half_value u : limbs_value h (half_limbs L u) = V u.
Proof.
  pose proof half_pos as H. induction u as [|x u IH]; [reflexivity|].
  cbn [half_limbs flat_map app limbs_value length]. fold (half_limbs L u). rewrite IH, half_length.
  rewrite pow_succ_nat. replace (h ^ Z.of_nat (2 * length u)) with (P (length u)).
  2:{ rewrite Nat2Z.inj_mul. change (Z.of_nat 2) with 2. rewrite Z.pow_mul_r, Z.pow_2_r, half_sq by lia. reflexivity. }
  pose proof (Z.div_mod x h ltac:(lia)) as D. set (p := P (length u)) in *. clearbody p.
  rewrite Z.add_assoc. f_equal. rewrite D at 3. ring.
Qed.

(** Coefficients of the half-limb convolution are bounded. *)
Lemma conv_bound a b k : digits_ok h a -> digits_ok h b -> 0 <= conv a b k <= Z.of_nat (length a) * ((h - 1) * (h - 1)).
Proof.
  intros Ha Hb. pose proof half_pos as H. revert k. induction Ha as [|x a Hx Ha IH]; intros k; [cbn; lia|].
  cbn [conv length]. rewrite Nat2Z.inj_succ.
  assert (Hn : 0 <= nth k b 0 <= h - 1).
  { destruct (nth_in_or_default k b 0) as [I|E]; [|rewrite E; lia]. unfold digits_ok in Hb. rewrite Forall_forall in Hb.
    specialize (Hb _ I). cbn beta in Hb. lia. }
  set (y := nth k b 0) in *. assert (Hxy : 0 <= x * y <= (h - 1) * (h - 1)) by (clear - Hx Hn; nia).
  set (xy := x * y) in *. set (m := (h - 1) * (h - 1)) in *.
  rewrite Z.mul_succ_l. set (N := Z.of_nat (length a) * m) in *.
  destruct k as [|k'].
  - assert (0 <= N) by (specialize (IH O); lia). lia.
  - specialize (IH k'). lia.
Qed.

(** The carry loop computes the truncated Horner sum exactly. *)
Lemma release_spec x M : M * h < 2 ^ 64 -> forall cnt carry acc,
  (forall i, 0 <= x i <= M * (h - 1)) -> 0 <= carry <= M -> ok acc ->
  exists r c', fft_release L x cnt carry acc = (r, c') /\ length r = (cnt + length acc)%nat /\ ok r /\ 0 <= c' <= M /\
    V r + c' * P (cnt + length acc) = V acc + P (length acc) * (horner h x (2 * cnt - 1) + carry).
Proof.
  intros HM. pose proof half_pos as H. pose proof half_sq as Hs.
  assert (Hfit : forall t, 0 <= t < h -> ucast (lbits L) t = t).
  { intros t Ht. apply ucast_id. clear - Ht. destruct L; cbn in *; lia. }
  assert (HfitB : forall t, 0 <= t < B -> ucast (lbits L) t = t).
  { intros t Ht. apply ucast_id. clear - Ht. destruct L; cbn in *; lia. }
  induction cnt as [|j IH]; intros carry acc Hx Hc Hacc.
  { cbn [fft_release]. exists acc, carry. change (2 * 0 - 1)%nat with O. cbn [horner].
    cbn [Nat.add]. split; [reflexivity|]. split; [reflexivity|]. split; [exact Hacc|]. split; [exact Hc|]. ring. }
  assert (HM0 : 0 <= M) by (clear - Hc; lia).
  cbn [fft_release]. cbv zeta.
  set (s1 := x (2 * j)%nat + carry).
  set (yhi := if (j =? 0)%nat then 0 else x (2 * j - 1)%nat).
  assert (B1 : 0 <= s1 <= M * h).
  { pose proof (Hx (2 * j)%nat). unfold s1. clear - H0 Hc. split; [lia|]. replace (M * h) with (M * (h - 1) + M) by ring. lia. }
  assert (Hy : 0 <= yhi <= M * (h - 1)).
  { unfold yhi. destruct (j =? 0)%nat; [clear - HM0 H; nia|auto]. }
  rewrite (ucast_id 64 s1) by (clear - B1 HM; lia).
  assert (D1 : s1 = h * (s1 / h) + s1 mod h) by (apply Z.div_mod; lia).
  pose proof (Z.mod_pos_bound s1 h ltac:(lia)) as R1.
  assert (Q1 : 0 <= s1 / h <= M).
  { split; [apply Z.div_pos; lia|]. apply Z.div_le_upper_bound; lia. }
  set (q1 := s1 / h) in *. set (r1 := s1 mod h) in *.
  assert (K1 : 0 <= q1 * h <= s1) by (clear - D1 R1 Q1 H; nia).
  rewrite (ucast_id 64 (q1 * h)) by (clear - K1 B1 HM; lia).
  replace (s1 - q1 * h) with r1 by (clear - D1; lia).
  rewrite (ucast_id 64 r1) by (clear - R1 H; lia). rewrite (Hfit r1 R1).
  set (s2 := yhi + q1).
  assert (B2 : 0 <= s2 <= M * h).
  { unfold s2. split; [lia|]. replace (M * h) with (M * (h - 1) + M) by ring. lia. }
  rewrite (ucast_id 64 s2) by (clear - B2 HM; lia).
  assert (D2 : s2 = h * (s2 / h) + s2 mod h) by (apply Z.div_mod; lia).
  pose proof (Z.mod_pos_bound s2 h ltac:(lia)) as R2.
  assert (Q2 : 0 <= s2 / h <= M).
  { split; [apply Z.div_pos; lia|]. apply Z.div_le_upper_bound; lia. }
  set (q2 := s2 / h) in *. set (r2 := s2 mod h) in *.
  assert (K2 : 0 <= q2 * h <= s2) by (clear - D2 R2 Q2 H; nia).
  rewrite (ucast_id 64 (q2 * h)) by (clear - K2 B2 HM; lia).
  replace (s2 - q2 * h) with r2 by (clear - D2; lia).
  rewrite (ucast_id 64 r2) by (clear - R2 H; lia). rewrite (Hfit r2 R2).
  assert (Z1 : 0 <= r2 * h) by (clear - R2 H; nia).
  assert (Z2 : r2 * h + r1 < B) by (rewrite <- Hs; clear - R1 R2 H; nia).
  rewrite (HfitB (r2 * h)) by lia. rewrite (HfitB (r2 * h + r1)) by lia.
  destruct (IH q2 (r2 * h + r1 :: acc) Hx Q2) as (r & c' & E & Hl & Hok & Hc' & HV).
  { apply digits_ok_cons. split; [lia|auto]. }
  exists r, c'. split; [exact E|]. cbn [length] in *.
  split; [lia|]. split; [auto|]. split; [auto|].
  replace (S j + length acc)%nat with (j + S (length acc))%nat by lia. rewrite HV.
  cbn [limbs_value]. rewrite pow_succ_nat. set (p := P (length acc)). set (va := V acc). rewrite <- Hs.
  assert (EH : horner h x (2 * S j - 1) = h * (h * horner h x (2 * j - 1) + yhi) + x (2 * j)%nat).
  { replace (2 * S j - 1)%nat with (S (2 * j)) by (clear; lia). cbn [horner]. f_equal. f_equal.
    unfold yhi. destruct (Nat.eqb_spec j 0) as [->|Nj]; [cbn; lia|].
    replace (2 * j)%nat with (S (2 * j - 1)) at 1 by (clear - Nj; lia). reflexivity. }
  rewrite EH. set (g := horner h x (2 * j - 1)) in *.
  transitivity (va + p * (h * (h * g + (h * q2 + r2)) + r1)); [ring|].
  rewrite <- D2. unfold s2. transitivity (va + p * (h * (h * g + yhi) + (h * q1 + r1))); [ring|].
  rewrite <- D1. unfold s1. ring.
Qed.

(** The top half of the product, with the columns below it left out. *)
Lemma release_product u v x : ok u -> ok v -> length u = length v -> (1 <= length u)%nat ->
  Z.of_nat (length u) < 2 ^ 32 ->
  (forall k, (k <= 2 * length u - 2)%nat -> x k = convolution (half_limbs L u) (half_limbs L v) k) ->
  exists r, fst (fft_release L x (length u) 0 []) = r /\ length r = length u /\ ok r /\
    V r = horner h (conv (half_limbs L u) (half_limbs L v)) (2 * length u - 1) /\
    V r * P (length u) <= V u * V v < (V r + 2 * Z.of_nat (length u) * h) * P (length u).
Proof.
  intros Hu Hv Hl Hn Hsz Hx. set (p := length u) in *. pose proof half_pos as H. pose proof half_sq as Hs.
  pose proof (half_ok u Hu) as Ou. pose proof (half_ok v Hv) as Ov.
  set (a := half_limbs L u) in *. set (b := half_limbs L v) in *.
  assert (La : length a = (2 * p)%nat) by apply half_length.
  assert (Lb : length b = (2 * p)%nat) by (unfold b; rewrite half_length; lia).
  set (cc := conv a b).
  assert (Hcc : forall i, 0 <= cc i <= (2 * Z.of_nat p * (h - 1)) * (h - 1)).
  { intros i. pose proof (conv_bound a b i Ou Ov) as Hb. rewrite La in Hb. unfold cc. lia. }
  set (M := 2 * Z.of_nat p * (h - 1)) in *.
  assert (HMpos : 0 <= M) by (unfold M; nia).
  assert (EQ : fft_release L x p 0 [] = fft_release L cc p 0 []).
  { assert (G : forall cnt, (cnt <= p)%nat -> forall cy acc, fft_release L x cnt cy acc = fft_release L cc cnt cy acc).
    { induction cnt as [|j IH]; intros Hj cy acc; [reflexivity|]. cbn [fft_release]. cbv zeta.
      rewrite (Hx (2 * j)%nat), convolution_conv by lia. fold cc.
      destruct (Nat.eqb_spec j 0); [apply IH; lia|].
      rewrite (Hx (2 * j - 1)%nat), convolution_conv by lia. apply IH. lia. }
    apply G. lia. }
  destruct (release_spec cc M ltac:(unfold M; nia) p 0 [] Hcc ltac:(lia) ltac:(constructor)) as (r & c' & E & Hlr & Hok & Hc' & HV).
  rewrite EQ, E. cbn [fst]. exists r. split; [reflexivity|]. cbn [length] in *. rewrite Nat.add_0_r in *.
  split; [auto|]. split; [auto|].
  cbn [limbs_value] in HV. change (Z.of_nat 0) with 0 in HV. rewrite Z.pow_0_r in HV.
  assert (HUV : V u * V v = horner h cc (2 * p - 1 + 2 * p)).
  { unfold cc. rewrite horner_conv by lia. unfold a, b. rewrite !half_value, !half_length.
    replace (2 * p - 1 + 2 * p + 1 - 2 * length u - 2 * length v)%nat with O by (fold p; lia).
    change (Z.of_nat 0) with 0. rewrite Z.pow_0_r. ring. }
  rewrite horner_split in HUV.
  assert (HPB : h ^ Z.of_nat (2 * p) = P p).
  { rewrite Nat2Z.inj_mul. change (Z.of_nat 2) with 2. rewrite Z.pow_mul_r, Z.pow_2_r, Hs by lia. reflexivity. }
  rewrite HPB in HUV.
  destruct (horner_le h (fun i => cc (2 * p - 1 + i)%nat) M (2 * p) ltac:(lia) ltac:(intros; apply Hcc)) as (T1 & T2).
  rewrite HPB in T2.
  assert (Pp : 0 < P p) by (apply pow_pos_nat; rewrite <- Hs; nia).
  pose proof (limbs_value_bound B u (mask_pos L) Hu) as Bu. pose proof (limbs_value_bound B v (mask_pos L) Hv) as Bv.
  rewrite <- Hl in Bv. fold p in Bu, Bv.
  assert (Huv : V u * V v < P p * P p) by (clear - Bu Bv; nia).
  pose proof (limbs_value_bound B r (mask_pos L) Hok) as Br. rewrite Hlr in Br.
  set (R := horner h cc (2 * p - 1)) in *. set (T := horner h (fun i => cc (2 * p - 1 + i)%nat) (2 * p)) in *.
  assert (HR : R < P p) by (clear - HUV T1 Huv Pp; nia).
  assert (C0 : c' = 0) by (clear - HV HR Hc' Br Pp; nia).
  subst c'. assert (ER : V r = R) by lia. split; [auto|]. rewrite ER, HUV.
  set (pp := P p) in *. clearbody T R pp. unfold M in T2. clear - T1 T2 Pp H Hn.
  split; [lia|]. nia.
Qed.

End L.

(** * Rounding of the transform output *)
Lemma fl_err_any P q : 2 <= P -> (Qabs (fl P q - q) <= p2 (- P) * Qabs q)%Q.
Proof.
  intros HP. destruct (Qlt_le_dec q 0) as [Hn|Hn].
  - assert (E : (fl P q == - fl P (- q))%Q).
    { unfold fl. destruct (Qeq_bool q 0) eqn:E0; [apply Qeq_bool_iff in E0; lra|].
      destruct (Qeq_bool (- q) 0) eqn:E1; [apply Qeq_bool_iff in E1; lra|].
      destruct (Qle_bool 0 q) eqn:E2; [apply Qle_bool_iff in E2; lra|].
      destruct (Qle_bool 0 (- q)) eqn:E3; [rewrite !Qred_correct; reflexivity|].
      assert (Qle_bool 0 (- q) = true) by (apply Qle_bool_iff; lra). congruence. }
    rewrite E. setoid_replace (- fl P (- q) - q)%Q with (- (fl P (- q) - - q))%Q by ring.
    rewrite Qabs_opp. rewrite (Qabs_neg q) by lra. apply fl_err; [auto|lra].
  - rewrite (Qabs_pos q) by auto. apply fl_err; auto.
Qed.

Lemma floor_between q k : (inject_Z k <= q)%Q -> (q < inject_Z (k + 1))%Q -> Qfloor q = k.
Proof.
  intros H1 H2. pose proof (Qfloor_le q) as F1. pose proof (Qlt_floor q) as F2.
  apply Z.le_antisymm.
  - apply Z.lt_succ_r. rewrite Zlt_Qlt. eapply Qle_lt_trans; [exact F1|]. unfold Z.succ. exact H2.
  - apply Z.lt_succ_r. rewrite Zlt_Qlt. eapply Qle_lt_trans; [exact H1|]. unfold Z.succ. exact F2.
Qed.

Lemma fft_round_exact P m q k : 8 <= P <= 64 -> 2 <= m -> 0 <= k < 2 ^ (P - 4) ->
  (Qabs (q - inject_Z (m / 2) * inject_Z k) <= inject_Z (m / 2) * (1 # 4))%Q -> fft_round P m q = k.
Proof.
  intros HP Hm Hk Hq. unfold fft_round.
  assert (Hm2 : 1 <= m / 2) by (apply Z.div_le_lower_bound; lia).
  set (N := inject_Z (m / 2)) in *. assert (HN : (0 < N)%Q) by (unfold N; change 0%Q with (inject_Z 0); rewrite <- Zlt_Qlt; lia).
  set (t := (q / N)%Q). assert (Et : (q == N * t)%Q) by (unfold t; field; lra).
  assert (Ht : (Qabs (t - inject_Z k) <= 1 # 4)%Q).
  { rewrite Et in Hq. setoid_replace (N * t - N * inject_Z k)%Q with (N * (t - inject_Z k))%Q in Hq by ring.
    rewrite Qabs_Qmult, (Qabs_pos N) in Hq by lra. apply Qmult_le_l in Hq; auto. }
  apply Qabs_Qle_condition in Ht. set (kq := inject_Z k) in *.
  assert (Kq0 : (0 <= kq)%Q) by (unfold kq; change 0%Q with (inject_Z 0); rewrite <- Zle_Qle; lia).
  assert (Kq : (p2 (- P) * (kq + 1) <= 1 # 16)%Q).
  { assert (A : (kq + 1 <= p2 (P - 4))%Q).
    { rewrite p2_Z by lia. change 1%Q with (inject_Z 1). unfold kq. rewrite <- (inject_Z_plus k 1), <- Zle_Qle. lia. }
    apply Qle_trans with (p2 (- P) * p2 (P - 4))%Q; [apply Qmult_le_l; auto; apply p2_pos|].
    rewrite <- p2_add. replace (- P + (P - 4)) with (-4) by ring. apply Qle_refl. }
  pose proof (p2_pos (- P)) as Hp.
  pose proof (fl_err_any P t ltac:(lia)) as E1. set (t1 := fl P t) in *.
  assert (A1 : (Qabs (t1 - t) <= 1 # 16)%Q).
  { eapply Qle_trans; [exact E1|]. eapply Qle_trans; [|exact Kq]. apply Qmult_le_l; auto. apply Qabs_Qle_condition. split; lra. }
  apply Qabs_Qle_condition in A1.
  pose proof (fl_err_any P (t1 + (1 # 2)) ltac:(lia)) as E2. set (s := fl P (t1 + (1 # 2))) in *.
  assert (A2 : (Qabs (s - (t1 + (1 # 2))) <= 1 # 16)%Q).
  { eapply Qle_trans; [exact E2|]. eapply Qle_trans; [|exact Kq]. apply Qmult_le_l; auto. apply Qabs_Qle_condition. split; lra. }
  apply Qabs_Qle_condition in A2.
  assert (F : Qfloor s = k).
  { apply floor_between; [fold kq; lra|]. rewrite inject_Z_plus. fold kq. change (inject_Z 1) with 1%Q. lra. }
  rewrite F. apply ucast_id. split; [lia|]. apply Z.lt_le_trans with (2 ^ (P - 4)); [lia|]. apply Z.pow_le_mono_r; lia.
Qed.

Lemma a000079_pos v : 8 <= a000079 v <= 2 ^ 31 /\ (v <= 2 ^ 29 -> a000079 v <= 2 ^ 29).
Proof.
  unfold a000079, lower_bound.
  destruct (find (fun x => v <=? x) a000079_table) eqn:F.
  - pose proof F as F0. apply find_some in F. destruct F as [F _].
    assert (Hr : 8 <= z <= 2 ^ 30).
    { assert (A : Forall (fun x => 8 <= x <= 2 ^ 30) a000079_table) by (repeat constructor; cbn; discriminate).
      rewrite Forall_forall in A. apply A; auto. }
    split; [lia|]. intros Hv. cbn in F0. 
    repeat match type of F0 with context[v <=? ?x] => destruct (v <=? x) eqn:?; [injection F0 as <-; cbn; lia|] end.
    discriminate.
  - split; [cbn; lia|]. intros Hv. exfalso.
    assert (I : In (2 ^ 29) a000079_table) by (cbn; tauto).
    pose proof (find_none _ _ F _ I) as N. cbn beta in N. lia.
Qed.
Lemma n_fft_pos p : Z.of_nat p <= 2 ^ 29 -> 2 <= n_fft p.
Proof.
  intros H. unfold n_fft. destruct (a000079_pos (Z.of_nat p)) as [A B]. specialize (B H).
  rewrite ucast_id; [lia|]. change (2 ^ 29) with 536870912 in *. change (2 ^ 32) with 4294967296. lia.
Qed.

Lemma mul_loop_fft_spec L P af u v : 8 <= P <= 64 -> digits_ok (mask L) u -> digits_ok (mask L) v ->
  length u = length v -> (1 <= length u)%nat -> Z.of_nat (length u) <= 2 ^ 29 ->
  2 * Z.of_nat (length u) * mask L < 2 ^ (P - 4) -> transform_ok L af u v ->
  let r := mul_loop_fft L P af (length u) in
  length r = length u /\ digits_ok (mask L) r /\
    limbs_value (mask L) r = horner (mask_half L) (conv (half_limbs L u) (half_limbs L v)) (2 * length u - 1) /\
    limbs_value (mask L) r * mask L ^ Z.of_nat (length u) <= limbs_value (mask L) u * limbs_value (mask L) v
      < (limbs_value (mask L) r + 2 * Z.of_nat (length u) * mask_half L) * mask L ^ Z.of_nat (length u).
Proof.
  intros HP Hu Hv Hl Hn Hsz Hfit Ht. cbv zeta. unfold mul_loop_fft.
  destruct (release_product L u v (fun j => fft_round P (n_fft (length u)) (af j)) Hu Hv Hl Hn) as (r & E & R).
  { change (2 ^ 29) with 536870912 in Hsz. change (2 ^ 32) with 4294967296. lia. }
  { intros k Hk. apply fft_round_exact; auto.
    - apply n_fft_pos; auto.
    - rewrite convolution_conv. pose proof (half_ok L u Hu) as Ou. pose proof (half_ok L v Hv) as Ov.
      pose proof (conv_bound L _ _ k Ou Ov) as Hb. rewrite half_length in Hb. rewrite Nat2Z.inj_mul in Hb. change (Z.of_nat 2) with 2 in Hb.
      pose proof (half_sq L) as Hs. pose proof (half_pos L) as Hh. rewrite <- Hs in Hfit.
      set (N := 2 * Z.of_nat (length u)) in *. assert (0 <= N) by (unfold N; lia). 
      split; [lia|]. eapply Z.le_lt_trans; [|exact Hfit]. clear - Hb Hh H. 
      transitivity (N * ((mask_half L - 1) * (mask_half L - 1))); [lia|]. apply Z.mul_le_mono_nonneg_l; auto. nia. }
  rewrite E. exact R.
Qed.

Section OBJ.
Variable c : cfg.
Variable FP : Z.
Notation L := (c_limb c).
Notation B := (mask L).
Notation h := (mask_half L).
Notation V := (limbs_value B).
Notation P n := (B ^ Z.of_nat n).
Notation E := (ebits (c_expo c)).
Notation n := (nel c).
Hypothesis Hc : cfg_ok c.
Hypothesis Hf : fft_ok c FP.

Lemma fft_size : Z.of_nat n <= 2 ^ 29 /\ 2 * Z.of_nat n * B < 2 ^ (FP - 4) /\ (1793 <= n)%nat.
Proof.
  destruct Hf as (F1 & F2 & F3). pose proof (nel_Z c Hc) as HZ. rewrite HZ. unfold edc in F3. rewrite <- mask_pow in F3.
  change elems_for_fft with 1793 in F2. split; [lia|]. split; [exact F3|]. lia.
Qed.

(** The limbs left by mul_loop_fft for full-precision operands with non-zero leading limbs. *)
Lemma fft_limbs af u v : length u = n -> length v = n -> digits_ok B u -> digits_ok B v ->
  transform_ok L af u v ->
  let r := mul_loop_fft L FP af n in
  length r = n /\ digits_ok B r /\
  V r * P n <= V u * V v < (V r + 2 * Z.of_nat n * h) * P n /\
  (nth 0 u 0 <> 0 -> nth 0 v 0 <> 0 -> P (n - 2) <= V r) /\ (V u * V v = 0 -> V r = 0).
Proof.
  intros Lu Lv Ou Ov Ht. destruct fft_size as (S1 & S2 & S3). destruct Hf as (F1 & _).
  pose proof (mul_loop_fft_spec L FP af u v F1 Ou Ov ltac:(lia) ltac:(lia) ltac:(lia) ltac:(rewrite Lu; exact S2) Ht) as R.
  cbv zeta in R. rewrite Lu in R. destruct R as (R1 & R2 & R3 & R4). cbv zeta. split; [auto|]. split; [auto|]. split; [exact R4|].
  pose proof (half_pos L) as Hh. pose proof (half_sq L) as Hs. pose proof (mask_pos L) as HB.
  split.
  - intros Zu Zv. rewrite R3.
    set (cc := conv (half_limbs L u) (half_limbs L v)).
    assert (Hcc : forall i, 0 <= cc i) by (intros i; apply (conv_bound L _ _ i (half_ok L u Ou) (half_ok L v Ov))).
    replace (2 * n - 1)%nat with (3 + (2 * n - 4))%nat by lia. rewrite horner_split.
    assert (T0 : forall f k, (forall i, 0 <= f i) -> 0 <= horner h f k).
    { clear - Hh. intros f k Hff. induction k as [|k IH]; cbn [horner]; [lia|]. specialize (Hff k). nia. }
    pose proof (T0 (fun i => cc (3 + i)%nat) (2 * n - 4)%nat ltac:(intros; apply Hcc)) as T.
    assert (HPB : h ^ Z.of_nat (2 * n - 4) = P (n - 2)).
    { replace (Z.of_nat (2 * n - 4)) with (2 * Z.of_nat (n - 2)) by lia. rewrite Z.pow_mul_r, Z.pow_2_r, Hs by lia. reflexivity. }
    rewrite HPB. pose proof (pow_pos_nat B (n - 2) HB) as HPp.
    assert (T3 : 1 <= horner h cc 3).
    { destruct u as [|u0 u']; [cbn in Lu; lia|]. destruct v as [|v0 v']; [cbn in Lv; lia|]. cbn [nth] in Zu, Zv.
      apply digits_ok_cons in Ou. apply digits_ok_cons in Ov. destruct Ou as [Hu0 Ou]. destruct Ov as [Hv0 Ov].
      assert (EC : forall k, cc k = conv ((u0 / h) :: (u0 mod h) :: half_limbs L u') ((v0 / h) :: (v0 mod h) :: half_limbs L v') k)
        by reflexivity.
      cbn [horner]. pose proof (Hcc 0%nat) as H0. pose proof (Hcc 1%nat) as H1. pose proof (Hcc 2%nat) as H2.
      assert (G : 1 <= cc 0%nat \/ 1 <= cc 1%nat \/ 1 <= cc 2%nat).
      { pose proof (Z.div_mod u0 h ltac:(lia)) as Du. pose proof (Z.div_mod v0 h ltac:(lia)) as Dv.
        pose proof (Z.mod_pos_bound u0 h ltac:(lia)) as Mu. pose proof (Z.mod_pos_bound v0 h ltac:(lia)) as Mv.
        assert (Qu : 0 <= u0 / h) by (apply Z.div_pos; lia). assert (Qv : 0 <= v0 / h) by (apply Z.div_pos; lia).
        assert (H3 : forall w k, digits_ok B w -> 0 <= nth k (half_limbs L w) 0).
        { intros w k Ow. pose proof (half_ok L w Ow) as Oh. destruct (nth_in_or_default k (half_limbs L w) 0) as [I| ->]; [|lia].
          unfold digits_ok in Oh. rewrite Forall_forall in Oh. specialize (Oh _ I). cbn beta in Oh. lia. }
        pose proof (H3 u' 0%nat Ou) as Hu2. pose proof (H3 v' 0%nat Ov) as Hv2.
        rewrite (EC 0%nat), (EC 1%nat), (EC 2%nat). clear EC. clearbody cc. cbn [conv nth].
        set (qu := u0 / h) in *. set (qv := v0 / h) in *. set (mu := u0 mod h) in *. set (mv := v0 mod h) in *.
        assert (Au : 1 <= qu \/ qu = 0 /\ 1 <= mu) by (clear - Du Mu Qu Zu Hu0; destruct (Z.eq_dec qu 0) as [e|e]; [rewrite e in *; right; lia|left; lia]).
        assert (Av : 1 <= qv \/ qv = 0 /\ 1 <= mv) by (clear - Dv Mv Qv Zv Hv0; destruct (Z.eq_dec qv 0) as [e|e]; [rewrite e in *; right; lia|left; lia]).
        destruct Au as [Au|[Au1 Au]], Av as [Av|[Av1 Av]].
        - left. clear - Au Av. nia.
        - right; left. rewrite Av1. clear - Au Av. nia.
        - right; left. rewrite Au1. clear - Au Av. nia.
        - right; right. destruct (half_limbs L u') as [|w ?]; cbn [conv nth] in *; rewrite Au1; try rewrite Av1; clear - Au Av; nia. }
      clear - G H0 H1 H2 Hh. nia. }
    clear - T T3 HPp. nia.
  - intros Hz. rewrite Hz in R4. pose proof (pow_pos_nat B n HB) as HPp.
    pose proof (limbs_value_bound B _ HB R2) as Hb. clear - R4 HPp Hb. nia.
Qed.

(** The dispatch at full precision; a read past the end yields some value or is an error. *)
Lemma fft_dispatch_spec af beyond x v e : length (data x) = n -> length (data v) = n ->
  digits_ok B (data x) -> digits_ok B (data v) -> nth 0 (data x) 0 <> 0 -> nth 0 (data v) 0 <> 0 ->
  transform_ok L af (data x) (data v) ->
  exists r, length r = n /\ digits_ok B r /\ P (n - 2) <= V r /\
    V r * P n <= V (data x) * V (data v) < (V r + 2 * Z.of_nat n * h) * P n /\
    ((P (n - 1) <= V r /\ fft_dispatch c FP beyond af x e n = Some (mkDec r (scast E (e + edc c)) (dneg x) (dprec x))) \/
     (V r < P (n - 1) /\
      (beyond = None -> fft_dispatch c FP beyond af x e n = None) /\
      (forall g, beyond = Some g -> exists t, length t = n /\ digits_ok B t /\ V t = V r * B /\ nth 0 t 0 <> 0 /\
         fft_dispatch c FP beyond af x e n = Some (mkDec t e (dneg x) (dprec x))))).
Proof.
  intros Lx Lv Ox Ov Zx Zv Ht. destruct (fft_limbs af (data x) (data v) Lx Lv Ox Ov Ht) as (R1 & R2 & R3 & R4 & _).
  specialize (R4 Zx Zv). set (r := mul_loop_fft L FP af n) in *.
  exists r. split; [auto|]. split; [auto|]. split; [auto|]. split; [exact R3|].
  pose proof (mask_pos L) as HB. destruct fft_size as (_ & _ & Hn).
  unfold fft_dispatch. fold r.
  assert (Hsk : skipn n (data x) = []) by (rewrite <- Lx; apply skipn_all). rewrite Hsk, app_nil_r.
  destruct r as [|r0 t] eqn:Er; [cbn in R1; lia|]. cbn [nth length] in *.
  apply digits_ok_cons in R2. destruct R2 as [H0 Ot]. pose proof (limbs_value_bound B t HB Ot) as Bt.
  cbn [limbs_value]. assert (Lt : length t = (n - 1)%nat) by lia. rewrite Lt in *.
  pose proof (pow_pos_nat B (n - 1) HB) as HP1.
  destruct (Z.eqb_spec r0 0) as [E0|E0]; cbn [negb].
  - right. subst r0. split; [lia|]. rewrite Nat.min_id.
    assert (Hov : (1 + n <=? S (n - 1))%nat = false) by (apply Nat.leb_gt; lia). rewrite Hov.
    split; [intros ->; reflexivity|]. intros g ->.
    cbn [app skipn]. rewrite (firstn_all2 (t ++ [g])) by (rewrite app_length; cbn [length]; lia).
    rewrite (skipn_all2 (0 :: t)) by (cbn [length]; lia). rewrite app_nil_r, app_length. cbn [length].
    replace (length t + 1 - 1)%nat with (length t) by lia. rewrite firstn_app_exact by reflexivity.
    exists (t ++ [0]). split; [rewrite app_length; cbn [length]; lia|].
    split; [apply digits_ok_app; split; [auto|apply digits_ok_cons; split; [lia|constructor]]|].
    split; [rewrite limbs_value_app; cbn [limbs_value length]; change (Z.of_nat 1) with 1; rewrite Z.pow_1_r; ring|].
    split; [|reflexivity].
    destruct t as [|t0 t']; [cbn in Lt; lia|]. cbn [app nth]. intros ->.
    apply digits_ok_cons in Ot. destruct Ot as [_ Ot']. pose proof (limbs_value_bound B t' HB Ot') as Bt'.
    cbn [limbs_value length] in *. replace (length t') with (n - 2)%nat in * by lia. clear - R4 Bt'. lia.
  - left. split; [|reflexivity]. clear - H0 E0 HP1 Bt. nia.
Qed.

(** operator*= through the FFT: what the result is, and the strict (bounds-checked) outcome. *)
Lemma mul_fft_cases af beyond x v : normal c x -> normal c v -> iszero x = false -> iszero v = false ->
  isone_sign_neutral c x = false -> isone_sign_neutral c v = false ->
  - max_exp10_of (c_expo c) < dexp x + dexp v < max_exp10_of (c_expo c) ->
  transform_ok L af (data x) (data v) ->
  exists R, P (n - 2) <= R /\ R * P n <= V (data x) * V (data v) < (R + 2 * Z.of_nat n * h) * P n /\
   ((R < P (n - 1) /\ beyond = None /\ mul_fft c FP beyond af x v = None) \/
    exists z, mul_fft c FP beyond af x v = Some z /\ (P (n - 1) <= R \/ beyond <> None) /\ normal c z /\ iszero z = false /\
      dneg z = xorb (dneg x) (dneg v) /\
      (Qabs (value c z) == inject_Z R * p10 (low c (dexp x + dexp v + edc c)))%Q).
Proof.
  intros Hx Hv Zx Zv Ox Ov Hr Ht. unfold mul_fft. rewrite Zx, Zv. cbn [orb].
  change (isone_sign_neutral c (set_neg x false)) with (isone_sign_neutral c x). rewrite Ox, Ov.
  change (dexp (set_neg x false)) with (dexp x). change (dprec (set_neg x false)) with (dprec x).
  pose proof (max_exp10_bounds c) as (HM & HM2 & HM3). pose proof (E_ge8 c) as HE. pose proof (pow2E c) as H2E.
  destruct (mul_exp c x v Hx Hv ltac:(lia)) as (M1 & M2 & M3). cbv zeta in *. rewrite M1, M2.
  destruct (Z.leb_spec (max_exp10_of (c_expo c)) (dexp x + dexp v)) as [C1|_]; [lia|].
  destruct (Z.leb_spec (dexp x + dexp v) (- max_exp10_of (c_expo c))) as [C2|_]; [lia|].
  rewrite M3 by auto.
  destruct (normal_facts c Hc x Hx) as (Lx & Okx & Px & _). destruct (normal_facts c Hc v Hv) as (Lv & Okv & Pv & _).
  rewrite Px, Pv, Nat.min_id.
  assert (Zlx : nth 0 (data x) 0 <> 0) by (unfold iszero in Zx; lia).
  assert (Zlv : nth 0 (data v) 0 <> 0) by (unfold iszero in Zv; lia).
  destruct (fft_dispatch_spec af beyond (set_neg x false) v (dexp x + dexp v) Lx Lv Okx Okv Zlx Zlv Ht) as (r & R1 & R2 & R3 & R4 & R5).
  exists (V r). split; [auto|]. split; [exact R4|].
  pose proof (edc_pos c) as He. pose proof (nel_ge4 c Hc) as Hn4.
  pose proof Hx as (_ & _ & _ & Dx & _). pose proof Hv as (_ & _ & _ & Dv & _).
  pose proof (mask_pos L) as HB. pose proof (pow_pos_nat B (n - 1) HB) as HP1.
  pose proof (limbs_value_bound B r HB R2) as Hbr.
  cbn [set_neg dneg dprec] in R5.
  destruct R5 as [[Hlead ->]|(Hlt & HN & HS)].
  - right. rewrite (scast_id E (dexp x + dexp v + edc c)) by lia.
    set (z := set_neg (mkDec r (dexp x + dexp v + edc c) false (dprec x)) (xorb (dneg x) (dneg v))).
    assert (N0 : nth 0 r 0 <> 0).
    { destruct r as [|r0 t]; [cbn in R1; lia|]. cbn [nth]. intros ->. apply digits_ok_cons in R2. destruct R2 as [_ Ot].
      pose proof (limbs_value_bound B t HB Ot) as Bt. cbn [limbs_value length] in *. replace (length t) with (n - 1)%nat in Bt by lia. lia. }
    exists z. split; [reflexivity|]. split; [left; exact Hlead|]. split.
    { apply normal_intro; cbn [z set_neg data dexp dprec]; auto; [|lia]. repeat apply Z.divide_add_r; auto. apply Z.divide_refl. }
    split; [unfold iszero; cbn [z set_neg data]; lia|]. split; [reflexivity|].
    rewrite (value_low c z R1). cbn [z set_neg data dexp dneg].
    rewrite sc_abs, sgn_abs by lia. reflexivity.
  - destruct beyond as [g|]; [right|left; split; [auto|split; [auto|]; rewrite HN; auto]].
    destruct (HS g eq_refl) as (t & T1 & T2 & T3 & T4 & ->).
    set (z := set_neg (mkDec t (dexp x + dexp v) false (dprec x)) (xorb (dneg x) (dneg v))).
    exists z. split; [reflexivity|]. split; [right; discriminate|]. split.
    { apply normal_intro; cbn [z set_neg data dexp dprec]; auto; [|lia]. apply Z.divide_add_r; auto. }
    split; [unfold iszero; cbn [z set_neg data]; lia|]. split; [reflexivity|].
    rewrite (value_low c z T1). cbn [z set_neg data dexp dneg].
    rewrite sc_abs, sgn_abs, T3 by (rewrite T3; clear - Hbr HB; nia).
    replace (low c (dexp x + dexp v + edc c)) with (edc c + low c (dexp x + dexp v)) by (unfold low; ring).
    rewrite p10_add, (p10_Z (edc c)) by lia. rewrite inject_Z_mult. unfold edc. rewrite <- mask_pow. ring.
Qed.

Lemma fft_int_ineq S R : P (n - 2) <= R -> R * P n <= S < (R + 2 * Z.of_nat n * h) * P n ->
  (S - R * P n) * h * 10 ^ c_digits10 c < S * (2 * elem_number c).
Proof.
  intros HR HS. pose proof (elem_digits c) as Hd. pose proof (nel_Z c Hc) as HZ. pose proof (half_sq L) as Hs.
  pose proof (half_pos L) as Hh. pose proof (edc_pos c) as He. pose proof (nel_ge4 c Hc) as Hn4. pose proof (mask_pos L) as HB.
  assert (Hd0 : 0 <= c_digits10 c) by (destruct Hc; lia).
  assert (HPd : 10 ^ c_digits10 c * B <= P (n - 2)).
  { clear HR HS. rewrite Bpow by lia. rewrite (mask_pow L). rewrite <- Z.pow_add_r by (fold (edc c); lia).
    apply Z.pow_le_mono_r; [lia|]. fold (edc c). replace (Z.of_nat (n - 2)) with (elem_number c - 2) by lia. lia. }
  assert (HPd0 : 0 < 10 ^ c_digits10 c) by (apply Z.pow_pos_nonneg; lia).
  pose proof (pow_pos_nat B n HB) as HPn.
  assert (HN : 4 <= elem_number c) by lia. rewrite <- HZ in *.
  set (D := 10 ^ c_digits10 c) in *. set (Q := P (n - 2)) in *. set (T := P n) in *.
  set (N := Z.of_nat n) in *. rewrite <- Hs in HPd. set (hh := h) in *. clearbody D Q T N hh. clear - HR HS HPd HPd0 HPn HN Hh.
  assert (A1 : S - R * T < 2 * N * hh * T) by lia.
  assert (A2 : Q * T <= S) by (clear - HR HS HPn; nia).
  apply Z.lt_le_trans with (2 * N * hh * T * hh * D).
  - apply Z.mul_lt_mono_pos_r; [auto|]. apply Z.mul_lt_mono_pos_r; [lia|auto].
  - replace (2 * N * hh * T * hh * D) with ((D * (hh * hh)) * T * (2 * N)) by ring.
    apply Z.mul_le_mono_nonneg_r; [lia|]. apply Z.le_trans with (Q * T); [|auto]. apply Z.mul_le_mono_nonneg_r; [lia|auto].
Qed.

(** Accuracy in Q. *)
Lemma mul_fft_accurate af g x v : normal c x -> normal c v -> iszero x = false -> iszero v = false ->
  ~ is_one c x -> ~ is_nines c x -> ~ is_one c v -> ~ is_nines c v ->
  - max_exp10_of (c_expo c) < dexp x + dexp v < max_exp10_of (c_expo c) ->
  transform_ok L af (data x) (data v) ->
  exists z, mul_fft c FP (Some g) af x v = Some z /\ normal c z /\ iszero z = false /\
    (0 <= value c x * value c v * value c z)%Q /\
    (Qabs (value c z) <= Qabs (value c x * value c v))%Q /\
    ((Qabs (value c x * value c v) - Qabs (value c z)) * inject_Z h
      < Qabs (value c x * value c v) * (2 * inject_Z (elem_number c)) * p10 (- c_digits10 c))%Q.
Proof.
  intros Hx Hv Zx Zv O1 O2 O3 O4 Hr Ht.
  assert (Ox : isone_sign_neutral c x = false).
  { destruct (isone_sign_neutral c x) eqn:Ex; auto. apply (isone_iff c Hc x Hx Zx) in Ex. tauto. }
  assert (Ov : isone_sign_neutral c v = false).
  { destruct (isone_sign_neutral c v) eqn:Ex; auto. apply (isone_iff c Hc v Hv Zv) in Ex. tauto. }
  destruct (mul_fft_cases af (Some g) x v Hx Hv Zx Zv Ox Ov Hr Ht) as (R & HR & HS & [(_ & F & _)|(z & E & _ & Nz & Ez & Sz & Vz)]); [discriminate|].
  exists z. split; [auto|]. split; [auto|]. split; [auto|].
  destruct (normal_facts c Hc x Hx) as (Lx & Okx & _). destruct (normal_facts c Hc v Hv) as (Lv & Okv & _).
  destruct (normal_facts c Hc z Nz) as (Lz & Okz & _).
  pose proof (mask_pos L) as HB. pose proof (edc_pos c) as He. pose proof (nel_ge4 c Hc) as Hn4.
  pose proof (limbs_value_bound B _ HB Okx) as Bx. pose proof (limbs_value_bound B _ HB Okv) as Bv.
  pose proof (limbs_value_bound B _ HB Okz) as Bz.
  set (S := V (data x) * V (data v)) in *.
  set (W := p10 (low c (dexp x) + low c (dexp v))). assert (HW : (0 < W)%Q) by apply p10_pos.
  assert (Exv : (Qabs (value c x * value c v) == inject_Z S * W)%Q).
  { rewrite (value_low c x Lx), (value_low c v Lv). rewrite Qabs_Qmult, !sc_abs, !sgn_abs by (clear - Bx Bv; lia). unfold S, W. rewrite inject_Z_mult, p10_add. ring. }
  assert (EzW : (Qabs (value c z) == inject_Z (R * P n) * W)%Q).
  { rewrite Vz. unfold W. replace (low c (dexp x + dexp v + edc c)) with (edc c * Z.of_nat n + (low c (dexp x) + low c (dexp v))).
    2:{ unfold low. clear. lia. }
    rewrite p10_add, (p10_Z (edc c * Z.of_nat n)) by (clear - He; lia). rewrite inject_Z_mult, Bpow by (clear; lia). unfold edc. ring. }
  split.
  { rewrite (value_low c x Lx), (value_low c v Lv), (value_low c z Lz), Sz.
    setoid_replace (inject_Z (sgn (dneg x) * V (data x)) * p10 (low c (dexp x)) * (inject_Z (sgn (dneg v) * V (data v)) * p10 (low c (dexp v))) *
      (inject_Z (sgn (xorb (dneg x) (dneg v)) * V (data z)) * p10 (low c (dexp z))))%Q
      with (inject_Z (V (data x) * V (data v) * V (data z)) * (p10 (low c (dexp x)) * p10 (low c (dexp v)) * p10 (low c (dexp z))))%Q.
    2:{ rewrite !inject_Z_mult. destruct (dneg x), (dneg v); cbn [xorb sgn]; ring. }
    apply Qmult_le_0_compat.
    - change 0%Q with (inject_Z 0). rewrite <- Zle_Qle. clear - Bx Bv Bz. repeat apply Z.mul_nonneg_nonneg; lia.
    - repeat apply Qmult_le_0_compat; apply Qlt_le_weak, p10_pos. }
  split.
  { rewrite Exv, EzW. apply Qmult_le_compat_r; [rewrite <- Zle_Qle; lia|lra]. }
  rewrite Exv, EzW.
  pose proof (fft_int_ineq S R HR HS) as HI. clear HS HR Bx Bv Bz.
  rewrite Zlt_Qlt in HI. rewrite !inject_Z_mult in HI. rewrite inject_Z_mult.
  unfold Z.sub in HI. rewrite inject_Z_plus, inject_Z_opp, inject_Z_mult in HI.
  rewrite <- (p10_Z (c_digits10 c)) in HI by (destruct Hc; lia). change (inject_Z 2) with 2%Q in HI.
  assert (Hp : (p10 (c_digits10 c) * p10 (- c_digits10 c) == 1)%Q) by (rewrite <- p10_add, Z.add_opp_diag_r; reflexivity).
  pose proof (p10_pos (- c_digits10 c)) as Hp2.
  apply (Qmult_lt_compat_r _ _ (p10 (- c_digits10 c) * W)) in HI; [|apply Qmult_lt_0_compat; auto].
  set (s := inject_Z S) in *. set (rp := (inject_Z R * inject_Z (P n))%Q) in *. set (N := inject_Z (elem_number c)) in *.
  set (t := p10 (c_digits10 c)) in *. set (u := p10 (- c_digits10 c)) in *.
  setoid_replace ((s + - rp) * inject_Z h * t * (u * W))%Q with ((s + - rp) * inject_Z h * (t * u) * W)%Q in HI by ring.
  rewrite Hp in HI.
  setoid_replace ((s * W - rp * W) * inject_Z h)%Q with ((s + - rp) * inject_Z h * 1 * W)%Q by ring.
  eapply Qlt_le_trans; [exact HI|]. apply Qle_lteq. right. ring.
Qed.
End OBJ.
