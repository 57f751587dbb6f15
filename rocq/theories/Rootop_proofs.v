(** Rootop_proofs.v - the operations inside one pass of the root iteration, at reduced precision. *)
From Verif Require Export Sqrtop_proofs Pow_proofs Rootnum_proofs Div2_proofs.
From Coq Require Import Lqa.
Local Open Scope Z_scope.

Section RO.
Variable c : cfg.
Notation L := (c_limb c).
Notation B := (mask L).
Notation V := (limbs_value B).
Notation ok := (digits_ok B).
Notation P n := (B ^ Z.of_nat n).
Notation E := (ebits (c_expo c)).
Notation n := (nel c).
Notation M := (max_exp10_of (c_expo c)).
Notation wk := (wk c).
Notation mag := (mag c).
Notation eta := (eta c).
Notation nz := (nz c).
Notation zl := (zl c).
Notation sv := (sv c).
Hypothesis Hc : cfg_ok c.
Hypothesis Hk : newton_ok c.
Let HB : 0 < B := mask_pos L.

Definition dloss (p : nat) (u : Z) : Q := (inject_Z (2 * u) * p10 (- (edc c * (Z.of_nat p - 2))))%Q.

(** The scaled integer facts give the relative error. *)
Lemma rel_of_units (x z u U D Lo : Q) : (0 < u -> 0 < U -> 0 < x -> Lo * U <= x / u -> 0 < Lo ->
  - (D * U) <= z - x / u -> z - x / u <= D * U -> exists t, z == x / u * (1 + t) /\ Qabs t <= D / Lo)%Q.
Proof.
  intros u0 U0 x0 HL L0 H1 H2. assert (q0 : (0 < x / u)%Q) by (apply Qlt_shift_div_l; lra). set (q := (x / u)%Q) in *.
  exists ((z - q) / q)%Q. split; [field; lra|].
  assert (D0 : (0 <= D)%Q).
  { destruct (Qlt_le_dec D 0) as [C|C]; auto. exfalso. assert (D * U < 0 * U)%Q by (apply Qmult_lt_compat_r; auto). lra. }
  assert (K : (D * U <= D / Lo * q)%Q).
  { setoid_replace (D * U)%Q with (D / Lo * (Lo * U))%Q by (field; lra). rewrite !(Qmult_comm (D / Lo)). apply Qmult_le_compat_r; auto. apply Qle_shift_div_l; lra. }
  apply pm_bnd. split; [apply Qle_shift_div_l|apply Qle_shift_div_r]; auto; lra.
Qed.

Lemma div_nz bd x u p : nz x -> dprec x = p -> (3 <= p <= n)%nat -> 1 < u < B -> - M + edc c <= dexp x < M ->
  exists z t, div_sll c bd x u = Some z /\ nz z /\ dneg z = dneg x /\ dprec z = p /\ dexp x - edc c <= dexp z <= dexp x /\
    (mag z == mag x / inject_Z u * (1 + t))%Q /\ (Qabs t <= dloss p u)%Q.
Proof.
  intros [Wx Okx] Px Hp Hu Rx. pose proof Wx as (Lx & _ & Zx & Dx). pose proof (edc_pos c) as He. pose proof (B_gt9 c) as H9.
  pose proof (max_exp10_bounds c) as (HM & HM2 & _). pose proof (nel_ge4 c Hc) as Hn4.
  assert (HB32 : B < 2 ^ 32) by (destruct L; reflexivity).
  unfold div_sll. replace (u <? 0) with false by lia. cbn [negb]. rewrite (ucast_id 64 u) by (change (2 ^ 64) with (2 ^ 32 * 2 ^ 32); lia).
  unfold div_ull. replace (u =? 0) with false by lia.
  change (iszero (set_neg x false)) with (iszero x). rewrite (wk_iszero c x Wx). replace (u >=? B) with false by lia.
  change (dexp (set_neg x false)) with (dexp x). change (dprec (set_neg x false)) with (dprec x).
  change (data (set_neg x false)) with (data x).
  pose proof (mask_fits L) as Hmf. rewrite (ucl L u) by lia. replace (u >? 1) with true by lia. rewrite Px.
  pose proof (len_f c (data x) p Lx ltac:(lia)) as Lf. pose proof (len_s c (data x) p Lx) as Lt.
  pose proof (digits_ok_firstn B p _ Okx) as Of. pose proof (digits_ok_skipn B p _ Okx) as Ot.
  destruct (mag_prefix c x p Wx ltac:(lia)) as (A1 & A2 & A3 & _). fold (unitp c p (dexp x)) in A2, A3.
  set (tl := skipn p (data x)) in *. set (f := firstn p (data x)) in *.
  pose proof (div_loop_n_spec L f u 0 Of ltac:(lia) ltac:(lia)) as HD.
  destruct (div_loop_n L f u 0) as [r prev]. destruct HD as (Hr & Hok & Hl & ED).
  rewrite Z.mul_0_l, Z.add_0_l in ED.
  assert (HPn : P p = B * P (p - 1)) by (rewrite <- pow_succ_nat; do 2 f_equal; lia).
  assert (HPn1 : P (p - 1) = B * P (p - 2)) by (rewrite <- pow_succ_nat; do 2 f_equal; lia).
  pose proof (pow_pos_nat B (p - 2) HB) as HP2.
  assert (X1 : P (p - 1) <= V f) by (apply (A1)).
  set (U := unitp c p (dexp x)) in *. pose proof (unitp_pos c p (dexp x)) as U0. fold U in U0.
  assert (u0 : (0 < inject_Z u)%Q) by (change 0%Q with (inject_Z 0); rewrite <- Zlt_Qlt; lia).
  pose proof (mag_pos c Hc x Wx) as Mx.
  assert (x0 : nth 0 r 0 = nth 0 (r ++ tl) 0) by (rewrite app_nth1 by lia; reflexivity).
  rewrite <- x0.
  assert (LoP : (p10 (- (edc c * (Z.of_nat p - 2))) == / inject_Z (P (p - 2)))%Q).
  { rewrite Bp10. pose proof (p10_pos (edc c * Z.of_nat (p - 2))) as Q0.
    assert (K : (p10 (- (edc c * (Z.of_nat p - 2))) * p10 (edc c * Z.of_nat (p - 2)) == 1)%Q).
    { rewrite <- p10_add. rewrite Nat2Z.inj_sub by lia. change (Z.of_nat 2) with 2. replace (- (edc c * (Z.of_nat p - 2)) + edc c * (Z.of_nat p - 2)) with 0 by ring. reflexivity. }
    rewrite <- (Qmult_1_l (/ _)), <- K. field. lra. }
  assert (PQ : (0 < inject_Z (P (p - 2)))%Q) by (change 0%Q with (inject_Z 0); rewrite <- Zlt_Qlt; lia).
  assert (BQ : (0 < inject_Z B)%Q) by (change 0%Q with (inject_Z 0); rewrite <- Zlt_Qlt; lia).
  destruct (nth 0 r 0 =? 0) eqn:E0.
  - set (vp := ucast (lbits L) (ucast 64 (prev * B) / u)).
    assert (Hpb : 0 <= prev * B < 2 ^ 64).
    { change (2 ^ 64) with (2 ^ 32 * 2 ^ 32). split; [apply Z.mul_nonneg_nonneg; lia|]. apply Z.mul_lt_mono_nonneg; lia. }
    assert (Hval : 0 <= prev * B / u < B).
    { split; [apply Z.div_pos; lia|apply Z.div_lt_upper_bound; [lia|]]. apply Z.mul_lt_mono_pos_r; lia. }
    assert (Evp : vp = prev * B / u) by (unfold vp; rewrite (ucast_id 64) by lia; apply ucl; lia).
    clearbody vp.
    destruct (split_last2 r ltac:(lia)) as (d0 & m & a & b & Er & Hlm).
    assert (Hd0 : d0 = 0) by (rewrite Er in E0; cbn [nth] in E0; lia).
    assert (Lm : length m = (p - 3)%nat) by lia.
    assert (Hlist : firstn (p - 1) (firstn (p - 2) (skipn 1 (r ++ tl)) ++ skipn (p - 2) (r ++ tl)) ++ vp :: skipn p (firstn (p - 2) (skipn 1 (r ++ tl)) ++ skipn (p - 2) (r ++ tl))
                    = (m ++ [a; a; vp]) ++ tl).
    { rewrite Er. cbn [skipn app].
      assert (A1' : firstn (p - 2) ((m ++ [a; b]) ++ tl) = m ++ [a]).
      { replace ((m ++ [a; b]) ++ tl) with ((m ++ [a]) ++ (b :: tl)) by (rewrite <- !app_assoc; auto). apply firstn_app_exact. rewrite app_length. cbn; lia. }
      assert (A2' : skipn (p - 2) (d0 :: (m ++ [a; b]) ++ tl) = a :: b :: tl).
      { replace (d0 :: (m ++ [a; b]) ++ tl) with ((d0 :: m) ++ (a :: b :: tl)) by (cbn [app]; rewrite <- app_assoc; reflexivity). apply skipn_app_exact. cbn [length]. lia. }
      rewrite A1', A2'.
      assert (A3' : firstn (p - 1) ((m ++ [a]) ++ a :: b :: tl) = m ++ [a; a]).
      { replace ((m ++ [a]) ++ a :: b :: tl) with ((m ++ [a; a]) ++ (b :: tl)) by (rewrite <- !app_assoc; auto). apply firstn_app_exact. rewrite app_length. cbn; lia. }
      assert (A4' : skipn p ((m ++ [a]) ++ a :: b :: tl) = tl).
      { replace ((m ++ [a]) ++ a :: b :: tl) with ((m ++ [a; a; b]) ++ tl) by (rewrite <- !app_assoc; auto). apply skipn_app_exact. rewrite app_length. cbn; lia. }
      rewrite A3', A4'. rewrite <- !app_assoc. reflexivity. }
    rewrite Hlist. clear Hlist. change (ed L) with (edc c).
    rewrite (scast_id E (dexp x - edc c)) by (pose proof (E_ge8 c) as HE8; clear - Rx HM HM2 He HE8; lia). cbn [dexp].
    replace (dexp x - edc c <? - M) with false by lia.
    rewrite Er in Hok. apply digits_ok_cons in Hok. destruct Hok as [_ Hok]. apply digits_ok_app in Hok. destruct Hok as [Hokm Hokab].
    apply digits_ok_cons in Hokab. destruct Hokab as [Ha Hb]. apply digits_ok_cons in Hb. destruct Hb as [Hb _].
    assert (HVr : V r = V (m ++ [a]) * B + b).
    { rewrite Er, Hd0. cbn [limbs_value]. replace (m ++ [a; b]) with ((m ++ [a]) ++ [b]) by (rewrite <- app_assoc; auto). rewrite limbs_value_app. cbn [length limbs_value]. change (P 0) with 1. change (P 1) with (B ^ 1).
      rewrite Z.pow_1_r. ring. }
    assert (Rlo : P (p - 2) <= V r).
    { apply Z.nlt_ge. intros C. assert (K : (V r + 1) * u <= P (p - 2) * u) by (apply Z.mul_le_mono_nonneg_r; lia).
      assert (K2 : P (p - 2) * u <= P (p - 2) * B) by (apply Z.mul_le_mono_nonneg_l; lia). lia. }
    set (z1 := m ++ [a; a; vp]).
    assert (Lz1 : length z1 = p) by (unfold z1; rewrite app_length; cbn [length]; lia).
    assert (Oz1 : ok z1) by (apply digits_ok_app; split; auto; repeat constructor; lia).
    assert (PP : P (p - 2) = B * P (p - 3)) by (rewrite <- pow_succ_nat; do 2 f_equal; lia).
    pose proof (pow_pos_nat B (p - 3) HB) as HP3.
    assert (Vma : P (p - 3) <= V (m ++ [a])).
    { apply Z.nlt_ge. intros C. assert (K : (V (m ++ [a]) + 1) * B <= P (p - 3) * B) by (apply Z.mul_le_mono_nonneg_r; lia). lia. }
    assert (Oma : ok (m ++ [a])) by (apply digits_ok_app; split; auto; repeat constructor; lia).
    assert (Hz0 : nth 0 z1 0 <> 0).
    { unfold z1. replace (m ++ [a; a; vp]) with ((m ++ [a]) ++ [a; vp]) by (rewrite <- app_assoc; auto).
      rewrite app_nth1 by (rewrite app_length; cbn [length]; lia).
      apply (lead_pos c (m ++ [a]) (p - 3)); auto; rewrite ?app_length; cbn [length]; lia. }
    set (z := mkDec (z1 ++ tl) (dexp x - edc c) false p).
    change (set_neg {| data := z1 ++ tl; dexp := dexp x - edc c; dneg := false; dprec := p |} (dneg x)) with (set_neg z (dneg x)).
    assert (Nz : nz (set_neg z (dneg x))).
    { split; [|apply digits_ok_app; auto]. split; [unfold z; cbn [data set_neg]; rewrite app_length; lia|]. split; [left; apply digits_ok_app; auto|].
      split; [unfold z; cbn [data set_neg]; rewrite app_nth1 by lia; auto|]. cbn [dexp set_neg z]. apply Z.divide_sub_r; [auto|apply Z.divide_refl]. }
    destruct (mag_split c z1 tl p (dexp x - edc c) false p Lz1 Lt ltac:(lia) Ot) as [G1 G2]. fold z in G1, G2.
    set (U' := unitp c p (dexp x - edc c)) in *.
    assert (UU : (U == inject_Z B * U')%Q).
    { unfold U, U', unitp, lowp. rewrite mask_pow. change (ed L) with (edc c). rewrite <- p10_Z by lia. rewrite <- p10_add.
      replace (edc c + (dexp x - edc c - edc c * (Z.of_nat p - 1))) with (dexp x - edc c * (Z.of_nat p - 1)) by ring. reflexivity. }
    pose proof (unitp_pos c p (dexp x - edc c)) as U0'. fold U' in U0'.
    set (q := V r * B + vp).
    assert (Hq : q * u <= V f * B < (q + 1) * u).
    { unfold q. rewrite <- ED, Evp. pose proof (Z.mul_div_le (prev * B) u ltac:(lia)). pose proof (Z.mul_succ_div_gt (prev * B) u ltac:(lia)). lia. }
    assert (Hvz : q - (B - 1) * B <= V z1 <= q + (B - 1) * B).
    { unfold q, z1. rewrite HVr. replace (m ++ [a; a; vp]) with ((m ++ [a]) ++ [a; vp]) by (rewrite <- app_assoc; auto).
      rewrite (limbs_value_app B (m ++ [a])). cbn [length limbs_value]. change (P 0) with 1. change (P 1) with (B ^ 1). change (P 2) with (B ^ 2). rewrite Z.pow_1_r, Z.pow_2_r.
      assert (- ((B - 1) * B) <= (a - b) * B <= (B - 1) * B).
      { split; [rewrite <- Z.mul_opp_l|]; apply Z.mul_le_mono_nonneg_r; lia. } lia. }
    destruct (rel_of_units (mag x) (mag z) (inject_Z u) U' (inject_Z (B * B + 1)) (inject_Z (P (p - 2) * (B * B)) / inject_Z u)) as (t & T1 & T2); auto.
    { assert (K : (inject_Z (P (p - 1)) * U <= mag x)%Q).
      { eapply Qle_trans; [|exact A2]. apply Qmult_le_compat_r; [rewrite <- Zle_Qle; auto|lra]. }
      rewrite UU, HPn1 in K. rewrite !inject_Z_mult in *. apply Qle_shift_div_l; auto.
      eapply Qle_trans; [|exact K]. apply Qle_lteq; right. field. lra. }
    { apply Qlt_shift_div_l; auto. rewrite Qmult_0_l. rewrite inject_Z_mult. apply Qmult_lt_0_compat; auto. rewrite inject_Z_mult. apply Qmult_lt_0_compat; auto. }
    { assert (K : (mag x / inject_Z u <= inject_Z (q + 1 + B) * U')%Q).
      { apply Qle_shift_div_r; auto. eapply Qle_trans; [apply Qlt_le_weak; exact A3|]. rewrite UU.
        setoid_replace (inject_Z (V f + 1) * (inject_Z B * U'))%Q with (inject_Z ((V f + 1) * B) * U')%Q by (rewrite inject_Z_mult; ring).
        setoid_replace (inject_Z (q + 1 + B) * U' * inject_Z u)%Q with (inject_Z ((q + 1 + B) * u) * U')%Q by (rewrite inject_Z_mult; ring).
        apply Qmult_le_compat_r; [|lra]. rewrite <- Zle_Qle.
        assert (B * 1 <= B * u) by (apply Z.mul_le_mono_nonneg_l; lia). lia. }
      assert (K2 : (inject_Z (q - (B - 1) * B) * U' <= mag z)%Q).
      { eapply Qle_trans; [|exact G1]. apply Qmult_le_compat_r; [rewrite <- Zle_Qle; lia|lra]. }
      assert (K3 : (inject_Z (q - (B - 1) * B) * U' - inject_Z (q + 1 + B) * U' == - (inject_Z (B * B + 1) * U'))%Q).
      { setoid_replace (inject_Z (q - (B - 1) * B) * U' - inject_Z (q + 1 + B) * U')%Q with ((inject_Z (q - (B - 1) * B) + - inject_Z (q + 1 + B)) * U')%Q by ring.
        setoid_replace (- (inject_Z (B * B + 1) * U'))%Q with ((- inject_Z (B * B + 1)) * U')%Q by ring.
        rewrite <- !inject_Z_opp, <- inject_Z_plus. replace (q - (B - 1) * B + - (q + 1 + B)) with (- (B * B + 1)) by ring. reflexivity. }
      lra. }
    { assert (K : (inject_Z q * U' <= mag x / inject_Z u)%Q).
      { apply Qle_shift_div_l; auto. eapply Qle_trans; [|exact A2]. rewrite UU.
        setoid_replace (inject_Z (V f) * (inject_Z B * U'))%Q with (inject_Z (V f * B) * U')%Q by (rewrite inject_Z_mult; ring).
        setoid_replace (inject_Z q * U' * inject_Z u)%Q with (inject_Z (q * u) * U')%Q by (rewrite inject_Z_mult; ring).
        apply Qmult_le_compat_r; [|lra]. rewrite <- Zle_Qle. lia. }
      assert (K2 : (mag z <= inject_Z (q + (B - 1) * B + 1) * U')%Q).
      { eapply Qle_trans; [apply Qlt_le_weak; exact G2|]. apply Qmult_le_compat_r; [rewrite <- Zle_Qle; lia|lra]. }
      assert (K3 : (inject_Z (q + (B - 1) * B + 1) * U' - inject_Z q * U' <= inject_Z (B * B + 1) * U')%Q).
      { setoid_replace (inject_Z (q + (B - 1) * B + 1) * U' - inject_Z q * U')%Q with ((inject_Z (q + (B - 1) * B + 1) + - inject_Z q) * U')%Q by ring.
        rewrite <- !inject_Z_opp, <- inject_Z_plus. apply Qmult_le_compat_r; [rewrite <- Zle_Qle; lia|lra]. }
      lra. }
    exists (set_neg z (dneg x)), t. split; [reflexivity|]. split; [exact Nz|]. split; [reflexivity|]. split; [reflexivity|].
    split; [cbn [dexp set_neg z]; lia|]. split; [exact T1|].
    eapply Qle_trans; [exact T2|]. unfold dloss. rewrite LoP. rewrite !inject_Z_mult. rewrite inject_Z_plus, inject_Z_mult.
    apply Qle_shift_div_r.
    { apply Qlt_shift_div_l; auto. rewrite Qmult_0_l. apply Qmult_lt_0_compat; auto. apply Qmult_lt_0_compat; auto. }
    change (inject_Z 1) with 1%Q. change (inject_Z 2) with 2%Q.
    assert (B1 : (1 <= inject_Z B * inject_Z B)%Q) by (rewrite <- inject_Z_mult; change 1%Q with (inject_Z 1); rewrite <- Zle_Qle; lia).
    eapply Qle_trans with (2 * (inject_Z B * inject_Z B))%Q; [lra|]. apply Qle_lteq; right. field. split; lra.
  - cbn [dexp]. replace (dexp x <? - M) with false by lia.
    assert (Hz0 : nth 0 r 0 <> 0) by lia.
    assert (Vr : P (p - 1) <= V r).
    { destruct r as [|r0 r']; [cbn in Hr; lia|]. cbn [nth length] in *. apply digits_ok_cons in Hok. cbn [limbs_value].
      pose proof (limbs_value_bound B r' HB (proj2 Hok)) as Hb. replace (length r') with (p - 1)%nat in * by lia.
      pose proof (pow_pos_nat B (p - 1) HB). assert (1 * P (p - 1) <= r0 * P (p - 1)) by (apply Z.mul_le_mono_nonneg_r; lia). lia. }
    set (z := mkDec (r ++ tl) (dexp x) false p).
    change (set_neg {| data := r ++ tl; dexp := dexp x; dneg := false; dprec := p |} (dneg x)) with (set_neg z (dneg x)).
    assert (Nz : nz (set_neg z (dneg x))).
    { split; [|apply digits_ok_app; auto]. split; [unfold z; cbn [data set_neg]; rewrite app_length; lia|]. split; [left; apply digits_ok_app; auto|].
      split; [unfold z; cbn [data set_neg]; rewrite app_nth1 by lia; auto|]. auto. }
    destruct (mag_split c r tl p (dexp x) false p ltac:(lia) Lt ltac:(lia) Ot) as [G1 G2]. fold z U in G1, G2.
    destruct (rel_of_units (mag x) (mag z) (inject_Z u) U 1 (inject_Z (P (p - 2)))) as (t & T1 & T2); auto.
    { apply Qle_shift_div_l; auto. eapply Qle_trans; [|exact A2].
      setoid_replace (inject_Z (P (p - 2)) * U * inject_Z u)%Q with (inject_Z (P (p - 2) * u) * U)%Q by (rewrite inject_Z_mult; ring).
      apply Qmult_le_compat_r; [|lra]. rewrite <- Zle_Qle. assert (P (p - 2) * u <= P (p - 2) * B) by (apply Z.mul_le_mono_nonneg_l; lia). lia. }
    { assert (K : (mag x / inject_Z u <= inject_Z (V r + 1) * U)%Q).
      { apply Qle_shift_div_r; auto. eapply Qle_trans; [apply Qlt_le_weak; exact A3|].
        setoid_replace (inject_Z (V r + 1) * U * inject_Z u)%Q with (inject_Z ((V r + 1) * u) * U)%Q by (rewrite inject_Z_mult; ring).
        apply Qmult_le_compat_r; [|lra]. rewrite <- Zle_Qle. lia. }
      rewrite inject_Z_plus in K. change (inject_Z 1) with 1%Q in K. lra. }
    { assert (K : (inject_Z (V r) * U <= mag x / inject_Z u)%Q).
      { apply Qle_shift_div_l; auto. eapply Qle_trans; [|exact A2].
        setoid_replace (inject_Z (V r) * U * inject_Z u)%Q with (inject_Z (V r * u) * U)%Q by (rewrite inject_Z_mult; ring).
        apply Qmult_le_compat_r; [|lra]. rewrite <- Zle_Qle. lia. }
      rewrite inject_Z_plus in G2. change (inject_Z 1) with 1%Q in G2. lra. }
    exists (set_neg z (dneg x)), t. split; [reflexivity|]. split; [exact Nz|]. split; [reflexivity|]. split; [reflexivity|].
    split; [cbn [dexp set_neg z]; lia|]. split; [exact T1|].
    eapply Qle_trans; [exact T2|]. unfold dloss. rewrite LoP. unfold Qdiv. apply Qmult_le_compat_r; [|apply Qlt_le_weak, Qinv_lt_0_compat; auto].
    change 1%Q with (inject_Z 1). rewrite <- Zle_Qle. lia.
Qed.
End RO.
