(** Conv7_proofs.v - round trips through the built-in types, a correctly rounded strtold, and what fails. *)
From Verif Require Export Conv6_proofs Witness Refute_func.
From Coq Require Import Lqa.
Local Open Scope Z_scope.

(** A strtold that meets [strtold_ok] exists: parse the literal, then round its value. *)
Fixpoint take_digits (s : list Z) : list Z * list Z :=
  match s with
  | ch :: t => if (48 <=? ch) && (ch <=? 57) then let '(d, r) := take_digits t in (ch - 48 :: d, r) else ([], s)
  | [] => ([], [])
  end.
Definition take_sign (s : list Z) : option bool * list Z :=
  match s with
  | ch :: t => if ch =? 45 then (Some true, t) else if ch =? 43 then (Some false, t) else (None, s)
  | [] => (None, [])
  end.
Definition parse_ref (s : list Z) : literal :=
  let '(sg, s1) := take_sign s in
  let '(ip, s2) := take_digits s1 in
  let '(fp, s3) := match s2 with
                   | ch :: t => if ch =? 46 then (let '(d, r) := take_digits t in (Some d, r)) else (None, s2)
                   | [] => (None, []) end in
  let ex := match s3 with
            | ch :: t => if (ch =? 69) || (ch =? 101) then
                           (let '(sg, t1) := take_sign t in let '(d, _) := take_digits t1 in Some (ch =? 69, sg, d)) else None
            | [] => None end in
  mkLit sg ip fp ex.
Definition strtold_ref (s : list Z) : Q := fl 64 (lit_value (parse_ref s)).

Definition no_digit (s : list Z) : Prop := match s with ch :: _ => ch < 48 \/ 57 < ch | [] => True end.
Lemma take_digits_text l r : digits_ok 10 l -> no_digit r -> take_digits (digit_text l ++ r) = (l, r).
Proof.
  intros H Hr. induction H as [|d l Hd Hl IH].
  - cbn [digit_text map app]. destruct r as [|ch r]; [reflexivity|]. cbn [take_digits]. cbn in Hr.
    replace ((48 <=? ch) && (ch <=? 57)) with false by lia. reflexivity.
  - change (digit_text (d :: l) ++ r) with (48 + d :: digit_text l ++ r). cbn [take_digits].
    replace ((48 <=? 48 + d) && (48 + d <=? 57)) with true by lia. rewrite IH. f_equal. f_equal. lia.
Qed.
Definition no_sign (s : list Z) : Prop := match s with ch :: _ => ch <> 43 /\ ch <> 45 | [] => True end.
Lemma take_sign_text sg r : no_sign r -> take_sign (sign_text sg ++ r) = (sg, r).
Proof.
  intros H. destruct sg as [[]|]; try reflexivity. cbn [sign_text app]. destruct r as [|ch r]; [reflexivity|]. cbn in H. cbn [take_sign].
  replace (ch =? 45) with false by lia. replace (ch =? 43) with false by lia. reflexivity.
Qed.
Lemma no_sign_digits l r : digits_ok 10 l -> no_sign r -> no_sign (digit_text l ++ r).
Proof. intros [|d l' Hd Hl] Hr; [exact Hr|]. change (48 + d <> 43 /\ 48 + d <> 45). lia. Qed.

Lemma parse_ref_text l : lit_ok l -> parse_ref (lit_text l) = l.
Proof.
  destruct l as [sg ip fp ex]. intros (H1 & H2 & H3). unfold frac_digits in H2. cbn [l_int l_frac l_exp] in *. unfold lit_text, parse_ref. cbn [l_sign l_int l_frac l_exp].
  set (et := match ex with Some (upper, s, ds) => (if upper then 69 else 101) :: sign_text s ++ digit_text ds | None => [] end).
  assert (E0 : no_digit et /\ no_sign et).
  { unfold et. destruct ex as [[[[] s] ds]|]; cbn; lia. }
  set (ft := match fp with Some f => 46 :: digit_text f | None => [] end).
  assert (F0 : no_digit (ft ++ et) /\ no_sign (ft ++ et)).
  { unfold ft. destruct fp; [cbn; lia|exact E0]. }
  rewrite take_sign_text by (apply no_sign_digits; [exact H1|apply F0]).
  rewrite take_digits_text by (auto; apply F0).
  assert (FF : match ft ++ et with ch :: t => if ch =? 46 then (let '(d, r) := take_digits t in (Some d, r)) else (None, ft ++ et) | [] => (None, []) end = (fp, et)).
  { unfold ft. destruct fp as [f|]; cbn [app].
    - cbn [Z.eqb Pos.eqb]. rewrite take_digits_text by (auto; apply E0). reflexivity.
    - unfold et. destruct ex as [[[[] s] ds]|]; reflexivity. }
  rewrite FF. f_equal. unfold et. destruct ex as [[[u s] ds]|]; [|reflexivity].
  assert (NS : no_sign (digit_text ds)) by (rewrite <- (app_nil_r (digit_text ds)); apply no_sign_digits; [exact H3|exact I]).
  assert (ND : take_digits (digit_text ds) = (ds, [])) by (rewrite <- (app_nil_r (digit_text ds)); apply take_digits_text; [exact H3|exact I]).
  destruct u; cbn [Z.eqb Pos.eqb orb]; rewrite (take_sign_text s) by exact NS; rewrite ND; reflexivity.
Qed.

Theorem strtold_ref_ok : strtold_ok strtold_ref.
Proof. intros l H _ _ _. unfold strtold_ref. rewrite parse_ref_text by auto. reflexivity. Qed.

(** Converting a built-in number and back returns it. *)
Theorem round_trip c strtold F FI mem neg q mu p : cfg_ok c -> newton_ok c -> std_float F -> strtold_ok strtold ->
  binary_normal F q mu p -> memory_ok mem -> 2 ^ f_bits F <= 10 ^ (edc c * elem_number c) ->
  (p10 (- max_exp10_of (c_expo c) + 2 * edc c + 22) <= q)%Q -> (q <= p10 (max_exp10_of (c_expo c) - 1))%Q ->
  (inject_Z (4 * Z.abs p + 4) * p10 (- (c_digits10 c + 2 * edc c)) <= p10 (-21))%Q -> Z.abs p < 2 ^ 63 ->
  (2 * f_min f_long_double <= q)%Q -> (2 * q <= f_max f_long_double)%Q ->
  (p10 (edc c + 1 - 10 ^ (exp_width c - 1)) <= q)%Q -> (q <= p10 (10 ^ (exp_width c - 1) - 1))%Q ->
  exists z r, from_float c F FI mem neg q = Some z /\ to_float c strtold F z = Some r /\ (r == (if neg then - q else q))%Q.
Proof.
  intros Hc Hk HF Hs HB Hm Hfit Hlo Hhi He Hp63 L1 L2 W1 W2.
  destruct (binary_pos F q mu p HF HB) as [Hq _]. destruct (eps_bound c Hc) as [E0 E1].
  set (eps := p10 (- (c_digits10 c + 2 * edc c))) in *.
  assert (P21 : (p10 (-21) <= 1 # 1000)%Q) by (vm_compute; discriminate).
  assert (A1 : (inject_Z (4 * Z.abs p) * eps <= inject_Z (4 * Z.abs p + 4) * eps)%Q) by (apply Qmult_le_compat_r; [rewrite <- Zle_Qle; lia|lra]).
  destruct (from_float_accurate c Hc Hk F FI mem neg q mu p HF HB Hm Hfit Hlo Hhi ltac:(fold eps; lra) Hp63) as (z & Z1 & Nz & Zz & Sz & Az).
  fold eps in Az. set (qq := (if neg then - q else q)%Q) in *.
  assert (A2 : (inject_Z (2 * Z.abs p + 1) * eps <= inject_Z (4 * Z.abs p + 4) * eps)%Q) by (apply Qmult_le_compat_r; [rewrite <- Zle_Qle; lia|lra]).
  assert (A3 : (inject_Z (2 * Z.abs p + 1) * eps * q <= 2 * p10 (-21) * q)%Q) by (apply Qmult_le_compat_r; [pose proof (p10_pos (-21)); lra|lra]).
  assert (A4 : (2 * p10 (-21) * q <= (1 # 500) * q)%Q) by (apply Qmult_le_compat_r; lra).
  assert (AQ : (Qabs qq == q)%Q) by (unfold qq; destruct neg; [rewrite Qabs_opp|]; apply Qabs_pos; lra).
  assert (V1 : (Qabs (value c z) <= (501 # 500) * q)%Q) by (pose proof (Qabs_triangle_reverse (value c z) qq) as R; lra).
  assert (V2 : ((499 # 500) * q <= Qabs (value c z))%Q).
  { pose proof (Qabs_triangle_reverse qq (value c z)) as R. rewrite Qabs_Qminus in R. lra. }
  assert (RM : text_room c z).
  { apply (room_range c Hc); auto.
    - replace (edc c + 1 - 10 ^ (exp_width c - 1)) with (edc c - 10 ^ (exp_width c - 1) + 1) in W1 by ring. rewrite p10_add in W1. change (p10 1) with 10%Q in W1. lra.
    - replace (10 ^ (exp_width c - 1)) with (10 ^ (exp_width c - 1) - 1 + 1) by ring. rewrite p10_add. change (p10 1) with 10%Q. lra. }
  destruct (to_float_near c Hc strtold F z q mu p neg HF Hs Nz RM HB L1 L2) as (r & R1 & R2); [fold qq; lra|].
  exists z, r. auto.
Qed.

(** Integers that fit are converted exactly when the powers of one half up to the type's width are. *)
Theorem from_float_int c F FI mem neg q mu p (i : Z) : cfg_ok c -> newton_ok c -> std_float F -> binary_normal F q mu p -> memory_ok mem ->
  (q == inject_Z i)%Q -> 5 ^ (f_bits F - 1) < 10 ^ kept c -> i < 10 ^ kept c -> (q <= p10 (max_exp10_of (c_expo c) - 1))%Q -> Z.abs p < 2 ^ 63 ->
  exists z, from_float c F FI mem neg q = Some z /\ normal c z /\ dneg z = neg /\ (value c z == (if neg then - inject_Z i else inject_Z i))%Q.
Proof.
  intros Hc Hk HF HB Hm Hi H5 Hik Hhi Hp63. destruct (binary_pos F q mu p HF HB) as [Hq Hmu]. pose proof (std_bits F HF) as HP.
  pose proof HB as (H1 & H2 & _). pose proof (max_exp10_bounds c) as (HM & _). pose proof (edc_pos c) as He.
  assert (I1 : 1 <= i).
  { rewrite Hi in Hq. change 0%Q with (inject_Z 0) in Hq. rewrite <- Zlt_Qlt in Hq. lia. }
  assert (Hp : - f_bits F < p).
  { destruct (Z_lt_ge_dec (- f_bits F) p) as [|C]; auto. exfalso.
    assert (X : (q < 1)%Q).
    { rewrite H2. apply Qlt_le_trans with (inject_Z (2 ^ f_bits F) * p2 p)%Q; [apply Qmult_lt_compat_r; [apply p2_pos|rewrite <- Zlt_Qlt; lia]|].
      rewrite <- p2_Z, <- p2_add by lia. change 1%Q with (p2 0). apply p2_le. lia. }
    rewrite Hi in X. change 1%Q with (inject_Z 1) in X. rewrite <- Zlt_Qlt in X. lia. }
  assert (K0 : 0 <= kept c).
  { unfold kept. pose proof (elem_number_ge4 c Hc). assert (0 <= edc c * (elem_number c - 1)) by (apply Z.mul_nonneg_nonneg; lia). lia. }
  destruct (from_float_exact c Hc Hk F FI mem neg q mu p i 0 HF HB Hm) as (z & Z1 & Nz & Sz & Vz); auto.
  - apply Z.lt_le_incl. apply Z.lt_le_trans with (10 ^ kept c).
    + eapply Z.le_lt_trans; [|exact H5]. clear - HF. destruct HF as [-> | [-> | ->]]; vm_compute; discriminate.
    + apply Z.pow_le_mono_r; [lia|]. unfold kept. pose proof (elem_number_ge4 c Hc). lia.
  - apply Qle_trans with (p10 0); [apply p10_le; lia|]. rewrite p10_0, Hi. change 1%Q with (inject_Z 1). rewrite <- Zle_Qle. exact I1.
  - destruct (p <? 0) eqn:C.
    + eapply Z.le_lt_trans; [|exact H5]. apply Z.pow_le_mono_r; lia.
    + eapply Z.le_lt_trans; [|exact Hik].
      assert (X : (p2 p <= inject_Z i)%Q).
      { rewrite <- Hi, H2. setoid_replace (p2 p) with (1 * p2 p)%Q at 1 by ring. apply Qmult_le_compat_r; [|apply Qlt_le_weak, p2_pos].
        change 1%Q with (inject_Z 1). rewrite <- Zle_Qle. lia. }
      rewrite p2_Z in X by lia. rewrite <- Zle_Qle in X. exact X.
  - rewrite Hi. change (p10 (- 0)) with 1%Q. ring.
  - rewrite Z.abs_eq by lia. exact Hik.
  - exists z. split; [exact Z1|]. split; [exact Nz|]. split; [exact Sz|]. rewrite Vz. destruct neg; rewrite Hi; reflexivity.
Qed.

(** Zero and everything below the smallest normal number become zero. *)
Theorem from_float_flush c F FI mem neg q : cfg_ok c -> newton_ok c -> std_float F -> memory_ok mem -> (0 <= q)%Q -> (q < f_min F)%Q ->
  exists z, from_float c F FI mem neg q = Some z /\ (value c z == 0)%Q /\ dneg z = (neg && negb (Qeq_bool q 0)).
Proof.
  intros Hc Hk HF Hm H0 H1. unfold from_float, native_parts.
  assert (Q1 : Qle_bool (f_min F) q = false).
  { destruct (Qle_bool (f_min F) q) eqn:C; auto. apply Qle_bool_iff in C. lra. }
  rewrite Q1. cbn [negb]. assert (HPb : 24 <= f_bits F <= 64) by (clear - HF; destruct HF as [-> | [-> | ->]]; cbn; lia).
  replace (0 - (f_bits F - 1) <? -2) with true by lia. set (k := - (0 - (f_bits F - 1))). assert (Hkk : 23 <= k <= 63) by (unfold k; lia).
  destruct (half_facts c Hc) as (Nh & Zh & Vh & Sh). destruct (eps_bound c Hc) as [E0 E1].
  pose proof (edc_pos c) as Hed. pose proof (max_exp10_bounds c) as (HM & _).
  assert (AW : (Qabs (value c (half c) ^ k) == p2 (- k))%Q).
  { rewrite Vh, half_pow by lia. apply Qabs_pos, Qlt_le_weak, p2_pos. }
  destruct (pow_pos_accurate c FI (later mem 1) (half c) k Hc Hk (later_ok mem 1 Hm) Nh Zh) as (h & G1 & Nh1 & Ah).
  - lia.
  - apply Qle_trans with (inject_Z (4 * k) * (1 # 100000))%Q.
    + rewrite !(Qmult_comm (inject_Z (4 * k))). apply Qmult_le_compat_r; [exact E1|]. change 0%Q with (inject_Z 0). rewrite <- Zle_Qle. lia.
    + apply Qle_trans with (inject_Z 252 * (1 # 100000))%Q; [apply Qmult_le_compat_r; [rewrite <- Zle_Qle; lia|discriminate]|vm_compute; discriminate].
  - rewrite AW. apply Qle_trans with (p2 (-63)); [|apply p2_le; lia]. apply Qle_trans with (p10 (-20)); [apply p10_le; lia|vm_compute; discriminate].
  - rewrite AW. apply Qle_trans with (p2 0); [apply p2_le; lia|]. change (p2 0) with (p10 0). apply p10_le. lia.
  - rewrite G1. cbn beta iota.
    assert (Zu : from_ull c 0 = zero c) by (destruct (from_ull_int c Hc 0 ltac:(lia)) as (i & _ & _ & _ & _ & A5 & _); apply A5; reflexivity).
    rewrite Zu. rewrite AW in Ah. rewrite Vh, half_pow in Ah by lia.
    assert (K1 : (inject_Z (2 * (k - 1)) * p10 (- (c_digits10 c + 2 * edc c)) <= 1 # 2)%Q).
    { apply Qle_trans with (inject_Z (2 * (k - 1)) * (1 # 100000))%Q.
      + rewrite !(Qmult_comm (inject_Z (2 * (k - 1)))). apply Qmult_le_compat_r; [exact E1|]. change 0%Q with (inject_Z 0). rewrite <- Zle_Qle. lia.
      + apply Qle_trans with (inject_Z 126 * (1 # 100000))%Q; [apply Qmult_le_compat_r; [rewrite <- Zle_Qle; lia|discriminate]|vm_compute; discriminate]. }
    pose proof (p2_pos (- k)) as Pk.
    assert (Ah2 : (Qabs (value c h - p2 (- k)) <= (1 # 2) * p2 (- k))%Q) by (eapply Qle_trans; [exact Ah|apply Qmult_le_compat_r; [exact K1|lra]]).
    apply Qabs_Qle_condition in Ah2. destruct Ah2 as [R1 R2].
    assert (Pl : (p2 (-63) <= p2 (- k))%Q) by (apply p2_le; lia). assert (Pu : (p2 (- k) <= p2 0)%Q) by (apply p2_le; lia).
    change (p2 0) with 1%Q in Pu.
    assert (Hz : iszero h = false).
    { destruct (iszero h) eqn:C; auto. exfalso. pose proof (value_zero c Hc h Nh1 C). lra. }
    assert (Ab : (Qabs (value c h) == value c h)%Q) by (apply Qabs_pos; lra).
    destruct (value_bracket c Hc h Nh1 Hz) as [B1 B2]. rewrite Ab in B1, B2.
    assert (X1 : (p10 (-20) < p10 (dexp h + edc c))%Q).
    { eapply Qle_lt_trans; [|exact B2]. apply Qle_trans with ((1 # 2) * p2 (-63))%Q; [vm_compute; discriminate|lra]. }
    assert (X2 : (p10 (dexp h) < p10 1)%Q) by (eapply Qle_lt_trans; [exact B1|]; change (p10 1) with 10%Q; lra).
    apply (proj1 (p10_lt _ _)) in X1. apply (proj1 (p10_lt _ _)) in X2.
    assert (Nz0 : normal c (zero c)) by (apply zero_normal; auto).
    rewrite mulm_normal by auto.
    destruct (mul_zero_full c (fst (mem 0%nat (Nat.min (dprec (zero c)) (dprec h)))) (snd (mem 0%nat (Nat.min (dprec (zero c)) (dprec h)))) (zero c) h)
      as (z & G2 & Nz & Zz & _); auto.
    + apply newton_mul_ok; auto.
    + apply mulm_pool; auto.
    + left. apply (zero_iszero c Hc).
    + lia.
    + rewrite G2. eexists. split; [reflexivity|]. split; [|reflexivity].
      rewrite (value_set_neg c Hc) by auto. rewrite (value_zero c Hc z Nz Zz). ring.
Qed.
