(** Sine_proofs.v - the sine literals of the FFT. Each sine is enclosed in an interval with 70-digit ends by
    the double-angle formula, starting from sin(pi/4)^2 = 1/2. *)
From Coq Require Import Lra Lia Reals QArith Qreals.
From Verif Require Import Model_Transform.
Import ListNotations.
Local Open Scope R_scope.

(** (10^70 times a lower bound, width) for pi/4, pi/8, ... *)
Definition enclosures : list (Z * Z) :=
 ([ (7071067811865475244008443621048490392848359376884740365883398689953662, 1);
   (3826834323650897717284599840303988667613445624856270414338006356275460, 1);
   (1950903220161282678482848684770222409276916177519548077545020894947633, 1);
   (980171403295606019941955638886418458611366731675005672572649798093872, 2);
   (490676743274180142549549769426826583147453630257529202101225532691658, 2);
   (245412285229122880317345294592829250654661192394514775767567737884928, 2);
   (122715382857199260794082619510032121403723195917692500382416732467477, 2);
   (61358846491544753596402345903725809170578863173913293567324603009565, 2);
   (30679567629659762701453654909198425189446102134519953971468958989757, 2);
   (15339801862847656123036971502640790799548645752373929676148596681397, 2);
   (7669903187427045269385683579485766431409194520632821796944112079717, 2);
   (3834951875713955890724616811813812633950260349647385230914443997757, 2);
   (1917475973107033074399095619890009334688740338591588483749943991770, 2);
   (958737990959773458705172109764763511870656128511450385666681642717, 2);
   (479368996030668845490039904946588727468666876857669232629744096246, 2);
   (239684498084182187291865771650218200947614748956730327598387085990, 2);
   (119842249050697064215215615969889848047319775383866991011498072741, 2);
   (59921124526424278428797118088908617299871778780951000093584158017, 2);
   (29960562263346607504548128083570598118251878683407618216348931695, 2);
   (14980281131690112288542788461553611206917585861526626890521070368, 2);
   (7490140565847157211304985667306556371559593021720720929932298111, 2);
   (3745070282923841239031691790846331773974047629724795766925249889, 2);
   (1872535141461953448688245765935636171204527209828651018486656866, 2);
   (936267570730980827990672866808856201932365071694730450985443688, 2);
   (468133785365490926951155181385400969595036270166700884532768176, 2);
   (234066892682745527595054934190348440378862072237787903384598172, 2);
   (117033446341372771812462135032381037980934566399759058051995535, 2);
   (58516723170686386908097901008341396943900085051756502108911225, 2);
   (29258361585343193579282304690689559020175857150074409101526900, 2);
   (14629180792671596805295321618659637103742615227833959900174017, 2)])%Z.
Definition SC : Z := (10 ^ 70)%Z.

Definition enclosed (lo hi : Z) (s : R) : Prop := IZR lo <= s * IZR SC <= IZR hi.

(** 4 x^2 (1 - x^2), scaled *)
Definition dbl (x : Z) : Z := (4 * (x * x) * (SC * SC - x * x))%Z.

Definition step_ok (lo hi lo' hi' : Z) : bool :=
  ((0 <? lo') && (lo' <? hi') && (2 * (hi' * hi') <? SC * SC) &&
   (dbl lo' <=? lo * lo * (SC * SC)) && (hi * hi * (SC * SC) <=? dbl hi'))%Z%bool.

Lemma SC_pos : 0 < IZR SC.
Proof. apply (IZR_lt 0). reflexivity. Qed.

Lemma sin_half_angle t : (sin (2 * t))² = 4 * (sin t)² * (1 - (sin t)²).
Proof.
  rewrite sin_2a. pose proof (sin2_cos2 t) as H. replace (1 - (sin t)²) with ((cos t)²) by lra. unfold Rsqr. ring.
Qed.

Lemma step lo hi lo' hi' t : 0 < t -> t <= PI / 8 -> 0 <= IZR lo -> step_ok lo hi lo' hi' = true ->
  enclosed lo hi (sin (2 * t)) -> enclosed lo' hi' (sin t).
Proof.
  intros Ht0 Ht1 Hlo0 Hs [Hlo Hhi]. unfold enclosed. unfold step_ok in Hs. rewrite !Bool.andb_true_iff in Hs.
  destruct Hs as ((((H1 & H2) & H3) & H4) & H5).
  apply Z.ltb_lt in H1, H2, H3. apply Z.leb_le in H4, H5.
  pose proof PI_RGT_0 as HPI. pose proof SC_pos as HS.
  assert (Hs0 : 0 < sin t) by (apply sin_gt_0; lra).
  assert (Hs2 : 0 < sin (2 * t)) by (apply sin_gt_0; lra).
  assert (Hss : 2 * (sin t)² < 1).
  { assert (Hc : 0 < cos (2 * t)) by (apply cos_gt_0; lra). rewrite cos_2a_sin in Hc. unfold Rsqr. lra. }
  pose proof (sin_half_angle t) as HD. set (s := sin t) in *. set (S2 := sin (2 * t)) in *. set (K := IZR SC) in *.
  apply IZR_lt in H1, H2, H3. apply IZR_le in H4, H5. unfold dbl in H4, H5.
  rewrite ?mult_IZR, ?minus_IZR, ?mult_IZR in *. fold K in H3, H4, H5.
  set (a := IZR lo') in *. set (b := IZR hi') in *. set (u := IZR lo) in *. set (v := IZR hi) in *.
  change (IZR 2) with 2 in *. change (IZR 4) with 4 in *.
  clearbody s S2 K a b u v. unfold Rsqr in *.
  assert (HX : (S2 * K) * (S2 * K) * (K * K) = 4 * ((s * K) * (s * K)) * (K * K - (s * K) * (s * K))).
  { replace ((S2 * K) * (S2 * K)) with ((S2 * S2) * (K * K)) by ring. rewrite HD. ring. }
  set (x := s * K) in *. set (y := S2 * K) in *.
  assert (Hx0 : 0 < x) by (apply Rmult_lt_0_compat; assumption).
  assert (Hy0 : 0 < y) by (apply Rmult_lt_0_compat; assumption).
  assert (HK2 : 0 < K * K) by (apply Rmult_lt_0_compat; assumption).
  assert (Hxx : 2 * (x * x) < K * K).
  { unfold x. replace (2 * (s * K * (s * K))) with (2 * (s * s) * (K * K)) by ring.
    rewrite <- (Rmult_1_l (K * K)) at 2. apply Rmult_lt_compat_r; [exact HK2|exact Hss]. }
  clearbody x y. clear HD Hss.
  assert (Haa : a * a < b * b) by (apply Rmult_le_0_lt_compat; lra).
  (* monotony *)
  assert (Mono : forall p q, 0 < p -> p < q -> 2 * (p * p) < K * K -> 2 * (q * q) < K * K ->
     4 * (p * p) * (K * K - p * p) < 4 * (q * q) * (K * K - q * q)).
  { intros p q Hp Hpq Lp Lq. assert (Hpp : p * p < q * q) by (apply Rmult_le_0_lt_compat; lra).
    assert (0 < (q * q - p * p) * (K * K - p * p - q * q)) by (apply Rmult_lt_0_compat; lra).
    replace (4 * (q * q) * (K * K - q * q)) with (4 * (p * p) * (K * K - p * p) + 4 * ((q * q - p * p) * (K * K - p * p - q * q))) by ring.
    lra. }
  split.
  - destruct (Rle_or_lt a x) as [|C]; [assumption|exfalso].
    specialize (Mono x a Hx0 C Hxx ltac:(lra)).
    assert (u * u * (K * K) <= y * y * (K * K)).
    { apply Rmult_le_compat_r; [lra|]. apply Rmult_le_compat; lra. }
    lra.
  - destruct (Rle_or_lt x b) as [|C]; [assumption|exfalso].
    specialize (Mono b x ltac:(lra) C H3 Hxx).
    assert (y * y * (K * K) <= v * v * (K * K)).
    { apply Rmult_le_compat_r; [lra|]. apply Rmult_le_compat; lra. }
    lra.
Qed.

Fixpoint chain_ok (lo hi : Z) (l : list (Z * Z)) : bool :=
  match l with
  | [] => true
  | (lo', w) :: l' => step_ok lo hi lo' (lo' + w) && (0 <=? lo)%Z && chain_ok lo' (lo' + w) l'
  end.
Lemma chain : forall l lo hi k, chain_ok lo hi l = true -> (2 <= k)%nat -> enclosed lo hi (sin (PI / 2 ^ k)) ->
  forall i, (i < length l)%nat ->
  enclosed (fst (nth i l (0, 0)%Z)) (fst (nth i l (0, 0)%Z) + snd (nth i l (0, 0)%Z)) (sin (PI / 2 ^ (k + 1 + i))).
Proof.
  induction l as [|[lo' w] l IH]; intros lo hi k Hc Hk He i Hi; [cbn in Hi; lia|].
  cbn [chain_ok] in Hc. rewrite !Bool.andb_true_iff in Hc. destruct Hc as ((H1 & H0) & H2). apply Z.leb_le in H0.
  assert (Hp : 0 < 2 ^ (k + 1)) by (apply pow_lt; lra).
  pose proof PI_RGT_0 as HPI.
  assert (Hstep : enclosed lo' (lo' + w) (sin (PI / 2 ^ (k + 1)))).
  { apply (step lo hi); [| |apply (IZR_le 0); exact H0|exact H1|].
    - apply Rdiv_lt_0_compat; assumption.
    - assert (8 <= 2 ^ (k + 1)).
      { replace 8 with (2 ^ 3) by ring. apply Rle_pow; [lra|lia]. }
      apply Rmult_le_compat_l; [lra|]. apply Rinv_le_contravar; lra.
    - replace (2 * (PI / 2 ^ (k + 1))) with (PI / 2 ^ k); [exact He|].
      rewrite pow_add, pow_1. field. apply pow_nonzero. lra. }
  destruct i as [|i].
  - cbn [nth fst snd]. rewrite Nat.add_0_r. exact Hstep.
  - cbn [nth]. replace (k + 1 + S i)%nat with (k + 1 + 1 + i)%nat by lia. apply (IH lo' (lo' + w)%Z); [exact H2|lia|exact Hstep|].
    cbn [length] in Hi. lia.
Qed.

(** The literal (m, e) is within 5 * 10^-41 of anything in the interval, relatively. *)
Definition literal_ok (l : Z * Z) (en : Z * Z) : bool :=
  let '(m, e) := l in let '(lo, w) := en in
  let v := (m * 10 ^ (70 + e))%Z in
  ((0 <? lo) && (0 <=? 70 + e) && (e <=? 0) && (0 <=? w) && (Z.abs (v - lo) * (2 * 10 ^ 40) <=? lo) && (Z.abs (v - (lo + w)) * (2 * 10 ^ 40) <=? lo))%Z%bool.

Lemma table_checks :
  (let '(lo, w) := nth 0 enclosures (0, 0) in
   (0 <? lo) && (2 * (lo * lo) <=? SC * SC) && (SC * SC <=? 2 * ((lo + w) * (lo + w))) && chain_ok lo (lo + w) (skipn 1 enclosures))%Z%bool = true /\
  forallb (fun i => literal_ok (nth (i + 1) sin_literals (0, 0)%Z) (nth i enclosures (0, 0)%Z)) (seq 0 30) = true.
Proof. split; vm_compute; reflexivity. Qed.

Lemma enclosures_ok i : (i < 30)%nat ->
  enclosed (fst (nth i enclosures (0, 0)%Z)) (fst (nth i enclosures (0, 0)%Z) + snd (nth i enclosures (0, 0)%Z)) (sin (PI / 2 ^ (2 + i))).
Proof.
  intros Hi. destruct table_checks as [T _].
  assert (L : length enclosures = 30%nat) by reflexivity.
  destruct enclosures as [|[lo w] l] eqn:El; [discriminate L|].
  cbn [nth] in T. rewrite !Bool.andb_true_iff in T. destruct T as (((T1 & T2) & T3) & T4).
  apply Z.ltb_lt in T1. apply Z.leb_le in T2, T3. cbn [skipn] in T4. pose proof SC_pos as HS.
  assert (H0 : enclosed lo (lo + w) (sin (PI / 2 ^ 2))).
  { replace (PI / 2 ^ 2) with (PI / 4) by (cbn; field). unfold enclosed. pose proof PI_RGT_0.
    assert (Hp : 0 < sin (PI / 4)) by (apply sin_gt_0; lra).
    assert (Hh : 2 * (sin (PI / 4) * sin (PI / 4)) = 1).
    { pose proof (cos_2a_sin (PI / 4)) as E. replace (2 * (PI / 4)) with (PI / 2) in E by field. rewrite cos_PI2 in E. lra. }
    apply IZR_le in T2, T3. apply IZR_lt in T1. rewrite !mult_IZR in T2, T3. rewrite ?plus_IZR in *.
    set (s := sin (PI / 4)) in *. set (K := IZR SC) in *. clearbody s K.
    assert (Hx : 0 < s * K) by (apply Rmult_lt_0_compat; assumption).
    assert (E2 : 2 * ((s * K) * (s * K)) = K * K) by (replace (2 * ((s * K) * (s * K))) with (2 * (s * s) * (K * K)) by ring; rewrite Hh; ring).
    set (x := s * K) in *. clearbody x. split.
    - destruct (Rle_or_lt (IZR lo) x) as [|C]; [assumption|exfalso].
      assert (x * x < IZR lo * IZR lo) by (apply Rmult_le_0_lt_compat; lra). lra.
    - set (b := IZR lo + IZR w) in *. destruct (Rle_or_lt x b) as [|C]; [assumption|exfalso].
      destruct (Rle_or_lt 0 b) as [Hb|Hb].
      + assert (b * b < x * x) by (apply Rmult_le_0_lt_compat; lra). lra.
      + assert (Hw : (0 <= w)%Z).
        { assert (L2 : forallb (fun i => literal_ok (nth (i + 1) sin_literals (0, 0)%Z) (nth i enclosures (0, 0)%Z)) (seq 0 30) = true) by apply table_checks.
          rewrite forallb_forall in L2. specialize (L2 0%nat ltac:(apply in_seq; lia)). rewrite El in L2. cbn [nth] in L2.
          unfold literal_ok in L2. destruct (nth (0 + 1) sin_literals (0, 0)%Z). rewrite !Bool.andb_true_iff in L2. apply Z.leb_le. tauto. }
        apply (IZR_le 0) in Hw. unfold b in Hb. lra. }
  destruct i as [|i]; [exact H0|].
  cbn [nth]. replace (2 + S i)%nat with (2 + 1 + i)%nat by lia. apply (chain l lo (lo + w) 2 T4); [lia|exact H0|]. cbn [length] in L. lia.
Qed.

Lemma table_row k : (1 <= k <= 31)%nat ->
  template_sin_order_1 (2 ^ Z.of_nat k) =
  (let '(m, e) := nth (k - 1) sin_literals (0, 0)%Z in Qmake m (Z.to_pos (10 ^ (- e)))).
Proof.
  intros Hk. do 32 (destruct k as [|k]; [try lia; vm_compute; reflexivity|]). lia.
Qed.

Lemma sin_table_ok k : (1 <= k <= 31)%nat ->
  Rabs (Q2R (template_sin_order_1 (2 ^ Z.of_nat k)) - sin (PI / IZR (2 ^ Z.of_nat k))) <= / (2 * 10 ^ 40) * sin (PI / IZR (2 ^ Z.of_nat k)).
Proof.
  intros Hk. rewrite table_row by exact Hk.
  replace (IZR (2 ^ Z.of_nat k)) with (2 ^ k) by (symmetry; rewrite <- pow_IZR; reflexivity).
  destruct k as [|[|i]]; [lia| |].
  - cbn [Nat.sub nth sin_literals]. replace (Q2R (1 # Z.to_pos (10 ^ - 0))) with 1 by (unfold Q2R; cbn; field).
    replace (PI / 2 ^ 1) with (PI / 2) by (cbn; field). rewrite sin_PI2. rewrite Rminus_diag_eq, Rabs_R0 by reflexivity.
    rewrite Rmult_1_r. left. apply Rinv_0_lt_compat. apply Rmult_lt_0_compat; [lra|apply pow_lt; lra].
  - destruct table_checks as [_ T]. rewrite forallb_forall in T. specialize (T i ltac:(apply in_seq; lia)).
    pose proof (enclosures_ok i ltac:(lia)) as H. replace (S (S i) - 1)%nat with (i + 1)%nat by lia.
    change (2 + i)%nat with (S (S i)) in H. set (s := sin (PI / 2 ^ S (S i))) in *.
    unfold literal_ok in T. destruct (nth (i + 1) sin_literals (0, 0)%Z) as [m e]. destruct (nth i enclosures (0, 0)%Z) as [lo w].
    cbn [fst snd] in H. rewrite !Bool.andb_true_iff in T. destruct T as (((((T0 & T1) & T2) & T3) & T4) & T5).
    apply Z.ltb_lt in T0. apply Z.leb_le in T1, T2, T3, T4, T5. clearbody s. clear Hk.
    pose proof SC_pos as HS.
    assert (EV : Q2R (m # Z.to_pos (10 ^ (- e))) * IZR SC = IZR (m * 10 ^ (70 + e))).
    { assert (P0 : (0 < 10 ^ (- e))%Z) by (apply Z.pow_pos_nonneg; lia).
      unfold Q2R. cbn [Qnum Qden]. rewrite Z2Pos.id by exact P0. rewrite mult_IZR.
      assert (ES : IZR SC = IZR (10 ^ (- e)) * IZR (10 ^ (70 + e))).
      { rewrite <- mult_IZR, <- Z.pow_add_r by lia. unfold SC. f_equal. f_equal. lia. }
      rewrite ES. apply IZR_lt in P0. field. lra. }
    set (q := Q2R (m # Z.to_pos (10 ^ (- e)))) in *. clearbody q. set (V := (m * 10 ^ (70 + e))%Z) in *. clearbody V.
    destruct H as [H1 H2].
    assert (HL : 0 < IZR lo) by (apply (IZR_lt 0); exact T0).
    apply IZR_le in T4, T5. rewrite mult_IZR, abs_IZR, minus_IZR in T4, T5. rewrite plus_IZR in H2, T5.
    assert (ET : IZR (2 * 10 ^ 40) = 2 * 10 ^ 40).
    { rewrite mult_IZR. change (10 ^ 40)%Z with (10 ^ Z.of_nat 40)%Z. rewrite <- (pow_IZR 10 40). reflexivity. }
    rewrite ET in T4, T5. set (B := 2 * 10 ^ 40) in *. assert (HB : 0 < B) by (unfold B; apply Rmult_lt_0_compat; [lra|apply pow_lt; lra]). clearbody B. clear ET.
    rewrite <- EV in T4, T5.
    assert (HA : Rabs (q * IZR SC - s * IZR SC) * B <= IZR lo).
    { set (A := q * IZR SC) in *. set (X := s * IZR SC) in *. clearbody A X.
      assert (HM : Rabs (A - X) <= Rmax (Rabs (A - IZR lo)) (Rabs (A - (IZR lo + IZR w)))).
      { unfold Rmax. destruct (Rle_dec (Rabs (A - IZR lo)) (Rabs (A - (IZR lo + IZR w)))) as [D|D];
        unfold Rabs in *; repeat destruct Rcase_abs; lra. }
      apply Rle_trans with (Rmax (Rabs (A - IZR lo)) (Rabs (A - (IZR lo + IZR w))) * B); [apply Rmult_le_compat_r; lra|].
      unfold Rmax. destruct (Rle_dec _ _); assumption. }
    rewrite <- Rmult_minus_distr_r, Rabs_mult, (Rabs_right (IZR SC)) in HA by lra.
    apply (Rmult_le_reg_r (IZR SC)); [exact HS|]. apply (Rmult_le_reg_r B); [exact HB|].
    eapply Rle_trans; [exact HA|]. eapply Rle_trans; [exact H1|]. right. field. lra.
Qed.

Lemma sin_table_1 : Q2R (template_sin_order_1 1) = sin (PI / 1).
Proof. unfold Rdiv. rewrite Rinv_1, Rmult_1_r, sin_PI. unfold Q2R. cbn. lra. Qed.
