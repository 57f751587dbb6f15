(** Indep2_proofs.v - every operation that multiplies gives the same result in any working memory of the same size. *)
From Verif Require Export Indep_proofs Prec_proofs Model_Exp Model_Log Model_Sqrt Model_Rem Model_Conv Model_Root Model_Misc Spec_Mem.
Local Open Scope Z_scope.

Lemma bind_ext {A X} (o o2 : option A) (f f2 : A -> option X) :
  o = o2 -> (forall a, f a = f2 a) -> match o with Some a => f a | None => None end = match o2 with Some a => f2 a | None => None end.
Proof. intros -> H. destruct o2; auto. Qed.
Lemma lift_ext {A} (o o2 : option A) : o = o2 -> lift o = lift o2.
Proof. intros ->. reflexivity. Qed.
Lemma obind_ext {A X} (o o2 : outcome A) (f f2 : A -> outcome X) :
  o = o2 -> (forall a, f a = f2 a) -> obind o f = obind o2 f2.
Proof. intros -> H. destruct o2; cbn; auto. Qed.

Lemma sizes_same m m2 : memory_ok m -> memory_ok m2 -> same_sizes m m2.
Proof.
  intros H H2 i p. destruct (H i p) as [A B]. destruct (H2 i p) as [C D]. rewrite A, B, C, D. auto.
Qed.
Lemma later_same m m2 k : same_sizes m m2 -> same_sizes (later m k) (later m2 k).
Proof. intros H i p. apply H. Qed.
Lemma fst_same m m2 i p : same_sizes m m2 -> length (fst (m i p)) = length (fst (m2 i p)).
Proof. intros H. apply H. Qed.
Lemma snd_same m m2 i p : same_sizes m m2 -> length (snd (m i p)) = length (snd (m2 i p)).
Proof. intros H. apply H. Qed.

Create HintDb same.
#[local] Hint Resolve later_same fst_same snd_same : same.
Ltac one := match goal with
  | |- ?x = ?y => constr_eq x y; exact (eq_refl x)
  | |- (let '(_, _) := ?p in _) = (let '(_, _) := ?q in _) => constr_eq p q; destruct p
  | |- match ?b with true => _ | false => _ end = match ?d with true => _ | false => _ end => constr_eq b d; destruct b
  | |- match _ with Some _ => _ | None => None end = match _ with Some _ => _ | None => None end => apply bind_ext; [|intros ?]
  | |- obind _ _ = obind _ _ => apply obind_ext; [|intros ?]
  | |- lift _ = lift _ => apply lift_ext
  end.
Ltac same := repeat first [one | progress cbv zeta | solve [eauto 6 with same nocore]].

Section S.
Variable c : cfg.
Variable F : ftype.

Lemma mul_same' r r2 t t2 x v : length r = length r2 -> length t = length t2 -> mul c r t x v = mul c r2 t2 x v.
Proof. apply mul_same. Qed.
#[local] Hint Resolve mul_same' : same.
Lemma mulm_same m m2 i x v : same_sizes m m2 -> mulm c m i x v = mulm c m2 i x v.
Proof. intros H. unfold mulm. same. Qed.
#[local] Hint Resolve mulm_same : same.
Lemma inv_loop_same f m m2 o i d r x : same_sizes m m2 -> inv_loop c f m o i d r x = inv_loop c f m2 o i d r x.
Proof. intros H. revert i d r x; induction f as [|f IH]; intros; cbn [inv_loop]; same. Qed.
#[local] Hint Resolve inv_loop_same : same.
Lemma inv_same m m2 v : same_sizes m m2 -> calculate_inv c F m v = calculate_inv c F m2 v.
Proof. intros H. unfold calculate_inv. same. Qed.
#[local] Hint Resolve inv_same : same.
Lemma divide_same m m2 x v : same_sizes m m2 -> divide c F m x v = divide c F m2 x v.
Proof. intros H. unfold divide, div. same. Qed.
#[local] Hint Resolve divide_same : same.
Lemma div_ull_ext f g x k : (forall y j, f y j = g y j) -> div_ull c f x k = div_ull c g x k.
Proof. intros H. unfold div_ull. same. Qed.
Lemma divu_same m m2 x u : same_sizes m m2 -> div_unsigned c F m x u = div_unsigned c F m2 x u.
Proof. intros H. unfold div_unsigned. apply div_ull_ext. intros. same. Qed.
#[local] Hint Resolve divu_same : same.
Lemma divs_same m m2 x u : same_sizes m m2 -> div_signed c F m x u = div_signed c F m2 x u.
Proof. intros H. unfold div_signed, div_sll. apply bind_ext; [|reflexivity]. apply div_ull_ext. intros. same. Qed.
#[local] Hint Resolve divs_same : same.
Lemma mul_ull_same r r2 t t2 x k : length r = length r2 -> length t = length t2 -> mul_ull c r t x k = mul_ull c r2 t2 x k.
Proof. intros Hr Ht. unfold mul_ull. same. Qed.
#[local] Hint Resolve mul_ull_same : same.
Lemma mul_sll_same r r2 t t2 x k : length r = length r2 -> length t = length t2 -> mul_sll c r t x k = mul_sll c r2 t2 x k.
Proof. intros Hr Ht. unfold mul_sll. same. Qed.
#[local] Hint Resolve mul_sll_same : same.
Lemma ladder_same f m m2 i p r y : same_sizes m m2 -> pow_ladder c f m i p r y = pow_ladder c f m2 i p r y.
Proof. intros H. revert i p r y; induction f as [|f IH]; intros; cbn [pow_ladder]; same. Qed.
#[local] Hint Resolve ladder_same : same.
Lemma pow_nonneg_same m m2 b p : same_sizes m m2 -> pow_nonneg c m b p = pow_nonneg c m2 b p.
Proof. intros H. unfold pow_nonneg. same. Qed.
#[local] Hint Resolve pow_nonneg_same : same.
Lemma pow_int_same m m2 b p : same_sizes m m2 -> pow_int c F m b p = pow_int c F m2 b p.
Proof. intros H. unfold pow_int. same. Qed.
#[local] Hint Resolve pow_int_same : same.

Lemma sqrt_step_same m m2 i x s v : same_sizes m m2 -> sqrt_step c m i x s v = sqrt_step c m2 i x s v.
Proof. intros H. unfold sqrt_step. same. Qed.
#[local] Hint Resolve sqrt_step_same : same.
Lemma pair_bind_ext {A B0 X} (o o2 : option (A * B0)) (f f2 : A -> B0 -> option X) :
  o = o2 -> (forall a b, f a b = f2 a b) ->
  match o with Some p => let '(a, b) := p in f a b | None => None end = match o2 with Some p => let '(a, b) := p in f2 a b | None => None end.
Proof. intros -> H. destruct o2 as [[a b]|]; auto. Qed.
Lemma sqrt_loop_same f m m2 o i d x s v : same_sizes m m2 -> sqrt_loop c f m o i d x s v = sqrt_loop c f m2 o i d x s v.
Proof.
  intros H. revert i d x s v; induction f as [|f IH]; intros; cbn [sqrt_loop]; [reflexivity|].
  destruct (d <? Z.of_nat o * ed (c_limb c)); [|reflexivity]. cbv zeta.
  rewrite (sqrt_step_same m m2 _ _ _ _ H). destruct (sqrt_step c m2 i _ _ _) as [[a b]|]; same.
Qed.
#[local] Hint Resolve sqrt_loop_same : same.
Lemma sqrt_same fsqrt m m2 v : same_sizes m m2 -> calculate_sqrt c F fsqrt m v = calculate_sqrt c F fsqrt m2 v.
Proof.
  intros H. unfold calculate_sqrt. do 3 (match goal with |- (if ?b then _ else _) = _ => destruct b; [reflexivity|] end).
  destruct (sqrt_start c F fsqrt v) as [[s vi]|]; same.
Qed.
#[local] Hint Resolve sqrt_same : same.

Lemma fmod_same m m2 x v : same_sizes m m2 -> fmod c F m x v = fmod c F m2 x v.
Proof. intros H. unfold fmod. same. Qed.
Lemma frexp_down_same f : forall m m2 r t, same_sizes m m2 -> frexp_down c F f m r t = frexp_down c F f m2 r t.
Proof. induction f as [|f IH]; intros; cbn [frexp_down]; same. Qed.
Lemma frexp_up_same f : forall m m2 r t, same_sizes m m2 -> frexp_up c f m r t = frexp_up c f m2 r t.
Proof. induction f as [|f IH]; intros; cbn [frexp_up]; same. Qed.
#[local] Hint Resolve frexp_up_same frexp_down_same : same.
Lemma frexp_same f m m2 x : same_sizes m m2 -> frexp c F f m x = frexp c F f m2 x.
Proof. intros H. unfold frexp. same. Qed.
Lemma from_float_same F' m m2 s q : same_sizes m m2 -> from_float c F' F m s q = from_float c F' F m2 s q.
Proof. intros H. unfold from_float. same. Qed.
Lemma ldexp_same m m2 v e : same_sizes m m2 -> ldexp c F m v e = ldexp c F m2 v e.
Proof. intros H. unfold ldexp. same. Qed.
#[local] Hint Resolve fmod_same frexp_same from_float_same ldexp_same : same.

Definition all_same (m m2 : memories) := forall k, same_sizes (m k) (m2 k).
Lemma all_same_at m m2 k : all_same m m2 -> same_sizes (m k) (m2 k).
Proof. auto. Qed.
#[local] Hint Resolve all_same_at : same.
Lemma exp_loop_same k m m2 : all_same m m2 -> forall i g xh t h, exp_loop c F k m i g xh t h = exp_loop c F k m2 i g xh t h.
Proof. intros H. induction k as [|k IH]; intros; cbn [exp_loop]; same. Qed.
#[local] Hint Resolve exp_loop_same : same.
Lemma exp_same ln2 m m2 x : all_same m m2 -> wexp c F ln2 m x = wexp c F ln2 m2 x.
Proof. intros H. unfold wexp. same. Qed.
#[local] Hint Resolve exp_same : same.
Lemma sinh_same ln2 m m2 x : all_same m m2 -> wsinh c F ln2 m x = wsinh c F ln2 m2 x.
Proof. intros H. unfold wsinh. same. Qed.
Lemma cosh_same ln2 m m2 x : all_same m m2 -> wcosh c F ln2 m x = wcosh c F ln2 m2 x.
Proof. intros H. unfold wcosh. same. Qed.
Lemma tanh_same ln2 m m2 x : all_same m m2 -> wtanh c F ln2 m x = wtanh c F ln2 m2 x.
Proof. intros H. unfold wtanh. same. Qed.
Lemma log_loop_same k m m2 : all_same m m2 -> forall i g y yp s b, log_loop c F k m i g y yp s b = log_loop c F k m2 i g y yp s b.
Proof. intros H. induction k as [|k IH]; intros; cbn [log_loop]; same. Qed.
#[local] Hint Resolve log_loop_same : same.
Lemma log_core_same m m2 x : all_same m m2 -> log_core c F m x = log_core c F m2 x.
Proof.
  intros H. unfold log_core. cbv zeta. apply bind_ext; [same|]. intros a. apply bind_ext; [same|]. intros b.
  match goal with |- match ?o with _ => _ end = match ?o2 with _ => _ end => assert (E : o = o2) by same; rewrite E; destruct o2 as [[? ?]|]; [|reflexivity] end.
  same.
Qed.
Lemma log_same core core2 f : (forall x, core x = core2 x) -> forall m m2 x, (forall k, same_sizes (m k) (m2 k)) ->
  log c F core f m x = log c F core2 f m2 x.
Proof.
  intros HC. induction f as [|f IH]; intros m m2 x H; cbn [log]; [reflexivity|].
  destruct (op_lt x (one c)); [|destruct (op_gt x (one c)); [rewrite HC|]; reflexivity].
  apply obind_ext; [same|]. intros y. apply obind_ext; [|reflexivity]. apply IH. intros k. apply H.
Qed.
Lemma pow_real_same core core2 ex ex2 f m m2 n n2 x a : (forall y, core y = core2 y) -> (forall y, ex y = ex2 y) ->
  (forall k, same_sizes (m k) (m2 k)) -> same_sizes n n2 ->
  pow_real c F core ex f m n x a = pow_real c F core2 ex2 f m2 n2 x a.
Proof.
  intros HC HE H HN. unfold pow_real. destruct (iszero a); [reflexivity|]. apply obind_ext; [apply log_same; auto|].
  intros l. apply obind_ext; [same|]. intros t. rewrite HE. reflexivity.
Qed.
Lemma rootn_loop_same f m m2 : same_sizes m m2 -> forall o i p d r x, rootn_loop c F f m o i p d r x = rootn_loop c F f m2 o i p d r x.
Proof. intros H. induction f as [|f IH]; intros; cbn [rootn_loop]; same. Qed.
#[local] Hint Resolve rootn_loop_same : same.
Lemma rootn_inv_same fpow f m m2 v p : same_sizes m m2 -> rootn_inv c F fpow f m v p = rootn_inv c F fpow f m2 v p.
Proof. intros H. unfold rootn_inv. same. Qed.
#[local] Hint Resolve rootn_inv_same : same.
Lemma rootn_ge3_same fpow f m m2 v p : same_sizes m m2 -> rootn_ge3 c F fpow f m v p = rootn_ge3 c F fpow f m2 v p.
Proof. intros H. unfold rootn_ge3. same. Qed.
#[local] Hint Resolve rootn_ge3_same : same.
Lemma rootn_nonneg_same fs fp f m m2 x p : same_sizes m m2 -> rootn_nonneg c F fs fp f m x p = rootn_nonneg c F fs fp f m2 x p.
Proof. intros H. unfold rootn_nonneg. same. Qed.
#[local] Hint Resolve rootn_nonneg_same : same.
Lemma rootn_same fs fp f m m2 x p : same_sizes m m2 -> rootn c F fs fp f m x p = rootn c F fs fp f m2 x p.
Proof. intros H. unfold rootn. same. Qed.
Lemma run_same p : forall (m m2 : nat -> list Z * list Z) t s,
  (forall i, length (fst (m i)) = length (fst (m2 i)) /\ length (snd (m i)) = length (snd (m2 i))) ->
  run c m t s p = run c m2 t s p.
Proof.
  induction p as [|o p IH]; intros m m2 t s H; cbn [run]; [reflexivity|].
  assert (E : step c (fst (m t)) (snd (m t)) s o = step c (fst (m2 t)) (snd (m2 t)) s o).
  { destruct (H t) as [H1 H2]. destruct o; cbn [step]; try reflexivity.
    - rewrite (mul_same c _ _ _ _ _ _ H1 H2). reflexivity.
    - rewrite (mul_sll_same _ _ _ _ _ _ H1 H2). reflexivity. }
  rewrite E. destruct (step c (fst (m2 t)) (snd (m2 t)) s o); [|reflexivity]. apply IH. exact H.
Qed.
End S.
