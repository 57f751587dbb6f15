(** Properties_Indep.v - results never depend on what earlier computations left in the working memory. *)
From Verif Require Import Indep2_proofs Ftlocal2_proofs Refute_func Refute_arith.
Local Open Scope Z_scope.

(** C61. Two runs of the same operation on the same operands, in working memories (the result and scratch areas of
    every multiplication the operation makes) of the same sizes but with any contents whatsoever, have the same
    outcome, for all operands and at every precision: no hypothesis on the operands, on the configuration
    or on success. *)
Theorem C61_arithmetic : forall c F m m2, same_sizes m m2 ->
  (forall i x v, mulm c m i x v = mulm c m2 i x v) /\
  (forall x v, divide c F m x v = divide c F m2 x v) /\
  (forall x k, div_unsigned c F m x k = div_unsigned c F m2 x k) /\
  (forall x k, div_signed c F m x k = div_signed c F m2 x k) /\
  (forall i p x k, mul_ull c (fst (m i p)) (snd (m i p)) x k = mul_ull c (fst (m2 i p)) (snd (m2 i p)) x k) /\
  (forall i p x k, mul_sll c (fst (m i p)) (snd (m i p)) x k = mul_sll c (fst (m2 i p)) (snd (m2 i p)) x k).
Proof.
  intros c F m m2 H. split; [intros; apply mulm_same; auto|]. split; [intros; apply divide_same; auto|].
  split; [intros; apply divu_same; auto|]. split; [intros; apply divs_same; auto|].
  split; intros; [apply mul_ull_same|apply mul_sll_same]; apply H.
Qed.
Print Assumptions C61_arithmetic.

Theorem C61_functions : forall c F m m2, same_sizes m m2 ->
  (forall v, calculate_inv c F m v = calculate_inv c F m2 v) /\
  (forall b p, pow_int c F m b p = pow_int c F m2 b p) /\
  (forall fsqrt v, calculate_sqrt c F fsqrt m v = calculate_sqrt c F fsqrt m2 v) /\
  (forall fsqrt fpow k x p, rootn c F fsqrt fpow k m x p = rootn c F fsqrt fpow k m2 x p) /\
  (forall fsqrt fpow k x, cbrt c F fsqrt fpow k m x = cbrt c F fsqrt fpow k m2 x) /\
  (forall x v, fmod c F m x v = fmod c F m2 x v) /\
  (forall k x, frexp c F k m x = frexp c F k m2 x) /\
  (forall x e, ldexp c F m x e = ldexp c F m2 x e) /\
  (forall F' s q, from_float c F' F m s q = from_float c F' F m2 s q).
Proof.
  intros c F m m2 H. split; [intros; apply inv_same; auto|]. split; [intros; apply pow_int_same; auto|].
  split; [intros; apply sqrt_same; auto|]. split; [intros; apply rootn_same; auto|]. split; [intros; apply rootn_same; auto|].
  split; [intros; apply fmod_same; auto|]. split; [intros; apply frexp_same; auto|].
  split; [intros; apply ldexp_same; auto|intros; apply from_float_same; auto].
Qed.
Print Assumptions C61_functions.

Theorem C61_transcendental : forall c F m m2, (forall k, same_sizes (m k) (m2 k)) ->
  (forall ln2 x, wexp c F ln2 m x = wexp c F ln2 m2 x) /\
  (forall ln2 x, wsinh c F ln2 m x = wsinh c F ln2 m2 x) /\
  (forall ln2 x, wcosh c F ln2 m x = wcosh c F ln2 m2 x) /\
  (forall ln2 x, wtanh c F ln2 m x = wtanh c F ln2 m2 x) /\
  (forall k n n2 x, (forall j, same_sizes (n j) (n2 j)) ->
     log c F (log_core c F m) k n x = log c F (log_core c F m2) k n2 x) /\
  (forall ln2 m3 m4 k n n2 w w2 x a, (forall j, same_sizes (m3 j) (m4 j)) -> (forall j, same_sizes (n j) (n2 j)) -> same_sizes w w2 ->
     pow_real c F (log_core c F m) (wexp c F ln2 m3) k n w x a = pow_real c F (log_core c F m2) (wexp c F ln2 m4) k n2 w2 x a).
Proof.
  intros c F m m2 H. split; [intros; apply exp_same; auto|]. split; [intros; apply sinh_same; auto|].
  split; [intros; apply cosh_same; auto|]. split; [intros; apply tanh_same; auto|].
  split.
  - intros k n n2 x Hn. exact (log_same c F _ _ k (fun y => log_core_same c F m m2 y H) n n2 x Hn).
  - intros ln2 m3 m4 k n n2 w w2 x a H3 Hn Hw.
    exact (pow_real_same c F _ _ _ _ k n n2 w w2 x a (fun y => log_core_same c F m m2 y H) (fun y => exp_same c F ln2 m3 m4 y H3) Hn Hw).
Qed.
Print Assumptions C61_transcendental.

(** Whole programs: any sequence of statements on any number of variables. *)
Theorem C61_histories : forall c p s (m m2 : nat -> list Z * list Z),
  (forall i, length (fst (m i)) = length (fst (m2 i)) /\ length (snd (m i)) = length (snd (m2 i))) ->
  run c m 0 s p = run c m2 0 s p.
Proof. intros. apply run_same. assumption. Qed.
Print Assumptions C61_histories.

(** The sizes are those of the program's allocations, whatever the contents. *)
Theorem C61_allocated_sizes : forall m m2, memory_ok m -> memory_ok m2 -> same_sizes m m2.
Proof. exact sizes_same. Qed.
Print Assumptions C61_allocated_sizes.

(** Two different memories; a Karatsuba multiplication, which does read cells of its scratch area back, succeeds. *)
Definition mem9 : memory :=
  fun i p => let k := Z.to_nat (a029750 (Z.of_nat p)) in (repeat 123456789 (2 * k), repeat 99999999 (4 * k)).
Example C61_case : memory_ok mem0 /\ memory_ok mem9 /\ same_sizes mem0 mem9 /\ mem0 0%nat 50%nat <> mem9 0%nat 50%nat /\
  elems_for_kara <= elem_number c1000 /\
  (exists z, mul c1000 (junk_r c1000) (junk_t c1000) xk xk = Some z /\ nth 0 (data z) 0 = 97546107).
Proof.
  assert (H9 : memory_ok mem9). { intros i p. unfold pool_at, mem9. cbn [fst snd]. rewrite !repeat_length. auto. }
  split; [exact mem0_ok|]. split; [exact H9|]. split; [exact (C61_allocated_sizes _ _ mem0_ok H9)|].
  split; [vm_compute; discriminate|]. split; [exact (proj1 (proj2 (proj2 (proj2 C07_kara_case_proof))))|].
  exact (proj2 (proj2 (proj2 (proj2 C07_kara_case_proof)))).
Qed.

(** C62. The FFT code in any arithmetic - in particular in the rounded one of the program - ends, computes what it leaves in its
    array from what the array held before alone, and changes nothing beyond the array. *)
Theorem C62_transforms_local : forall (T : Type) (A : arith T) p (d d2 : nat -> T), (4 <= p)%nat ->
  (forall i, (i < 2 ^ p)%nat -> d i = d2 i) ->
  let local f := exists r r2, f d = Some r /\ f d2 = Some r2 /\ (forall i, (i < 2 ^ p)%nat -> r i = r2 i) /\
    (forall i, (2 ^ p <= i)%nat -> r i = d i) /\ (forall i, (2 ^ p <= i)%nat -> r2 i = d2 i) in
  local (rfft A (2 ^ p)) /\ local (irfft A (2 ^ p)) /\ forall fwd, local (fft A fwd (2 ^ (p - 1))).
Proof.
  intros T A p d d2 Hp H local. assert (H0 : twin (2 ^ p) d d2 d d2) by (split; [exact H|split; reflexivity]).
  split; [exact (rfft_twin A (2 ^ p) d d2 p d d2 Hp (le_n _) H0)|].
  split; [exact (irfft_twin A (2 ^ p) d d2 p d d2 Hp (le_n _) H0)|].
  intros fwd. apply (fft_twin A (2 ^ p) d d2 fwd (p - 1) d d2); [lia| |exact H0].
  destruct p as [|p]; [lia|]. rewrite pow_S. replace (S p - 1)%nat with p by lia. auto.
Qed.
Print Assumptions C62_transforms_local.

(** Hence the limbs of an FFT product do not depend on what the two pools held before. *)
Theorem C62_product_independent : forall (A : arith Q) L P u v af bf af2 bf2, length u = length v ->
  (Z.of_nat (length u) <= 2 ^ 29)%Z -> let n := Z.to_nat (n_fft (length u)) in
  exists d d2, convolve A n (half_limbs L u) (half_limbs L v) af bf = Some d /\
    convolve A n (half_limbs L u) (half_limbs L v) af2 bf2 = Some d2 /\
    mul_loop_fft L P d (length u) = mul_loop_fft L P d2 (length u) /\
    (forall i, (n <= i)%nat -> d i = af i /\ d2 i = af2 i).
Proof. exact product_local. Qed.
Print Assumptions C62_product_independent.

Example C62_case : exists d d2, convolve fixed 16 [1; 2; 3; 4; 5] [9; 0; 7; 1] (fun _ => 77) (fun _ => 77) = Some d /\
  convolve fixed 16 [1; 2; 3; 4; 5] [9; 0; 7; 1] (fun i => Z.of_nat i) (fun _ => -5) = Some d2 /\
  d 3%nat = d2 3%nat /\ d 16%nat = 77 /\ d2 16%nat = 16 /\ d2 3%nat / (8 * 10 ^ 9) = 51.
Proof.
  destruct (convolve_local fixed 4 [1; 2; 3; 4; 5] [9; 0; 7; 1] (fun _ => 77) (fun _ => 77) (fun i => Z.of_nat i) (fun _ => -5)
    (le_n _) ltac:(cbn; lia) ltac:(cbn; lia)) as (d & d2 & H1 & H2 & H3 & H4 & H5).
  exists d, d2. split; [exact H1|]. split; [exact H2|]. split; [apply H3; cbn; lia|]. split; [apply H4; cbn; lia|].
  split; [apply (H5 16%nat); cbn; lia|].
  assert (K : match convolve fixed 16 [1; 2; 3; 4; 5] [9; 0; 7; 1] (fun i => Z.of_nat i) (fun _ => -5) with Some r => r 3%nat / (8 * 10 ^ 9) =? 51 | None => false end = true)
    by (vm_compute; reflexivity).
  change (2 ^ 4)%nat with 16%nat in H2. rewrite H2 in K. apply Z.eqb_eq. exact K.
Qed.
