(** Rootinv_proofs.v - the reciprocal root rootn_inv(v, p), in the vocabulary of Spec_Root. *)
From Verif Require Export Rootn3_proofs.
From Coq Require Import Lqa.
Local Open Scope Z_scope.

Section RI.
Variable c : cfg.
Variable F : ftype.
Variable fpow : Q -> Z -> xfloat.
Notation M := (max_exp10_of (c_expo c)).
Notation eps := (p10 (- (c_digits10 c + 2 * edc c))).
Hypothesis Hc : cfg_ok c.
Hypothesis Hk : newton_ok c.
Hypothesis HF : float_fits c F.
Hypothesis HJ : (digit_loops c F <= nel c)%nat.
Variable p : Z.
Hypothesis Hp : 3 <= p <= 37.
Hypothesis Hfp : builtin_root (f_bits F) fpow p.
Hypothesis Hen : enough_doublings c F p.

Lemma rootn_inv_accurate mem v fuel : (64 <= fuel)%nat -> memory_ok mem -> normal c v -> (0 < value c v)%Q ->
  - M + edc c * (elem_number c + 8) < dexp v < M - edc c * (elem_number c + 8) ->
  not_near_power c p (p10 (- start_kept F p)) (value c v) ->
  exists y, rootn_inv c F fpow fuel mem v p = Ret y /\ normal c y /\ (0 < value c y)%Q /\
    (Qabs (value c v * value c y ^ p - 1) <= 12 * inject_Z p * eps)%Q.
Proof using Hc Hk HF HJ Hp Hfp Hen.
  intros Hfu Hm Nv Sv Rv Hcl.
  assert (Zv : iszero v = false).
  { destruct (iszero v) eqn:Q; auto. pose proof (value_zero c Hc v Nv Q) as V0. lra. }
  pose proof (value_sign c Hc v Nv Zv) as SG.
  destruct (rootn_inv_spec c F fpow Hc Hk HF HJ (Z.to_nat p)) with (mem := mem) (v := v) (fuel := fuel) as (r & a & R1 & R2 & R3 & R4 & R5 & R6 & R7 & R8 & R9); auto.
  { clear - Hp. lia. }
  { apply (fok c F fpow HF p Hp Hfp). }
  { apply (en_eq c F Hc p Hp Hen). }
  { destruct (dneg v); auto. lra. }
  { rewrite (kept_eq F p Hp). apply (clear_eq c p Hp). exact Hcl. }
  rewrite Z2Nat.id in R1 by (clear - Hp; lia). exists r. split; auto. split; auto. split; auto.
  assert (Y0 : ~ (value c r == 0)%Q) by lra.
  rewrite qp_power, Z2Nat.id in R8 by (auto; clear - Hp; lia). unfold iN in R9. rewrite Z2Nat.id in R9 by (clear - Hp; lia).
  rewrite Qmult_comm, R8. setoid_replace (1 - a - 1)%Q with (- a)%Q by ring. rewrite Qabs_opp.
  eapply Qle_trans; [exact R9|]. pose proof (eta_n_eps c Hc) as Ee.
  assert (P3 : (0 <= inject_Z p)%Q) by (change 0%Q with (inject_Z 0); rewrite <- Zle_Qle; clear - Hp; lia).
  rewrite <- Qmult_assoc. apply Qmult_le_l; [reflexivity|]. rewrite !(Qmult_comm (inject_Z p)). apply Qmult_le_compat_r; auto.
Qed.
End RI.
