(** Model_Root.v - the root functions for every index (math/wide_decimal/decwide_t.h), and a nearly
    correctly rounded built-in root for examples. *)
From Verif Require Export Model_Log Model_Sqrt.
Local Open Scope Z_scope.

Section ROOT.
Variable c : cfg.
Variable F : ftype.
Variable fsqrt : Q -> Q.
Variable fpow : Q -> Z -> xfloat.

(** rootn for p >= 0. Models: decwide_t.h 5702-5722. *)
Definition rootn_nonneg (fuel : nat) (mem : memory) (x : dec) (p : Z) : outcome dec :=
  if (p =? 0) || (op_lt x (zero c) && negb (p =? 3)) then Ret (zero c)
  else if p =? 1 then Ret x
  else if p =? 2 then lift (calculate_sqrt c F fsqrt mem x)
  else rootn_ge3 c F fpow fuel mem x p.

(** rootn. Models: decwide_t.h 5690-5725. The negation of p is undefined for the smallest 32-bit
    integer. *)
Definition rootn (fuel : nat) (mem : memory) (x : dec) (p : Z) : outcome dec :=
  if p <? 0 then
    if p =? - 2 ^ 31 then Fault
    else obind (rootn_nonneg fuel mem x (- p)) (fun r => lift (divide c F (later (later (later mem 4000) 4000) 4000) (one c) r))
  else rootn_nonneg fuel mem x p.

(** cbrt. Models: decwide_t.h 5683-5687. *)
Definition cbrt (fuel : nat) (mem : memory) (x : dec) : outcome dec := rootn fuel mem x 3.
End ROOT.

(** Largest m built from the k low bits on top of m0 with q * (m / 2^K)^p <= 1. Not code: a stand-in for
    the built-in pow(q, -1 / p) that shows the assumptions on it can be met. *)
Fixpoint root_bits (q : Q) (p K : Z) (k : nat) (m : Z) : Z :=
  match k with
  | O => m
  | S k => let m' := m + 2 ^ Z.of_nat k in
           if Qle_bool (q * inject_Z (m' ^ p)) (inject_Z (2 ^ (K * p))) then root_bits q p K k m' else root_bits q p K k m
  end.
Definition fpow_ieee (P : Z) (q : Q) (p : Z) : xfloat :=
  XFin (fl P (inject_Z (root_bits q p (P + 16) (Z.to_nat (P + 21)) 0) / inject_Z (2 ^ (P + 16)))).
