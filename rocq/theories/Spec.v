(** Spec.v - the small, model-independent numeric specification.

    Nothing here cites C++ code: these are the mathematical notions in which the
    properties are stated (positional value of a limb array, powers of ten in Q). *)
From Coq Require Export ZArith List Bool QArith Qabs Qpower Lia.
Export ListNotations.
Local Open Scope Z_scope.

(** Positional value of a big-endian digit/limb array in base [B]:
    the first element is the most significant one. *)
Fixpoint limbs_value (B : Z) (l : list Z) : Z :=
  match l with
  | [] => 0
  | x :: t => x * B ^ Z.of_nat (length t) + limbs_value B t
  end.

(** Every element is a base-[B] digit. *)
Definition digits_ok (B : Z) (l : list Z) : Prop := Forall (fun x => 0 <= x < B) l.

(** 10^e as a rational, for any integer e. *)
Definition p10 (e : Z) : Q := Qpower (10 # 1) e.

(** Value of a sign/limbs/exponent triple: the first limb has weight 10^e,
    limb i has weight 10^(e - ed*i), where [ed] is the number of decimal digits per limb. *)
Definition number_value (ed : Z) (neg : bool) (l : list Z) (e : Z) : Q :=
  inject_Z ((if neg then -1 else 1) * limbs_value (10 ^ ed) l)
  * p10 (e - ed * (Z.of_nat (length l) - 1)).

(** The rational [q] is an integer. *)
Definition is_integer (q : Q) : Prop := exists k : Z, (q == inject_Z k)%Q.
