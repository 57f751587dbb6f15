(** Spec_Mem.v - two working memories that differ in nothing but what is left in them from earlier use. *)
From Verif Require Export Model_Inv.

(** For every multiplication (number [i], [p] limbs): the same number of limbs in the result area and in the
    scratch area. What the limbs hold is unrelated. *)
Definition same_sizes (m m2 : memory) : Prop :=
  forall i p, length (fst (m i p)) = length (fst (m2 i p)) /\ length (snd (m i p)) = length (snd (m2 i p)).
