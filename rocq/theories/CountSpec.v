(** What a manifold's counts say about the counters of the run that made it, and
    vice versa (C106). [change g g' t]: from [g] to [g'] by as many successes of each
    kind as the tracker [t] shows. The numbers are those of the table in
    docs/metropolis-hastings.md and of the comments in include/Ergodic_moves_3.hpp. *)
From Verif Require Import Base Tracker Geom.
Local Open Scope Z_scope.

Definition change_by (g g' : Geometry) (n23 n32 n26 n62 : Z) : Prop :=
  gN0 g' = gN0 g + (n26 - n62) /\
  gN1_TL g' = gN1_TL g + (n23 - n32) + 2 * (n26 - n62) /\
  gN1_SL g' = gN1_SL g + 3 * (n26 - n62) /\
  gN1 g' = gN1 g + (n23 - n32) + 5 * (n26 - n62) /\
  gN2 g' = gN2 g + 2 * (n23 - n32) + 8 * (n26 - n62) /\
  gN3_31 g' = gN3_31 g + 2 * (n26 - n62) /\
  gN3_13 g' = gN3_13 g + 2 * (n26 - n62) /\
  gN3_31_13 g' = gN3_31_13 g + 4 * (n26 - n62) /\
  gN3_22 g' = gN3_22 g + (n23 - n32) /\
  gN3 g' = gN3 g + (n23 - n32) + 4 * (n26 - n62).
Definition change (g g' : Geometry) (t : tracker) : Prop :=
  change_by g g' (slot t TWO_THREE) (slot t THREE_TWO) (slot t TWO_SIX) (slot t SIX_TWO).
(** The same between two readings of a tracker that keeps counting. *)
Definition change_since (g g' : Geometry) (t t' : tracker) : Prop :=
  change_by g g' (slot t' TWO_THREE - slot t TWO_THREE) (slot t' THREE_TWO - slot t THREE_TWO)
    (slot t' TWO_SIX - slot t TWO_SIX) (slot t' SIX_TWO - slot t SIX_TWO).
