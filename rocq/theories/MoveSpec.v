(** Specification of the five moves, independent of how the program finds and
    executes them: which cells disappear, which appear, on which slices the
    vertices lie, and the documented count changes
    (docs/metropolis-hastings.md, include/Ergodic_moves_3.hpp doc comments). *)
From Verif Require Import Base Tracker Geom Simplex Pachner Foliation Moves Links MoveTools.
From stdpp Require Import fin_sets gmap.
Local Open Scope Z_scope.

(** Two cells on the common facet [a b x] with apexes [v], [w] (one of type (2,2)
    and one of type (3,1) or (1,3)) against the three cells around the edge [v w],
    which joins adjacent slices. *)
Definition two_three (label : vertex -> Z) (T T' : tds) (v w a b x : vertex) : Prop :=
  NoDup [v; w; a; b; x] /\ infinite ∉ [v; w; a; b; x] /\
  replaces T [of_list [v; a; b; x]; of_list [w; a; b; x]]
             [of_list [v; w; a; b]; of_list [v; w; b; x]; of_list [v; w; a; x]] T' /\
  Z.abs (label v - label w) = 1 /\
  (cell_type label (of_list [v; a; b; x]) = TWO_TWO <-> cell_type label (of_list [w; a; b; x]) <> TWO_TWO) /\
  (forall c, c ∈ [of_list [v; a; b; x]; of_list [w; a; b; x]; of_list [v; w; a; b]; of_list [v; w; b; x]; of_list [v; w; a; x]] ->
     causal_type (cell_type label c) = true).

(** Two cells on the spacelike facet [a b c] of slice t with apexes [d] on slice
    t-1 and [e] on slice t+1 against the six cells around the vertex [x] of
    slice t. *)
Definition two_six (label : vertex -> Z) (T T' : tds) (a b c x d e : vertex) : Prop :=
  NoDup [a; b; c; x; d; e] /\ infinite ∉ [a; b; c; x; d; e] /\
  replaces T [of_list [a; b; c; d]; of_list [a; b; c; e]]
             [of_list [x; a; b; d]; of_list [x; b; c; d]; of_list [x; a; c; d];
              of_list [x; a; b; e]; of_list [x; b; c; e]; of_list [x; a; c; e]] T' /\
  exists t, label a = t /\ label b = t /\ label c = t /\ label x = t /\ label d = t - 1 /\ label e = t + 1.

(** Four cells around the spacelike edge [p q] against four around [a b]; all four
    vertices on slice t, apexes [top] and [bot] on t+1 and t-1. *)
Definition four_four (label : vertex -> Z) (T T' : tds) (p q a b top bot : vertex) : Prop :=
  NoDup [p; q; a; b; top; bot] /\ infinite ∉ [p; q; a; b; top; bot] /\
  replaces T [of_list [p; q; a; top]; of_list [p; q; b; top]; of_list [p; q; a; bot]; of_list [p; q; b; bot]]
             [of_list [p; a; b; top]; of_list [q; a; b; top]; of_list [p; a; b; bot]; of_list [q; a; b; bot]] T' /\
  exists t, label p = t /\ label q = t /\ label a = t /\ label b = t /\ label top = t + 1 /\ label bot = t - 1.

(** Documented count changes: N3, N3_31, N3_13, N3_31+N3_13, N3_22, N2, N1, N1_TL, N1_SL, N0. *)
Definition move_delta (k : MoveType) : option Geometry :=
  if k =? TWO_THREE then Some (mkGeometry 1 0 0 0 1 2 1 1 0 0)
  else if k =? THREE_TWO then Some (mkGeometry (-1) 0 0 0 (-1) (-2) (-1) (-1) 0 0)
  else if k =? TWO_SIX then Some (mkGeometry 4 2 2 4 0 8 5 2 3 1)
  else if k =? SIX_TWO then Some (mkGeometry (-4) (-2) (-2) (-4) 0 (-8) (-5) (-2) (-3) (-1))
  else if k =? FOUR_FOUR then Some (mkGeometry 0 0 0 0 0 0 0 0 0 0)
  else None.

(** What every successful move guarantees for the new triangulation, given that
    the old one is a valid causal one. *)
Record sound_move (label : vertex -> Z) (k : MoveType) (T T' : tds) : Prop := {
  sm_counts : exists d, move_delta k = Some d /\ geometry_of label T' = geometry_plus (geometry_of label T) d;
  sm_valid : Links.valid T';
  sm_causal : causal label T -> causal label T';
  sm_max : max_time label T' = max_time label T;
  sm_min : min_time label T' = min_time label T }.
