(** What looking up should answer, and what it means that a change is local.
    *)
From Verif Require Import Base Tracker Command Run Simplex Foliation Moves Links MoveSpec Manifold MoveProps Lookup.
From stdpp Require Import fin_sets gmap.
Local Open Scope Z_scope.

(** [a] and [b] are the ends of a finite edge: different finite vertices of one cell. *)
Definition joined (T : tds) (a b : vertex) : Prop :=
  a <> b /\ a <> infinite /\ b <> infinite /\ exists c, c ∈ T /\ a ∈ c /\ b ∈ c.

(** A manifold made by a move of kind [k] that passed the move check. *)
Definition checked {G} (W : world) (R : choices G) (escape : manifold -> G -> move_result manifold * G)
    (k : MoveType) (m m' : manifold) : Prop :=
  moved W R escape k m m' /\ check_move W m m' k = true.
(** Any of the five. *)
Definition some_move {G} (W : world) (R : choices G) (escape : manifold -> G -> move_result manifold * G)
    (m m' : manifold) : Prop := exists k, checked W R escape k m m'.

(** The points of the site of a move: (2,3) and (3,2) have five, the others six. *)
Definition site_points (k : MoveType) : nat := if (k =? TWO_THREE) || (k =? THREE_TWO) then 5 else 6.

(** Outside [S], cells, edges and points are found in [m'] as in [m]; for points
    where CGAL's point location gives the same answer for both. *)
Definition same_outside (W : world) (S : simplex) (m m' : manifold) : Prop :=
  (forall a b c d, ~ of_list [a; b; c; d] ⊆ S -> find_cell (m_cells m') a b c d = find_cell (m_cells m) a b c d) /\
  (forall e, ~ e ⊆ S -> e ∈ collect_edges (m_cells m') <-> e ∈ collect_edges (m_cells m)) /\
  (forall p, p ∉ S -> w_locates W (m_cells m') p = w_locates W (m_cells m) p ->
     find_vertex (w_locates W) (m_cells m') p = find_vertex (w_locates W) (m_cells m) p).

(** How many cells a move takes away and how many it brings. *)
Definition cells_taken (k : MoveType) : nat :=
  if k =? TWO_THREE then 2 else if k =? THREE_TWO then 3 else if k =? TWO_SIX then 2
  else if k =? SIX_TWO then 6 else 4.
Definition cells_brought (k : MoveType) : nat :=
  if k =? TWO_THREE then 3 else if k =? THREE_TWO then 2 else if k =? TWO_SIX then 6
  else if k =? SIX_TWO then 2 else 4.

(** Sum of a tracker's five counters. *)
Definition all_five (t : tracker) : Z :=
  slot t TWO_THREE + slot t THREE_TWO + slot t TWO_SIX + slot t SIX_TWO + slot t FOUR_FOUR.
