(** Small specification for the functions that take raw handles: what an edge handle
    names, and the four cells around an edge before and after a (4,4) flip. *)
From Verif Require Import Base Simplex Foliation MoveTools Seams.
From stdpp Require Import fin_sets gmap.
Local Open Scope Z_scope.

(** The handle names the edge from [p] to [q] of [T]: its cell is a cell of [T] with
    four vertices, and its two indices are the places of [p] and [q] in it. *)
Definition names_edge (T : tds) (e : raw_edge) (p q : vertex) : Prop :=
  exists (h : list vertex) (i j : nat), e = mkRawEdge (OwnCell h) (Z.of_nat i) (Z.of_nat j) /\
    length h = 4%nat /\ of_list h ∈ T /\ i <> j /\ h !! i = Some p /\ h !! j = Some q.

(** Exactly four cells of [T] contain the edge from [p] to [q]; all are finite; going
    around the edge the vertices are [bot], [a], [far], [b]. *)
Definition four_around (T : tds) (p q bot a far b : vertex) : Prop :=
  NoDup [p; q; bot; a; far; b] /\ infinite ∉ [p; q; bot; a; far; b] /\
  forall c, (c ∈ T /\ p ∈ c /\ q ∈ c) <->
    c ∈ [of_list [p; q; bot; a]; of_list [p; q; a; far]; of_list [p; q; far; b]; of_list [p; q; b; bot]].

(** The edge from [p] to [q] has become the edge from [a] to [b]. *)
Definition flipped_44 (T : tds) (p q bot a far b : vertex) (T' : tds) : Prop :=
  replaces T [of_list [p; q; bot; a]; of_list [p; q; a; far]; of_list [p; q; far; b]; of_list [p; q; b; bot]]
             [of_list [a; b; bot; p]; of_list [a; b; p; far]; of_list [a; b; far; q]; of_list [a; b; q; bot]] T'.
