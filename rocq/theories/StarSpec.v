(** Small specification: the cells around a face hang together through the facets
    that contain the face (as they do in every triangulated manifold). *)
From Verif Require Import Base Simplex.
From stdpp Require Import fin_sets gmap.
Local Open Scope Z_scope.

(** [joined T s c c']: one can walk from [c] to [c'] through cells of [T] that
    contain [s], each step crossing a triangle that contains [s]. *)
Inductive joined (T : tds) (s : simplex) : simplex -> simplex -> Prop :=
| joined_here c : joined T s c c
| joined_step c f n c' : n ∈ T -> s ⊆ f -> size f = 3%nat -> f ⊆ c -> f ⊆ n ->
    joined T s n c' -> joined T s c c'.

(** Any two cells of [T] that have the face [s] in common are joined around it;
    for [s = ∅], any two cells at all. *)
Definition joined_stars (T : tds) : Prop :=
  forall s c c', c ∈ T -> c' ∈ T -> s ⊆ c -> s ⊆ c' -> joined T s c c'.
