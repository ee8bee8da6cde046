(** Specification for C99: what the time slices of a triangulation are, as
    2-dimensional simplicial complexes of their own, and when two of them are the
    same surface.

    A slice is observable through
    include/Foliated_triangulation.hpp:1026-1096 [collect_spacelike_facets],
    [volume_per_timeslice] and 1829-1836 [spacelike_face_count] (its triangles),
    533-550 [classify_edge] and [N1_SL] (its edges) and the time values of the
    vertices (its vertices). *)
From Verif Require Import Base Simplex Pachner Foliation.
From stdpp Require Import fin_sets gmap relations.
Local Open Scope Z_scope.

(** The vertices, edges and triangles of [T] all of whose vertices are finite and
    lie on the slice of time value [t]. *)
Definition slice (label : vertex -> Z) (t : Z) (T : tds) : gset simplex :=
  filter (fun s => set_Forall (fun v => v <> infinite /\ label v = t) s) (faces 1 T ∪ faces 2 T ∪ faces 3 T).

(** A bistellar (Pachner) move of a surface: the four vertices [lU ++ lV] span a
    tetrahedron; the triangles of its boundary that contain [lV] are present and
    are replaced by those that contain [lU]. [lU] of length 1 puts a vertex into a
    triangle, of length 3 takes it out again, of length 2 flips an edge. *)
Record surface_move (S : gset simplex) (lU lV : list vertex) (S' : gset simplex) : Prop := {
  sv_nodup : NoDup (lU ++ lV);
  sv_four : length (lU ++ lV) = 4%nat;
  sv_U : lU <> [];
  sv_V : lV <> [];
  (** the old triangles are there ... *)
  sv_present : forall u, u ∈ lU -> of_list (lU ++ lV) ∖ {[u]} ∈ S;
  (** ... and nothing else is around [lV]; *)
  sv_around : forall s, s ∈ S -> of_list lV ⊆ s -> s ⊆ of_list (lU ++ lV);
  (** the new vertex, edge or triangle is not there yet; *)
  sv_absent : forall s, s ∈ S -> ~ of_list lU ⊆ s;
  (** everything around [lV] goes, everything between [lU] and the new triangles comes. *)
  sv_result : forall s, s ∈ S' <-> (s ∈ S /\ ~ of_list lV ⊆ s) \/
                                   (of_list lU ⊆ s /\ s ⊆ of_list (lU ++ lV) /\ ~ of_list lV ⊆ s) }.

(** Two complexes are the same surface if finitely many such moves lead from one
    to the other (by Pachner's theorem: if they are piecewise linearly
    homeomorphic). *)
Definition surface_step (S S' : gset simplex) : Prop := exists lU lV, surface_move S lU lV S'.
Definition same_surface : gset simplex -> gset simplex -> Prop := rtc surface_step.

(** A 2-dimensional simplicial complex. *)
Record complex2 (S : gset simplex) : Prop := {
  c2_size : forall s, s ∈ S -> (1 <= size s <= 3)%nat;
  c2_faces : forall s r, s ∈ S -> r ⊆ s -> r <> ∅ -> r ∈ S }.

(** Number of k-vertex members; Euler characteristic. *)
Definition members (k : nat) (S : gset simplex) : Z := Z.of_nat (size (filter (fun s => size s = k) S)).
Definition euler_of (S : gset simplex) : Z := members 1 S - members 2 S + members 3 S.
(** Every edge bounds exactly two triangles. *)
Definition closed_surface (S : gset simplex) : Prop := forall e, e ∈ S -> size e = 2%nat ->
  size (filter (fun f => size f = 3%nat /\ e ⊆ f) S) = 2%nat.
(** Vertices joined by a path of edges; components. *)
Definition neighbours (S : gset simplex) (v w : vertex) : Prop := of_list [v; w] ∈ S.
Definition path (S : gset simplex) : vertex -> vertex -> Prop := rtc (neighbours S).
Definition connected_surface (S : gset simplex) : Prop := forall v w, {[v]} ∈ S -> {[w]} ∈ S -> path S v w.
