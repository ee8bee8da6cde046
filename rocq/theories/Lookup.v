(** Model of the functions of include/Foliated_triangulation.hpp that look points
    and cells up in a triangulation and list its edges and cells. Handles are
    named by the points they stand for: a vertex by its point, a cell or an edge by
    the set of its vertices. *)
From Verif Require Import Base Simplex Foliation.
From stdpp Require Import fin_sets gmap.
Local Open Scope Z_scope.

(** CGAL Triangulation_data_structure_3::is_cell(u, v, w, x, c): four different
    vertices that are the vertices of a cell, finite or not. *)
Definition is_cell (T : tds) (u v w x : vertex) : option simplex :=
  if bool_decide (NoDup [u; v; w; x]) then
    if bool_decide (of_list [u; v; w; x] ∈ T) then Some (of_list [u; v; w; x]) else None
  else None.
(** CGAL Triangulation_3::is_vertex(p, v): point location, [locates] as in Moves.v;
    it can only answer with a finite vertex that is there. *)
Definition is_vertex (locates : tds -> vertex -> bool) (T : tds) (p : vertex) : option vertex :=
  if locates T p && bool_decide (p ∈ finite_vertices T) then Some p else None.

(** include/Foliated_triangulation.hpp:445-456 [find_vertex]. *)
Definition find_vertex (locates : tds -> vertex -> bool) (T : tds) (p : vertex) : option vertex :=
  match is_vertex locates T p with Some v => Some v | None => None end.
(** include/Foliated_triangulation.hpp:471-485 [find_cell]. *)
Definition find_cell (T : tds) (v1 v2 v3 v4 : vertex) : option simplex :=
  match is_cell T v1 v2 v3 v4 with Some c => Some c | None => None end.
(** include/Foliated_triangulation.hpp:421-434 [collect_edges]; the order of CGAL's
    iterator is not modelled, the assertions are not either. *)
Definition collect_edges (T : tds) : list simplex :=
  List.filter finite_simplex (elements (faces 2 T)).
(** include/Foliated_triangulation.hpp:692-704 [collect_cells]. *)
Definition collect_cells (T : tds) : list simplex :=
  List.filter finite_simplex (elements T).
