(** What clients of FoliatedTriangulation and Manifold rely on: the contract of
    CGAL, what the containers of an object must hold, and histories. *)
From Verif Require Import Base Geom Simplex Foliation Repair Objects.
From stdpp Require Import fin_sets gmap sorting.
From Verif Require Import Base Geom Simplex Foliation Objects.
Local Open Scope Z_scope.

(** ** CGAL *)
(** The handles a triangulation owns. *)
Definition vertex_handles (t : tri) : list nat := t_infinite t :: t_vertices t.
Definition cell_handles (t : tri) : list nat := t_cells t ++ t_hull t.
Definition below (n : nat) (t : tri) : Prop :=
  (forall v, v ∈ vertex_handles t -> (v < n)%nat) /\ (forall c, c ∈ cell_handles t -> (c < n)%nat).
Definition apart (t t' : tri) : Prop :=
  (forall v, v ∈ vertex_handles t -> v ∉ vertex_handles t') /\ (forall c, c ∈ cell_handles t -> c ∉ cell_handles t').

(** A triangulation made by CGAL: no vertex or cell twice, finite cells on four
    finite vertices, other cells on its vertices, finite facets and edges of owned cells on finite vertices. *)
Record well_made (H : heap) (t : tri) : Prop := {
  wm_below : below (h_next H) t;
  wm_vertices : NoDup (vertex_handles t);
  wm_cells : NoDup (cell_handles t);
  wm_cell : forall c, c ∈ t_cells t ->
    length (c_vertices (h_cell H c)) = 4%nat /\ (forall v, v ∈ c_vertices (h_cell H c) -> v ∈ t_vertices t);
  wm_hull : forall c v, c ∈ t_hull t -> v ∈ c_vertices (h_cell H c) -> v ∈ vertex_handles t;
  wm_facet : forall f, f ∈ t_facets t ->
    fst f ∈ cell_handles t /\ (snd f < 4)%nat /\ (forall v, v ∈ facet_vertices H f -> v ∈ t_vertices t) /\
    (forall i, (i < 4)%nat -> i <> snd f -> (i < length (c_vertices (h_cell H (fst f))))%nat);
  wm_edge : forall c i j, (c, i, j) ∈ t_edges t ->
    c ∈ cell_handles t /\ vertex_of H c i ∈ t_vertices t /\ vertex_of H c j ∈ t_vertices t /\
    (i < length (c_vertices (h_cell H c)))%nat /\ (j < length (c_vertices (h_cell H c)))%nat }.

(** Between the two heaps only vertices [vs] and cells [cs], or new ones, differ. *)
Definition writes_only (vs cs : list nat) (H H' : heap) : Prop :=
  (h_next H <= h_next H')%nat /\
  (forall v, (v < h_next H)%nat -> v ∉ vs -> h_vertex H' v = h_vertex H v) /\
  (forall c, (c < h_next H)%nat -> c ∉ cs -> h_cell H' c = h_cell H c).
(** A new triangulation out of new vertices and cells. *)
Definition makes (H H' : heap) (t : tri) : Prop :=
  writes_only [] [] H H' /\ well_made H' t /\
  (forall v, v ∈ vertex_handles t -> (h_next H <= v)%nat) /\ (forall c, c ∈ cell_handles t -> (h_next H <= c)%nat).
(** A changed triangulation: its own vertices and cells, and new ones. *)
Definition edits (t : tri) (H H' : heap) (t' : tri) : Prop :=
  writes_only (vertex_handles t) (cell_handles t) H H' /\ well_made H' t' /\
  (forall v, v ∈ vertex_handles t' -> v ∈ vertex_handles t \/ (h_next H <= v)%nat) /\
  (forall c, c ∈ cell_handles t' -> c ∈ cell_handles t \/ (h_next H <= c)%nat).

(** What a triangulation says, without handles: points with info, cells as the
    points of their vertices with info, facets and edges as sets of points. *)
Definition vertex_data (H : heap) (v : nat) : positive * Z := (point H v, info H v).
Definition cell_data (H : heap) (c : nat) : list positive * Z := (map (point H) (c_vertices (h_cell H c)), c_info (h_cell H c)).
Definition facet_data (H : heap) (f : nat * nat) : simplex := of_list (map (point H) (facet_vertices H f)).
Definition edge_data (H : heap) (e : nat * nat * nat) : simplex :=
  let '(c, i, j) := e in of_list [point H (vertex_of H c i); point H (vertex_of H c j)].
(** Two triangulations say the same. *)
Record same_contents (H : heap) (t : tri) (H' : heap) (t' : tri) : Prop := {
  same_vertices : map (vertex_data H') (t_vertices t') ≡ₚ map (vertex_data H) (t_vertices t);
  same_cells : map (cell_data H') (t_cells t') ≡ₚ map (cell_data H) (t_cells t);
  same_hull : map (points_of H') (t_hull t') ≡ₚ map (points_of H) (t_hull t);
  same_facets : map (facet_data H') (t_facets t') ≡ₚ map (facet_data H) (t_facets t);
  same_edges : map (edge_data H') (t_edges t') ≡ₚ map (edge_data H) (t_edges t) }.

(** Copies are new and say the same; inserting makes a new triangulation of some of
    the given points, each once; removing changes the triangulation only. *)
Record cgal_ok (C : cgal) : Prop := {
  copy_ok : forall n H t H' t', well_made H t -> cg_copy C n H t = (H', t') -> makes H H' t' /\ same_contents H t H' t';
  insert_ok : forall n H ps H' t', cg_insert C n H ps = (H', t') ->
    makes H H' t' /\ NoDup (map (point H') (t_vertices t')) /\ (forall p, p ∈ map (point H') (t_vertices t') -> p ∈ map fst ps);
  remove_ok : forall n H t vs H' t', well_made H t -> cg_remove C n H t vs = (H', t') -> edits t H H' t' }.

(** ** Objects *)
Section Spec.
  Variable timevalue : fp -> fp -> positive -> Z.

  (** Times, types, slices and causality as functions of points alone. *)
  Definition type_of_points (label : positive -> Z) (H : heap) (c : nat) : Z :=
    classify (map (fun v => label (point H v)) (c_vertices (h_cell H c))).
  Definition slice_of_points (label : positive -> Z) (H : heap) (f : nat * nat) : option Z :=
    match elements (set_map label (facet_data H f) : gset Z) with [t] => Some t | _ => None end.
  Definition joins_slices (label : positive -> Z) (H : heap) (e : nat * nat * nat) : bool :=
    let '(c, i, j) := e in negb (label (point H (vertex_of H c i)) =? label (point H (vertex_of H c j))).

  (** Every member holds what enumerating the object's own triangulation and
      labelling its points gives. *)
  Record coherent (H : heap) (o : foliated) (t : tri) : Prop := {
    co_tri : f_tri o = Some t;
    co_made : well_made H t;
    co_times : forall v, v ∈ t_vertices t -> info H v = timevalue (f_radius o) (f_spacing o) (point H v);
    co_types : forall c, c ∈ t_cells t ->
      c_info (h_cell H c) = type_of_points (timevalue (f_radius o) (f_spacing o)) H c;
    co_vertices : f_vertices o = t_vertices t;
    co_cells : f_cells o = t_cells t;
    co_three_one : f_three_one o =
      List.filter (fun c => type_of_points (timevalue (f_radius o) (f_spacing o)) H c =? THREE_ONE) (t_cells t);
    co_two_two : f_two_two o =
      List.filter (fun c => type_of_points (timevalue (f_radius o) (f_spacing o)) H c =? TWO_TWO) (t_cells t);
    co_one_three : f_one_three o =
      List.filter (fun c => type_of_points (timevalue (f_radius o) (f_spacing o)) H c =? ONE_THREE) (t_cells t);
    co_faces : f_faces o = t_facets t;
    co_slices : f_spacelike_facets o =
      stable_sort_by_key (omap (fun f =>
        match slice_of_points (timevalue (f_radius o) (f_spacing o)) H f with Some x => Some (x, f) | None => None end) (t_facets t));
    co_edges : f_edges o = t_edges t;
    co_timelike : f_timelike_edges o =
      List.filter (fun e => joins_slices (timevalue (f_radius o) (f_spacing o)) H e) (t_edges t);
    co_spacelike : f_spacelike_edges o =
      List.filter (fun e => negb (joins_slices (timevalue (f_radius o) (f_spacing o)) H e)) (t_edges t);
    co_max : f_max o = list_max (map (fun v => timevalue (f_radius o) (f_spacing o) (point H v)) (t_vertices t));
    co_min : f_min o = list_min (map (fun v => timevalue (f_radius o) (f_spacing o) (point H v)) (t_vertices t)) }.

  (** A variable that has not been moved from. *)
  Definition triangulation_in (v : value) : option tri :=
    match v with VF o => f_tri o | VM m => f_tri (m_triangulation m) | VP t => t end.
  Definition intact (v : value) : Prop := triangulation_in v <> None.
  Definition coherent_value (H : heap) (v : value) : Prop :=
    match v with
    | VF o => forall t, f_tri o = Some t -> coherent H o t
    | VM m => forall t, f_tri (m_triangulation m) = Some t ->
        coherent H (m_triangulation m) t /\ m_geometry m = geometry_of_object (m_triangulation m)
    | VP t => forall u, t = Some u -> well_made H u
    end.
End Spec.

(** ** Histories *)
(** Using a dead variable, constructing over a live one, mixing types, or reading
    a moved-from object is the client's error. Assigning to a moved-from object,
    swapping it, moving it on and destroying it are not. An [Edit] is any use of
    a plain triangulation that CGAL supports. *)
Definition same_type (v v' : value) : Prop :=
  match v, v' with VF _, VF _ => True | VM _, VM _ => True | _, _ => False end.
Definition allowed (w : world) (a : action) : Prop :=
  let dead x := w_var w x = None in
  match a with
  | MakeFoliated x | MakeManifold x | FoliatedRandom x _ _ | ManifoldRandom x _ _
  | FoliatedOfVertices x _ _ _ | ManifoldOfVertices x _ _ _ | Generate x _ _ => dead x
  | FoliatedOfPlain x y _ _ _ => dead x /\ exists t, w_var w y = Some (VP (Some t))
  | ManifoldOfFoliated x y _ => dead x /\ exists o, w_var w y = Some (VF o) /\ f_tri o <> None
  | Copy x y => dead x /\ exists v, w_var w y = Some v /\ intact v
  | Move x y => dead x /\ w_var w y <> None
  | AssignCopy x y => exists v v', w_var w x = Some v /\ w_var w y = Some v' /\ same_type v v' /\ intact v'
  | AssignMove x y | Swap x y => exists v v', w_var w x = Some v /\ w_var w y = Some v' /\ same_type v v'
  | Updated x y => dead x /\ exists m, w_var w y = Some (VM m) /\ intact (VM m)
  | FixVertices x | FixCells x | IsFixed x => exists o, w_var w x = Some (VF o) /\ f_tri o <> None
  | Snapshot x y => dead x /\ exists v, w_var w y = Some v /\ intact v /\ (forall t, v <> VP t)
  | Edit x f => exists t, w_var w x = Some (VP (Some t)) /\
      forall H' t', f (w_heap w) t = (H', t') -> edits t (w_heap w) H' t'
  | Destroy x => w_var w x <> None
  end.

(** Any sequence of allowed statements, each finishing or throwing. *)
Inductive history (timevalue : fp -> fp -> positive -> Z) (C : cgal) (luck : nat -> nat) : world -> list action -> world -> Prop :=
| history_nil w : history timevalue C luck w [] w
| history_done w a w1 l w2 : allowed w a -> act timevalue C luck w a = Done w1 ->
    history timevalue C luck w1 l w2 -> history timevalue C luck w (a :: l) w2
| history_thrown w a w1 l w2 : allowed w a -> act timevalue C luck w a = Thrown w1 ->
    history timevalue C luck w1 l w2 -> history timevalue C luck w (a :: l) w2.
(** No variable is alive at the start. *)
Definition start (H : heap) : world := World H 0 (fun _ => None).

(** The variables a statement may change. *)
Definition changed_by (a : action) : list nat :=
  match a with
  | MakeFoliated x | MakeManifold x | FoliatedRandom x _ _ | ManifoldRandom x _ _
  | FoliatedOfVertices x _ _ _ | ManifoldOfVertices x _ _ _ | Generate x _ _
  | Copy x _ | AssignCopy x _ | Updated x _ | FixVertices x | FixCells x | IsFixed x
  | Snapshot x _ | Edit x _ | Destroy x => [x]
  | FoliatedOfPlain x y by_move _ _ => if by_move then [x; y] else [x]
  | ManifoldOfFoliated x y by_move => if by_move then [x; y] else [x]
  | Move x y | AssignMove x y | Swap x y => [x; y]
  end.

(** Everything a client can read from a variable: the accessors, and what a
    snapshot of it says. *)
Record reading : Type := Reading {
  r_geometry : option Geometry;
  r_counts : list nat;
  r_edge_counts : Z * Z;
  r_times : Z * Z;
  r_configuration : fp * fp;
  r_checks : list bool;
  r_slices : list (Z * nat);
  r_vertices : list (positive * Z);
  r_cells : list (list positive * Z) }.
Definition read_foliated (timevalue : fp -> fp -> positive -> Z) (H : heap) (g : option Geometry) (o : foliated) : reading :=
  Reading g
    [number_of_vertices o; number_of_finite_edges o; number_of_finite_facets o; number_of_finite_cells o;
     length (f_three_one o); length (f_two_two o); length (f_one_three o); number_of_spacelike_faces o]
    (N1_TL o, N1_SL o) (f_min o, f_max o) (f_radius o, f_spacing o)
    [is_correct H o; is_correct_with_diagnostics H o; is_foliated H o; check_all_vertices timevalue H o]
    (map (fun e => (fst e, spacelike_face_count o (fst e))) (f_spacelike_facets o))
    (map (vertex_data H) (t_vertices (tri_of o))) (map (cell_data H) (t_cells (tri_of o))).
Definition read (timevalue : fp -> fp -> positive -> Z) (H : heap) (v : value) : reading :=
  match v with
  | VF o => read_foliated timevalue H None o
  | VM m => read_foliated timevalue H (Some (m_geometry m)) (m_triangulation m)
  | VP t => Reading None [] (0, 0) (0, 0) (NaN, NaN) [] []
              (map (vertex_data H) (t_vertices (default (Tri 0 [] [] [] [] []) t)))
              (map (cell_data H) (t_cells (default (Tri 0 [] [] [] [] []) t)))
  end.
(** The same reading, up to the order in which CGAL lists vertices and cells. *)
Record same_reading (a b : reading) : Prop := {
  sr_geometry : r_geometry a = r_geometry b;
  sr_counts : r_counts a = r_counts b;
  sr_edge_counts : r_edge_counts a = r_edge_counts b;
  sr_times : r_times a = r_times b;
  sr_configuration : r_configuration a = r_configuration b;
  sr_checks : r_checks a = r_checks b;
  sr_slices : r_slices a = r_slices b;
  sr_vertices : r_vertices a ≡ₚ r_vertices b;
  sr_cells : r_cells a ≡ₚ r_cells b }.

(** No two variables share a vertex or a cell. *)
Definition separate (w : world) : Prop := forall x y v v' t t', x <> y ->
  w_var w x = Some v -> w_var w y = Some v' -> triangulation_in v = Some t -> triangulation_in v' = Some t' -> apart t t'.
(** Nothing a client can see changed, except in the listed variables. *)
Definition unchanged_except (timevalue : fp -> fp -> positive -> Z) (l : list nat) (w w' : world) : Prop :=
  forall z, z ∉ l -> w_var w' z = w_var w z /\
    forall v, w_var w z = Some v -> intact v -> read timevalue (w_heap w') v = read timevalue (w_heap w) v.
(** The variables consumed by a statement even if it throws. *)
Definition consumed_by (a : action) : list nat :=
  match a with FoliatedOfPlain _ y true _ _ => [y] | _ => [] end.

(** A triangulation of dimension three, as CGAL describes it: distinct vertices at
    distinct points, every cell on four of them and the cells outside the
    triangulation on the infinite one, and every finite facet, edge and vertex
    enumerated once. *)
Record three_dimensional (H : heap) (t : tri) : Prop := {
  td_infinite : point H (t_infinite t) = infinite;
  td_points : NoDup (map (point H) (vertex_handles t));
  td_cell : forall c, c ∈ cell_handles t -> NoDup (c_vertices (h_cell H c));
  td_hull : forall c, c ∈ t_hull t -> t_infinite t ∈ c_vertices (h_cell H c);
  td_cells : NoDup (map (points_of H) (cell_handles t));
  td_facets_once : NoDup (map (facet_data H) (t_facets t));
  td_facets : forall s, s ∈ map (facet_data H) (t_facets t) <-> s ∈ Simplex.faces 3 (complex H t) /\ infinite ∉ s;
  td_edges_once : NoDup (map (edge_data H) (t_edges t));
  td_edges : forall s, s ∈ map (edge_data H) (t_edges t) <-> s ∈ Simplex.faces 2 (complex H t) /\ infinite ∉ s;
  td_vertices : forall v, v ∈ t_vertices t -> exists c, c ∈ cell_handles t /\ v ∈ c_vertices (h_cell H c) }.
