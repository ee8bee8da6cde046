(** Properties of FoliatedTriangulation and Manifold objects over arbitrary
    histories of construction, copy, move, assignment, swap, repair, snapshot,
    rebuilding and destruction. Model: Objects.v. Specification: ObjectsSpec.v. *)
From Verif Require Import Base Geom Simplex Foliation Repair Objects ObjectsSpec ObjectsFacts ObjectsRuns ObjectsReads ObjectsWorld ObjectsLemmas ObjectsExample ObjectsGeometry.
From stdpp Require Import fin_sets gmap sorting.
From Verif Require Import Base Geom Simplex Foliation Objects ObjectsSpec ObjectsFacts ObjectsRuns ObjectsReads ObjectsWorld ObjectsLemmas ObjectsExample ObjectsGeometry.
Local Open Scope Z_scope.

(** ** C75: an object describes its own triangulation *)

(** After any history, every container of every object that has not been moved
    from holds what enumerating that object's own triangulation and labelling its
    points gives. *)
Theorem C75_containers timevalue C luck : cgal_ok C -> forall H l w x v o t,
  history timevalue C luck (start H) l w -> w_var w x = Some v ->
  (v = VF o \/ exists m, v = VM m /\ m_triangulation m = o) -> f_tri o = Some t -> coherent timevalue (w_heap w) o t.
Proof. exact (object_in_history timevalue C luck). Qed.
Print Assumptions C75_containers.

(** A manifold's stored geometry is the geometry of its triangulation. *)
Theorem C75_geometry timevalue C luck : cgal_ok C -> forall H l w x m t,
  history timevalue C luck (start H) l w -> w_var w x = Some (VM m) ->
  f_tri (m_triangulation m) = Some t -> three_dimensional (w_heap w) t ->
  (let T := complex (w_heap w) t in n3 T < 2147483648 /\ n2 T < 2147483648 /\ n1 T < 2147483648 /\ n0 T < 2147483648) ->
  m_geometry m = geometry_of (timevalue (f_radius (m_triangulation m)) (f_spacing (m_triangulation m))) (complex (w_heap w) t).
Proof. exact (manifold_geometry timevalue C luck). Qed.
Print Assumptions C75_geometry.

(** Time range and slice volumes are those of the triangulation. *)
Theorem C75_times timevalue C luck : cgal_ok C -> forall H l w x v o t,
  history timevalue C luck (start H) l w -> w_var w x = Some v ->
  (v = VF o \/ exists m, v = VM m /\ m_triangulation m = o) -> f_tri o = Some t -> three_dimensional (w_heap w) t ->
  let label := timevalue (f_radius o) (f_spacing o) in
  f_max o = max_time label (complex (w_heap w) t) /\ f_min o = min_time label (complex (w_heap w) t) /\
  (forall k, Z.of_nat (spacelike_face_count o k) = slice_volume label k (complex (w_heap w) t)).
Proof. exact (object_times timevalue C luck). Qed.
Print Assumptions C75_times.

(** The checks: correctness is validity of the triangulation and causal cells,
    and the thorough check of every container never disagrees with the fast one. *)
Theorem C75_checks timevalue C luck : cgal_ok C -> forall H l w x v o t,
  history timevalue C luck (start H) l w -> w_var w x = Some v ->
  (v = VF o \/ exists m, v = VM m /\ m_triangulation m = o) -> f_tri o = Some t ->
  let label := timevalue (f_radius o) (f_spacing o) in
  let causal := forall c, c ∈ t_cells t -> type_of_points label (w_heap w) c ∈ [THREE_ONE; TWO_TWO; ONE_THREE] in
  (is_correct (w_heap w) o = true <-> is_tds_valid (w_heap w) o = true /\ causal) /\
  (is_foliated (w_heap w) o = true <-> causal) /\
  is_correct_with_diagnostics (w_heap w) o = is_correct (w_heap w) o /\
  check_all_vertices timevalue (w_heap w) o = true.
Proof. exact (object_checks timevalue C luck). Qed.
Print Assumptions C75_checks.

(** A manifold's counts agree with its geometry. *)
Theorem C75_counts timevalue C luck : cgal_ok C -> forall H l w x m t,
  history timevalue C luck (start H) l w -> w_var w x = Some (VM m) -> f_tri (m_triangulation m) = Some t ->
  gN3 (m_geometry m) = simplices m /\ gN2 (m_geometry m) = faces m /\ gN1 (m_geometry m) = edges m /\ gN0 (m_geometry m) = vertices m /\
  check_simplices (w_heap w) m = is_foliated (w_heap w) (m_triangulation m).
Proof. exact (manifold_checks timevalue C luck). Qed.
Print Assumptions C75_counts.

(** A history of thirteen statements over a concrete CGAL; variable 3 is a
    manifold of one (3,1) cell whose readings are all of it. *)
Example C75_history : exists w v, history toy_time toy lucky (start toy_heap) (map action_of toy_script) w /\ w_var w 3%nat = Some v /\
  read toy_time (w_heap w) v =
    Reading (Some (mkGeometry 1 1 0 1 0 4 6 3 3 4)) [4; 6; 4; 1; 1; 0; 0; 1]%nat (3, 3) (1, 2) (NaN, NaN)
      [true; true; true; true] [(1, 1%nat)]
      [(2%positive, 1); (3%positive, 1); (4%positive, 1); (5%positive, 2)] [([2; 3; 4; 5]%positive, 31)].
Proof. apply read_after_history. vm_compute. reflexivity. Qed.

(** That manifold is of dimension three with few cells: the hypotheses of the
    theorems on geometry and times are met. *)
Example C75_three_dimensional : exists w m t, history toy_time toy lucky (start toy_heap) (map action_of toy_script) w /\
  w_var w 3%nat = Some (VM m) /\ f_tri (m_triangulation m) = Some t /\ three_dimensional (w_heap w) t /\ n3 (complex (w_heap w) t) = 1.
Proof. apply three_after_history. vm_compute. reflexivity. Qed.

(** ** C76: objects do not interfere *)

(** Every allowed statement, at any point of any history, is defined. If it
    finishes, only the variables it names as targets may change; if it throws,
    none does, except a plain triangulation given away by move. No two variables
    ever share a vertex or a cell. *)
Theorem C76_isolated timevalue C luck : cgal_ok C -> forall H l w a,
  history timevalue C luck (start H) l w -> allowed w a ->
  match act timevalue C luck w a with
  | Done w' => separate w' /\ unchanged_except timevalue (changed_by a) w w'
  | Thrown w' => separate w' /\ unchanged_except timevalue (consumed_by a) w w'
  | Undefined => False
  end.
Proof. exact (statement_isolated timevalue C luck). Qed.
Print Assumptions C76_isolated.

(** Spoiling the times of a snapshot (variable 1) shows there and not in the
    object it was taken from (variable 0). *)
Example C76_snapshot :
  (exists w v, history toy_time toy lucky (start toy_heap) (map action_of toy_script) w /\ w_var w 1%nat = Some v /\
     r_vertices (read toy_time (w_heap w) v) = [(2%positive, 9); (3%positive, 1); (4%positive, 1); (5%positive, 2)]) /\
  (exists w v, history toy_time toy lucky (start toy_heap) (map action_of toy_script) w /\ w_var w 0%nat = Some v /\
     r_vertices (read toy_time (w_heap w) v) = [(2%positive, 1); (3%positive, 1); (4%positive, 1); (5%positive, 2)]).
Proof.
  split; match goal with |- exists w v, history _ _ _ _ _ w /\ w_var w ?n = _ /\ _ =>
    destruct (read_after lucky toy_script n) as [r|] eqn:E; [|vm_compute in E; discriminate E];
    destruct (read_after_history _ _ _ _ E) as (w & v & A & B & D); exists w, v; split; [exact A|]; split; [exact B|]; rewrite D;
    vm_compute in E; injection E as <-; reflexivity end.
Qed.

(** An assignment whose copy fails (at three different points) leaves the target
    with its own four points. *)
Example C76_thrown : Forall (fun n => exists w v,
    history toy_time toy (unlucky n) (start toy_heap) (map action_of assign_script) w /\ w_var w 1%nat = Some v /\
    map fst (r_vertices (read toy_time (w_heap w) v)) = [5; 6; 7; 8]%positive) [6; 7; 9]%nat.
Proof.
  repeat constructor;
  match goal with |- exists w v, history _ _ (unlucky ?n) _ _ w /\ _ =>
    destruct (read_after (unlucky n) assign_script 1) as [r|] eqn:E; [|vm_compute in E; discriminate E];
    destruct (read_after_history _ _ _ _ E) as (w & v & A & B & D); exists w, v; split; [exact A|]; split; [exact B|]; rewrite D;
    vm_compute in E; injection E as <-; reflexivity end.
Qed.

(** ** C77: what copies, moves and repairs give *)

(** A copy, made by construction or assignment, reads like the original. *)
Theorem C77_copy timevalue C luck : cgal_ok C -> forall H l w x y w' a,
  history timevalue C luck (start H) l w -> a = Copy x y \/ a = AssignCopy x y -> allowed w a ->
  act timevalue C luck w a = Done w' ->
  exists v v', w_var w y = Some v /\ w_var w' x = Some v' /\ same_reading (read timevalue (w_heap w') v') (read timevalue (w_heap w) v).
Proof. exact (history_copy timevalue C luck). Qed.
Print Assumptions C77_copy.

(** A snapshot holds the vertices and cells, with their labels, of the object. *)
Theorem C77_snapshot timevalue C luck : cgal_ok C -> forall H l w x y w',
  history timevalue C luck (start H) l w -> allowed w (Snapshot x y) -> act timevalue C luck w (Snapshot x y) = Done w' ->
  exists v v', w_var w y = Some v /\ w_var w' x = Some v' /\
    r_vertices (read timevalue (w_heap w') v') ≡ₚ r_vertices (read timevalue (w_heap w) v) /\
    r_cells (read timevalue (w_heap w') v') ≡ₚ r_cells (read timevalue (w_heap w) v).
Proof. exact (history_snapshot timevalue C luck). Qed.
Print Assumptions C77_snapshot.

(** A nonempty manifold rebuilt by [updated] reads like the original. *)
Theorem C77_updated timevalue C luck : cgal_ok C -> forall H l w x y w' m,
  history timevalue C luck (start H) l w -> allowed w (Updated x y) ->
  act timevalue C luck w (Updated x y) = Done w' -> w_var w y = Some (VM m) -> number_of_vertices (m_triangulation m) <> 0%nat ->
  exists m', w_var w' x = Some (VM m') /\ same_reading (read timevalue (w_heap w') (VM m')) (read timevalue (w_heap w) (VM m)).
Proof. exact (history_updated timevalue C luck). Qed.
Print Assumptions C77_updated.

(** Moving gives the very object and leaves nothing that owns a triangulation. *)
Theorem C77_move timevalue C luck : cgal_ok C -> forall H l w x y w',
  history timevalue C luck (start H) l w -> allowed w (Move x y) -> act timevalue C luck w (Move x y) = Done w' ->
  w_var w' x = w_var w y /\ w_heap w' = w_heap w /\ forall v, w_var w' y = Some v -> triangulation_in v = None.
Proof. exact (history_move timevalue C luck). Qed.
Print Assumptions C77_move.

(** Swap and move assignment exchange the two objects, in any state. *)
Theorem C77_swap timevalue C luck : forall w x y w' a,
  a = Swap x y \/ a = AssignMove x y -> allowed w a -> act timevalue C luck w a = Done w' ->
  w_var w' x = w_var w y /\ w_var w' y = w_var w x /\ w_heap w' = w_heap w.
Proof. exact (swap_reads timevalue C luck). Qed.
Print Assumptions C77_swap.

(** The repairs of time values and of cell types do not change what an object
    reads; the full repair keeps radius and spacing and changes nothing that is
    already foliated. *)
Theorem C77_repair timevalue C luck : cgal_ok C -> forall H l w x a w',
  history timevalue C luck (start H) l w -> a = FixVertices x \/ a = FixCells x -> allowed w a -> act timevalue C luck w a = Done w' ->
  exists v v', w_var w x = Some v /\ w_var w' x = Some v' /\ same_reading (read timevalue (w_heap w') v') (read timevalue (w_heap w) v).
Proof. exact (history_fix timevalue C luck). Qed.
Print Assumptions C77_repair.
Theorem C77_is_fixed timevalue C luck : cgal_ok C -> forall H l w x o w',
  history timevalue C luck (start H) l w -> allowed w (IsFixed x) -> act timevalue C luck w (IsFixed x) = Done w' -> w_var w x = Some (VF o) ->
  exists o', w_var w' x = Some (VF o') /\ f_radius o' = f_radius o /\ f_spacing o' = f_spacing o /\
    (is_foliated (w_heap w) o = true -> read timevalue (w_heap w') (VF o') = read timevalue (w_heap w) (VF o)).
Proof. exact (history_is_fixed timevalue C luck). Qed.
Print Assumptions C77_is_fixed.

(** A manifold made of an object, by copy or by move, holds that object. *)
Theorem C77_wrap timevalue C luck : cgal_ok C -> forall H l w x y b w' o,
  history timevalue C luck (start H) l w -> allowed w (ManifoldOfFoliated x y b) ->
  act timevalue C luck w (ManifoldOfFoliated x y b) = Done w' -> w_var w y = Some (VF o) ->
  exists m, w_var w' x = Some (VM m) /\
    same_reading (read timevalue (w_heap w') (VF (m_triangulation m))) (read timevalue (w_heap w) (VF o)).
Proof. exact (history_wrap timevalue C luck). Qed.
Print Assumptions C77_wrap.

(** An object built on a plain triangulation has its points and cells, the given
    radius and spacing, and is never empty. *)
Theorem C77_of_plain timevalue C luck : cgal_ok C -> forall H l w x y b r s w' t,
  history timevalue C luck (start H) l w -> allowed w (FoliatedOfPlain x y b r s) ->
  act timevalue C luck w (FoliatedOfPlain x y b r s) = Done w' -> w_var w y = Some (VP (Some t)) ->
  exists o, w_var w' x = Some (VF o) /\ f_radius o = r /\ f_spacing o = s /\ number_of_vertices o <> 0%nat /\
    map fst (r_vertices (read timevalue (w_heap w') (VF o))) ≡ₚ map fst (r_vertices (read timevalue (w_heap w) (VP (Some t)))) /\
    map fst (r_cells (read timevalue (w_heap w') (VF o))) ≡ₚ map fst (r_cells (read timevalue (w_heap w) (VP (Some t)))).
Proof. exact (history_of_plain timevalue C luck). Qed.
Print Assumptions C77_of_plain.

(** An object built from points has exactly these points, each labelled with its
    time; repeated points are refused. *)
Theorem C77_of_points timevalue C luck : cgal_ok C -> forall H l w x ps r s w',
  history timevalue C luck (start H) l w -> allowed w (FoliatedOfVertices x ps r s) ->
  act timevalue C luck w (FoliatedOfVertices x ps r s) = Done w' ->
  exists o, w_var w' x = Some (VF o) /\ f_radius o = r /\ f_spacing o = s /\ ps <> [] /\
    r_vertices (read timevalue (w_heap w') (VF o)) ≡ₚ map (fun p => (p, timevalue r s p)) (map fst ps) /\ NoDup (map fst ps).
Proof. exact (history_of_vertices timevalue C luck). Qed.
Print Assumptions C77_of_points.

(** In the history of [toy_script] the object of variable 5, rebuilt from the
    spoilt snapshot, has the times right again; the manifold of variable 3 went
    through copy, wrapping, [updated], swap and copy assignment. *)
Example C77_rebuilt : exists w v, history toy_time toy lucky (start toy_heap) (map action_of toy_script) w /\ w_var w 5%nat = Some v /\
  read toy_time (w_heap w) v =
    Reading None [4; 6; 4; 1; 1; 0; 0; 1]%nat (3, 3) (1, 2) (NaN, NaN)
      [true; true; true; true] [(1, 1%nat)]
      [(2%positive, 1); (3%positive, 1); (4%positive, 1); (5%positive, 2)] [([2; 3; 4; 5]%positive, 31)].
Proof. apply read_after_history. vm_compute. reflexivity. Qed.
