(** Manifolds, structural correctness, check_move, and the public do_* and
    propose_* functions (include/Manifold.hpp, include/Foliated_triangulation.hpp,
    include/Ergodic_moves_3.hpp). *)
From Verif Require Import Base Tracker Command Geom Simplex Pachner Foliation Moves.
From stdpp Require Import fin_sets gmap sorting.
Local Open Scope Z_scope.

(** include/Manifold.hpp:44-115 with include/Foliated_triangulation.hpp:1465-1479:
    the triangulation, radius of the first slice and spacing of slices. All other
    members are caches filled from these by the constructor
    (Foliated_triangulation.hpp:1647-1665, Manifold.hpp:112-115) and are
    functions of them here. *)
Record manifold : Type := mkManifold { m_cells : tds; m_radius : fp; m_spacing : fp }.

(** include/Ergodic_moves_3.hpp:186-192 [same_configuration_value]. *)
Global Instance fp_eq_dec : EqDecision fp.
Proof. intros x y. unfold Decision. decide equality; [apply bool_dec|]. decide equality; [apply Pos.eq_dec|apply Z.eq_dec]. Defined.
Definition same_configuration_value (x y : fp) : bool := bool_decide (x = y).

(** What the model leaves open about the numeric and CGAL layers. *)
Record world : Type := mkWorld {
  (** expected_timevalue (include/Foliated_triangulation.hpp:616-625) as a
      function of radius, spacing and point: what the constructor writes into
      every vertex (classify_vertices, 2024-2033). *)
  w_timevalue : fp -> fp -> vertex -> Z;
  (** Never-written info of infinite cells, point location, orientation tests of
      the two flips, centroid: see Moves.v. *)
  w_junk : tds -> simplex -> Z;
  w_locates : tds -> vertex -> bool;
  w_geo_facet : tds -> simplex -> vertex -> bool;
  w_geo_edge : tds -> simplex -> bool;
  w_centroid : simplex -> vertex }.
(** Random choices: std::uniform_int_distribution<std::size_t>{0, n - 1} and
    std::ranges::shuffle as functions of the generator state. *)
Record choices (G : Type) : Type := mkChoices {
  draw_index : nat -> G -> nat * G;
  shuffle : forall A : Type, list A -> G -> list A * G }.
Arguments mkChoices {G}.
Arguments draw_index {G}.
Arguments shuffle {G}.
(** Their contracts in the standard library. *)
Record choices_ok {G : Type} (R : choices G) : Prop := {
  draw_range : forall n g, (0 < n)%nat -> (fst (draw_index R n g) < n)%nat;
  shuffle_perm : forall A (l : list A) g, fst (shuffle R A l g) ≡ₚ l }.

Section Manifold.
  Variable W : world.
  Let junk := w_junk W.
  Let locates := w_locates W.
  Let geo_facet := w_geo_facet W.
  Let geo_edge := w_geo_edge W.
  Let centroid := w_centroid W.

  Definition label_of (m : manifold) : vertex -> Z := w_timevalue W (m_radius m) (m_spacing m).
  (** include/Manifold.hpp:196-198 [geometry]. *)
  Definition geometry_m (m : manifold) : Geometry := geometry_of (label_of m) (m_cells m).
  Definition max_time_m (m : manifold) : Z := max_time (label_of m) (m_cells m).
  Definition min_time_m (m : manifold) : Z := min_time (label_of m) (m_cells m).

  (** include/Foliated_triangulation.hpp:1481-1497 [has_consistent_structure]. The
      lock binding is Locks.v; the vertex cache has the size of the triangulation
      by construction. *)
  Definition has_consistent_structure (m : manifold) : bool :=
    let T := m_cells m in let label := label_of m in
    (spacelike_facets label T <=? n2 T) &&
    (n3_of label THREE_ONE T + n3_of label TWO_TWO T + n3_of label ONE_THREE T =? n3 T) &&
    (n1_tl label T + n1_sl label T =? n1 T) &&
    (if bool_decide (finite_vertices T = ∅) then (max_time_m m =? 0) && (min_time_m m =? 0)
     else min_time_m m <=? max_time_m m).
  (** include/Foliated_triangulation.hpp:889-896 [check_cells]. *)
  Definition check_all_cells (m : manifold) : bool :=
    forallb (fun c => negb (finite_simplex c) || correct (label_of m) junk (m_cells m) c) (elements (m_cells m)).
  (** include/Foliated_triangulation.hpp:1749-1752 [is_structurally_correct],
      include/Manifold.hpp:219-220. *)
  Definition is_structurally_correct (m : manifold) : bool :=
    has_consistent_structure m && tds_valid (m_cells m) && check_all_cells m.

  (** include/Ergodic_moves_3.hpp:1847-1923 [check_move]. Counts are exact here;
      in the program they are int values of sizes (Geometry.hpp:70-90). *)
  Definition check_move (before after : manifold) (move : MoveType) : bool :=
    if negb (is_structurally_correct after) ||
       negb (same_configuration_value (m_radius after) (m_radius before)) ||
       negb (same_configuration_value (m_spacing after) (m_spacing before))
    then false
    else
      let a := geometry_m after in let b := geometry_m before in
      let times := (max_time_m after =? max_time_m before) && (min_time_m after =? min_time_m before) in
      if move =? FOUR_FOUR then
        (gN3 a =? gN3 b) && (gN3_31 a =? gN3_31 b) && (gN3_22 a =? gN3_22 b) && (gN3_13 a =? gN3_13 b) &&
        (gN2 a =? gN2 b) && (gN1 a =? gN1 b) && (gN1_TL a =? gN1_TL b) && (gN1_SL a =? gN1_SL b) &&
        (gN0 a =? gN0 b) && times
      else if move =? TWO_THREE then
        (gN3 a =? gN3 b + 1) && (gN3_31 a =? gN3_31 b) && (gN3_22 a =? gN3_22 b + 1) && (gN3_13 a =? gN3_13 b) &&
        (gN2 a =? gN2 b + 2) && (gN1 a =? gN1 b + 1) && (gN1_TL a =? gN1_TL b + 1) && (gN1_SL a =? gN1_SL b) &&
        (gN0 a =? gN0 b) && times
      else if move =? THREE_TWO then
        (gN3 a =? gN3 b - 1) && (gN3_31 a =? gN3_31 b) && (gN3_22 a =? gN3_22 b - 1) && (gN3_13 a =? gN3_13 b) &&
        (gN2 a =? gN2 b - 2) && (gN1 a =? gN1 b - 1) && (gN1_TL a =? gN1_TL b - 1) && (gN1_SL a =? gN1_SL b) &&
        (gN0 a =? gN0 b) && times
      else if move =? TWO_SIX then
        (gN3 a =? gN3 b + 4) && (gN3_31 a =? gN3_31 b + 2) && (gN3_22 a =? gN3_22 b) && (gN3_13 a =? gN3_13 b + 2) &&
        (gN2 a =? gN2 b + 8) && (gN1 a =? gN1 b + 5) && (gN1_TL a =? gN1_TL b + 2) && (gN1_SL a =? gN1_SL b + 3) &&
        (gN0 a =? gN0 b + 1) && times
      else if move =? SIX_TWO then
        (gN3 a =? gN3 b - 4) && (gN3_31 a =? gN3_31 b - 2) && (gN3_22 a =? gN3_22 b) && (gN3_13 a =? gN3_13 b - 2) &&
        (gN2 a =? gN2 b - 8) && (gN1 a =? gN1 b - 5) && (gN1_TL a =? gN1_TL b - 2) && (gN1_SL a =? gN1_SL b - 3) &&
        (gN0 a =? gN0 b - 1) && times
      else false.

  (** ** The public move functions *)
  Context {G : Type}.
  Variable R : choices G.
  (** What the program does when it leaves the state space of the model
      ([Unmodelled] in Moves.v): anything. *)
  Variable escape : manifold -> G -> move_result manifold * G.

  (** include/Ergodic_moves_3.hpp:200-208 [make_manifold], with
      Foliated_triangulation.hpp:1446-1455 [require_nonempty]. *)
  Definition make_manifold (T : tds) (source : manifold) : move_result manifold :=
    if bool_decide (finite_vertices T = ∅) then Raised InvalidArgument
    else Moved (mkManifold T (m_radius source) (m_spacing source)).

  Definition finish (source : manifold) (kind : MoveType) (r : outcome tds * G) : move_result manifold * G :=
    match r with
    | (Done T, g) => (make_manifold T source, g)
    | (Fail e, g) => (Failed (mkMoveError e kind), g)
    | (Unmodelled, g) => escape source g
    end.

  (** include/Ergodic_moves_3.hpp:377-413 [canonical_random_element]: [sorted] is
      the candidate container in canonical order (Select.v justifies replacing
      nth_element by sorting). *)
  Definition canonical_random_element {S : Type} (sorted : list S) (g : G) : option S * G :=
    match sorted with
    | [] => (None, g)
    | _ => let '(i, g') := draw_index R (length sorted) g in (nth_error sorted i, g')
    end.

  (** The loops of do_23_move (666-683), do_32_move (832-849), do_26_move_impl
      (1080-1093), do_62_move (1383-1400), do_44_move (1782-1801): sites are tried
      in order, the last error is kept; [stop] distinguishes do_26_move_impl, which
      returns when a prepared site fails to execute. *)
  Section Loop.
    Context {S P : Type}.
    Variable prepare : S -> outcome P.
    Variable execute : S -> P -> G -> outcome tds * G.
    Variable stop : bool.
    Fixpoint try_sites (last : MoveFailure) (sites : list S) (g : G) : outcome tds * G :=
      match sites with
      | [] => (Fail last, g)
      | s :: r =>
          match prepare s with
          | Unmodelled => (Unmodelled, g)
          | Fail e => try_sites e r g
          | Done p =>
              match execute s p g with
              | (Done T, g') => (Done T, g')
              | (Unmodelled, g') => (Unmodelled, g')
              | (Fail e, g') => if stop then (Fail e, g') else try_sites e r g'
              end
          end
      end.
  End Loop.

  Section Site.
    Variable m : manifold.
    Let T := m_cells m.
    Let label := label_of m.

    (** The canonical sequence of sites, e.g. 655-657: filter and canonicalize. *)
    Definition sites_23 : list simplex := canonicalize (cell_sites label junk TWO_TWO T).
    Definition sites_32 : list simplex := canonicalize (edge_sites label true T).
    Definition sites_26 : list simplex := canonicalize (cell_sites label junk ONE_THREE T).
    Definition sites_62 : list vertex := merge_sort Pos.le (vertex_sites T).
    Definition sites_44 : list simplex := canonicalize (edge_sites label false T).

    (** Preparation and execution at one site with the generator threaded through
        (only (6,2) draws: 1259-1262). *)
    Definition prep_23 := prepare_23 label junk T.
    Definition exec_23 (c : simplex) (v : vertex) (g : G) := (execute_23 locates geo_facet T c v, g).
    Definition prep_32 := prepare_32 label junk T.
    Definition exec_32 (e : simplex) (_ : unit) (g : G) := (execute_32 locates geo_edge T e, g).
    Definition prep_26 := prepare_26 label junk T.
    Definition exec_26 (c : simplex) (p : simplex * vertex) (g : G) := (execute_26 locates centroid T c (snd p), g).
    Definition prep_62 := prepare_62 label junk T.
    Definition exec_62 (v : vertex) (_ : unit) (g : G) :=
      if negb (locates T v) then (Fail STALE_CANDIDATE, g)
      else let '(edges, g') := shuffle R simplex (canonicalize (finite_incident_edges T v)) g in
           (execute_62 label locates T v edges, g').
    Definition prep_44 := prepare_44 label junk T.
    Definition exec_44 (e : simplex) (p : vertex * vertex) (g : G) := (execute_44 locates T e (fst p) (snd p), g).

    (** Shared shape of do_23/32/62/44_move: shuffle, refuse an empty container,
        loop. *)
    Definition do_loop {S P} (kind : MoveType) (sites : list S) (prepare : S -> outcome P)
        (execute : S -> P -> G -> outcome tds * G) (g : G) : move_result manifold * G :=
      let '(order, g') := shuffle R S sites g in
      match order with
      | [] => (Failed (mkMoveError NO_CANDIDATE kind), g')
      | _ => finish m kind (try_sites prepare execute false NO_CANDIDATE order g')
      end.
    (** include/Ergodic_moves_3.hpp:650-685, 816-851, 1367-1401, 1766-1802. *)
    Definition do_23 := do_loop TWO_THREE sites_23 prep_23 exec_23.
    Definition do_32 := do_loop THREE_TWO sites_32 prep_32 exec_32.
    Definition do_62 := do_loop SIX_TWO sites_62 prep_62 exec_62.
    Definition do_44 := do_loop FOUR_FOUR sites_44 prep_44 exec_44.

    (** include/Ergodic_moves_3.hpp:1044-1095 [do_26_move_impl]. *)
    Definition do_26_impl (only_first_site : bool) (g : G) : move_result manifold * G :=
      match sites_26 with
      | [] => (Failed (mkMoveError NO_CANDIDATE TWO_SIX), g)
      | _ =>
          if only_first_site then
            let '(c, g') := canonical_random_element sites_26 g in
            match c with
            | None => (Failed (mkMoveError NO_CANDIDATE TWO_SIX), g')
            | Some c => finish m TWO_SIX (try_sites prep_26 exec_26 true NO_CANDIDATE [c] g')
            end
          else
            let '(order, g') := shuffle R simplex sites_26 g in
            finish m TWO_SIX (try_sites prep_26 exec_26 true NO_CANDIDATE order g')
      end.
    (** include/Ergodic_moves_3.hpp:1117-1138. *)
    Definition do_26 := do_26_impl false.
    Definition propose_26 := do_26_impl true.

    (** Shared shape of propose_23/32/62/44_move (696-714, 861-880, 1410-1428,
        1812-1836): one site, prepared and executed. *)
    Definition propose_one {S P} (kind : MoveType) (sites : list S) (prepare : S -> outcome P)
        (execute : S -> P -> G -> outcome tds * G) (g : G) : move_result manifold * G :=
      let '(s, g') := canonical_random_element sites g in
      match s with
      | None => (Failed (mkMoveError NO_CANDIDATE kind), g')
      | Some s =>
          match prepare s with
          | Unmodelled => escape m g'
          | Fail e => (Failed (mkMoveError e kind), g')
          | Done p => finish m kind (execute s p g')
          end
      end.
    Definition propose_23 := propose_one TWO_THREE sites_23 prep_23 exec_23.
    Definition propose_32 := propose_one THREE_TWO sites_32 prep_32 exec_32.
    Definition propose_62 := propose_one SIX_TWO sites_62 prep_62 exec_62.
    Definition propose_44 := propose_one FOUR_FOUR sites_44 prep_44 exec_44.
  End Site.

  (** The functions that MoveCommand (Move_command.hpp:189-208) and Metropolis
      (Metropolis.hpp:429-452) call. *)
  Definition do_api : move_api manifold G := mkMoveApi do_23 do_32 do_26 do_62 do_44.
  Definition propose_api : move_api manifold G :=
    mkMoveApi propose_23 propose_32 propose_26 propose_62 propose_44.
End Manifold.
