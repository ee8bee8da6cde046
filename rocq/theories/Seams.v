(** Raw CGAL handles as the detail functions of include/Ergodic_moves_3.hpp receive
    them, the circulator around an edge, the generic bistellar flip, and the
    functions that take a post-mutation validator. *)
From Verif Require Import Base Tracker Command Geom Simplex Pachner Foliation Moves Manifold.
From stdpp Require Import fin_sets gmap sorting.
From Verif Require Import Foliation.
Local Open Scope Z_scope.

(** ** Handles *)
(** What a Cell_handle argument can be: null, a cell of some other triangulation, or
    a cell of the triangulation at hand given by its four vertices in CGAL's
    order. (Handles to cells already erased are not represented.) *)
Inductive raw_cell : Type := NullCell | ForeignCell | OwnCell (h : list vertex).
(** Edge_handle: std::tuple-like (cell, int, int). *)
Record raw_edge : Type := mkRawEdge { re_cell : raw_cell; re_second : Z; re_third : Z }.
Inductive raw_vertex : Type := NullVertex | ForeignVertex | OwnVertex (v : vertex).

(** Outcome of code that may dereference a handle: [Dangling] when it dereferences a
    handle it has not established to be a cell of the triangulation, indexes a cell
    outside 0..3, or circulates without end. *)
Inductive deref (A : Type) : Type := Seen (a : A) | Dangling.
Arguments Seen {A} a.
Arguments Dangling {A}.
Definition dbind {A B} (x : deref A) (f : A -> deref B) : deref B :=
  match x with Seen a => f a | Dangling => Dangling end.

(** cell->vertex(i). *)
Definition vertex_of (c : raw_cell) (i : Z) : deref vertex :=
  match c with
  | OwnCell h => if (0 <=? i) && (i <? 4)
                 then match nth_error h (Z.to_nat i) with Some v => Seen v | None => Dangling end
                 else Dangling
  | _ => Dangling
  end.

(** include/Ergodic_moves_3.hpp:212-222 [is_well_formed_edge]. *)
Definition valid_index (i : Z) : bool := (0 <=? i) && (i <? 4).
Definition is_well_formed_edge (e : raw_edge) : bool :=
  negb (match re_cell e with NullCell => true | _ => false end) &&
  valid_index (re_second e) && valid_index (re_third e) && negb (re_second e =? re_third e).

(** CGAL tds().is_cell(c), tds().is_edge(c, i, j), tds().is_vertex(v). *)
Definition tds_is_cell (T : tds) (c : raw_cell) : bool :=
  match c with OwnCell h => Nat.eqb (length h) 4 && bool_decide (of_list h ∈ T) | _ => false end.
Definition tds_is_edge (T : tds) (e : raw_edge) : bool :=
  tds_is_cell T (re_cell e) && valid_index (re_second e) && valid_index (re_third e) &&
  negb (re_second e =? re_third e).
Definition tds_is_vertex (T : tds) (v : raw_vertex) : bool :=
  match v with OwnVertex v => bool_decide (v ∈ vertices T) | _ => false end.

(** The two ends of an edge, edge.first->vertex(edge.second) and ...third. *)
Definition ends (e : raw_edge) : deref (vertex * vertex) :=
  dbind (vertex_of (re_cell e) (re_second e)) (fun a =>
  dbind (vertex_of (re_cell e) (re_third e)) (fun b => Seen (a, b))).

(** ** The circulator, CGAL Triangulation_ds_cell_circulator_3 *)
(** CGAL Triangulation_utils_3::next_around_edge: the index of the facet through
    which the circulator leaves the cell. *)
Definition next_around_edge (i j : Z) : Z :=
  nth (Z.to_nat j) (nth (Z.to_nat i) [[5; 2; 3; 1]; [3; 5; 0; 2]; [1; 3; 5; 0]; [2; 0; 1; 5]] []) 5.

Inductive walk : Type := Around (cells : list simplex) | MeetsInfinite | Lost.
(** include/Ergodic_moves_3.hpp:238-246: from cell [c] the circulator leaves through
    the facet opposite [y] and will leave the next cell through the facet opposite
    the remaining vertex [z] of [c]; the loop ends when it is back at [first]. *)
Fixpoint circulate (T : tds) (e first : simplex) (fuel : nat) (c : simplex) (y : vertex) : walk :=
  match fuel with
  | O => Lost
  | S fuel =>
      if negb (finite_simplex c) then MeetsInfinite
      else match neighbor T c y, elements ((c ∖ e) ∖ {[y]}) with
           | Some n, [z] =>
               if bool_decide (n = first) then Around [c]
               else match circulate T e first fuel n z with
                    | Around l => Around (c :: l)
                    | r => r
                    end
           | _, _ => Lost
           end
  end.

(** include/Ergodic_moves_3.hpp:227-246 [finite_incident_cells] and 1430-1435
    [incident_cells_from_edge]. dimension() is 3: the model has no lower-dimensional
    triangulations. The loop is cut after more steps than there are cells; that it
    ends before is proved. *)
Definition finite_incident_cells (T : tds) (e : raw_edge) : deref (option (list simplex)) :=
  if negb (is_well_formed_edge e) || negb (tds_is_edge T e) then Seen None
  else match re_cell e with
       | OwnCell h =>
           dbind (ends e) (fun '(a, b) =>
           dbind (vertex_of (re_cell e) (next_around_edge (re_second e) (re_third e))) (fun y =>
           match circulate T (of_list [a; b]) (of_list h) (S (size T)) (of_list h) y with
           | Around l => Seen (Some l)
           | MeetsInfinite => Seen None
           | Lost => Dangling
           end))
       | _ => Dangling
       end.

(** CGAL tds().incident_cells(v): breadth first from one cell of the vertex through
    the facets that contain it. *)
Definition grow (T : tds) (s : simplex) (X : gset simplex) : gset simplex :=
  X ∪ filter (fun c => s ⊆ c /\ set_Exists (fun d : simplex => size (c ∩ d) = 3%nat) X) T.
Definition incident_cells_of_vertex (T : tds) (v : vertex) (start : simplex) : gset simplex :=
  Nat.iter (size T) (grow T {[v]}) {[start]}.

(** ** Functions on edges *)
(** include/Ergodic_moves_3.hpp:1711-1724 [find_pivot_edge]. *)
Fixpoint find_pivot_edge (T : tds) (edges : list raw_edge) : deref (option raw_edge) :=
  match edges with
  | [] => Seen None
  | e :: r => dbind (finite_incident_cells T e) (fun cells =>
              match cells with
              | Some l => if Nat.eqb (length l) 4 then Seen (Some e) else find_pivot_edge T r
              | None => find_pivot_edge T r
              end)
  end.
(** include/Ergodic_moves_3.hpp:1729-1739 [get_vertices] and
    include/Foliated_triangulation.hpp:710-726 [get_vertices_from_cells]: every vertex
    of every cell emplaced into a set. The order of the set is not specified. *)
Definition get_vertices (cells : list (list vertex)) : list vertex :=
  elements (fold_left (fun (S : gset vertex) h => fold_left (fun S v => S ∪ {[v]}) h S) cells ∅).

Section Seams.
  Variable label : vertex -> Z.
  Variable junk : tds -> simplex -> Z.
  Variable locates : tds -> vertex -> bool.
  Variable geo_facet : tds -> simplex -> vertex -> bool.
  Variable geo_edge : tds -> simplex -> bool.
  Variable centroid : simplex -> vertex.
  Notation correct := (correct label junk).
  Notation count_type := (count_type label).

  (** include/Ergodic_moves_3.hpp:719-753 [is_32_movable] on a handle. *)
  Definition raw_is_32_movable (T : tds) (e : raw_edge) : deref bool :=
    dbind (finite_incident_cells T e) (fun cells =>
    match cells with
    | None => Seen false
    | Some cells =>
        if negb (Nat.eqb (length cells) 3) then Seen false else
        dbind (ends e) (fun '(a, b) =>
        let difference := if label a >? label b then label a - label b else label b - label a in
        if negb (difference =? 1) then Seen false
        else if negb (forallb (correct T) cells) then Seen false
        else Seen ((count_type TWO_TWO cells =? 2) &&
                   (((count_type THREE_ONE cells =? 1) && (count_type ONE_THREE cells =? 0)) ||
                    ((count_type THREE_ONE cells =? 0) && (count_type ONE_THREE cells =? 1)))))
    end).
  (** include/Ergodic_moves_3.hpp:760-776 [prepare_three_two] on a handle; the result
      is the edge (canonical_edge_points). *)
  Definition raw_prepare_32 (T : tds) (e : raw_edge) : deref (outcome simplex) :=
    if negb (is_well_formed_edge e) || negb (tds_is_edge T e) then Seen (Fail INVALID_TOPOLOGY)
    else dbind (raw_is_32_movable T e) (fun movable =>
         if negb movable then Seen (Fail CAUSAL_INVALIDITY)
         else dbind (ends e) (fun '(a, b) => Seen (Done (of_list [a; b])))).
  (** include/Ergodic_moves_3.hpp:1451-1478 [find_bistellar_flip_location] on a handle. *)
  Definition raw_flip_location (T : tds) (e : raw_edge) : deref (option (list simplex)) :=
    if negb (is_well_formed_edge e) then Seen None else
    dbind (finite_incident_cells T e) (fun cells =>
    match cells with
    | None => Seen None
    | Some cells =>
        if negb (Nat.eqb (length cells) 4) then Seen None else
        dbind (ends e) (fun '(a, b) =>
        if negb (label a =? label b) then Seen None
        else if (count_type THREE_ONE (List.filter (correct T) cells) =? 2) &&
                (count_type ONE_THREE (List.filter (correct T) cells) =? 2)
        then Seen (Some cells) else Seen None)
    end).
  (** include/Ergodic_moves_3.hpp:1483-1538 [prepare_four_four] on a handle. *)
  Definition raw_prepare_44 (T : tds) (e : raw_edge) : deref (outcome (simplex * vertex * vertex)) :=
    if negb (is_well_formed_edge e) || negb (tds_is_edge T e) then Seen (Fail INVALID_TOPOLOGY) else
    dbind (raw_flip_location T e) (fun found =>
    match found with
    | None => Seen (Fail CAUSAL_INVALIDITY)
    | Some cells =>
        dbind (ends e) (fun '(a, b) =>
        let edge := of_list [a; b] in
        let others := flat_map (fun c : simplex => elements (c ∖ edge)) cells in
        let count v := length (List.filter (fun c : simplex => bool_decide (v ∈ c)) cells) in
        Seen (match top_vertex label others, bottom_vertex label others with
              | Some top, Some bottom =>
                  if bool_decide (top = bottom) || bool_decide (top ∈ edge) || bool_decide (bottom ∈ edge)
                  then Fail CAUSAL_INVALIDITY
                  else if negb (Nat.eqb (count top) 2) || negb (Nat.eqb (count bottom) 2)
                  then Fail CAUSAL_INVALIDITY
                  else Done (edge, top, bottom)
              | _, _ => Fail CAUSAL_INVALIDITY
              end))
    end).

  (** ** The generic flip *)
  (** include/Ergodic_moves_3.hpp:1544-1585 [prepare_bistellar_flip]. cell->is_valid()
      of CGAL's cell base is always true. *)
  Definition prepare_flip (T : tds) (e : raw_edge) (top bottom : raw_vertex)
      : deref (outcome (simplex * vertex * vertex)) :=
    if negb (is_well_formed_edge e) then Seen (Fail INVALID_TOPOLOGY) else
    match top, bottom with
    | NullVertex, _ | _, NullVertex => Seen (Fail INVALID_TOPOLOGY)
    | _, _ =>
        if negb (tds_is_edge T e) || negb (tds_is_vertex T top) || negb (tds_is_vertex T bottom)
        then Seen (Fail INVALID_TOPOLOGY) else
        match top, bottom with
        | OwnVertex top, OwnVertex bottom =>
            if bool_decide (top = infinite) || bool_decide (bottom = infinite)
            then Seen (Fail INVALID_TOPOLOGY) else
            dbind (ends e) (fun '(a, b) =>
            dbind (finite_incident_cells T e) (fun cells =>
            Seen (match cells with
                  | None => Fail INVALID_TOPOLOGY
                  | Some cells =>
                      let edge := of_list [a; b] in
                      let count v := length (List.filter (fun c : simplex => bool_decide (v ∈ c)) cells) in
                      if negb (Nat.eqb (length cells) 4) || bool_decide (top = bottom) ||
                         bool_decide (top ∈ edge) || bool_decide (bottom ∈ edge) ||
                         negb (forallb finite_simplex cells)
                      then Fail INVALID_TOPOLOGY
                      else if negb (Nat.eqb (count top) 2) || negb (Nat.eqb (count bottom) 2)
                      then Fail INVALID_TOPOLOGY
                      else Done (edge, top, bottom)
                  end)))
        | _, _ => Dangling
        end
    end.

  (** include/Ergodic_moves_3.hpp:1603-1671 [execute(ApplicableFourFourMove)] with a
      validator, which sees the flipped private copy. *)
  Definition execute_44_with (validator : tds -> bool) (T : tds) (e : simplex) (top bottom : vertex) : outcome tds :=
    if negb (forallb (locates T) (elements e) && locates T top && locates T bottom &&
             bool_decide (e ∈ faces 2 T))
    then Fail STALE_CANDIDATE
    else match elements (star ({[bottom]} ∪ e) T) with
    | [] => Fail STALE_CANDIDATE
    | c :: _ =>
        match mirror_vertex c ({[bottom]} ∪ e) with
        | None => Unmodelled
        | Some v =>
            match tds_flip_facet T c v with
            | FlipUnmodelled => Unmodelled
            | NotFlippable => Fail EXECUTION_FAILURE
            | Flipped T1 =>
                match tds_flip_edge T1 e with
                | FlipUnmodelled => Unmodelled
                | NotFlippable => Fail EXECUTION_FAILURE
                | Flipped T2 => if negb (validator T2) || negb (tds_valid T2) then Fail INVARIANT_VIOLATION else Done T2
                end
            end
        end
    end.

  (** std::optional<Delaunay> with the two ways of leaving the model. *)
  Inductive flip_answer : Type := Flip (T : tds) | Nullopt | Unknown | Crash.
  (** include/Ergodic_moves_3.hpp:1676-1689 [bistellar_flip_impl]. *)
  Definition bistellar_flip_impl (validator : tds -> bool) (T : tds) (e : raw_edge) (top bottom : raw_vertex) : flip_answer :=
    match prepare_flip T e top bottom with
    | Dangling => Crash
    | Seen (Done (edge, top, bottom)) =>
        match execute_44_with validator T edge top bottom with
        | Done T' => Flip T'
        | Fail _ => Nullopt
        | Unmodelled => Unknown
        end
    | Seen (Fail _) => Nullopt
    | Seen Unmodelled => Unknown
    end.
  (** include/Ergodic_moves_3.hpp:195-197 [accept_post_mutation], 1700-1708 [bistellar_flip]. *)
  Definition accept_post_mutation (_ : tds) : bool := true.
  Definition bistellar_flip := bistellar_flip_impl accept_post_mutation.

  (** ** Seams that change a triangulation in place *)
  (** include/Ergodic_moves_3.hpp:624-630 [try_23_move]: answer and the triangulation
      afterwards. *)
  Definition try_23_move (T : tds) (c : raw_cell) : option (bool * tds) :=
    match c with
    | OwnCell h =>
        match (if tds_is_cell T c then prepare_23 label junk T (of_list h) else Fail INVALID_TOPOLOGY) with
        | Done v => match execute_23 locates geo_facet T (of_list h) v with
                    | Done T' => Some (true, T')
                    | Fail _ => Some (false, T)
                    | Unmodelled => None
                    end
        | Fail _ => Some (false, T)
        | Unmodelled => None
        end
    | _ => Some (false, T)
    end.
  (** include/Ergodic_moves_3.hpp:794-800 [try_32_move]. *)
  Definition try_32_move (T : tds) (e : raw_edge) : option (bool * tds) :=
    match raw_prepare_32 T e with
    | Seen (Done edge) => match execute_32 locates geo_edge T edge with
                          | Done T' => Some (true, T')
                          | Fail _ => Some (false, T)
                          | Unmodelled => None
                          end
    | Seen (Fail _) => Some (false, T)
    | _ => None
    end.

  (** ** Validators of the other executions *)
  (** include/Ergodic_moves_3.hpp:966-1027 with a validator; the triangulation is
      changed in place, so the result carries it even on refusal. *)
  Definition execute_26_with (validator : tds -> bool) (T : tds) (c : simplex) (v : vertex) : outcome unit * tds :=
    match execute_26 locates centroid T c v with
    | Done T' => if negb (validator T') then (Fail INVARIANT_VIOLATION, T') else (Done tt, T')
    | Fail e => (Fail e, T)
    | Unmodelled => (Unmodelled, T)
    end.
  (** include/Ergodic_moves_3.hpp:1239-1303 with a validator. *)
  Definition execute_62_with (validator : tds -> bool) (T : tds) (v : vertex) (edges : list simplex) : outcome tds :=
    if negb (locates T v) then Fail STALE_CANDIDATE
    else match flip_some_edge label T edges with
    | FlipUnmodelled => Unmodelled
    | NotFlippable => Fail EXECUTION_FAILURE
    | Flipped T1 =>
        if negb (Nat.eqb (degree T1 v) 4) || negb (tds_valid T1) then Fail EXECUTION_FAILURE
        else
          let T2 := remove_vertex T1 v in
          if negb (validator T2) || negb (tds_valid T2) || negb (n3 T2 + 4 =? n3 T) || negb (n0 T2 + 1 =? n0 T)
          then Fail INVARIANT_VIOLATION
          else if forallb (fun c => negb (finite_simplex c) ||
                     (negb (cell_type label c =? ACAUSAL) && negb (cell_type label c =? UNCLASSIFIED)))
                    (elements T2)
          then Done T2
          else Fail INVARIANT_VIOLATION
    end.
  (** include/Ergodic_moves_3.hpp:1309-1322 [try_62_move_impl], 1334-1342 [try_62_move];
      [edges] is the shuffled list of edges at the vertex (canonical order, then
      std::ranges::shuffle with the caller's generator). *)
  Definition try_62_move_impl (validator : tds -> bool) (T : tds) (v : raw_vertex)
      (edges : vertex -> list simplex) : outcome tds :=
    match v with
    | OwnVertex v => bind (prepare_62 label junk T v) (fun _ => execute_62_with validator T v (edges v))
    | _ => Fail INVALID_TOPOLOGY
    end.
  Definition try_62_move := try_62_move_impl accept_post_mutation.
End Seams.

(** include/Ergodic_moves_3.hpp:1044-1095 [do_26_move_impl] with a validator. *)
Section Do26.
  Variable W : world.
  Context {G : Type}.
  Variable R : choices G.
  Variable escape : manifold -> G -> move_result manifold * G.
  Variable validator : tds -> bool.
  Variable m : manifold.
  Definition exec_26_with (c : simplex) (p : simplex * vertex) (g : G) : outcome tds * G :=
    (match execute_26_with (w_locates W) (w_centroid W) validator (m_cells m) c (snd p) with
     | (Done _, T') => Done T'
     | (Fail e, _) => Fail e
     | (Unmodelled, _) => Unmodelled
     end, g).
  Definition do_26_impl_with (only_first_site : bool) (g : G) : move_result manifold * G :=
    match sites_26 W m with
    | [] => (Failed (mkMoveError NO_CANDIDATE TWO_SIX), g)
    | _ =>
        if only_first_site then
          let '(c, g') := canonical_random_element R (sites_26 W m) g in
          match c with
          | None => (Failed (mkMoveError NO_CANDIDATE TWO_SIX), g')
          | Some c => finish escape m TWO_SIX (try_sites (prep_26 W m) exec_26_with true NO_CANDIDATE [c] g')
          end
        else
          let '(order, g') := shuffle R simplex (sites_26 W m) g in
          finish escape m TWO_SIX (try_sites (prep_26 W m) exec_26_with true NO_CANDIDATE order g')
    end.
End Do26.
