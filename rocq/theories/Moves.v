(** Model of include/Ergodic_moves_3.hpp: preparation, execution and proposal of
    the five moves on labelled simplicial complexes, and check_move. *)
From Verif Require Import Base Tracker Geom Simplex Pachner Foliation.
From stdpp Require Import fin_sets gmap sorting.
Local Open Scope Z_scope.

(** Result of a move step. [Unmodelled]: the C++ leaves the state space of the
    model (a CGAL flip whose new edge or facet already exists elsewhere, which
    would make a complex that is not determined by its vertex sets, or a new
    vertex whose point coincides with an existing one). No theorem speaks about
    it as a success. *)
Inductive outcome (A : Type) : Type :=
| Done (a : A)
| Fail (e : MoveFailure)
| Unmodelled.
Arguments Done {A} a.
Arguments Fail {A} e.
Arguments Unmodelled {A}.

(** ** Canonical orders, include/Ergodic_moves_3.hpp:248-268,319-359 *)
Definition sorted_elements (s : simplex) : list vertex := merge_sort Pos.le (elements s).
(** std::ranges::lexicographical_compare(_, _, point_less), as a total preorder. *)
Fixpoint lex_le (l l' : list vertex) : bool :=
  match l, l' with
  | [], _ => true
  | _ :: _, [] => false
  | x :: r, y :: r' => if Pos.ltb x y then true else if Pos.ltb y x then false else lex_le r r'
  end.
Definition simplex_le (s s' : simplex) : Prop := lex_le (sorted_elements s) (sorted_elements s') = true.
Global Instance simplex_le_dec : RelDecision simplex_le := fun s s' => decide (_ = true).
(** include/Ergodic_moves_3.hpp:337-348 [canonicalize]. *)
Definition canonicalize (l : list simplex) : list simplex := merge_sort simplex_le l.

(** ** The triangulation data structure *)
(** Cells containing a face (incident_cells). *)
Definition star (s : simplex) (T : tds) : gset simplex := filter (fun c => s ⊆ c) T.
(** The vertices joined to a face by its cells. *)
Definition link_vertices (s : simplex) (T : tds) : simplex := (⋃ elements (star s T)) ∖ s.
(** cell->neighbor(i), i the index of vertex [v]. *)
Definition neighbor (T : tds) (c : simplex) (v : vertex) : option simplex :=
  head (elements (filter (fun n => n <> c) (star (c ∖ {[v]}) T))).
(** n->vertex(n->index(c)): the vertex of [n] outside [c]. *)
Definition mirror_vertex (n c : simplex) : option vertex := head (elements (n ∖ c)).
(** Triangulation_data_structure_3::is_valid as far as modelled: four vertices
    per cell, two cells per facet, and the Euler relation. *)
Definition tds_valid (T : tds) : bool :=
  bool_decide (set_Forall (fun c : simplex => size c = 4%nat) T) &&
  bool_decide (set_Forall (fun f => cofaces f T = 2) (faces 3 T)) &&
  (Z.of_nat (size (faces 1 T)) - Z.of_nat (size (faces 2 T)) +
   Z.of_nat (size (faces 3 T)) - Z.of_nat (size T) =? 0).
(** tds.degree(v) / Triangulation_3::degree: number of incident edges. *)
Definition degree (T : tds) (v : vertex) : nat := size (link_vertices {[v]} T).

Inductive flip_result : Type := Flipped (T : tds) | NotFlippable | FlipUnmodelled.

(** CGAL Triangulation_data_structure_3::flip(Facet): refuses when the future
    edge already exists; otherwise the 2-3 flip. *)
Definition tds_flip_facet (T : tds) (c : simplex) (v : vertex) : flip_result :=
  match neighbor T c v with
  | None => FlipUnmodelled
  | Some n =>
      match mirror_vertex n c with
      | None => FlipUnmodelled
      | Some w =>
          if bool_decide (star (of_list [v; w]) T = ∅)
          then Flipped (pachner T [v; w] (elements (c ∖ {[v]})))
          else NotFlippable
      end
  end.
(** CGAL Triangulation_data_structure_3::flip(Edge): refuses unless exactly three
    cells are incident; otherwise the 3-2 flip. When the future facet already
    exists the model does not say what CGAL does. *)
Definition tds_flip_edge (T : tds) (e : simplex) : flip_result :=
  if negb (Nat.eqb (size (star e T)) 3) then NotFlippable
  else if bool_decide (star (link_vertices e T) T = ∅)
  then Flipped (pachner T (elements (link_vertices e T)) (elements e))
  else FlipUnmodelled.
(** CGAL Triangulation_data_structure_3::remove_from_maximal_dimension_simplex. *)
Definition remove_vertex (T : tds) (v : vertex) : tds :=
  (T ∖ star {[v]} T) ∪ {[link_vertices {[v]} T]}.
(** CGAL Triangulation_data_structure_3::insert_in_facet on the facet of [c]
    opposite [v]: [c] and its neighbour [n] are split into three each. *)
Definition insert_in_facet (T : tds) (c n : simplex) (v : vertex) (x : vertex) : tds :=
  let f := c ∖ {[v]} in
  (T ∖ {[c; n]}) ∪ list_to_set (map (fun y => {[x]} ∪ c ∖ {[y]}) (elements f))
                 ∪ list_to_set (map (fun y => {[x]} ∪ n ∖ {[y]}) (elements f)).

Section Moves.
  (** The time value of each point for the manifold's radius and spacing. *)
  Variable label : vertex -> Z.
  (** cell->info() of infinite cells: never written by the code. *)
  Variable junk : tds -> simplex -> Z.
  (** CGAL is_vertex(point, v): point location, which can fail once the
      triangulation is no longer geometrically embedded. *)
  Variable locates : tds -> vertex -> bool.
  (** The orientation tests of Triangulation_3::flip (facet and edge). *)
  Variable geo_facet : tds -> simplex -> vertex -> bool.
  Variable geo_edge : tds -> simplex -> bool.
  (** CGAL::centroid of the three points of a facet. *)
  Variable centroid : simplex -> vertex.

  (** cell->info(): written for finite cells by classify_cells
      (include/Foliated_triangulation.hpp:2039-2048). *)
  Definition cell_info (T : tds) (c : simplex) : Z :=
    if finite_simplex c then cell_type label c else junk T c.
  (** include/Foliated_triangulation.hpp:873-880 [is_cell_type_correct]. *)
  Definition correct (T : tds) (c : simplex) : bool :=
    negb (cell_type label c =? ACAUSAL) && negb (cell_type label c =? UNCLASSIFIED) &&
    (cell_type label c =? cell_info T c).
  Definition count_type (k : Z) (cells : list simplex) : Z :=
    Z.of_nat (length (List.filter (fun c => cell_type label c =? k) cells)).

  (** ** (2,3) *)
  (** include/Ergodic_moves_3.hpp:553-579: the body of the facet loop. *)
  Definition facet_23_ok (T : tds) (c : simplex) (v : vertex) : bool :=
    match neighbor T c v with
    | None => false
    | Some n =>
        finite_simplex n && correct T n &&
        ((cell_type label n =? THREE_ONE) || (cell_type label n =? ONE_THREE)) &&
        match mirror_vertex n c with
        | None => false
        | Some w => Z.abs (label v - label w) =? 1
        end
    end.
  (** include/Ergodic_moves_3.hpp:530-584 [prepare_two_three]: the first facet
      (in point order of its opposite vertex) that qualifies. *)
  Definition prepare_23 (T : tds) (c : simplex) : outcome vertex :=
    if negb (bool_decide (c ∈ T)) then Fail INVALID_TOPOLOGY
    else if negb (correct T c) || negb (cell_type label c =? TWO_TWO) then Fail CAUSAL_INVALIDITY
    else match find (facet_23_ok T c) (sorted_elements c) with
         | Some v => Done v
         | None => Fail CAUSAL_INVALIDITY
         end.
  (** include/Ergodic_moves_3.hpp:591-621 [execute(ApplicableTwoThreeMove)],
      with Triangulation_3::flip(Cell_handle, int). *)
  Definition execute_23 (T : tds) (c : simplex) (v : vertex) : outcome tds :=
    if negb (forallb (locates T) (elements c) && bool_decide (c ∈ T) && bool_decide (v ∈ c))
    then Fail STALE_CANDIDATE
    else match neighbor T c v with
    | None => Unmodelled
    | Some n =>
        if negb (finite_simplex c && finite_simplex n && geo_facet T c v) then Fail EXECUTION_FAILURE
        else match tds_flip_facet T c v with
             | Flipped T' => Done T'
             | _ => Unmodelled
             end
    end.

  (** ** (3,2) *)
  (** include/Ergodic_moves_3.hpp:719-753 [is_32_movable]. *)
  Definition is_32_movable (T : tds) (e : simplex) : bool :=
    let cells := elements (star e T) in
    forallb finite_simplex cells && Nat.eqb (length cells) 3 &&
    match elements e with [a; b] => Z.abs (label a - label b) =? 1 | _ => false end &&
    forallb (correct T) cells &&
    (count_type TWO_TWO cells =? 2) &&
    (((count_type THREE_ONE cells =? 1) && (count_type ONE_THREE cells =? 0)) ||
     ((count_type THREE_ONE cells =? 0) && (count_type ONE_THREE cells =? 1))).
  (** include/Ergodic_moves_3.hpp:760-776 [prepare_three_two]. *)
  Definition prepare_32 (T : tds) (e : simplex) : outcome unit :=
    if negb (bool_decide (e ∈ faces 2 T)) then Fail INVALID_TOPOLOGY
    else if negb (is_32_movable T e) then Fail CAUSAL_INVALIDITY
    else Done tt.
  (** include/Ergodic_moves_3.hpp:779-791 [execute(ApplicableThreeTwoMove)], with
      Triangulation_3::flip(Cell_handle, int, int). *)
  Definition execute_32 (T : tds) (e : simplex) : outcome tds :=
    if negb (forallb (locates T) (elements e) && bool_decide (e ∈ faces 2 T)) then Fail STALE_CANDIDATE
    else if negb (geo_edge T e) then Fail EXECUTION_FAILURE
    else match tds_flip_edge T e with
         | Flipped T' => Done T'
         | NotFlippable => Fail EXECUTION_FAILURE
         | FlipUnmodelled => Unmodelled
         end.

  (** ** (2,6) *)
  (** include/Ergodic_moves_3.hpp:887-919 [find_adjacent_31_cell]: among the
      neighbours that are correct (3,1) cells, the least in cell order; the
      result is the opposite vertex. No test that the neighbour is finite. *)
  Definition neighbor_31 (T : tds) (c : simplex) (v : vertex) : option simplex :=
    match neighbor T c v with
    | Some n => if correct T n && (cell_type label n =? THREE_ONE) then Some n else None
    | None => None
    end.
  Definition candidates_31 (T : tds) (c : simplex) : list simplex :=
    canonicalize (omap (neighbor_31 T c) (elements c)).
  Definition find_adjacent_31_cell (T : tds) (c : simplex) : option simplex :=
    if negb (correct T c) || negb (cell_type label c =? ONE_THREE) then None
    else head (candidates_31 T c).
  (** include/Ergodic_moves_3.hpp:924-959 [prepare_two_six]; the result is the
      upper cell and the vertex opposite the common face. *)
  Definition prepare_26 (T : tds) (c : simplex) : outcome (simplex * vertex) :=
    if negb (bool_decide (c ∈ T)) then Fail INVALID_TOPOLOGY
    else match find_adjacent_31_cell T c with
    | None => Fail CAUSAL_INVALIDITY
    | Some n =>
        match mirror_vertex c n with
        | None => Fail INVALID_TOPOLOGY
        | Some v =>
            match map label (elements (c ∖ {[v]})) with
            | [t1; t2; t3] => if (t1 =? t2) && (t2 =? t3) then Done (n, v) else Fail CAUSAL_INVALIDITY
            | _ => Fail INVALID_TOPOLOGY
            end
        end
    end.
  (** include/Ergodic_moves_3.hpp:966-1027 [execute(ApplicableTwoSixMove)]. The
      vertex is inserted combinatorially and then placed at the centroid; the
      counts of incident cells and the local validity test hold by construction
      of insert_in_facet. The time value assigned to the centre is overwritten
      by make_manifold (classify_vertices). *)
  Definition execute_26 (T : tds) (c : simplex) (v : vertex) : outcome tds :=
    if negb (forallb (locates T) (elements c) && bool_decide (c ∈ T) && bool_decide (v ∈ c))
    then Fail STALE_CANDIDATE
    else match neighbor T c v with
    | None => Unmodelled
    | Some n =>
        let x := centroid (c ∖ {[v]}) in
        if bool_decide (x ∈ vertices T) || bool_decide (x = infinite) then Unmodelled
        else Done (insert_in_facet T c n v x)
    end.

  (** ** (6,2) *)
  (** include/Ergodic_moves_3.hpp:1148-1199 [is_62_movable]. *)
  Definition is_62_movable (T : tds) (v : vertex) : bool :=
    let cells := elements (star {[v]} T) in
    bool_decide (v ∈ vertices T) && Nat.eqb (degree T v) 5 && Nat.eqb (length cells) 6 &&
    forallb finite_simplex cells &&
    (count_type ONE_THREE cells + count_type TWO_TWO cells + count_type THREE_ONE cells =? 6) &&
    forallb (correct T) cells &&
    (count_type THREE_ONE cells =? 3) && (count_type TWO_TWO cells =? 0) && (count_type ONE_THREE cells =? 3).
  (** include/Ergodic_moves_3.hpp:1204-1220 [prepare_six_two]. *)
  Definition prepare_62 (T : tds) (v : vertex) : outcome unit :=
    if negb (bool_decide (v ∈ vertices T)) || bool_decide (v = infinite) then Fail INVALID_TOPOLOGY
    else if negb (is_62_movable T v) then Fail CAUSAL_INVALIDITY
    else Done tt.
  (** include/Ergodic_moves_3.hpp:1270-1277: flip the first timelike edge that
      CGAL accepts. *)
  Fixpoint flip_some_edge (T : tds) (edges : list simplex) : flip_result :=
    match edges with
    | [] => NotFlippable
    | e :: r => if timelike label e
                then match tds_flip_edge T e with
                     | NotFlippable => flip_some_edge T r
                     | res => res
                     end
                else flip_some_edge T r
    end.
  (** finite_incident_edges(candidate), include/Ergodic_moves_3.hpp:1259-1261. *)
  Definition finite_incident_edges (T : tds) (v : vertex) : list simplex :=
    map (fun w => of_list [v; w]) (elements (link_vertices {[v]} T ∖ {[infinite]})).
  (** include/Ergodic_moves_3.hpp:1239-1303 [execute(ApplicableSixTwoMove)];
      [edges] is the shuffled list of incident edges. *)
  Definition execute_62 (T : tds) (v : vertex) (edges : list simplex) : outcome tds :=
    if negb (locates T v) then Fail STALE_CANDIDATE
    else match flip_some_edge T edges with
    | FlipUnmodelled => Unmodelled
    | NotFlippable => Fail EXECUTION_FAILURE
    | Flipped T1 =>
        if negb (Nat.eqb (degree T1 v) 4) || negb (tds_valid T1) then Fail EXECUTION_FAILURE
        else
          let T2 := remove_vertex T1 v in
          if negb (tds_valid T2) || negb (n3 T2 + 4 =? n3 T) || negb (n0 T2 + 1 =? n0 T)
          then Fail INVARIANT_VIOLATION
          else if forallb (fun c => negb (finite_simplex c) ||
                     (negb (cell_type label c =? ACAUSAL) && negb (cell_type label c =? UNCLASSIFIED)))
                    (elements T2)
          then Done T2
          else Fail INVARIANT_VIOLATION
    end.

  (** ** (4,4) *)
  (** include/Ergodic_moves_3.hpp:1451-1478 [find_bistellar_flip_location]
      (with 227-246 [finite_incident_cells]). *)
  Definition flip_location_44 (T : tds) (e : simplex) : option (list simplex) :=
    let cells := elements (star e T) in
    if forallb finite_simplex cells && Nat.eqb (length cells) 4 && spacelike label e &&
       (count_type THREE_ONE (List.filter (correct T) cells) =? 2) &&
       (count_type ONE_THREE (List.filter (correct T) cells) =? 2)
    then Some cells else None.
  (** include/Ergodic_moves_3.hpp:350-359 [vertex_precedes]. *)
  Definition vertex_precedes (a b : vertex) : bool :=
    if negb (label a =? label b) then label a <? label b else Pos.ltb a b.
  (** include/Ergodic_moves_3.hpp:1503-1516: greatest and least vertex. *)
  Definition top_vertex (vs : list vertex) : option vertex :=
    fold_left (fun top v => match top with
                            | None => Some v
                            | Some t => if vertex_precedes t v then Some v else top
                            end) vs None.
  Definition bottom_vertex (vs : list vertex) : option vertex :=
    fold_left (fun bot v => match bot with
                            | None => Some v
                            | Some t => if vertex_precedes v t then Some v else bot
                            end) vs None.
  (** include/Ergodic_moves_3.hpp:1483-1538 [prepare_four_four]. *)
  Definition prepare_44 (T : tds) (e : simplex) : outcome (vertex * vertex) :=
    if negb (bool_decide (e ∈ faces 2 T)) then Fail INVALID_TOPOLOGY
    else match flip_location_44 T e with
    | None => Fail CAUSAL_INVALIDITY
    | Some cells =>
        let others := flat_map (fun c => elements (c ∖ e)) cells in
        match top_vertex others, bottom_vertex others with
        | Some top, Some bottom =>
            if bool_decide (top = bottom) || bool_decide (top ∈ e) || bool_decide (bottom ∈ e)
            then Fail CAUSAL_INVALIDITY
            else if negb (Nat.eqb (length (List.filter (fun c => bool_decide (top ∈ c)) cells)) 2) ||
                    negb (Nat.eqb (length (List.filter (fun c => bool_decide (bottom ∈ c)) cells)) 2)
            then Fail CAUSAL_INVALIDITY
            else Done (top, bottom)
        | _, _ => Fail CAUSAL_INVALIDITY
        end
    end.
  (** include/Ergodic_moves_3.hpp:1603-1671 [execute(ApplicableFourFourMove)]. *)
  Definition execute_44 (T : tds) (e : simplex) (top bottom : vertex) : outcome tds :=
    if negb (forallb (locates T) (elements e) && locates T top && locates T bottom &&
             bool_decide (e ∈ faces 2 T))
    then Fail STALE_CANDIDATE
    else match elements (star ({[bottom]} ∪ e) T) with
    | [] => Fail STALE_CANDIDATE
    | c :: _ =>
        match mirror_vertex c ({[bottom]} ∪ e) with
        | None => Unmodelled
        | Some v =>
            match tds_flip_facet T c v with
            | FlipUnmodelled => Unmodelled
            | NotFlippable => Fail EXECUTION_FAILURE
            | Flipped T1 =>
                match tds_flip_edge T1 e with
                | FlipUnmodelled => Unmodelled
                | NotFlippable => Fail EXECUTION_FAILURE
                | Flipped T2 => if negb (tds_valid T2) then Fail INVARIANT_VIOLATION else Done T2
                end
            end
        end
    end.

  (** ** Sites *)
  (** filter_cells<3>(collect_cells, type), include/Foliated_triangulation.hpp:574-586. *)
  Definition cell_sites (k : Z) (T : tds) : list simplex :=
    elements (filter (fun c => finite_simplex c && (cell_info T c =? k) = true) T).
  (** filter_edges<3>(collect_edges, type), include/Foliated_triangulation.hpp:556-568. *)
  Definition edge_sites (tl : bool) (T : tds) : list simplex :=
    elements (filter (fun e => finite_simplex e && (if tl then timelike label e else spacelike label e) = true) (faces 2 T)).
  Definition vertex_sites (T : tds) : list vertex := elements (finite_vertices T).

  (** One site of each kind, prepared and executed. *)
  Definition bind {A B} (x : outcome A) (f : A -> outcome B) : outcome B :=
    match x with Done a => f a | Fail e => Fail e | Unmodelled => Unmodelled end.
  Definition move_23 (T : tds) (c : simplex) : outcome tds := bind (prepare_23 T c) (execute_23 T c).
  Definition move_32 (T : tds) (e : simplex) : outcome tds := bind (prepare_32 T e) (fun _ => execute_32 T e).
  Definition move_26 (T : tds) (c : simplex) : outcome tds := bind (prepare_26 T c) (fun p => execute_26 T c (snd p)).
  Definition move_62 (T : tds) (v : vertex) (edges : list simplex) : outcome tds :=
    bind (prepare_62 T v) (fun _ => execute_62 T v edges).
  Definition move_44 (T : tds) (e : simplex) : outcome tds := bind (prepare_44 T e) (fun p => execute_44 T e (fst p) (snd p)).
End Moves.

Definition b2z (b : bool) : Z := if b then 1 else 0.
