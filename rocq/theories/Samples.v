(** Concrete worlds and manifolds with integer coordinates and exact predicates,
    used to show that theorems have instances and to refute claims that fail. *)
From Verif Require Import Base Tracker Command Geom Simplex Pachner Foliation Moves Manifold.
From stdpp Require Import fin_sets gmap sorting.
From Verif Require Import Foliation.
Local Open Scope Z_scope.

Definition point : Type := Z * Z * Z.
Definition origin : point := (0, 0, 0).
(** Vertex 1 is infinite, vertex i+2 the i-th point of a table in lexicographic
    order, which contains the points of the triangulations considered. *)
Definition point_of (pts : list point) (v : vertex) : point := nth (Pos.to_nat v - 2) pts origin.
Definition point_eqb (p q : point) : bool :=
  let '(x, y, z) := p in let '(x', y', z') := q in (x =? x') && (y =? y') && (z =? z').
Fixpoint index_of (p : point) (pts : list point) (i : positive) : positive :=
  match pts with
  | [] => infinite
  | q :: r => if point_eqb p q then i else index_of p r (Pos.succ i)
  end.
(** CGAL::orientation, exactly: six times the signed volume. *)
Definition orient (p q r s : point) : Z :=
  let '(px, py, pz) := p in
  let '(ax, ay, az) := let '(x, y, z) := q in (x - px, y - py, z - pz) in
  let '(bx, by_, bz) := let '(x, y, z) := r in (x - px, y - py, z - pz) in
  let '(cx, cy, cz) := let '(x, y, z) := s in (x - px, y - py, z - pz) in
  ax * (by_ * cz - bz * cy) - ay * (bx * cz - bz * cx) + az * (bx * cy - by_ * cx).
Definition sum_coords (ps : list point) : point :=
  fold_right (fun p acc => let '(x, y, z) := p in let '(a, b, c) := acc in (x + a, y + b, z + c)) origin ps.
(** CGAL::centroid of a facet; the samples only use triples whose coordinates sum
    to multiples of three, for which the double computation is exact. *)
Definition centroid3 (ps : list point) : point :=
  let '(x, y, z) := sum_coords ps in (x / 3, y / 3, z / 3).
(** include/Foliated_triangulation.hpp:616-625 for integer spacing = radius = s:
    lround(r / s) = floor((2 r + s) / 2 s), with r the square root of the sum of
    squares. *)
Definition shell (s : Z) (p : point) : Z :=
  let '(x, y, z) := p in (Z.sqrt (4 * (x * x + y * y + z * z)) + s) / (2 * s).

Section World.
  Variable pts : list point.
  Variable s : Z.
  (** CGAL Triangulation_3::flip(Cell_handle, int): the segment between the two
      apexes passes through the interior of the facet. *)
  Definition exact_facet (T : tds) (c : simplex) (v : vertex) : bool :=
    match neighbor T c v with
    | Some n =>
        match mirror_vertex n c, map (point_of pts) (elements (c ∖ {[v]})) with
        | Some w, [a; b; x] =>
            let p := point_of pts v in let q := point_of pts w in
            let o1 := orient p q a b in let o2 := orient p q b x in let o3 := orient p q x a in
            ((0 <? o1) && (0 <? o2) && (0 <? o3)) || ((o1 <? 0) && (o2 <? 0) && (o3 <? 0))
        | _, _ => false
        end
    | None => false
    end.
  (** CGAL Triangulation_3::flip(Cell_handle, int, int): the ends of the edge are
      strictly on opposite sides of the triangle of its link. *)
  Definition exact_edge (T : tds) (e : simplex) : bool :=
    match map (point_of pts) (elements (link_vertices e T)), map (point_of pts) (elements e) with
    | [a; b; x], [p; q] => Z.sgn (orient a b x p) * Z.sgn (orient a b x q) <? 0
    | _, _ => false
    end.
  Definition exact_world : world :=
    mkWorld (fun _ _ v => shell s (point_of pts v)) (fun _ _ => UNCLASSIFIED) (fun _ _ => true)
      exact_facet exact_edge (fun f => index_of (centroid3 (map (point_of pts) (elements f))) pts 2).
  Definition sample (cells : list (list vertex)) : manifold :=
    mkManifold (list_to_set (map of_list cells)) (Fin (QArith_base.inject_Z s)) (Fin (QArith_base.inject_Z s)).
End World.

(** Deterministic choices: always index 0, no shuffling. *)
Definition plain : choices unit := mkChoices (fun _ g => (0%nat, g)) (fun _ l g => (l, g)).
Definition no_escape (m : manifold) (g : unit) : move_result manifold * unit := (Raised (ForeignException 0), g).
Lemma plain_ok : choices_ok plain.
Proof. split; [intros n g H; exact H|reflexivity]. Qed.

(** ** Samples *)
(** Delaunay triangulation of five points on slices 2 and 3: a (2,2) and a (3,1)
    cell with a common facet. *)
Definition pts_23 : list point := [(-7, -4, -5); (-5, 4, 8); (-2, -2, -9); (-1, 0, -9); (6, 9, -4)].
Definition W_23 : world := exact_world pts_23 4.
Definition m_23 : manifold := sample 4
  [[2; 3; 4; 5]; [3; 4; 5; 6]; [1; 2; 3; 4]; [1; 2; 3; 5]; [1; 2; 4; 5]; [1; 3; 4; 6]; [1; 3; 5; 6]; [1; 4; 5; 6]]%positive.
(** ... and after a (2,3) move. *)
Definition m_32 : manifold := sample 4
  [[2; 6; 3; 4]; [2; 6; 4; 5]; [2; 6; 3; 5]; [1; 2; 3; 4]; [1; 2; 3; 5]; [1; 2; 4; 5]; [1; 3; 4; 6]; [1; 3; 5; 6]; [1; 4; 5; 6]]%positive.
(** Delaunay triangulation of six points: two (3,1) and two (1,3) cells around a
    spacelike edge. *)
Definition pts_44 : list point := [(-9, 2, -3); (-8, 9, -6); (-5, 0, -8); (-4, 1, 2); (-2, 9, 0); (5, 6, -2)].
Definition W_44 : world := exact_world pts_44 4.
Definition m_44 : manifold := sample 4
  [[2; 4; 5; 6]; [2; 3; 4; 6]; [3; 4; 6; 7]; [4; 5; 6; 7];
   [1; 2; 5; 4]; [1; 2; 5; 6]; [1; 2; 3; 4]; [1; 2; 3; 6]; [1; 3; 4; 7]; [1; 3; 6; 7]; [1; 4; 5; 7]; [1; 5; 6; 7]]%positive.
(** Delaunay triangulation of five points on slices 2, 3 and 4 and the centroid
    (9,1,1) of the common facet, on slice 3. *)
Definition pts_26 : list point := [(6, 1, 1); (9, 0, 0); (9, 0, 3); (9, 1, 1); (9, 3, 0); (12, 1, 1)].
Definition W_26 : world := exact_world pts_26 3.
Definition m_26 : manifold := sample 3
  [[2; 3; 4; 6]; [3; 4; 6; 7]; [1; 2; 3; 4]; [1; 2; 3; 6]; [1; 2; 4; 6]; [1; 7; 3; 4]; [1; 7; 3; 6]; [1; 7; 4; 6]]%positive.
Definition m_62 : manifold := sample 3
  [[2; 3; 4; 5]; [2; 3; 5; 6]; [2; 5; 4; 6]; [3; 4; 5; 7]; [3; 5; 6; 7]; [5; 4; 6; 7];
   [1; 2; 3; 4]; [1; 2; 3; 6]; [1; 2; 4; 6]; [1; 7; 3; 4]; [1; 7; 3; 6]; [1; 7; 4; 6]]%positive.

Definition outcome_is (T : tds) (r : outcome tds) : bool :=
  match r with Done T' => bool_decide (T' = T) | _ => false end.
Lemma outcome_is_true T r : outcome_is T r = true <-> r = Done T.
Proof.
  destruct r as [T'|e|]; cbn; [rewrite bool_decide_eq_true|..]; split; intros H; try discriminate; congruence.
Qed.
Definition is_done (m : manifold) (r : move_result manifold * unit) : bool :=
  match r with (Moved m', _) => bool_decide (m_cells m' = m_cells m) | _ => false end.
Example sample_23 : is_done m_32 (do_23 W_23 plain no_escape m_23 tt) = true /\
  is_structurally_correct W_23 m_23 = true /\ check_move W_23 m_23 m_32 TWO_THREE = true.
Proof. vm_compute. auto. Qed.
Example sample_32 : is_done m_23 (do_32 W_23 plain no_escape m_32 tt) = true /\
  is_structurally_correct W_23 m_32 = true /\ check_move W_23 m_32 m_23 THREE_TWO = true.
Proof. vm_compute. auto. Qed.
Example sample_26 : is_done m_62 (do_26 W_26 plain no_escape m_26 tt) = true /\
  is_structurally_correct W_26 m_26 = true /\ check_move W_26 m_26 m_62 TWO_SIX = true.
Proof. vm_compute. auto. Qed.
Example sample_62 : is_done m_26 (do_62 W_26 plain no_escape m_62 tt) = true /\
  is_structurally_correct W_26 m_62 = true /\ check_move W_26 m_62 m_26 SIX_TWO = true.
Proof. vm_compute. auto. Qed.
(** ... and after a (4,4) move. *)
Definition m_44' : manifold := sample 4
  [[2; 4; 5; 7]; [2; 6; 5; 7]; [2; 4; 3; 7]; [2; 6; 3; 7];
   [1; 2; 5; 4]; [1; 2; 5; 6]; [1; 2; 3; 4]; [1; 2; 3; 6]; [1; 3; 4; 7]; [1; 3; 6; 7]; [1; 4; 5; 7]; [1; 5; 6; 7]]%positive.
Example sample_44 : is_done m_44' (do_44 W_44 plain no_escape m_44 tt) = true /\
  is_structurally_correct W_44 m_44 = true /\ check_move W_44 m_44 m_44' FOUR_FOUR = true.
Proof. vm_compute. auto. Qed.

(** Delaunay triangulation of five points on slices 2, 3 and 4 whose common facet
    has its centroid (8,8,8) on slice 2 although its corners are on slice 3. *)
Definition pts_30 : list point := [(-9, -9, -9); (0, 0, 24); (0, 24, 0); (8, 8, 8); (20, 20, 20); (24, 0, 0)].
Definition W_30 : world := exact_world pts_30 8.
Definition m_30 : manifold := sample 8
  [[2; 3; 4; 7]; [6; 3; 4; 7]; [1; 2; 3; 4]; [1; 2; 3; 7]; [1; 2; 4; 7]; [1; 6; 3; 4]; [1; 6; 3; 7]; [1; 6; 4; 7]]%positive.
Definition m_30' : manifold := sample 8
  [[2; 3; 4; 5]; [2; 3; 5; 7]; [2; 5; 4; 7]; [6; 3; 4; 5]; [6; 3; 5; 7]; [6; 5; 4; 7];
   [1; 2; 3; 4]; [1; 2; 3; 7]; [1; 2; 4; 7]; [1; 6; 3; 4]; [1; 6; 3; 7]; [1; 6; 4; 7]]%positive.
Example sample_30 : is_done m_30' (do_26 W_30 plain no_escape m_30 tt) = true /\
  is_structurally_correct W_30 m_30 = true /\ is_structurally_correct W_30 m_30' = false /\
  map (fun c => cell_type (label_of W_30 m_30') (of_list c)) [[2; 3; 4; 5]; [6; 3; 4; 5]]%positive = [TWO_TWO; ACAUSAL].
Proof. vm_compute. auto. Qed.

(** Delaunay triangulation of six points on slices 1 and 2; the (3,2) move at edge
    3-4 yields a (2,2) cell with two facets at which (2,3) is possible. *)
Definition pts_22 : list point := [(-6, -4, -3); (-4, -2, -5); (-4, -2, 3); (-4, 6, -2); (2, -3, -4); (2, 1, 5)].
Definition W_22 : world := exact_world pts_22 4.
Definition m_22 : manifold := sample 4
  [[2; 3; 4; 6]; [2; 3; 4; 5]; [3; 4; 5; 6]; [4; 5; 6; 7];
   [1; 2; 4; 6]; [1; 2; 3; 6]; [1; 2; 3; 5]; [1; 2; 4; 5]; [1; 3; 5; 6]; [1; 4; 5; 7]; [1; 4; 6; 7]; [1; 5; 6; 7]]%positive.
Definition m_22' : manifold := sample 4
  [[2; 4; 5; 6]; [2; 3; 5; 6]; [4; 5; 6; 7];
   [1; 2; 4; 6]; [1; 2; 3; 6]; [1; 2; 3; 5]; [1; 2; 4; 5]; [1; 3; 5; 6]; [1; 4; 5; 7]; [1; 4; 6; 7]; [1; 5; 6; 7]]%positive.
Example sample_22 : is_structurally_correct W_22 m_22 = true /\
  outcome_is (m_cells m_22') (move_32 (label_of W_22 m_22) (w_junk W_22) (w_locates W_22) (w_geo_edge W_22) (m_cells m_22) (of_list [3; 4]%positive)) = true /\
  forallb (fun c => negb (outcome_is (m_cells m_22) (move_23 (label_of W_22 m_22') (w_junk W_22) (w_locates W_22) (w_geo_facet W_22) (m_cells m_22') c)))
    (sites_23 W_22 m_22') = true /\ length (sites_23 W_22 m_22') = 1%nat.
Proof. vm_compute. auto. Qed.
