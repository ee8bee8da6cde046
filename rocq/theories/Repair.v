(** Labelling, repair and derived containers of a foliated triangulation
    (include/Foliated_triangulation.hpp:391-2064), on the mutable data the C++
    code works with: the vertices and cells CGAL enumerates, and the two info
    fields. *)
From Verif Require Import Base Config Foliation.
From Coq Require Import QArith Qround.
From stdpp Require Import fin_sets gmap sorting.
From Verif Require Import Foliation.
Local Open Scope Z_scope.

(** A CGAL cell: its vertices by index 0..3 (the infinite vertex never occurs
    in the finite cells enumerated here). *)
Notation cell := (list positive) (only parsing).
(** A facet: a cell and the index of the opposite vertex; an edge: a cell and
    two indices (CGAL's Facet and Edge triples). *)
Notation facet := (list positive * nat)%type (only parsing).
Notation edge := (list positive * nat * nat)%type (only parsing).

(** What CGAL's Delaunay_triangulation_3 exposes to the code: finite vertices,
    cells, facets and edges in enumeration order, and info() of each vertex and
    cell (Foliated_triangulation.hpp:60-105). *)
Record delaunay : Type := mkDelaunay {
  d_vertices : list positive;
  d_cells : list (list positive);
  d_facets : list (list positive * nat);
  d_edges : list (list positive * nat * nat);
  d_vinfo : positive -> Z;
  d_cinfo : list positive -> Z }.

Definition set_vinfo (d : delaunay) (f : positive -> Z) : delaunay :=
  mkDelaunay (d_vertices d) (d_cells d) (d_facets d) (d_edges d) f (d_cinfo d).
Definition set_cinfo (d : delaunay) (f : list positive -> Z) : delaunay :=
  mkDelaunay (d_vertices d) (d_cells d) (d_facets d) (d_edges d) (d_vinfo d) f.
(** Assignment to one info field. *)
Definition write_v (f : positive -> Z) (v : positive) (x : Z) : positive -> Z :=
  fun w => if bool_decide (w = v) then x else f w.
Definition write_c (f : list positive -> Z) (c : list positive) (x : Z) : list positive -> Z :=
  fun w => if bool_decide (w = c) then x else f w.

(** Times of the vertices of a cell. *)
Definition times (vi : positive -> Z) (c : list positive) : list Z := map vi c.

Section Repair.
(** [expected v]: expected_timevalue of the vertex for the object's radius and
    spacing (Foliated_triangulation.hpp:616-625; see [expected_timevalue]
    below). *)
Context (expected : positive -> Z).
(** Iteration order of std::unordered_set<Vertex_handle>. *)
Context (iter : gset positive -> list positive).

(** Foliated_triangulation.hpp:634-647. *)
Definition is_vertex_timevalue_correct (d : delaunay) (v : positive) : bool := expected v =? d_vinfo d v.
(** Foliated_triangulation.hpp:675-685. *)
Definition check_vertices (d : delaunay) : bool := forallb (is_vertex_timevalue_correct d) (d_vertices d).
(** Foliated_triangulation.hpp:710-726. *)
Definition get_vertices_from_cells (cs : list (list positive)) : list positive :=
  iter (list_to_set (concat cs)).
(** Foliated_triangulation.hpp:734-767. *)
Definition find_incorrect_vertices (d : delaunay) : list positive :=
  List.filter (fun v => negb (is_vertex_timevalue_correct d v)) (get_vertices_from_cells (d_cells d)).
(** Foliated_triangulation.hpp:778-808. *)
Definition fix_vertices (d : delaunay) : delaunay * bool :=
  let bad := find_incorrect_vertices d in
  (set_vinfo d (fold_left (fun f v => write_v f v (expected v)) bad (d_vinfo d)),
   negb (bool_decide (bad = []))).

(** Foliated_triangulation.hpp:815-866; signed overflow of maxtime - mintime is
    undefined. *)
Definition expected_cell_type (d : delaunay) (c : list positive) : checked Z :=
  if cell_type_defined (times (d_vinfo d) c) then Val (classify (times (d_vinfo d) c)) else Undef.
(** Foliated_triangulation.hpp:873-880. *)
Definition is_cell_type_correct (d : delaunay) (c : list positive) : checked bool :=
  let! k := expected_cell_type d c in
  Val (negb (k =? ACAUSAL) && negb (k =? UNCLASSIFIED) && (k =? d_cinfo d c)).

(** A C++ algorithm evaluating a predicate on every element (copy_if). *)
Fixpoint filterM {A} (p : A -> checked bool) (l : list A) : checked (list A) :=
  match l with
  | [] => Val []
  | x :: r => let! b := p x in let! r' := filterM p r in Val (if b : bool then x :: r' else r')
  end.
Fixpoint all_ofM {A} (p : A -> checked bool) (l : list A) : checked bool :=
  match l with
  | [] => Val true
  | x :: r => let! b := p x in if b : bool then all_ofM p r else Val false
  end.

(** Foliated_triangulation.hpp:889-896. *)
Definition check_cells (d : delaunay) : checked bool := all_ofM (is_cell_type_correct d) (d_cells d).
(** Foliated_triangulation.hpp:902-914. *)
Definition find_incorrect_cells (d : delaunay) : checked (list (list positive)) :=
  filterM (fun c => let! b := is_cell_type_correct d c in Val (negb b)) (d_cells d).
(** std::for_each assigning the expected type to each listed cell. *)
Fixpoint write_cells (d : delaunay) (l : list (list positive)) (f : list positive -> Z) : checked (list positive -> Z) :=
  match l with
  | [] => Val f
  | c :: r => let! k := expected_cell_type d c in write_cells d r (write_c f c k)
  end.
(** Foliated_triangulation.hpp:923-933. *)
Definition fix_cells (d : delaunay) : checked (delaunay * bool) :=
  let! bad := find_incorrect_cells d in
  let! f := write_cells d bad (d_cinfo d) in
  Val (set_cinfo d f, negb (bool_decide (bad = []))).

(** Foliated_triangulation.hpp:1114-1129. *)
Definition find_invalid_timevalue_cells (d : delaunay) : checked (list (list positive)) :=
  filterM (fun c => let! k := expected_cell_type d c in Val ((k =? ACAUSAL) || (k =? UNCLASSIFIED))) (d_cells d).
(** Foliated_triangulation.hpp:1135-1138. *)
Definition has_valid_timevalues (d : delaunay) : checked bool :=
  let! l := find_invalid_timevalue_cells d in Val (bool_decide (l = [])).

(** Foliated_triangulation.hpp:1145-1172. The multimap holds the vertices by
    increasing time, equal times in index order: its first element is the first
    vertex with the least time, its last element the last vertex with the
    greatest. The cell must not be empty. *)
Definition find_bad_vertex (d : delaunay) (c : list positive) : positive :=
  let ts := times (d_vinfo d) c in
  let minvalue := list_min ts in let maxvalue := list_max ts in
  if count_eq maxvalue ts <=? count_eq minvalue ts
  then List.last (List.filter (fun v => d_vinfo d v =? maxvalue) c) 1%positive
  else List.hd 1%positive (List.filter (fun v => d_vinfo d v =? minvalue) c).

(** CGAL's Delaunay_triangulation_3::remove(first, last): removes the listed
    vertices and retriangulates. *)
Context (remove : delaunay -> gset positive -> delaunay).
(** Foliated_triangulation.hpp:1181-1209. *)
Definition fix_timevalues (d : delaunay) : checked (delaunay * bool) :=
  let! invalid := find_invalid_timevalue_cells d in
  if bool_decide (invalid = []) then Val (d, false)
  else Val (remove d (list_to_set (map (find_bad_vertex d) invalid)), true).

(** Foliated_triangulation.hpp:116. *)
Definition MAX_FIX_PASSES : nat := 50.
(** The bounded loops of Foliated_triangulation.hpp:1347-1376. *)
Fixpoint passes (n : nat) (f : delaunay -> checked (delaunay * bool)) (d : delaunay) : checked delaunay :=
  match n with
  | O => Val d
  | S k => let! r := f d in if snd r then passes k f (fst r) else Val (fst r)
  end.
(** Foliated_triangulation.hpp:1347-1380 [make_triangulation] after the
    Delaunay triangulation [d] of the generated points has been built. [asserts]
    says whether assert() is active (NDEBUG not defined); a failed assertion
    aborts the process, rendered as [None]. *)
Definition repair (asserts : bool) (d : delaunay) : checked (option delaunay) :=
  let! d1 := passes MAX_FIX_PASSES (fun d => Val (fix_vertices d)) d in
  let! d2 := passes MAX_FIX_PASSES fix_timevalues d1 in
  let! d3 := passes MAX_FIX_PASSES fix_cells d2 in
  if asserts then let! ok := has_valid_timevalues d3 in Val (if ok : bool then Some d3 else None)
  else Val (Some d3).

(** ** Derived containers and the object *)
(** std::ranges::max_element / min_element with compare_v_info: the first
    extreme element. *)
Definition max_element (vi : positive -> Z) (x : positive) (l : list positive) : positive :=
  fold_left (fun best y => if vi best <? vi y then y else best) l x.
Definition min_element (vi : positive -> Z) (x : positive) (l : list positive) : positive :=
  fold_left (fun best y => if vi y <? vi best then y else best) l x.
(** Foliated_triangulation.hpp:499-512 and 516-530. *)
Definition find_max_timevalue (vi : positive -> Z) (l : list positive) : checked Z :=
  match l with [] => Throws InvalidArgument | x :: r => Val (vi (max_element vi x r)) end.
Definition find_min_timevalue (vi : positive -> Z) (l : list positive) : checked Z :=
  match l with [] => Throws InvalidArgument | x :: r => Val (vi (min_element vi x r)) end.

(** Foliated_triangulation.hpp:533-550: TIMELIKE. *)
Definition edge_timelike (vi : positive -> Z) (e : list positive * nat * nat) : bool :=
  let '(c, i, j) := e in negb (vi (nth i c 1%positive) =? vi (nth j c 1%positive)).
(** Foliated_triangulation.hpp:556-568. *)
Definition filter_edges (vi : positive -> Z) (tl : bool) (l : list (list positive * nat * nat)) :=
  List.filter (fun e => Bool.eqb tl (edge_timelike vi e)) l.
(** Foliated_triangulation.hpp:574-586. *)
Definition filter_cells (ci : list positive -> Z) (k : Z) (l : list (list positive)) :=
  List.filter (fun c => ci c =? k) l.

(** Vertices of a facet: all indices but the given one
    (Foliated_triangulation.hpp:1041-1058). *)
Definition facet_vertices (f : list positive * nat) : list positive :=
  map (fun i => nth i (fst f) 1%positive) (List.filter (fun i => negb (i =? snd f)%nat) (seq 0 4)).
(** The one-element set test, Foliated_triangulation.hpp:1059-1068. *)
Definition facet_time (vi : positive -> Z) (f : list positive * nat) : option Z :=
  match elements (list_to_set (map vi (facet_vertices f)) : gset Z) with [t] => Some t | _ => None end.
(** std::ranges::stable_sort by the first component: insertion after equal
    keys. *)
Fixpoint insert_by_key {A} (x : Z * A) (l : list (Z * A)) : list (Z * A) :=
  match l with
  | [] => [x]
  | y :: r => if fst y <=? fst x then y :: insert_by_key x r else x :: l
  end.
Definition stable_sort_by_key {A} (l : list (Z * A)) : list (Z * A) :=
  fold_left (fun acc x => insert_by_key x acc) l [].
(** Foliated_triangulation.hpp:1026-1080. *)
Definition collect_spacelike_facets (vi : positive -> Z) (l : list (list positive * nat)) : list (Z * (list positive * nat)) :=
  stable_sort_by_key (omap (fun f => match facet_time vi f with Some t => Some (t, f) | None => None end) l).
(** Foliated_triangulation.hpp:1829-1836: equal_range on the sorted container. *)
Definition equal_range {A} (t : Z) (l : list (Z * A)) : list (Z * A) :=
  let lower := List.filter (fun e => fst e <? t) l in
  let upper := List.filter (fun e => fst e <=? t) l in
  firstn (length upper - length lower) (skipn (length lower) l).

(** Foliated_triangulation.hpp:1465-1479: the members of FoliatedTriangulation<3>
    (radius and spacing are in [expected]; the lock grid is modelled in
    Locks.v). *)
Record foliated : Type := mkFoliated {
  f_delaunay : delaunay;
  f_vertices : list positive;
  f_cells : list (list positive);
  f_three_one : list (list positive);
  f_two_two : list (list positive);
  f_one_three : list (list positive);
  f_faces : list (list positive * nat);
  f_spacelike_facets : list (Z * (list positive * nat));
  f_edges : list (list positive * nat * nat);
  f_timelike_edges : list (list positive * nat * nat);
  f_spacelike_edges : list (list positive * nat * nat);
  f_max : Z;
  f_min : Z }.

(** Foliated_triangulation.hpp:2024-2033. *)
Definition classify_vertices (d : delaunay) : delaunay :=
  set_vinfo d (fold_left (fun f v => write_v f v (expected v)) (d_vertices d) (d_vinfo d)).
(** Foliated_triangulation.hpp:2039-2048. *)
Definition classify_cells (d : delaunay) : checked delaunay :=
  let! f := write_cells d (d_cells d) (d_cinfo d) in Val (set_cinfo d f).

(** Foliated_triangulation.hpp:1446-1455 and 1647-1665: the constructor. *)
Definition construct (d : delaunay) : checked foliated :=
  if bool_decide (d_vertices d = []) then Throws InvalidArgument
  else
    let d1 := classify_vertices d in
    let! d2 := classify_cells d1 in
    let vi := d_vinfo d2 in
    let! mx := find_max_timevalue vi (d_vertices d2) in
    let! mn := find_min_timevalue vi (d_vertices d2) in
    Val (mkFoliated d2 (d_vertices d2) (d_cells d2)
      (filter_cells (d_cinfo d2) THREE_ONE (d_cells d2))
      (filter_cells (d_cinfo d2) TWO_TWO (d_cells d2))
      (filter_cells (d_cinfo d2) ONE_THREE (d_cells d2))
      (d_facets d2) (collect_spacelike_facets vi (d_facets d2))
      (d_edges d2) (filter_edges vi true (d_edges d2)) (filter_edges vi false (d_edges d2)) mx mn).

(** Foliated_triangulation.hpp:1481-1497, without the lock binding (Locks.v). *)
Definition has_consistent_structure (f : foliated) : bool :=
  (length (f_vertices f) =? length (d_vertices (f_delaunay f)))%nat &&
  (length (f_spacelike_facets f) <=? length (f_faces f))%nat &&
  (length (f_three_one f) + length (f_two_two f) + length (f_one_three f) =? length (f_cells f))%nat &&
  (length (f_timelike_edges f) + length (f_spacelike_edges f) =? length (f_edges f))%nat &&
  (if bool_decide (f_vertices f = []) then (f_max f =? 0) && (f_min f =? 0) else f_min f <=? f_max f).
(** Foliated_triangulation.hpp:1743-1752 with a valid triangulation data
    structure (tds().is_valid(), CGAL). *)
Definition is_structurally_correct (f : foliated) : checked bool :=
  if has_consistent_structure f then check_cells (f_delaunay f) else Val false.
(** Foliated_triangulation.hpp:1733-1734. *)
Definition is_foliated (f : foliated) : checked bool := has_valid_timevalues (f_delaunay f).

(** Foliated_triangulation.hpp:1829-1840. *)
Definition spacelike_face_count (f : foliated) (t : Z) : Z := Z.of_nat (length (equal_range t (f_spacelike_facets f))).
Definition number_of_spacelike_faces (f : foliated) : Z := Z.of_nat (length (f_spacelike_facets f)).

(** Foliated_triangulation.hpp:1089-1096: the sorted pairs inserted in turn into
    a multimap (insertion after equal keys). *)
Definition volume_per_timeslice (vi : positive -> Z) (l : list (list positive * nat)) :=
  stable_sort_by_key (collect_spacelike_facets vi l).
(** Foliated_triangulation.hpp:1959-1966: the rows printed, one per slice from
    min_time to max_time; ++j overflows when max_time is the largest int. *)
Definition print_volume_per_timeslice (f : foliated) : checked (list (Z * Z)) :=
  if f_max f =? INT32_MAX then Undef
  else Val (map (fun i => let j := f_min f + Z.of_nat i in (j, spacelike_face_count f j))
             (seq 0 (Z.to_nat (f_max f - f_min f + 1)))).

(** The member functions Foliated_triangulation.hpp:1772-1788 [is_fixed],
    1916-1929 [fix_vertices] and 1995-2007 [fix_cells]. A copy is repaired and
    replaces the object only when something changed. *)
Definition member_fix_vertices (f : foliated) : checked (foliated * bool) :=
  let '(d, changed) := fix_vertices (f_delaunay f) in
  if changed : bool then let! r := construct d in Val (r, true) else Val (f, false).
Definition member_fix_cells (f : foliated) : checked (foliated * bool) :=
  let! r := fix_cells (f_delaunay f) in
  if snd r then let! g := construct (fst r) in Val (g, true) else Val (f, false).
Definition member_is_fixed (f : foliated) : checked (foliated * bool) :=
  let '(d1, b1) := fix_vertices (f_delaunay f) in
  let! r2 := fix_cells d1 in
  let! r3 := fix_timevalues (fst r2) in
  let changed := b1 || snd r2 || snd r3 in
  if changed then let! g := construct (fst r3) in Val (g, true) else Val (f, false).
End Repair.

(** ** Points with times, Foliated_triangulation.hpp:391-412. Times are size_t. *)
Fixpoint pair_times {point : Type} (ps : list point) (ts : list Z) : checked (list (point * Z)) :=
  match ps, ts with
  | p :: ps', t :: ts' =>
      if in_int32b t then let! r := pair_times ps' ts' in Val ((p, t) :: r) else Throws OutOfRange
  | _, _ => Val []
  end.
Definition make_causal_vertices {point : Type} (ps : list point) (ts : list Z) : checked (list (point * Z)) :=
  if negb (length ps =? length ts)%nat then Throws LengthError else pair_times ps ts.

(** ** Time of a vertex, Foliated_triangulation.hpp:616-625 *)
(** std::lround: nearest integer, halves away from zero. *)
Definition lround (q : Q) : Z :=
  if Qle_bool 0 q then Qfloor (q + (1 # 2)) else Qceiling (q - (1 # 2)).
(** static_cast<int32_t>(long): modulo 2^32 (C++20). *)
Definition narrow32 (z : Z) : Z := (z + 2147483648) mod 4294967296 - 2147483648.
Definition fneg (x : fp) : fp := match x with Fin q => Fin (- q)%Q | Inf b => Inf (negb b) | NaN => NaN end.
(** [radius] is the (rounded) square root of the squared distance to the
    origin; [rd] rounds to double. The result of lround is unspecified when it
    does not fit long (64 bit): [None]. *)
Definition nearest_slice (rd : Q -> fp) (radius initial spacing : fp) : option Z :=
  match fdiv rd (fadd rd (fadd rd radius (fneg initial)) spacing) spacing with
  | Fin q => let z := lround q in
             if (-9223372036854775808 <=? z) && (z <=? 9223372036854775807) then Some z else None
  | _ => None
  end.
(** The conversion to Int_precision of that value. *)
Definition expected_timevalue (rd : Q -> fp) (radius initial spacing : fp) : option Z :=
  option_map narrow32 (nearest_slice rd radius initial spacing).
