(** FoliatedTriangulation<3> and Manifold<3> as objects: a triangulation made of
    vertices and cells living behind handles, and the containers of handles
    (caches) the objects keep beside it (include/Foliated_triangulation.hpp,
    include/Manifold.hpp, include/Geometry.hpp). What the containers hold, and
    which object's vertices and cells they point to, is the subject here; the
    values computed from time labels are also modelled, without handles, in
    Repair.v, the lock grid in Locks.v.

    Simplifications. Handles are never reused: a handle of a destroyed
    triangulation stays dead. The int subtraction in expected_cell_type is exact
    (Repair.v says when it overflows). Iteration orders of unordered_set and set
    of handles are the order of first occurrence: only info fields are written in
    that order. *)
From Verif Require Moves.
From Verif Require Import Base Geom Simplex Foliation Repair.
From stdpp Require Import fin_sets gmap sorting.
From Verif Require Import Base Geom Simplex Foliation.
Local Open Scope Z_scope.

(** A CGAL vertex and cell (Triangulation_vertex_base_with_info_3,
    Triangulation_cell_base_with_info_3; include/Triangulation_traits.hpp:28-73). *)
Record vrec : Type := VRec { v_point : positive; v_info : Z }.
Record crec : Type := CRec { c_vertices : list nat; c_info : Z }.
Record heap : Type := Heap { h_vertex : nat -> vrec; h_cell : nat -> crec; h_next : nat }.
(** A CGAL Delaunay_triangulation_3: its infinite vertex, its finite vertices and
    cells, the other cells of its container (infinite ones, or cells of a
    triangulation of dimension below three), and its finite facets and edges, in
    the order CGAL enumerates them. *)
Record tri : Type := Tri {
  t_infinite : nat;
  t_vertices : list nat;
  t_cells : list nat;
  t_hull : list nat;
  t_facets : list (nat * nat);
  t_edges : list (nat * nat * nat) }.

Definition info (H : heap) (v : nat) : Z := v_info (h_vertex H v).
Definition point (H : heap) (v : nat) : positive := v_point (h_vertex H v).
(** cell->vertex(i). *)
Definition vertex_of (H : heap) (c i : nat) : nat := nth i (c_vertices (h_cell H c)) 0%nat.
(** vertex->info() = z and cell->info() = z. *)
Definition set_info (H : heap) (v : nat) (z : Z) : heap :=
  Heap (fun w => if (w =? v)%nat then VRec (v_point (h_vertex H v)) z else h_vertex H w) (h_cell H) (h_next H).
Definition set_cell_info (H : heap) (c : nat) (z : Z) : heap :=
  Heap (h_vertex H) (fun d => if (d =? c)%nat then CRec (c_vertices (h_cell H c)) z else h_cell H d) (h_next H).

(** The parts of CGAL and of the generator that make or change triangulations;
    the number is an arbitrary choice made at the time of the call. *)
Record cgal : Type := Cgal {
  (** Delaunay_triangulation_3(Delaunay_triangulation_3 const&). *)
  cg_copy : nat -> heap -> tri -> heap * tri;
  (** insert(first, last) into an empty triangulation. *)
  cg_insert : nat -> heap -> list (positive * Z) -> heap * tri;
  (** remove(first, last). *)
  cg_remove : nat -> heap -> tri -> list nat -> heap * tri;
  (** make_foliated_ball (include/Foliated_triangulation.hpp:1230-1304). *)
  cg_ball : nat -> list (positive * Z) }.

(** Heap and the number of choices made so far; a step returns, throws, or is
    undefined. *)
Inductive out (A : Type) : Type :=
| Ok (a : A) (H : heap) (k : nat)
| Ex (H : heap) (k : nat)
| Bad.
Arguments Ok {A}. Arguments Ex {A}. Arguments Bad {A}.
Definition M (A : Type) : Type := heap -> nat -> out A.
Definition ret {A} (a : A) : M A := fun H k => Ok a H k.
Definition throw {A} : M A := fun H k => Ex H k.
Definition bad {A} : M A := fun _ _ => Bad.
Definition bind {A B} (m : M A) (f : A -> M B) : M B := fun H k =>
  match m H k with Ok a H' k' => f a H' k' | Ex H' k' => Ex H' k' | Bad => Bad end.
Notation "x <- m ;; r" := (bind m (fun x => r)) (at level 100, m at next level, right associativity).
Definition get_heap : M heap := fun H k => Ok H H k.
Definition put_heap (H : heap) : M unit := fun _ k => Ok tt H k.

(** The members, include/Foliated_triangulation.hpp:1465-1479. A moved-from CGAL
    triangulation is [None]. *)
Record foliated : Type := Foliated {
  f_tri : option tri;
  f_radius : fp;
  f_spacing : fp;
  f_vertices : list nat;
  f_cells : list nat;
  f_three_one : list nat;
  f_two_two : list nat;
  f_one_three : list nat;
  f_faces : list (nat * nat);
  f_spacelike_facets : list (Z * (nat * nat));
  f_edges : list (nat * nat * nat);
  f_timelike_edges : list (nat * nat * nat);
  f_spacelike_edges : list (nat * nat * nat);
  f_max : Z;
  f_min : Z }.
(** include/Manifold.hpp:58-61. *)
Record manifold : Type := Manifold { m_triangulation : foliated; m_geometry : Geometry }.

(** ** Classification through handles *)
(** include/Foliated_triangulation.hpp:815-866 [expected_cell_type]. *)
Definition expected_cell_type (H : heap) (c : nat) : Z := classify (map (info H) (c_vertices (h_cell H c))).
(** include/Foliated_triangulation.hpp:873-880 [is_cell_type_correct]. *)
Definition is_cell_type_correct (H : heap) (c : nat) : bool :=
  let k := expected_cell_type H c in
  negb (k =? ACAUSAL) && negb (k =? UNCLASSIFIED) && (k =? c_info (h_cell H c)).
(** include/Foliated_triangulation.hpp:533-550 [classify_edge] = TIMELIKE. *)
Definition is_timelike (H : heap) (e : nat * nat * nat) : bool :=
  let '(c, i, j) := e in negb (info H (vertex_of H c i) =? info H (vertex_of H c j)).
(** include/Foliated_triangulation.hpp:556-568 [filter_edges]. *)
Definition filter_edges (H : heap) (es : list (nat * nat * nat)) (timelike : bool) : list (nat * nat * nat) :=
  List.filter (fun e => Bool.eqb timelike (is_timelike H e)) es.
(** include/Foliated_triangulation.hpp:574-586 [filter_cells]. *)
Definition filter_cells (H : heap) (cs : list nat) (k : Z) : list nat :=
  List.filter (fun c => c_info (h_cell H c) =? k) cs.
(** The vertices of a facet and the slice it lies on,
    include/Foliated_triangulation.hpp:1041-1058. *)
Definition facet_vertices (H : heap) (f : nat * nat) : list nat :=
  map (vertex_of H (fst f)) (List.filter (fun i => negb (i =? snd f)%nat) (seq 0 4)).
Definition facet_time (H : heap) (f : nat * nat) : option Z :=
  match elements (list_to_set (map (info H) (facet_vertices H f)) : gset Z) with [t] => Some t | _ => None end.
(** include/Foliated_triangulation.hpp:1026-1080 [collect_spacelike_facets] and
    1442-1444 [cache_spacelike_facets]. *)
Definition collect_spacelike_facets (H : heap) (fs : list (nat * nat)) : list (Z * (nat * nat)) :=
  stable_sort_by_key (omap (fun f => match facet_time H f with Some t => Some (t, f) | None => None end) fs).
(** include/Foliated_triangulation.hpp:499-527: the time value of the first
    extreme vertex. *)
Definition find_max_timevalue (H : heap) (vs : list nat) : option Z :=
  match vs with
  | [] => None
  | x :: r => Some (info H (fold_left (fun best y => if info H best <? info H y then y else best) r x))
  end.
Definition find_min_timevalue (H : heap) (vs : list nat) : option Z :=
  match vs with
  | [] => None
  | x :: r => Some (info H (fold_left (fun best y => if info H y <? info H best then y else best) r x))
  end.

(** A set of handles as a duplicate-free list. *)
Definition distinct (l : list nat) : list nat := remove_dups l.

Section Objects.
  (** expected_timevalue (include/Foliated_triangulation.hpp:616-625) of a point
      for a radius and a spacing. *)
  Variable timevalue : fp -> fp -> positive -> Z.
  Variable C : cgal.
  (** Arbitrary choices: exceptions of allocations and of CGAL, results of CGAL. *)
  Variable luck : nat -> nat.

  Definition choose : M nat := fun H k => Ok (luck k) H (S k).
  Definition may_throw : M unit := n <- choose ;; if (n =? 0)%nat then throw else ret tt.
  (** Calls into CGAL. *)
  Definition copy_delaunay (t : tri) : M tri :=
    _ <- may_throw ;; n <- choose ;; H <- get_heap ;;
    let '(H', t') := cg_copy C n H t in _ <- put_heap H' ;; ret t'.
  Definition insert_points (ps : list (positive * Z)) : M tri :=
    _ <- may_throw ;; n <- choose ;; H <- get_heap ;;
    let '(H', t') := cg_insert C n H ps in _ <- put_heap H' ;; ret t'.
  Definition remove_vertices (t : tri) (vs : list nat) : M tri :=
    _ <- may_throw ;; n <- choose ;; H <- get_heap ;;
    let '(H', t') := cg_remove C n H t vs in _ <- put_heap H' ;; ret t'.

  (** ** Repair of a triangulation *)
  (** include/Foliated_triangulation.hpp:634-647 [is_vertex_timevalue_correct]. *)
  Definition is_vertex_timevalue_correct (r s : fp) (H : heap) (v : nat) : bool := timevalue r s (point H v) =? info H v.
  (** include/Foliated_triangulation.hpp:675-685 [check_vertices]. *)
  Definition check_vertices (r s : fp) (H : heap) (t : tri) : bool :=
    forallb (is_vertex_timevalue_correct r s H) (t_vertices t).
  (** include/Foliated_triangulation.hpp:710-725 [get_vertices_from_cells]. *)
  Definition get_vertices_from_cells (H : heap) (cs : list nat) : list nat :=
    distinct (flat_map (fun c => c_vertices (h_cell H c)) cs).
  (** include/Foliated_triangulation.hpp:734-767 [find_incorrect_vertices]. *)
  Definition find_incorrect_vertices (r s : fp) (H : heap) (t : tri) : list nat :=
    List.filter (fun v => negb (is_vertex_timevalue_correct r s H v)) (get_vertices_from_cells H (t_cells t)).
  (** Assigning each listed vertex its expected time value. *)
  Definition write_times (r s : fp) (vs : list nat) (H : heap) : heap :=
    fold_left (fun H v => set_info H v (timevalue r s (point H v))) vs H.
  (** include/Foliated_triangulation.hpp:778-808 [fix_vertices]. *)
  Definition fix_vertices (r s : fp) (t : tri) : M bool :=
    H <- get_heap ;;
    let wrong := find_incorrect_vertices r s H t in
    _ <- put_heap (write_times r s wrong H) ;; ret (negb (bool_decide (wrong = []))).
  (** Assigning each listed cell its expected type. *)
  Definition write_types (cs : list nat) (H : heap) : heap :=
    fold_left (fun H c => set_cell_info H c (expected_cell_type H c)) cs H.
  (** include/Foliated_triangulation.hpp:889-896 [check_cells]. *)
  Definition check_cells (H : heap) (t : tri) : bool := forallb (is_cell_type_correct H) (t_cells t).
  (** include/Foliated_triangulation.hpp:903-933 [find_incorrect_cells], [fix_cells]. *)
  Definition fix_cells (t : tri) : M bool :=
    H <- get_heap ;;
    let wrong := List.filter (fun c => negb (is_cell_type_correct H c)) (t_cells t) in
    _ <- put_heap (write_types wrong H) ;; ret (negb (bool_decide (wrong = []))).
  (** include/Foliated_triangulation.hpp:1114-1129 [find_invalid_timevalue_cells]. *)
  Definition find_invalid_timevalue_cells (H : heap) (t : tri) : list nat :=
    List.filter (fun c => let k := expected_cell_type H c in (k =? ACAUSAL) || (k =? UNCLASSIFIED)) (t_cells t).
  (** include/Foliated_triangulation.hpp:1145-1173 [find_bad_vertex]; see Repair.v. *)
  Definition find_bad_vertex (H : heap) (c : nat) : nat :=
    let vs := c_vertices (h_cell H c) in let ts := map (info H) vs in
    let minvalue := list_min ts in let maxvalue := list_max ts in
    if count_eq maxvalue ts <=? count_eq minvalue ts
    then List.last (List.filter (fun v => info H v =? maxvalue) vs) 0%nat
    else List.hd 0%nat (List.filter (fun v => info H v =? minvalue) vs).
  (** include/Foliated_triangulation.hpp:1181-1209 [fix_timevalues]. *)
  Definition fix_timevalues (t : tri) : M (tri * bool) :=
    H <- get_heap ;;
    match find_invalid_timevalue_cells H t with
    | [] => ret (t, false)
    | invalid => t' <- remove_vertices t (distinct (map (find_bad_vertex H) invalid)) ;; ret (t', true)
    end.
  (** The bounded loops, include/Foliated_triangulation.hpp:1347-1376. *)
  Fixpoint passes (n : nat) (f : tri -> M (tri * bool)) (t : tri) : M tri :=
    match n with
    | O => ret t
    | S n => p <- f t ;; if snd p then passes n f (fst p) else ret (fst p)
    end.
  Definition keeping (f : tri -> M bool) (t : tri) : M (tri * bool) := b <- f t ;; ret (t, b).

  (** ** FoliatedTriangulation *)
  (** include/Foliated_triangulation.hpp:213-225,262: an empty triangulation (a
      CGAL triangulation of dimension -1 has an infinite vertex and one cell, on
      it). *)
  Definition empty_delaunay : M tri :=
    _ <- may_throw ;; H <- get_heap ;;
    let v := h_next H in
    _ <- put_heap (Heap (fun w => if (w =? v)%nat then VRec infinite 0 else h_vertex H w)
                       (fun c => if (c =? v)%nat then CRec [v] 0 else h_cell H c) (S v)) ;;
    ret (Tri v [] [] [v] [] []).
  (** include/Foliated_triangulation.hpp:264-275: construction from vertices. *)
  Definition delaunay_of_vertices (ps : list (positive * Z)) : M tri :=
    t <- insert_points ps ;;
    if (length (t_vertices t) =? length ps)%nat then ret t else throw.
  (** INITIAL_RADIUS and FOLIATION_SPACING, include/Settings.hpp:47-49. *)
  Definition INITIAL_RADIUS : fp := Fin (QArith_base.Qmake 1 1).
  Definition FOLIATION_SPACING : fp := Fin (QArith_base.Qmake 1 1).
  (** include/Foliated_triangulation.hpp:1551,1465-1479: the default constructor. *)
  Definition foliated_default : M foliated :=
    t <- empty_delaunay ;;
    ret (Foliated (Some t) INITIAL_RADIUS FOLIATION_SPACING [] [] [] [] [] [] [] [] [] [] 0 0).
  (** include/Foliated_triangulation.hpp:1446-1455 [require_nonempty] and
      1646-1667, the private constructor, with 2026-2070 [classify_vertices],
      [classify_cells], [collect_faces]; members are initialised in order. *)
  Definition foliated_of_state (t : tri) (r s : fp) : M foliated :=
    if bool_decide (t_vertices t = []) then throw else
    _ <- may_throw ;;
    H0 <- get_heap ;;
    let vs := t_vertices t in
    let H1 := write_times r s vs H0 in
    let cs := t_cells t in
    let H2 := write_types cs H1 in
    _ <- put_heap H2 ;;
    let faces := t_facets t in
    let edges := t_edges t in
    match find_max_timevalue H2 vs, find_min_timevalue H2 vs with
    | Some mx, Some mn =>
        ret (Foliated (Some t) r s vs cs
          (filter_cells H2 cs THREE_ONE) (filter_cells H2 cs TWO_TWO) (filter_cells H2 cs ONE_THREE)
          faces (collect_spacelike_facets H2 faces)
          edges (filter_edges H2 edges true) (filter_edges H2 edges false) mx mn)
    | _, _ => throw
    end.
  (** include/Foliated_triangulation.hpp:1639-1644: from a triangulation passed by
      value and moved on. *)
  Definition foliated_of_delaunay (t : tri) (r s : fp) : M foliated := foliated_of_state t r s.
  (** include/Foliated_triangulation.hpp:1719-1725. *)
  Definition foliated_of_vertices (ps : list (positive * Z)) (r s : fp) : M foliated :=
    t <- delaunay_of_vertices ps ;; foliated_of_state t r s.
  (** include/Foliated_triangulation.hpp:116 and 1338-1387 [make_triangulation]. *)
  Definition MAX_FIX_PASSES : nat := 50.
  Definition make_triangulation (r s : fp) : M tri :=
    _ <- may_throw ;; n <- choose ;;
    t <- delaunay_of_vertices (cg_ball C n) ;;
    t <- passes MAX_FIX_PASSES (keeping (fix_vertices r s)) t ;;
    t <- passes MAX_FIX_PASSES fix_timevalues t ;;
    passes MAX_FIX_PASSES (keeping fix_cells) t.
  (** include/Foliated_triangulation.hpp:1680-1689. *)
  Definition foliated_random (r s : fp) : M foliated := t <- make_triangulation r s ;; foliated_of_delaunay t r s.
  (** include/Foliated_triangulation.hpp:1605-1629 [swap], member by member. *)
  Definition foliated_swap (a b : foliated) : foliated * foliated :=
    (Foliated (f_tri b) (f_radius b) (f_spacing b) (f_vertices b) (f_cells b) (f_three_one b) (f_two_two b)
       (f_one_three b) (f_faces b) (f_spacelike_facets b) (f_edges b) (f_timelike_edges b) (f_spacelike_edges b)
       (f_max b) (f_min b),
     Foliated (f_tri a) (f_radius a) (f_spacing a) (f_vertices a) (f_cells a) (f_three_one a) (f_two_two a)
       (f_one_three a) (f_faces a) (f_spacelike_facets a) (f_edges a) (f_timelike_edges a) (f_spacelike_edges a)
       (f_max a) (f_min a)).
  (** include/Foliated_triangulation.hpp:1555-1568: the copy constructor. *)
  Definition foliated_copy (other : foliated) : M foliated :=
    match f_tri other with
    | None => bad
    | Some t =>
        this <- foliated_default ;;
        if bool_decide (t_vertices t = []) then
          ret (Foliated (f_tri this) (f_radius other) (f_spacing other) (f_vertices this) (f_cells this)
                 (f_three_one this) (f_two_two this) (f_one_three this) (f_faces this) (f_spacelike_facets this)
                 (f_edges this) (f_timelike_edges this) (f_spacelike_edges this) (f_max this) (f_min this))
        else
          t' <- copy_delaunay t ;;
          copy <- foliated_of_state t' (f_radius other) (f_spacing other) ;;
          let '(_, this) := foliated_swap copy this in ret this
    end.
  (** include/Foliated_triangulation.hpp:1586: the defaulted move constructor: the
      new object and what is left of the old one (vectors are left empty, scalars
      are copied). *)
  Definition foliated_move (other : foliated) : foliated * foliated :=
    (other, Foliated None (f_radius other) (f_spacing other) [] [] [] [] [] [] [] [] [] [] (f_max other) (f_min other)).
  (** include/Foliated_triangulation.hpp:1574-1580: copy assignment from another
      object. *)
  Definition foliated_assign_copy (this other : foliated) : M foliated :=
    copy <- foliated_copy other ;; let '(_, this) := foliated_swap copy this in ret this.
  (** include/Foliated_triangulation.hpp:1590-1595: move assignment from another
      object: what is left of [other], and [this]. *)
  Definition foliated_assign_move (this other : foliated) : foliated * foliated := foliated_swap other this.
  (** include/Foliated_triangulation.hpp:1916-1929, 1995-2007 and 1773-1789: the
      repairing members. *)
  Definition member (repair : tri -> M (tri * bool)) (this : foliated) : M (foliated * bool) :=
    match f_tri this with
    | None => bad
    | Some t =>
        updated <- copy_delaunay t ;;
        p <- repair updated ;;
        if snd p then
          replacement <- foliated_of_delaunay (fst p) (f_radius this) (f_spacing this) ;;
          let '(_, this) := foliated_swap replacement this in ret (this, true)
        else ret (this, false)
    end.
  Definition member_fix_vertices (this : foliated) : M (foliated * bool) :=
    member (keeping (fix_vertices (f_radius this) (f_spacing this))) this.
  Definition member_fix_cells (this : foliated) : M (foliated * bool) := member (keeping fix_cells) this.
  Definition member_is_fixed (this : foliated) : M (foliated * bool) :=
    member (fun t => b1 <- fix_vertices (f_radius this) (f_spacing this) t ;;
                     b2 <- fix_cells t ;;
                     p <- fix_timevalues t ;;
                     ret (fst p, b1 || b2 || snd p)) this.
  (** include/Foliated_triangulation.hpp:1794-1800 [delaunay_snapshot]. *)
  Definition delaunay_snapshot (this : foliated) : M tri :=
    match f_tri this with None => bad | Some t => copy_delaunay t end.

  (** Accessors, include/Foliated_triangulation.hpp:1803-1860,1970-1980. Sizes are
      those of the triangulation or of a cache, as in the code. *)
  Definition tri_of (o : foliated) : tri := default (Tri 0 [] [] [] [] []) (f_tri o).
  Definition number_of_finite_cells (o : foliated) : nat := length (t_cells (tri_of o)).
  Definition number_of_finite_facets (o : foliated) : nat := length (t_facets (tri_of o)).
  Definition number_of_finite_edges (o : foliated) : nat := length (t_edges (tri_of o)).
  Definition number_of_vertices (o : foliated) : nat := length (t_vertices (tri_of o)).
  Definition spacelike_face_count (o : foliated) (time : Z) : nat := length (equal_range time (f_spacelike_facets o)).
  Definition number_of_spacelike_faces (o : foliated) : nat := length (f_spacelike_facets o).
  (** static_cast<Int_precision>(std::size_t). *)
  Definition to_int (n : nat) : Z := narrow32 (Z.of_nat n).
  Definition N1_TL (o : foliated) : Z := to_int (length (f_timelike_edges o)).
  Definition N1_SL (o : foliated) : Z := to_int (length (f_spacelike_edges o)).

  (** ** Manifold *)
  (** include/Geometry.hpp:71-90. The sum N3_31 + N3_13 is an int sum; it is
      rendered exactly. *)
  Definition geometry_of_object (o : foliated) : Geometry :=
    mkGeometry (to_int (number_of_finite_cells o)) (to_int (length (f_three_one o))) (to_int (length (f_one_three o)))
      (to_int (length (f_three_one o)) + to_int (length (f_one_three o))) (to_int (length (f_two_two o)))
      (to_int (number_of_finite_facets o)) (to_int (number_of_finite_edges o)) (N1_TL o) (N1_SL o)
      (to_int (number_of_vertices o)).
  (** include/Manifold.hpp:75. *)
  Definition manifold_default : M manifold := o <- foliated_default ;; ret (Manifold o geometry_zero).
  (** include/Manifold.hpp:112-115. *)
  Definition manifold_of_foliated (o : foliated) : manifold :=
    let '(t, _) := foliated_move o in Manifold t (geometry_of_object t).
  (** include/Manifold.hpp:129-172. *)
  Definition manifold_random (r s : fp) : M manifold := o <- foliated_random r s ;; ret (manifold_of_foliated o).
  Definition manifold_of_vertices (ps : list (positive * Z)) (r s : fp) : M manifold :=
    o <- foliated_of_vertices ps r s ;; ret (manifold_of_foliated o).
  (** include/Manifold.hpp:79-84: memberwise copy. *)
  Definition manifold_copy (other : manifold) : M manifold :=
    o <- foliated_copy (m_triangulation other) ;; ret (Manifold o (m_geometry other)).
  Definition manifold_assign_copy (this other : manifold) : M manifold :=
    o <- foliated_assign_copy (m_triangulation this) (m_triangulation other) ;; ret (Manifold o (m_geometry other)).
  (** include/Manifold.hpp:88: memberwise move. *)
  Definition manifold_move (other : manifold) : manifold * manifold :=
    let '(a, b) := foliated_move (m_triangulation other) in
    (Manifold a (m_geometry other), Manifold b (m_geometry other)).
  (** include/Manifold.hpp:103-108 [swap] with include/Geometry.hpp:96-109. *)
  Definition geometry_swap (a b : Geometry) : Geometry * Geometry :=
    (mkGeometry (gN3 b) (gN3_31 b) (gN3_13 b) (gN3_31_13 b) (gN3_22 b) (gN2 b) (gN1 b) (gN1_TL b) (gN1_SL b) (gN0 b),
     mkGeometry (gN3 a) (gN3_31 a) (gN3_13 a) (gN3_31_13 a) (gN3_22 a) (gN2 a) (gN1 a) (gN1_TL a) (gN1_SL a) (gN0 a)).
  Definition manifold_swap (a b : manifold) : manifold * manifold :=
    let '(ta, tb) := foliated_swap (m_triangulation a) (m_triangulation b) in
    let '(ga, gb) := geometry_swap (m_geometry a) (m_geometry b) in
    (Manifold ta ga, Manifold tb gb).
  (** include/Manifold.hpp:93-97: move assignment from another object. *)
  Definition manifold_assign_move (this other : manifold) : manifold * manifold := manifold_swap other this.
  (** include/Manifold.hpp:180-191 [updated]. *)
  Definition manifold_updated (this : manifold) : M manifold :=
    let o := m_triangulation this in
    match f_tri o with
    | None => bad
    | Some t =>
        if bool_decide (t_vertices t = []) then manifold_default
        else t' <- delaunay_snapshot o ;;
             o' <- foliated_of_delaunay t' (f_radius o) (f_spacing o) ;;
             ret (manifold_of_foliated o')
    end.

  (** Accessors, include/Manifold.hpp:244-312. *)
  Definition simplices (m : manifold) : Z := to_int (number_of_finite_cells (m_triangulation m)).
  Definition faces (m : manifold) : Z := to_int (number_of_finite_facets (m_triangulation m)).
  Definition edges (m : manifold) : Z := to_int (number_of_finite_edges (m_triangulation m)).
  Definition vertices (m : manifold) : Z := to_int (number_of_vertices (m_triangulation m)).

  (** ** Checks *)
  (** The cells as sets of points: what tds().is_valid() looks at. *)
  Definition points_of (H : heap) (c : nat) : simplex := of_list (map (point H) (c_vertices (h_cell H c))).
  Definition complex (H : heap) (t : tri) : tds := list_to_set (map (points_of H) (t_cells t ++ t_hull t)).
  (** tds().is_vertex and tds().is_cell: whether the container owns the handle. *)
  Definition owns_vertex (t : tri) (v : nat) : bool := bool_decide (v ∈ t_infinite t :: t_vertices t).
  Definition owns_cell (t : tri) (c : nat) : bool := bool_decide (c ∈ t_cells t ++ t_hull t).
  (** include/Foliated_triangulation.hpp:1481-1497 [has_consistent_structure],
      without the lock binding (Locks.v). *)
  Definition has_consistent_structure (o : foliated) : bool :=
    (length (f_vertices o) =? number_of_vertices o)%nat &&
    (length (f_spacelike_facets o) <=? length (f_faces o))%nat &&
    (length (f_three_one o) + length (f_two_two o) + length (f_one_three o) =? length (f_cells o))%nat &&
    (length (f_timelike_edges o) + length (f_spacelike_edges o) =? length (f_edges o))%nat &&
    (if bool_decide (f_vertices o = []) then (f_max o =? 0) && (f_min o =? 0) else f_min o <=? f_max o).
  (** include/Foliated_triangulation.hpp:1499-1543 [has_consistent_derived_state].
      tds.is_valid(edge.first, edge.second, edge.third) is CGAL's
      is_valid(cell, verbose, level): a local check of the cell, rendered as
      ownership of the cell (the local conditions are part of [tds_valid]). *)
  Definition has_consistent_derived_state (H : heap) (o : foliated) : bool :=
    let t := tri_of o in
    if negb (has_consistent_structure o) then false
    else if negb (length (f_cells o) =? number_of_finite_cells o)%nat ||
            negb (length (f_faces o) =? number_of_finite_facets o)%nat ||
            negb (length (f_edges o) =? number_of_finite_edges o)%nat then false
    else if negb (forallb (owns_vertex t) (f_vertices o)) ||
            negb (forallb (owns_cell t) (f_cells o)) ||
            negb (forallb (fun f => owns_cell t (fst f) && (snd f <? 4)%nat) (f_faces o)) ||
            negb (forallb (fun e => owns_cell t (fst (fst e))) (f_edges o)) then false
    else if negb (bool_decide (f_three_one o = filter_cells H (f_cells o) THREE_ONE)) ||
            negb (bool_decide (f_two_two o = filter_cells H (f_cells o) TWO_TWO)) ||
            negb (bool_decide (f_one_three o = filter_cells H (f_cells o) ONE_THREE)) ||
            negb (bool_decide (f_spacelike_facets o = collect_spacelike_facets H (f_faces o))) ||
            negb (bool_decide (f_timelike_edges o = filter_edges H (f_edges o) true)) ||
            negb (bool_decide (f_spacelike_edges o = filter_edges H (f_edges o) false)) then false
    else if bool_decide (f_vertices o = []) then true
    else bool_decide (find_max_timevalue H (f_vertices o) = Some (f_max o)) &&
         bool_decide (find_min_timevalue H (f_vertices o) = Some (f_min o)).
  (** include/Foliated_triangulation.hpp:1743-1744,1741-1760. A triangulation
      without finite cells (empty, or of dimension below three) is taken to be
      valid. *)
  Definition is_tds_valid (H : heap) (o : foliated) : bool :=
    bool_decide (t_cells (tri_of o) = []) || Moves.tds_valid (complex H (tri_of o)).
  Definition check_all_cells (H : heap) (o : foliated) : bool := check_cells H (tri_of o).
  Definition is_structurally_correct (H : heap) (o : foliated) : bool :=
    has_consistent_structure o && is_tds_valid H o && check_all_cells H o.
  Definition is_correct (H : heap) (o : foliated) : bool := is_structurally_correct H o.
  Definition is_correct_with_diagnostics (H : heap) (o : foliated) : bool :=
    is_structurally_correct H o && has_consistent_derived_state H o.
  (** include/Foliated_triangulation.hpp:1733-1734 with 1137-1139. *)
  Definition is_foliated (H : heap) (o : foliated) : bool :=
    bool_decide (find_invalid_timevalue_cells H (tri_of o) = []).
  (** include/Foliated_triangulation.hpp:1906-1910, include/Manifold.hpp:323-324. *)
  Definition check_all_vertices (H : heap) (o : foliated) : bool :=
    check_vertices (f_radius o) (f_spacing o) H (tri_of o).
  (** include/Manifold.hpp:316-320 [check_simplices]. *)
  Definition check_simplices (H : heap) (m : manifold) : bool :=
    (simplices m =? gN3 (m_geometry m)) && check_all_cells H (m_triangulation m).

  (** ** What a client can do *)
  Inductive value : Type := VF (o : foliated) | VM (m : manifold) | VP (t : option tri).
  Record world : Type := World { w_heap : heap; w_clock : nat; w_var : nat -> option value }.
  Inductive action : Type :=
  | MakeFoliated (x : nat)                       (* FoliatedTriangulation_3 x; *)
  | MakeManifold (x : nat)
  | FoliatedRandom (x : nat) (r s : fp)
  | ManifoldRandom (x : nat) (r s : fp)
  | FoliatedOfVertices (x : nat) (ps : list (positive * Z)) (r s : fp)
  | ManifoldOfVertices (x : nat) (ps : list (positive * Z)) (r s : fp)
  | FoliatedOfPlain (x y : nat) (by_move : bool) (r s : fp)
  | ManifoldOfFoliated (x y : nat) (by_move : bool)
  | Copy (x y : nat)                             (* T x{y}; for any of the three types *)
  | Move (x y : nat)                             (* T x{std::move(y)}; *)
  | AssignCopy (x y : nat)                       (* x = y; *)
  | AssignMove (x y : nat)
  | Swap (x y : nat)
  | Updated (x y : nat)                          (* Manifold x{y.updated()}; *)
  | FixVertices (x : nat) | FixCells (x : nat) | IsFixed (x : nat)
  | Snapshot (x y : nat)                         (* Delaunay x{y.delaunay_snapshot()}; *)
  | Generate (x : nat) (r s : fp)                (* make_triangulation *)
  | Edit (x : nat) (f : heap -> tri -> heap * tri) (* any use of CGAL on a plain triangulation *)
  | Destroy (x : nat).

  Definition set_var (x : nat) (v : option value) (f : nat -> option value) : nat -> option value :=
    fun y => if (y =? x)%nat then v else f y.
  Inductive result : Type := Done (w : world) | Thrown (w : world) | Undefined.
  (** Run [m]; on success the variables become [f] of its result. *)
  Definition run {A} (w : world) (m : M A) (f : A -> nat -> option value) : result :=
    match m (w_heap w) (w_clock w) with
    | Ok a H k => Done (World H k (f a))
    | Ex H k => Thrown (World H k (w_var w))
    | Bad => Undefined
    end.
  Definition pure (w : world) (vars : nat -> option value) : result := Done (World (w_heap w) (w_clock w) vars).

  (** One statement of the client. A value passed by copy is copied first; a
      value passed by move is consumed even if the construction throws. *)
  Definition act (w : world) (a : action) : result :=
    let vars := w_var w in
    match a with
    | MakeFoliated x => run w foliated_default (fun o => set_var x (Some (VF o)) vars)
    | MakeManifold x => run w manifold_default (fun m => set_var x (Some (VM m)) vars)
    | FoliatedRandom x r s => run w (foliated_random r s) (fun o => set_var x (Some (VF o)) vars)
    | ManifoldRandom x r s => run w (manifold_random r s) (fun m => set_var x (Some (VM m)) vars)
    | FoliatedOfVertices x ps r s => run w (foliated_of_vertices ps r s) (fun o => set_var x (Some (VF o)) vars)
    | ManifoldOfVertices x ps r s => run w (manifold_of_vertices ps r s) (fun m => set_var x (Some (VM m)) vars)
    | FoliatedOfPlain x y by_move r s =>
        match vars y with
        | Some (VP (Some t)) =>
            if by_move : bool then
              run (World (w_heap w) (w_clock w) (set_var y (Some (VP None)) vars)) (foliated_of_delaunay t r s)
                  (fun o => set_var x (Some (VF o)) (set_var y (Some (VP None)) vars))
            else run w (t' <- copy_delaunay t ;; foliated_of_delaunay t' r s) (fun o => set_var x (Some (VF o)) vars)
        | _ => Undefined
        end
    | ManifoldOfFoliated x y by_move =>
        match vars y with
        | Some (VF o) =>
            if by_move : bool then
              let '(o', rest) := foliated_move o in
              pure w (set_var x (Some (VM (manifold_of_foliated o'))) (set_var y (Some (VF rest)) vars))
            else run w (o' <- foliated_copy o ;; ret (manifold_of_foliated o')) (fun m => set_var x (Some (VM m)) vars)
        | _ => Undefined
        end
    | Copy x y =>
        match vars y with
        | Some (VF o) => run w (foliated_copy o) (fun o => set_var x (Some (VF o)) vars)
        | Some (VM m) => run w (manifold_copy m) (fun m => set_var x (Some (VM m)) vars)
        | Some (VP (Some t)) => run w (copy_delaunay t) (fun t => set_var x (Some (VP (Some t))) vars)
        | _ => Undefined
        end
    | Move x y =>
        match vars y with
        | Some (VF o) => let '(o', rest) := foliated_move o in pure w (set_var x (Some (VF o')) (set_var y (Some (VF rest)) vars))
        | Some (VM m) => let '(m', rest) := manifold_move m in pure w (set_var x (Some (VM m')) (set_var y (Some (VM rest)) vars))
        | Some (VP t) => pure w (set_var x (Some (VP t)) (set_var y (Some (VP None)) vars))
        | None => Undefined
        end
    | AssignCopy x y =>
        if (x =? y)%nat then pure w vars else
        match vars x, vars y with
        | Some (VF this), Some (VF o) => run w (foliated_assign_copy this o) (fun o => set_var x (Some (VF o)) vars)
        | Some (VM this), Some (VM m) => run w (manifold_assign_copy this m) (fun m => set_var x (Some (VM m)) vars)
        | _, _ => Undefined
        end
    | AssignMove x y =>
        if (x =? y)%nat then pure w vars else
        match vars x, vars y with
        | Some (VF this), Some (VF o) =>
            let '(rest, this) := foliated_assign_move this o in
            pure w (set_var x (Some (VF this)) (set_var y (Some (VF rest)) vars))
        | Some (VM this), Some (VM m) =>
            let '(rest, this) := manifold_assign_move this m in
            pure w (set_var x (Some (VM this)) (set_var y (Some (VM rest)) vars))
        | _, _ => Undefined
        end
    | Swap x y =>
        if (x =? y)%nat then pure w vars else
        match vars x, vars y with
        | Some (VF a), Some (VF b) =>
            let '(a, b) := foliated_swap a b in pure w (set_var x (Some (VF a)) (set_var y (Some (VF b)) vars))
        | Some (VM a), Some (VM b) =>
            let '(a, b) := manifold_swap a b in pure w (set_var x (Some (VM a)) (set_var y (Some (VM b)) vars))
        | _, _ => Undefined
        end
    | Updated x y =>
        match vars y with
        | Some (VM m) => run w (manifold_updated m) (fun m => set_var x (Some (VM m)) vars)
        | _ => Undefined
        end
    | FixVertices x =>
        match vars x with
        | Some (VF o) => run w (member_fix_vertices o) (fun p => set_var x (Some (VF (fst p))) vars)
        | _ => Undefined
        end
    | FixCells x =>
        match vars x with
        | Some (VF o) => run w (member_fix_cells o) (fun p => set_var x (Some (VF (fst p))) vars)
        | _ => Undefined
        end
    | IsFixed x =>
        match vars x with
        | Some (VF o) => run w (member_is_fixed o) (fun p => set_var x (Some (VF (fst p))) vars)
        | _ => Undefined
        end
    | Snapshot x y =>
        match vars y with
        | Some (VF o) => run w (delaunay_snapshot o) (fun t => set_var x (Some (VP (Some t))) vars)
        | Some (VM m) => run w (delaunay_snapshot (m_triangulation m)) (fun t => set_var x (Some (VP (Some t))) vars)
        | _ => Undefined
        end
    | Generate x r s => run w (make_triangulation r s) (fun t => set_var x (Some (VP (Some t))) vars)
    | Edit x f =>
        match vars x with
        | Some (VP (Some t)) =>
            let '(H, t') := f (w_heap w) t in Done (World H (w_clock w) (set_var x (Some (VP (Some t'))) vars))
        | _ => Undefined
        end
    | Destroy x => pure w (set_var x None vars)
    end.
End Objects.
