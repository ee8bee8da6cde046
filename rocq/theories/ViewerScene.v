(** src/cdt-viewer.cpp: fixture validation and the scene (lines 556-766). *)
From Verif Require Import Base Config Text Fnv ViewerImage Viewer.
From Coq Require Import QArith.
Local Open Scope Z_scope.

(** ** Topology, src/cdt-viewer.cpp:556-607 *)
(** What the viewer asks of the triangulation it read: is_valid(), dimension(),
    number_of_vertices(), number_of_finite_edges/facets/cells(), and the time
    labels of the finite vertices in iteration order. *)
Record fixture_facts : Type := mkFixtureFacts {
  fx_valid : bool; fx_dimension : Z; fx_vertices : Z; fx_edges : Z; fx_facets : Z; fx_cells : Z; fx_labels : list Z }.
(** src/cdt-viewer.cpp:556-583. *)
Definition topology_counts (f : fixture_facts) : checked topology :=
  if negb (fx_valid f) || negb (fx_dimension f =? 3) then refuse
  else if fx_vertices f =? 0 then refuse
  else Val (mkTopology (fx_vertices f) (fx_edges f) (fx_facets f) (fx_cells f)
              (fold_left Z.min (fx_labels f) INT32_MAX) (fold_left Z.max (fx_labels f) INT32_MIN)).
(** src/cdt-viewer.cpp:585-607. *)
Definition validate_fixture (f : fixture_facts) (expected : topology) : checked unit :=
  let! actual := topology_counts f in
  if negb (tp_vertices actual =? tp_vertices expected) || negb (tp_edges actual =? tp_edges expected)
     || negb (tp_faces actual =? tp_faces expected) || negb (tp_simplices actual =? tp_simplices expected)
     || negb (tp_min actual =? tp_min expected) || negb (tp_max actual =? tp_max expected)
  then refuse else Val tt.

(** ** Colours of faces *)
(** src/cdt-viewer.cpp:612-620 [mix_hash] on uint64. *)
Definition xorshift (k h : Z) : Z := Z.lxor h (Z.shiftr h k).
Definition mix_hash (h : Z) : Z :=
  let h := wrap64 (xorshift 30 h * 13787848793156543929) in
  let h := wrap64 (xorshift 27 h * 10723151780598845931) in
  xorshift 31 h.
(** src/cdt-viewer.cpp:622-629 [append_hash]: the eight bytes, least
    significant first, by FNV-1a. *)
Definition word_bytes (v : Z) : list Z := map (fun k => Z.land (Z.shiftr v (8 * Z.of_nat k)) 255) (seq 0 8).
Definition append_hash (h v : Z) : Z := fnv_from h (word_bytes v).

(** A point with double coordinates. *)
Record point3 : Type := mkPoint3 { xc : fp; yc : fp; zc : fp }.

Section Scene.
(** Vertex handles; [infinite] is the infinite vertex. *)
Context {V : Type} `{EqDecision V} (infinite : V).
(** src/cdt-viewer.cpp:631-639 [vertex_key]: the bits of the three coordinates
    and the time label, as four std::uint64_t. *)
Context (vertex_key : V -> list Z).
(** The coordinates, and rounding to double. *)
Context (point_of : V -> point3) (rd : Q -> fp).
(** std::ranges::sort with the projection [vertex_key]. *)
Context (sort_by_key : list V -> list V).

(** A cell is its four vertices (CGAL: [vertex(0)] .. [vertex(3)]); a facet a
    cell and the index of the opposite vertex. *)
Notation cell := (list V).
Notation facet := (list V * nat)%type.
(** The finite facets in iteration order, and [neighbor]. *)
Record complex : Type := mkComplex { cx_facets : list facet; cx_neighbor : cell -> nat -> cell }.
Definition is_infinite (c : cell) : bool := bool_decide (infinite ∈ c).
(** [cell->vertex((index + k) % 4)]. *)
Definition corners (f : facet) : list V :=
  let '(c, i) := f in
  omap (fun k => c !! ((i + k) `mod` 4)%nat) [1%nat; 2%nat; 3%nat].
(** src/cdt-viewer.cpp:641-652 [facet_vertices]. *)
Definition facet_vertices (f : facet) : list V := sort_by_key (corners f).
(** src/cdt-viewer.cpp:654-664 [facet_hash]. *)
Definition facet_hash (vs : list V) : Z :=
  mix_hash (fold_left append_hash (flat_map vertex_key vs) fnv_offset).
(** src/cdt-viewer.cpp:666-686 [convex_hull_vertices]; the std::set as a list. *)
Definition convex_hull_vertices (t : complex) : list (list Z) :=
  flat_map (fun f : facet =>
    let '(c, i) := f in
    if negb (is_infinite c) && negb (is_infinite (cx_neighbor t c i)) then []
    else map vertex_key (facet_vertices f)) (cx_facets t).

(** ** Orientation, src/cdt-viewer.cpp:688-712 *)
Definition fneg (x : fp) : fp := match x with NaN => NaN | Inf b => Inf (negb b) | Fin q => Fin (- q)%Q end.
Definition fplus : fp -> fp -> fp := fadd rd.
Definition ftimes : fp -> fp -> fp := fmul rd.
Definition fminus (x y : fp) : fp := fadd rd x (fneg y).
Definition sub3 (p q : point3) : point3 := mkPoint3 (fminus (xc p) (xc q)) (fminus (yc p) (yc q)) (fminus (zc p) (zc q)).
Definition radial_alignment (a b c : point3) : fp :=
  let ab := sub3 b a in let ac := sub3 c a in
  let nx := fminus (ftimes (yc ab) (zc ac)) (ftimes (zc ab) (yc ac)) in
  let ny := fminus (ftimes (zc ab) (xc ac)) (ftimes (xc ab) (zc ac)) in
  let nz := fminus (ftimes (xc ab) (yc ac)) (ftimes (yc ab) (xc ac)) in
  let sx := fplus (fplus (xc a) (xc b)) (xc c) in
  let sy := fplus (fplus (yc a) (yc b)) (yc c) in
  let sz := fplus (fplus (zc a) (zc b)) (zc c) in
  fplus (fplus (ftimes nx sx) (ftimes ny sy)) (ftimes nz sz).
Definition orient_outward (vs : list V) : list V :=
  match vs with
  | [a; b; c] => if fp_lt (radial_alignment (point_of a) (point_of b) (point_of c)) (fpz 0) then [a; c; b] else [a; b; c]
  | _ => vs
  end.

(** ** The scene, src/cdt-viewer.cpp:714-766 *)
(** [options.draw_vertex], lines 727-732, given whether vertices are drawn at all
    (line 723). *)
Definition draws_vertex (r : render_config) (t : complex) (v : V) : bool :=
  rc_vertices r &&
  (bool_decide (rc_vertex_scope r = B "all") ||
   bool_decide (vertex_key v ∈ (if bool_decide (rc_vertex_scope r = B "convex_hull") then convex_hull_vertices t else []))).
(** lines 748-764: one face; [None]: [at] out of range, or the modulus of an
    empty palette (undefined). *)
Definition face_of (palette : list px) (f : facet) : option (px * list V) :=
  let vs := facet_vertices f in
  if (length palette =? 0)%nat then None
  else c ← palette !! Z.to_nat (facet_hash vs mod Z.of_nat (length palette));
       Some (c, orient_outward vs).
Definition faces_of (r : render_config) (t : complex) : option (list (px * list V)) :=
  if rc_faces r then mapM (face_of (rc_palette r)) (cx_facets t) else Some [].
End Scene.
Arguments complex : clear implicits.
