(** src/cdt-viewer.cpp: the render manifest (lines 87-150, 179-537). *)
From Verif Require Import Base Config Text ViewerImage.
From Coq Require Import QArith Qround.
Local Open Scope Z_scope.
Local Open Scope list_scope.

(** QJsonValue. Strings are their UTF-8 bytes; a QJsonObject keeps one value
    per key, here the first entry. *)
Inductive json : Type :=
| JNull | JBool (b : bool) | JNum (x : fp) | JStr (s : text) | JArr (l : list json) | JObj (o : list (text * json)).
Notation object := (list (text * json)).
(** QJsonObject::value; [None]: undefined. *)
Fixpoint value (o : object) (key : text) : option json :=
  match o with
  | [] => None
  | (k, v) :: r => if bool_decide (k = key) then Some v else value r key
  end.
Notation refuse := (Throws InvalidArgument).

(** src/cdt-viewer.cpp:179-189. *)
Definition require_object (o : object) (key : text) : checked object :=
  match value o key with Some (JObj p) => Val p | _ => refuse end.
(** src/cdt-viewer.cpp:191-201. *)
Definition require_array (o : object) (key : text) : checked (list json) :=
  match value o key with Some (JArr l) => Val l | _ => refuse end.
(** src/cdt-viewer.cpp:203-214. *)
Definition require_string (o : object) (key : text) : checked text :=
  match value o key with Some (JStr s) => if bool_decide (s = []) then refuse else Val s | _ => refuse end.
(** src/cdt-viewer.cpp:216-226. *)
Definition require_bool (o : object) (key : text) : checked bool :=
  match value o key with Some (JBool b) => Val b | _ => refuse end.
(** src/cdt-viewer.cpp:228-239; the value returned is finite. *)
Definition require_number (o : object) (key : text) : checked Q :=
  match value o key with Some (JNum (Fin q)) => Val q | _ => refuse end.
(** src/cdt-viewer.cpp:241. *)
Definition MAX_EXACT_JSON_INTEGER : Z := 9007199254740991.
(** [std::trunc(q) == q]. *)
Definition integral (q : Q) : bool := Qeq_bool (inject_Z (Qfloor q)) q.
(** src/cdt-viewer.cpp:243-264; [lo], [hi]: std::numeric_limits<Integer>. The
    conversion of the limits to long double is exact where it matters: the
    limits of std::size_t lie beyond MAX_EXACT_JSON_INTEGER. *)
Definition require_integer (lo hi : Z) (o : object) (key : text) : checked Z :=
  let! q := require_number o key in
  if negb (integral q) || negb (Qle_bool (inject_Z lo) q) || negb (Qle_bool q (inject_Z hi))
     || negb (Qle_bool (inject_Z (- MAX_EXACT_JSON_INTEGER)) q) || negb (Qle_bool q (inject_Z MAX_EXACT_JSON_INTEGER))
  then refuse
  else if (lo <=? Qfloor q) && (Qfloor q <=? hi) then Val (Qfloor q) else Undef.
Definition require_int : object -> text -> checked Z := require_integer INT32_MIN INT32_MAX.
Definition SIZE_MAX : Z := two64 - 1.
Definition require_size : object -> text -> checked Z := require_integer 0 SIZE_MAX.
(** src/cdt-viewer.cpp:279-286, 300-315, 379-392: the loops over array entries. *)
Fixpoint each {A : Type} (f : json -> checked A) (l : list json) : checked (list A) :=
  match l with [] => Val [] | v :: r => let! a := f v in let! t := each f r in Val (a :: t) end.
Definition finite_number (v : json) : checked Q := match v with JNum (Fin q) => Val q | _ => refuse end.
(** src/cdt-viewer.cpp:266-289. *)
Definition require_vector (o : object) (key : text) : checked (Q * Q * Q) :=
  let! l := require_array o key in
  if negb (length l =? 3)%nat then refuse
  else let! r := each finite_number l in
       match r with [x; y; z] => Val (x, y, z) | _ => Undef end.
(** src/cdt-viewer.cpp:303-315: a channel; NaN and infinities fail the tests. *)
Definition channel (v : json) : checked Z :=
  match v with
  | JNum (Fin q) => if negb (integral q) || negb (Qle_bool 0 q) || negb (Qle_bool q 255) then refuse else Val (Qfloor q)
  | _ => refuse
  end.
(** src/cdt-viewer.cpp:291-317; QColor keeps the four channels. *)
Definition require_color (o : object) (key : text) : checked px :=
  let! l := require_array o key in
  if negb (length l =? 4)%nat then refuse
  else let! r := each channel l in
       match r with [a; b; c; d] => Val (mkPx a b c d) | _ => Undef end.
(** src/cdt-viewer.cpp:364-395: one entry of the palette (alpha 255). *)
Definition palette_entry (v : json) : checked px :=
  match v with
  | JArr l =>
      if negb (length l =? 3)%nat then refuse
      else let! r := each channel l in
           match r with [a; b; c] => Val (mkPx a b c 255) | _ => Undef end
  | _ => refuse
  end.

(** src/cdt-viewer.cpp:87-95. *)
Record topology : Type := mkTopology {
  tp_vertices : Z; tp_edges : Z; tp_faces : Z; tp_simplices : Z; tp_min : Z; tp_max : Z }.
(** src/cdt-viewer.cpp:97-104. *)
Record camera : Type := mkCamera {
  cm_projection : text; cm_position : Q * Q * Q; cm_target : Q * Q * Q; cm_up : Q * Q * Q; cm_fov : Q }.
(** src/cdt-viewer.cpp:106-129. *)
Record render_config : Type := mkRender {
  rc_width : Z; rc_height : Z; rc_transparent : bool; rc_oversampling : Q; rc_expand : bool;
  rc_background : px; rc_vertices : bool; rc_edges : bool; rc_faces : bool;
  rc_vertex_scope : text; rc_edge_scope : text; rc_point_size : fp; rc_line_width : fp;
  rc_threshold : Z; rc_tolerance : Z; rc_flat : bool; rc_point : px; rc_edge : px;
  rc_palette : list px; rc_camera : camera; rc_minimum : Z }.
(** src/cdt-viewer.cpp:142-150. *)
Record viewer_manifest : Type := mkViewerManifest {
  vm_fixture : text; vm_sha256 : text; vm_expected : topology; vm_cgal : text; vm_qt : text;
  vm_render : render_config }.
(** src/cdt-viewer.cpp:131-140. *)
Definition draws_scene_edges (r : render_config) : bool := rc_edges r && bool_decide (rc_edge_scope r = B "all").
Definition draws_screen_space_edges (r : render_config) : bool :=
  rc_edges r && bool_decide (rc_edge_scope r = B "screen_space_face_boundaries").

(** std::numeric_limits<float>::max(). *)
Definition FLOAT_MAX : Q := inject_Z ((2 ^ 24 - 1) * 2 ^ 104).
(** std::numbers::pi_v<double>. *)
Definition PI_DOUBLE : Q := Qmake 884279719003555 281474976710656.
(** src/cdt-viewer.cpp:419. *)
Definition MAX_SNAPSHOT_PIXELS : Z := 268435456.
(** std::ceil. *)
Definition fceil (x : fp) : fp := match x with Fin q => fpz (Qceiling q) | _ => x end.

Section Manifest.
(** Rounding to long double and to float. *)
Context (rl rf : Q -> fp).
(** std::filesystem: parent_path, operator/, weakly_canonical (may throw). *)
Context (parent_path : text -> text) (join : text -> text -> text) (weakly_canonical : text -> checked text).

(** src/cdt-viewer.cpp:416-434. *)
Definition impractical (width height : Z) (oversampling : Q) : bool :=
  let sampled_width := fceil (fmul rl (fpz width) (Fin oversampling)) in
  let sampled_height := fceil (fmul rl (fpz height) (Fin oversampling)) in
  fp_lt (fpz INT32_MAX) sampled_width || fp_lt (fpz INT32_MAX) sampled_height ||
  fp_lt (fpz MAX_SNAPSHOT_PIXELS) (fmul rl sampled_width sampled_height).

(** src/cdt-viewer.cpp:327-537 [parse_manifest], from the parsed document on:
    [root] is [document.object()]. *)
Definition parse_document (path : text) (root : object) : checked viewer_manifest :=
  let! schema := require_int root (B "schema_version") in
  if negb (schema =? 1) then refuse else
  let! fixture := require_object root (B "fixture") in
  let! topology := require_object fixture (B "expected_topology") in
  let! renderer := require_object root (B "renderer") in
  let! render := require_object root (B "render") in
  let! geometry := require_object render (B "geometry") in
  let! style := require_object render (B "style") in
  let! camera := require_object render (B "camera") in
  let! checks := require_object root (B "comparison") in
  let! relative := require_string fixture (B "path") in
  let! fixture_path := weakly_canonical (join (parent_path path) relative) in
  let! entries := require_array style (B "face_palette") in
  let! palette := each palette_entry entries in
  if bool_decide (palette = []) then refuse else
  let! width := require_int render (B "width") in
  let! height := require_int render (B "height") in
  let! point_size := require_number style (B "point_size") in
  let! line_width := require_number style (B "line_width") in
  let! oversampling := require_number render (B "oversampling") in
  if (width <=? 0) || (height <=? 0) || Qle_bool point_size 0 || Qle_bool line_width 0
     || negb (Qle_bool point_size FLOAT_MAX) || negb (Qle_bool line_width FLOAT_MAX) then refuse else
  if negb (Qle_bool 1 oversampling) || negb (Qle_bool oversampling 8) then refuse else
  if impractical width height oversampling then refuse else
  let! minimum := require_size checks (B "minimum_foreground_pixels") in
  if (SIZE_MAX / height <? width) || (wrap64 (width * height) <? minimum) then refuse else
  let! format := require_string render (B "output_format") in
  if negb (bool_decide (format = B "png")) then refuse else
  let! sha := require_string fixture (B "sha256") in
  let! t_vertices := require_size topology (B "vertices") in
  let! t_edges := require_size topology (B "edges") in
  let! t_faces := require_size topology (B "faces") in
  let! t_simplices := require_size topology (B "simplices") in
  let! t_min := require_int topology (B "minimum_timeslice") in
  let! t_max := require_int topology (B "maximum_timeslice") in
  let! cgal := require_string renderer (B "cgal_version") in
  let! qt := require_string renderer (B "qt_version") in
  let! transparent := require_bool render (B "transparent_background") in
  let! expand := require_bool render (B "expand_frustum") in
  let! background := require_color style (B "background_rgba") in
  let! draw_vertices := require_bool geometry (B "vertices") in
  let! draw_edges := require_bool geometry (B "edges") in
  let! draw_faces := require_bool geometry (B "faces") in
  let! vertex_scope := require_string geometry (B "vertex_scope") in
  let! edge_scope := require_string geometry (B "edge_scope") in
  let! threshold := require_int style (B "edge_color_difference_threshold") in
  let! tolerance := require_int style (B "point_color_match_tolerance") in
  let! flat := require_bool style (B "flat_shading") in
  let! point := require_color style (B "point_rgba") in
  let! edge := require_color style (B "edge_rgba") in
  let! projection := require_string camera (B "projection") in
  let! position := require_vector camera (B "position") in
  let! target := require_vector camera (B "target") in
  let! up := require_vector camera (B "up") in
  let! fov := require_number camera (B "vertical_field_of_view_radians") in
  if negb (bool_decide (projection = B "perspective")) && negb (bool_decide (projection = B "orthographic")) then refuse else
  if negb (bool_decide (edge_scope = B "all")) && negb (bool_decide (edge_scope = B "screen_space_face_boundaries")) then refuse else
  if negb (bool_decide (vertex_scope = B "all")) && negb (bool_decide (vertex_scope = B "convex_hull")) then refuse else
  if (threshold <? 0) || (765 <? threshold) then refuse else
  if (tolerance <? 0) || (765 <? tolerance) then refuse else
  if Qle_bool fov 0 || Qle_bool PI_DOUBLE fov then refuse else
  Val (mkViewerManifest fixture_path sha (mkTopology t_vertices t_edges t_faces t_simplices t_min t_max) cgal qt
        (mkRender width height transparent oversampling expand background draw_vertices draw_edges draw_faces
           vertex_scope edge_scope (rf point_size) (rf line_width) threshold tolerance flat point edge palette
           (mkCamera projection position target up fov) minimum)).
(** QJsonDocument::fromJson on the bytes of the file; [None]: a parse error. *)
Context (parse_json : text -> option json).
(** src/cdt-viewer.cpp:327-352: opening, parsing; [content]: the file's bytes,
    [None] if it cannot be opened. *)
Definition parse_manifest (path : text) (content : option text) : checked viewer_manifest :=
  match content with
  | None => Throws FilesystemError
  | Some c =>
      match parse_json c with
      | Some (JObj root) => parse_document path root
      | _ => refuse
      end
  end.
End Manifest.
