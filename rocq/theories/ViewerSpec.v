(** Which render manifests the viewer accepts, and what each accepted one
    means (C70). *)
From Verif Require Import Base Config ConfigSpec Text ViewerImage Viewer.
From Coq Require Import QArith Qround.
Local Open Scope Z_scope.

(** [v] is found in [root] by following the keys of [path]. *)
Inductive declared : json -> list text -> json -> Prop :=
| declared_here v : declared v [] v
| declared_in a k w b path v : (forall u, (k, u) ∉ a) -> declared w path v ->
    declared (JObj (a ++ (k, w) :: b)) (k :: path) v.

Section Root.
Context (root : json).
Definition says_string (path : list text) (s : text) : Prop := declared root path (JStr s) /\ s <> [].
Definition says_flag (path : list text) (b : bool) : Prop := declared root path (JBool b).
Definition says_number (path : list text) (q : Q) : Prop := declared root path (JNum (Fin q)).
(** An integer written exactly: at most 2^53 - 1 in magnitude. *)
Definition says_integer (lo hi : Z) (path : list text) (z : Z) : Prop :=
  exists q, says_number path q /\ (q == inject_Z z)%Q /\ lo <= z <= hi /\ Z.abs z <= 2 ^ 53 - 1.
Definition says_vector (path : list text) (v : Q * Q * Q) : Prop :=
  let '(x, y, z) := v in declared root path (JArr [JNum (Fin x); JNum (Fin y); JNum (Fin z)]).
Definition is_channel (v : json) (z : Z) : Prop := exists q, v = JNum (Fin q) /\ (q == inject_Z z)%Q /\ 0 <= z <= 255.
Definition says_color (path : list text) (c : px) : Prop :=
  exists r g b a, declared root path (JArr [r; g; b; a]) /\
    is_channel r (red c) /\ is_channel g (green c) /\ is_channel b (blue c) /\ is_channel a (alpha c).
Definition is_rgb (v : json) (c : px) : Prop :=
  exists r g b, v = JArr [r; g; b] /\ is_channel r (red c) /\ is_channel g (green c) /\ is_channel b (blue c) /\ alpha c = 255.
Definition says_palette (path : list text) (l : list px) : Prop :=
  exists vs, declared root path (JArr vs) /\ Forall2 is_rgb vs l /\ l <> [].
End Root.

Notation int32 f := (f INT32_MIN INT32_MAX).
Notation size f := (f 0 (2 ^ 64 - 1)).

(** Pixels of one side of the sampled frame buffer, computed in long double. *)
Definition sampled (rl : Q -> fp) (n : Z) (oversampling : Q) : fp :=
  match rl (inject_Z n * oversampling)%Q with Fin q => Fin (inject_Z (Qceiling q)) | x => x end.

Section Spec.
Context (rl rf : Q -> fp) (parent_path : text -> text) (join : text -> text -> text)
        (weakly_canonical : text -> checked text).
(** The manifest in file [path] with content [root] means [m]. *)
Record declares (path : text) (root : json) (m : viewer_manifest) : Prop := {
  d_schema : int32 (says_integer root) [B "schema_version"] 1;
  d_fixture : exists s, says_string root [B "fixture"; B "path"] s /\
      weakly_canonical (join (parent_path path) s) = Val (vm_fixture m);
  d_sha256 : says_string root [B "fixture"; B "sha256"] (vm_sha256 m);
  d_vertices : size (says_integer root) [B "fixture"; B "expected_topology"; B "vertices"] (tp_vertices (vm_expected m));
  d_edges : size (says_integer root) [B "fixture"; B "expected_topology"; B "edges"] (tp_edges (vm_expected m));
  d_faces : size (says_integer root) [B "fixture"; B "expected_topology"; B "faces"] (tp_faces (vm_expected m));
  d_simplices : size (says_integer root) [B "fixture"; B "expected_topology"; B "simplices"] (tp_simplices (vm_expected m));
  d_min : int32 (says_integer root) [B "fixture"; B "expected_topology"; B "minimum_timeslice"] (tp_min (vm_expected m));
  d_max : int32 (says_integer root) [B "fixture"; B "expected_topology"; B "maximum_timeslice"] (tp_max (vm_expected m));
  d_cgal : says_string root [B "renderer"; B "cgal_version"] (vm_cgal m);
  d_qt : says_string root [B "renderer"; B "qt_version"] (vm_qt m);
  d_width : int32 (says_integer root) [B "render"; B "width"] (rc_width (vm_render m)) /\ 0 < rc_width (vm_render m);
  d_height : int32 (says_integer root) [B "render"; B "height"] (rc_height (vm_render m)) /\ 0 < rc_height (vm_render m);
  d_transparent : says_flag root [B "render"; B "transparent_background"] (rc_transparent (vm_render m));
  d_expand : says_flag root [B "render"; B "expand_frustum"] (rc_expand (vm_render m));
  d_oversampling : says_number root [B "render"; B "oversampling"] (rc_oversampling (vm_render m)) /\
      (1 <= rc_oversampling (vm_render m) <= 8)%Q;
  d_format : says_string root [B "render"; B "output_format"] (B "png");
  d_frame : let w := sampled rl (rc_width (vm_render m)) (rc_oversampling (vm_render m)) in
            let h := sampled rl (rc_height (vm_render m)) (rc_oversampling (vm_render m)) in
      fp_lt (fpz INT32_MAX) w = false /\ fp_lt (fpz INT32_MAX) h = false /\
      fp_lt (fpz 268435456) (fmul rl w h) = false;
  d_draw_vertices : says_flag root [B "render"; B "geometry"; B "vertices"] (rc_vertices (vm_render m));
  d_draw_edges : says_flag root [B "render"; B "geometry"; B "edges"] (rc_edges (vm_render m));
  d_draw_faces : says_flag root [B "render"; B "geometry"; B "faces"] (rc_faces (vm_render m));
  d_vertex_scope : says_string root [B "render"; B "geometry"; B "vertex_scope"] (rc_vertex_scope (vm_render m)) /\
      (rc_vertex_scope (vm_render m) = B "all" \/ rc_vertex_scope (vm_render m) = B "convex_hull");
  d_edge_scope : says_string root [B "render"; B "geometry"; B "edge_scope"] (rc_edge_scope (vm_render m)) /\
      (rc_edge_scope (vm_render m) = B "all" \/ rc_edge_scope (vm_render m) = B "screen_space_face_boundaries");
  d_background : says_color root [B "render"; B "style"; B "background_rgba"] (rc_background (vm_render m));
  d_point : says_color root [B "render"; B "style"; B "point_rgba"] (rc_point (vm_render m));
  d_edge : says_color root [B "render"; B "style"; B "edge_rgba"] (rc_edge (vm_render m));
  d_palette : says_palette root [B "render"; B "style"; B "face_palette"] (rc_palette (vm_render m));
  d_point_size : exists q, says_number root [B "render"; B "style"; B "point_size"] q /\
      (0 < q)%Q /\ (q <= FLOAT_MAX)%Q /\ rc_point_size (vm_render m) = rf q;
  d_line_width : exists q, says_number root [B "render"; B "style"; B "line_width"] q /\
      (0 < q)%Q /\ (q <= FLOAT_MAX)%Q /\ rc_line_width (vm_render m) = rf q;
  d_threshold : int32 (says_integer root) [B "render"; B "style"; B "edge_color_difference_threshold"] (rc_threshold (vm_render m)) /\
      0 <= rc_threshold (vm_render m) <= 765;
  d_tolerance : int32 (says_integer root) [B "render"; B "style"; B "point_color_match_tolerance"] (rc_tolerance (vm_render m)) /\
      0 <= rc_tolerance (vm_render m) <= 765;
  d_flat : says_flag root [B "render"; B "style"; B "flat_shading"] (rc_flat (vm_render m));
  d_projection : says_string root [B "render"; B "camera"; B "projection"] (cm_projection (rc_camera (vm_render m))) /\
      (cm_projection (rc_camera (vm_render m)) = B "perspective" \/ cm_projection (rc_camera (vm_render m)) = B "orthographic");
  d_position : says_vector root [B "render"; B "camera"; B "position"] (cm_position (rc_camera (vm_render m)));
  d_target : says_vector root [B "render"; B "camera"; B "target"] (cm_target (rc_camera (vm_render m)));
  d_up : says_vector root [B "render"; B "camera"; B "up"] (cm_up (rc_camera (vm_render m)));
  d_fov : says_number root [B "render"; B "camera"; B "vertical_field_of_view_radians"] (cm_fov (rc_camera (vm_render m))) /\
      (0 < cm_fov (rc_camera (vm_render m)))%Q /\ (cm_fov (rc_camera (vm_render m)) < PI_DOUBLE)%Q;
  d_minimum : size (says_integer root) [B "comparison"; B "minimum_foreground_pixels"] (rc_minimum (vm_render m)) /\
      rc_minimum (vm_render m) <= rc_width (vm_render m) * rc_height (vm_render m)
}.
End Spec.
