(** Concrete data for the viewer theorems: the tracked manifest
    viewer/manifests/v1/hero.json (without its two free-text notes) with the
    expected topology, the size of the picture and the threshold as parameters,
    and a toy environment. *)
From Verif Require Import Base Config ConfigSpec Text Fnv ViewerImage ViewerImageSpec Viewer ViewerSpec ViewerScene ViewerSceneSpec ViewerMain ViewerMainSpec.
From Coq Require Import QArith.
From stdpp Require Import sorting.
Local Open Scope Z_scope.
Local Open Scope list_scope.

Definition manifest_of (v e f s mn mx w h fg : Z) : json := JObj [
  (B "$schema", JStr (B "../../schema/render-manifest-v1.schema.json"));
  (B "schema_version", JNum (fpz (1)));
  (B "artifact", JStr (B "../../../docs/images/S3-7-27528-I1-R1.png"));
  (B "fixture", JObj [
    (B "path", JStr (B "../../fixtures/v1/S3-7-27528-I1-R1-seed30.off"));
    (B "metadata_path", JStr (B "../../fixtures/v1/S3-7-27528-I1-R1-seed30.off.meta"));
    (B "sha256", JStr (B "9d86a6e5bd410ea206663c0e3bb633162695768135243016043a34c8634d605b"));
    (B "provenance", JObj [
      (B "producer", JStr (B "initialize"));
      (B "producer_command", JStr (B "./out/build/reference/src/initialize --spherical --simplices 5110 --timeslices 7 --init 1 --foliate 1 --output --seed 30 --threads 1"));
      (B "source_revision", JStr (B "8f765ee90d873e51ba2c15bd51a7e85a6558c1fa"));
      (B "topology", JStr (B "spherical"));
      (B "dimension", JNum (fpz (3)));
      (B "desired_simplices", JNum (fpz (5110)));
      (B "timeslices", JNum (fpz (7)));
      (B "initial_radius", JNum (fpz (1)));
      (B "foliation_spacing", JNum (fpz (1)));
      (B "seed", JNum (fpz (30)));
      (B "threads", JNum (fpz (1)));
      (B "fresh_topology_replay_supported", JBool false)]);
    (B "expected_topology", JObj [
      (B "vertices", JNum (fpz v));
      (B "edges", JNum (fpz e));
      (B "faces", JNum (fpz f));
      (B "simplices", JNum (fpz s));
      (B "minimum_timeslice", JNum (fpz mn));
      (B "maximum_timeslice", JNum (fpz mx))])]);
  (B "renderer", JObj [
    (B "name", JStr (B "cdt-viewer"));
    (B "cgal_version", JStr (B "6.2-I-900"));
    (B "qt_version", JStr (B "6.11.1"));
    (B "vcpkg_baseline", JStr (B "9e593bb18ea69cc5095e012465dcd675a822ed0d"));
    (B "cmake_version", JStr (B "4.4.1"));
    (B "ninja_version", JStr (B "1.13.2"));
    (B "canonical_platform", JStr (B "macOS 26.6.1 arm64"));
    (B "canonical_toolchain", JStr (B "Xcode 26.6 / AppleClang 21.0.0.21000101 / libc++-210106"));
    (B "graphics_api", JStr (B "OpenGL 4.1 core profile (CGAL macOS mapping from the 4.3 request)"))]);
  (B "render", JObj [
    (B "output_format", JStr (B "png"));
    (B "width", JNum (fpz w));
    (B "height", JNum (fpz h));
    (B "transparent_background", JBool true);
    (B "oversampling", JNum (fpz (1)));
    (B "expand_frustum", JBool false);
    (B "geometry", JObj [
      (B "vertices", JBool true);
      (B "edges", JBool true);
      (B "faces", JBool true);
      (B "vertex_scope", JStr (B "convex_hull"));
      (B "edge_scope", JStr (B "screen_space_face_boundaries"))]);
    (B "camera", JObj [
      (B "projection", JStr (B "perspective"));
      (B "position", JArr [JNum (Fin (Qmake (7262054399134925) 562949953421312)); JNum (Fin (Qmake (-4306567143673037) 281474976710656)); JNum (Fin (Qmake (21) 2))]);
      (B "target", JArr [JNum (fpz (0)); JNum (fpz (0)); JNum (fpz (0))]);
      (B "up", JArr [JNum (fpz (0)); JNum (fpz (0)); JNum (fpz (1))]);
      (B "vertical_field_of_view_radians", JNum (Fin (Qmake (884279719003555) 1125899906842624)))]);
    (B "style", JObj [
      (B "flat_shading", JBool true);
      (B "point_size", JNum (fpz (1)));
      (B "line_width", JNum (fpz (1)));
      (B "edge_color_difference_threshold", JNum (fpz (24)));
      (B "point_color_match_tolerance", JNum (fpz (6)));
      (B "background_rgba", JArr [JNum (fpz (0)); JNum (fpz (0)); JNum (fpz (0)); JNum (fpz (0))]);
      (B "point_rgba", JArr [JNum (fpz (200)); JNum (fpz (60)); JNum (fpz (60)); JNum (fpz (255))]);
      (B "edge_rgba", JArr [JNum (fpz (0)); JNum (fpz (0)); JNum (fpz (0)); JNum (fpz (255))]);
      (B "face_palette", JArr [JArr [JNum (fpz (13)); JNum (fpz (145)); JNum (fpz (4))]; JArr [JNum (fpz (118)); JNum (fpz (18)); JNum (fpz (108))]; JArr [JNum (fpz (21)); JNum (fpz (21)); JNum (fpz (54))]; JArr [JNum (fpz (114)); JNum (fpz (79)); JNum (fpz (86))]; JArr [JNum (fpz (20)); JNum (fpz (103)); JNum (fpz (16))]; JArr [JNum (fpz (151)); JNum (fpz (111)); JNum (fpz (116))]; JArr [JNum (fpz (26)); JNum (fpz (3)); JNum (fpz (113))]; JArr [JNum (fpz (255)); JNum (fpz (78)); JNum (fpz (255))]; JArr [JNum (fpz (131)); JNum (fpz (0)); JNum (fpz (38))]; JArr [JNum (fpz (41)); JNum (fpz (175)); JNum (fpz (3))]; JArr [JNum (fpz (112)); JNum (fpz (59)); JNum (fpz (79))]; JArr [JNum (fpz (31)); JNum (fpz (87)); JNum (fpz (25))]; JArr [JNum (fpz (85)); JNum (fpz (24)); JNum (fpz (59))]; JArr [JNum (fpz (98)); JNum (fpz (111)); JNum (fpz (88))]; JArr [JNum (fpz (128)); JNum (fpz (255)); JNum (fpz (186))]; JArr [JNum (fpz (122)); JNum (fpz (127)); JNum (fpz (46))]; JArr [JNum (fpz (35)); JNum (fpz (6)); JNum (fpz (50))]; JArr [JNum (fpz (69)); JNum (fpz (43)); JNum (fpz (255))]; JArr [JNum (fpz (153)); JNum (fpz (62)); JNum (fpz (25))]; JArr [JNum (fpz (143)); JNum (fpz (66)); JNum (fpz (44))]; JArr [JNum (fpz (198)); JNum (fpz (166)); JNum (fpz (125))]; JArr [JNum (fpz (37)); JNum (fpz (114)); JNum (fpz (80))]; JArr [JNum (fpz (113)); JNum (fpz (59)); JNum (fpz (61))]; JArr [JNum (fpz (149)); JNum (fpz (255)); JNum (fpz (239))]; JArr [JNum (fpz (90)); JNum (fpz (76)); JNum (fpz (91))]; JArr [JNum (fpz (73)); JNum (fpz (107)); JNum (fpz (49))]; JArr [JNum (fpz (50)); JNum (fpz (160)); JNum (fpz (180))]; JArr [JNum (fpz (200)); JNum (fpz (190)); JNum (fpz (50))]; JArr [JNum (fpz (190)); JNum (fpz (100)); JNum (fpz (35))]; JArr [JNum (fpz (35)); JNum (fpz (100)); JNum (fpz (190))]])])]);
  (B "comparison", JObj [
    (B "canonical_sha256", JStr (B "aea0b1c19408746f88261a2367718bc09fe1e05c62efb195350583182445c695"));
    (B "minimum_file_bytes", JNum (fpz (20000)));
    (B "minimum_foreground_pixels", JNum (fpz fg))])].
(** viewer/manifests/v1/hero.json. *)
Definition hero : json := manifest_of 4940 33746 56335 27528 1 7 735 690 50000.
(** One tetrahedron, a picture of two pixels. *)
Definition tiny : json := manifest_of 4 6 4 1 1 2 2 1 1.

(** A toy environment: paths are joined by a slash; a manifest's bytes are its
    name; digests are looked up; a fixture file holds "tetra". *)
Definition toy_parent (p : text) : text := [].
Definition toy_join (a b : text) : text := a ++ b.
Definition toy_canonical (p : text) : checked text := Val p.
Definition toy_json (c : text) : option json :=
  if bool_decide (c = B "hero") then Some hero else if bool_decide (c = B "tiny") then Some tiny else None.
Definition toy_sha (c : text) : text :=
  if bool_decide (c = B "tetra") then B "9d86a6e5bd410ea206663c0e3bb633162695768135243016043a34c8634d605b" else B "0".
Definition toy_read (fs : files) (p : text) : nat + exn :=
  match fs p with
  | Some c => if bool_decide (c = B "tetra") then inl 4%nat else if bool_decide (c = B "other") then inl 5%nat else inr RuntimeError
  | None => inr FilesystemError
  end.
Definition toy_facts (t : nat) : fixture_facts := mkFixtureFacts true 3 4 6 4 1 [1; 2; 2; 1].
Definition toy_complex (t : nat) : complex nat :=
  mkComplex (map (fun i => ([1%nat; 2%nat; 3%nat; t], i)) (seq 0 4)) (fun c i => <[i := 0%nat]> c).
Definition toy_vertices (t : nat) : list nat := [1%nat; 2%nat; 3%nat; t].
Definition toy_key (v : nat) : list Z := [Z.of_nat v; 0; 0; 1].
Definition toy_point (v : nat) : point3 := mkPoint3 (fpz (Z.of_nat v)) (fpz (Z.of_nat v * Z.of_nat v)) (fpz 1).
Definition toy_sort (l : list nat) : list nat := merge_sort le l.
(** A picture file holds the bytes of a picture of two pixels. *)
Definition toy_image (c : text) : option image :=
  if (length c =? 8)%nat then Some (mkImage 2 1 [c]) else None.
Definition toy_save (im : image) (old : option text) : option text * bool := (Some (concat (im_rows im)), true).
Definition toy_picture : text := [255; 0; 0; 255; 0; 0; 255; 255].
Definition toy_snapshot (s : scene (V := nat)) (r : render_config) (old : option text) : option text := Some toy_picture.
Definition toy_what (e : exn) : text := B "failed".
Definition toy_args : viewer_args := mkViewerArgs false false (Some (B "m.json")) [] (B "out.png").
Definition toy_files : files := put (B "m.json") (Some (B "tiny")) (put (B "../../fixtures/v1/S3-7-27528-I1-R1-seed30.off") (Some (B "tetra")) (fun _ => None)).
Definition toy_main (snapshot : scene (V := nat) -> render_config -> option text -> option text) (others : nat -> files -> files)
  : viewer_args + exn -> list event -> world -> res world (option Z) :=
  viewer_main Fin Fin Fin toy_parent toy_join toy_canonical toy_json toy_sha (fun _ => false) toy_read toy_facts
    toy_complex toy_vertices 0%nat toy_key toy_point toy_sort (B "6.2-I-900") (B "6.11.1")
    (fun _ _ => None) (fun _ _ => None) snapshot toy_image toy_save toy_what (fun _ => None) others.
Definition nobody (n : nat) (fs : files) : files := fs.
