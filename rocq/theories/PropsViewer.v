(** Theorems about the archival viewer cdt-viewer (C70 - C74). Vocabulary:
    ViewerSpec.v (manifests), ViewerImageSpec.v (pictures), ViewerSceneSpec.v
    (fixtures and faces), ViewerMainSpec.v (runs). Qt, the file system, rounding
    and the digest are arbitrary functions; what is assumed of them is written in
    each statement. *)
From Verif Require Import Base Config ConfigSpec ConfigProps Text ViewerImage ViewerImageSpec ViewerImageFacts Viewer ViewerSpec ViewerFacts ViewerFrame.
From Verif Require Import ViewerScene ViewerSceneSpec ViewerSceneFacts ViewerMain ViewerMainSpec ViewerMainFacts ViewerSample ViewerSampleFacts ViewerOutward.
From Coq Require Import QArith.
Local Open Scope Z_scope.
Local Open Scope list_scope.

(** ** C70: render manifests *)
(** A manifest is accepted exactly when it declares something, and means what it
    declares. *)
Theorem C70_accepted_iff_declared : forall rl rf parent_path join weakly_canonical parse_json path content m,
  parse_manifest rl rf parent_path join weakly_canonical parse_json path (Some content) = Val m <->
  exists root, parse_json content = Some root /\ declares rl rf parent_path join weakly_canonical path root m.
Proof. exact manifest_exact. Qed.
Print Assumptions C70_accepted_iff_declared.
(** Anything else is refused with an exception; no conversion is undefined. *)
Theorem C70_refusals : forall rl rf parent_path join weakly_canonical parse_json path content,
  (forall p, weakly_canonical p <> Undef) ->
  match parse_manifest rl rf parent_path join weakly_canonical parse_json path content with
  | Val _ => True
  | Throws e => match content with None => e = FilesystemError | Some _ => e = InvalidArgument \/ exists p, weakly_canonical p = Throws e end
  | Undef => False
  end.
Proof. exact manifest_tame. Qed.
Print Assumptions C70_refusals.
(** An accepted manifest has one meaning. *)
Theorem C70_one_meaning : forall rl rf parent_path join weakly_canonical path root m m',
  declares rl rf parent_path join weakly_canonical path root m ->
  declares rl rf parent_path join weakly_canonical path root m' -> m = m'.
Proof. exact declares_unique. Qed.
Print Assumptions C70_one_meaning.
(** An accepted picture has at most 2^28 pixels, however long double rounds, and
    the required foreground fits in it. *)
Theorem C70_frame_bounded : forall rd rl rf parent_path join weakly_canonical path root m, fp_contract rd rl ->
  declares rl rf parent_path join weakly_canonical path root m ->
  0 < rc_width (vm_render m) /\ 0 < rc_height (vm_render m) /\
  rc_width (vm_render m) * rc_height (vm_render m) <= 268435456 /\
  rc_minimum (vm_render m) <= rc_width (vm_render m) * rc_height (vm_render m).
Proof. intros rd rl rf pp j wc path root m. exact (declared_frame rl rf pp j wc rd path root m). Qed.
Print Assumptions C70_frame_bounded.
(** The tracked manifest is accepted. *)
Example C70_hero : exists m, declares Fin Fin toy_parent toy_join toy_canonical [] hero m /\
  tp_simplices (vm_expected m) = 27528 /\ length (rc_palette (vm_render m)) = 30%nat /\ rc_width (vm_render m) = 735.
Proof. exact hero_declared. Qed.
Example C70_too_large : forall m, ~ declares Fin Fin toy_parent toy_join toy_canonical [] (manifest_of 1 1 1 1 1 1 16385 16384 1) m.
Proof. exact large_refused. Qed.
Example C70_contract_met : fp_contract Fin Fin /\ fp_contract saturating saturating.
Proof. exact (conj contract_exact contract_saturating). Qed.

(** ** C71, C74: runs *)
Section Run.
(** The environment of the program: see ViewerMain.v. *)
Context (rl rf rd : Q -> fp).
Context (parent_path : text -> text) (join : text -> text -> text) (weakly_canonical : text -> checked text).
Context (parse_json : text -> option json) (sha256_hex : text -> text) (hash_fails : text -> bool).
Context {T V : Type} `{EqDecision V} (read_fixture : files -> text -> T + exn).
Context (facts : T -> fixture_facts) (complex_of : T -> complex V) (vertices_of : T -> list V).
Context (infinite : V) (vertex_key : V -> list Z) (point_of : V -> point3) (sort_by_key : list V -> list V).
Context (cgal_version qt_version : text).
Context (configure : scene (V := V) -> render_config -> option exn) (create_directories : text -> files -> option exn).
Context (save_snapshot : scene (V := V) -> render_config -> option text -> option text).
Context (read_image : text -> option image) (save_png : image -> option text -> option text * bool).
Context (what : exn -> text) (say_fails : vline -> option exn).
Notation scene_of := (make_scene rd complex_of vertices_of infinite vertex_key point_of sort_by_key).
Notation main_with others := (viewer_main rl rf rd parent_path join weakly_canonical parse_json sha256_hex hash_fails read_fixture facts
  complex_of vertices_of infinite vertex_key point_of sort_by_key cgal_version qt_version
  configure create_directories save_snapshot read_image save_png what say_fails others).
Notation main := (main_with (fun _ fs => fs)).
Notation passes := (passes rl rf parent_path join weakly_canonical parse_json sha256_hex hash_fails read_fixture facts
  cgal_version qt_version).
Notation tools := ((forall p, weakly_canonical p <> Undef) /\ (forall t, facts_consistent (facts t))).

(** Nothing is shown, written or printed unless the manifest is accepted, the
    fixture's bytes have the declared digest, the versions agree, the fixture
    loads and has the declared topology. *)
Theorem C71_gate : forall a events w, tools -> v_help a = false -> v_version a = false ->
  (exists m fixture t, passes (w_files w) (w_files w) (w_files w) a m fixture t) \/
  main (inl a) events w = Ret w (Some 1).
Proof. exact (run_gate rl rf rd parent_path join weakly_canonical parse_json sha256_hex hash_fails read_fixture facts
  complex_of vertices_of infinite vertex_key point_of sort_by_key cgal_version qt_version
  configure create_directories save_snapshot read_image save_png what say_fails). Qed.
(** When other processes may change files between the steps, each check holds of
    the state in which it was made, and what is printed is what was checked. *)
Theorem C71_validated_line : forall others a events w w' x, tools -> v_help a = false -> v_version a = false ->
  main_with others (inl a) events w = Ret w' x ->
  let fs0 := others 0%nat (w_files w) in let fs1 := others 1%nat fs0 in let fs2 := others 2%nat fs1 in
  (w_lines w' = w_lines w /\ x = Some 1) \/
  exists m fixture t l, passes fs0 fs1 fs2 a m fixture t /\
    w_lines w' = w_lines w ++ Validated fixture (vm_expected m) :: l /\
    (l = [] \/ (l = [RenderedTo (rc_width (vm_render m)) (rc_height (vm_render m)) (v_output a)] /\ v_output a <> [])).
Proof.
  intros others a events w w' x [CU FC] H1 H2.
  exact (main_validated rl rf rd parent_path join weakly_canonical parse_json sha256_hex hash_fails read_fixture facts
  complex_of vertices_of infinite vertex_key point_of sort_by_key cgal_version qt_version
  configure create_directories save_snapshot read_image save_png what say_fails others CU FC a events w w' x (conj H1 H2)).
Qed.
(** Conversely a fixture that passes is announced before anything is rendered. *)
Theorem C71_passing_is_announced : forall a events w m fixture t, tools -> v_help a = false -> v_version a = false ->
  passes (w_files w) (w_files w) (w_files w) a m fixture t -> say_fails (Validated fixture (vm_expected m)) = None ->
  forall w' x, main (inl a) events w = Ret w' x ->
  exists l, w_lines w' = w_lines w ++ Validated fixture (vm_expected m) :: l.
Proof. exact (run_announced rl rf rd parent_path join weakly_canonical parse_json sha256_hex hash_fails read_fixture facts
  complex_of vertices_of infinite vertex_key point_of sort_by_key cgal_version qt_version
  configure create_directories save_snapshot read_image save_png what say_fails). Qed.
(** Help, version and command-line errors touch nothing. *)
Theorem C71_other_invocations : forall a events w e,
  main (inr e) events w = Ret w (Some 1) /\
  (v_help a = true -> say_fails VHelp = None -> main (inl a) events w = Ret (mkWorld (w_files w) (w_lines w ++ [VHelp])) (Some 0)) /\
  (v_help a = false -> v_version a = true -> say_fails VVersion = None ->
     main (inl a) events w = Ret (mkWorld (w_files w) (w_lines w ++ [VVersion])) (Some 0)).
Proof. exact (run_others rl rf rd parent_path join weakly_canonical parse_json sha256_hex hash_fails read_fixture facts
  complex_of vertices_of infinite vertex_key point_of sort_by_key cgal_version qt_version
  configure create_directories save_snapshot read_image save_png what say_fails). Qed.

(** Exit status 0 with --output, in an event loop nobody else quits: the checks
    passed, the callback ran and the watchdog did not, the output file is the
    finished snapshot of the scene and an acceptable picture, no other file
    changed, and exactly the two lines were printed. *)
Theorem C74_success_means_artifact : forall a events w w', tools -> (forall c im, read_image c = Some im -> is_image im) ->
  v_help a = false -> v_version a = false -> v_output a <> [] -> (forall c, Quit c ∉ events) ->
  main (inl a) events w = Ret w' (Some 0) ->
  exists m fixture t s c, passes (w_files w) (w_files w) (w_files w) a m fixture t /\ scene_of (vm_render m) t = Some s /\
    Initialised ∈ events /\ Timeout ∉ events /\
    w_files w' (v_output a) = Some c /\ acceptable read_image (vm_render m) c /\
    finished read_image save_png (vm_render m) (save_snapshot s (vm_render m) (w_files w (v_output a))) (Some c) /\
    same_except (v_output a) (w_files w) (w_files w') /\
    w_lines w' = w_lines w ++ [Validated fixture (vm_expected m);
                               RenderedTo (rc_width (vm_render m)) (rc_height (vm_render m)) (v_output a)].
Proof.
  intros a events w w' [CU FC] IM H1 H2. exact (main_headless rl rf rd parent_path join weakly_canonical parse_json sha256_hex hash_fails read_fixture facts
  complex_of vertices_of infinite vertex_key point_of sort_by_key cgal_version qt_version
  configure create_directories save_snapshot read_image save_png what say_fails (fun _ fs => fs) CU FC IM a events w w' (conj H1 H2)).
Qed.
(** In every such run: nothing is undefined or terminates abnormally; once an
    event was handled there is an exit status, 0 or 1; if the watchdog fired it
    is 1; only the output file may have changed; and if every exception has a
    message, "Rendered" is printed only with status 0. *)
Theorem C74_every_headless_run : forall a events w, tools -> (forall c im, read_image c = Some im -> is_image im) ->
  v_help a = false -> v_version a = false -> v_output a <> [] -> (forall c, Quit c ∉ events) ->
  exists w' x, main (inl a) events w = Ret w' x /\ (x = None \/ x = Some 0 \/ x = Some 1) /\
    (x = None -> events = []) /\ (Timeout ∈ events -> x = Some 1) /\
    same_except (v_output a) (w_files w) (w_files w') /\
    ((forall e, what e <> []) -> forall v width height, w_lines w' = w_lines w ++ [v; RenderedTo width height (v_output a)] -> x = Some 0).
Proof. exact (run_headless_all rl rf rd parent_path join weakly_canonical parse_json sha256_hex hash_fails read_fixture facts
  complex_of vertices_of infinite vertex_key point_of sort_by_key cgal_version qt_version
  configure create_directories save_snapshot read_image save_png what say_fails). Qed.
(** If nothing fails, the run succeeds. *)
Theorem C74_success : forall a events w m f t s snap, tools -> (forall c im, read_image c = Some im -> is_image im) ->
  v_help a = false -> v_version a = false -> v_output a <> [] -> (forall c, Quit c ∉ events) ->
  Initialised ∈ events -> Timeout ∉ events ->
  passes (w_files w) (w_files w) (w_files w) a m f t -> (forall l, say_fails l = None) -> scene_of (vm_render m) t = Some s ->
  configure s (vm_render m) = None -> create_directories (v_output a) (w_files w) = None ->
  save_snapshot s (vm_render m) (w_files w (v_output a)) = Some snap ->
  (if draws_screen_space_edges (vm_render m)
   then exists src, read_image snap = Some src /\ forall out, is_image out -> im_width out = im_width src -> im_height out = im_height src ->
     exists c, save_png out (Some snap) = (Some c, true) /\ acceptable read_image (vm_render m) c
   else acceptable read_image (vm_render m) snap) ->
  exists w', main (inl a) events w = Ret w' (Some 0).
Proof.
  intros a events w m f t s snap [CU FC] IM H1 H2.
  exact (main_completes rl rf rd parent_path join weakly_canonical parse_json sha256_hex hash_fails read_fixture facts
  complex_of vertices_of infinite vertex_key point_of sort_by_key cgal_version qt_version
  configure create_directories save_snapshot read_image save_png what say_fails (fun _ fs => fs) CU FC IM a events w m f t s snap (conj H1 H2)).
Qed.
End Run.
Print Assumptions C71_gate.
Print Assumptions C71_validated_line.
Print Assumptions C71_passing_is_announced.
Print Assumptions C71_other_invocations.
Print Assumptions C74_success_means_artifact.
Print Assumptions C74_every_headless_run.
Print Assumptions C74_success.
(** A run meeting all of this. *)
Example C71_C74_example : exists w', toy_main toy_snapshot nobody (inl toy_args) [Initialised] (mkWorld toy_files []) = Ret w' (Some 0) /\
  w_files w' (B "out.png") = Some [0; 0; 0; 255; 0; 0; 255; 255] /\ length (w_lines w') = 2%nat.
Proof. eexists. split; [vm_compute; reflexivity|vm_compute; auto]. Qed.
Example C71_C74_tools : (forall p, toy_canonical p <> Undef) /\ (forall t, facts_consistent (toy_facts t)) /\
  (forall c im, toy_image c = Some im -> is_image im) /\ (forall e, toy_what e <> []).
Proof. exact toy_tools. Qed.
Example C71_wrong_digest : toy_main toy_snapshot nobody (inl toy_args) [Initialised]
    (mkWorld (put (B "../../fixtures/v1/S3-7-27528-I1-R1-seed30.off") (Some (B "other")) toy_files) []) =
  Ret (mkWorld (put (B "../../fixtures/v1/S3-7-27528-I1-R1-seed30.off") (Some (B "other")) toy_files) []) (Some 1).
Proof. vm_compute. reflexivity. Qed.
Example C74_timeout : exists w', toy_main toy_snapshot nobody (inl toy_args) [Initialised; Timeout] (mkWorld toy_files []) = Ret w' (Some 1) /\
  length (w_lines w') = 1%nat.
Proof. eexists. split; [vm_compute; reflexivity|reflexivity]. Qed.

(** "The fixture that is rendered has the declared digest" fails when the file
    is replaced between hashing it and loading it: it is opened twice. *)
Theorem C71_rendered_bytes_are_hashed_bytes_refuted : exists others w',
  toy_main toy_snapshot others (inl toy_args) [Initialised] (mkWorld toy_files []) = Ret w' (Some 0) /\
  forall bytes, w_files w' (B "../../fixtures/v1/S3-7-27528-I1-R1-seed30.off") = Some bytes ->
    toy_sha bytes <> B "9d86a6e5bd410ea206663c0e3bb633162695768135243016043a34c8634d605b".
Proof. exact swapped_fixture. Qed.
Print Assumptions C71_rendered_bytes_are_hashed_bytes_refuted.
(** "Status 0 means that a picture was rendered" fails when the window is closed
    (quitting with code 0) before the callback ran. *)
Theorem C74_success_after_quit_refuted : exists w',
  toy_main toy_snapshot nobody (inl toy_args) [Quit 0] (mkWorld toy_files []) = Ret w' (Some 0) /\
  w_files w' (B "out.png") = None /\ RenderedTo 2 1 (B "out.png") ∈ w_lines w'.
Proof. exact quit_early. Qed.
Print Assumptions C74_success_after_quit_refuted.
(** "Status 0 means that the picture is new" fails when saving the snapshot
    fails silently and an acceptable picture was already there. *)
Theorem C74_new_picture_refuted : exists w',
  toy_main (fun _ _ old => old) nobody (inl toy_args) [Initialised] (mkWorld (put (B "out.png") (Some toy_picture) toy_files) []) =
    Ret w' (Some 0).
Proof. exact stale_picture. Qed.
Print Assumptions C74_new_picture_refuted.
(** "A failed run leaves the output as it was" fails: a picture that is not
    accepted stays. *)
Theorem C74_failure_leaves_no_artifact_refuted : exists w',
  toy_main (fun _ _ _ => Some [0; 0; 0; 0; 0; 0; 0; 0]) nobody (inl toy_args) [Initialised] (mkWorld toy_files []) = Ret w' (Some 1) /\
  toy_files (B "out.png") = None /\ w_files w' (B "out.png") = Some [0; 0; 0; 0; 0; 0; 0; 0].
Proof. exact rejected_picture_stays. Qed.
Print Assumptions C74_failure_leaves_no_artifact_refuted.

(** ** C72: the outline and the foreground count *)
(** The outline gives the edge colour to exactly the edge pixels of the source,
    keeps every other pixel, and never reads or writes outside the picture. *)
Theorem C72_outline : forall edge point threshold tolerance wide im, is_image im ->
  exists out, outline edge point threshold tolerance wide im = Some out /\
    is_image out /\ im_width out = im_width im /\ im_height out = im_height im /\
    forall x y p, pixel im x y = Some p ->
      (on_edge point threshold tolerance wide im x y -> pixel out x y = Some edge) /\
      (~ on_edge point threshold tolerance wide im x y -> pixel out x y = Some p).
Proof. exact outline_exact. Qed.
Print Assumptions C72_outline.
(** Transparent pixels stay as they are. *)
Theorem C72_outline_keeps_transparent : forall edge point threshold tolerance wide im out x y p, is_image im ->
  outline edge point threshold tolerance wide im = Some out -> pixel im x y = Some p -> alpha p = 0 -> pixel out x y = Some p.
Proof. exact transparent_kept. Qed.
Print Assumptions C72_outline_keeps_transparent.
Theorem C72_foreground : forall background transparent im, is_image im ->
  exists n, foreground_pixels background transparent im = Some n /\ counts_pixels im (foreground background transparent) n.
Proof. exact foreground_exact. Qed.
Print Assumptions C72_foreground.
(** With a transparent background and an opaque edge colour, drawing the outline
    does not change the foreground count. *)
Theorem C72_outline_keeps_foreground : forall edge point threshold tolerance wide background im out n,
  is_image im -> opaque edge -> outline edge point threshold tolerance wide im = Some out ->
  foreground_pixels background true im = Some n -> foreground_pixels background true out = Some n.
Proof. exact outline_keeps_foreground. Qed.
Print Assumptions C72_outline_keeps_foreground.
Example C72_example : is_image (mkImage 2 1 [toy_picture]) /\
  on_edge (mkPx 200 60 60 255) 24 6 false (mkImage 2 1 [toy_picture]) 0 0 /\
  ~ on_edge (mkPx 200 60 60 255) 24 6 false (mkImage 2 1 [toy_picture]) 1 0.
Proof. exact edge_sample. Qed.

(** ** C73: faces and vertices of the scene *)
(** Every finite facet is drawn once, with its own three corners, in a colour of
    the palette. *)
Theorem C73_faces : forall V (key : V -> list Z) point_of rd sort r t, sorts key sort -> facets_ok t ->
  rc_palette r <> [] -> rc_faces r = true ->
  exists l, faces_of key point_of rd sort r t = Some l /\
    Forall2 (fun f x => fst x ∈ rc_palette r /\ has_corners f (snd x)) (cx_facets t) l.
Proof. exact @faces_each. Qed.
Print Assumptions C73_faces.
(** The coloured, oriented faces depend on the triangulation only: not on the
    order of its facets, on the side from which a facet is given, on the order of
    vertices in a cell, or on how equal keys are sorted. *)
Theorem C73_faces_canonical : forall V (key : V -> list Z) point_of rd sort1 sort2 r t t',
  sorts key sort1 -> sorts key sort2 -> same_facets t t' -> keys_distinguish key t ->
  forall l, faces_of key point_of rd sort1 r t = Some l ->
  exists l', faces_of key point_of rd sort2 r t' = Some l' /\ l ≡ₚ l'.
Proof. exact @faces_same. Qed.
Print Assumptions C73_faces_canonical.
Theorem C73_colour_canonical : forall V (key : V -> list Z) point_of rd sort1 sort2 palette f f' vs,
  sorts key sort1 -> sorts key sort2 -> has_corners f vs -> has_corners f' vs ->
  option_map fst (face_of key point_of rd sort1 palette f) = option_map fst (face_of key point_of rd sort2 palette f').
Proof. exact @colour_same. Qed.
Print Assumptions C73_colour_canonical.
(** Which vertices are drawn. *)
Theorem C73_vertices : forall V `{EqDecision V} (infinite : V) key sort r t v, sorts key sort -> facets_ok t ->
  draws_vertex infinite key sort r t v = true <->
  rc_vertices r = true /\ (rc_vertex_scope r = B "all" \/ rc_vertex_scope r = B "convex_hull" /\
    exists f vs u, f ∈ cx_facets t /\ on_boundary infinite t f /\ has_corners f vs /\ u ∈ vs /\ key u = key v).
Proof. intros V D infinite key sort r t v. exact (draws_spec infinite key (fun _ => mkPoint3 NaN NaN NaN) sort r t v). Qed.
Print Assumptions C73_vertices.
(** The whole scene: the faces above or none, the drawn vertices of the
    triangulation and no others, and edges in the scene exactly for scope "all"
    -- never together with edges drawn on the picture. *)
Theorem C73_scene : forall (T V : Type) `{EqDecision V} (rd : Q -> fp) (complex_of : T -> complex V) (vertices_of : T -> list V)
    infinite key point_of sort r t sc,
  make_scene rd complex_of vertices_of infinite key point_of sort r t = Some sc ->
  faces_of key point_of rd sort r (complex_of t) = Some (sc_faces sc) /\
  (rc_faces r = false -> sc_faces sc = []) /\
  (forall v, v ∈ sc_vertices sc <-> v ∈ vertices_of t /\ draws_vertex infinite key sort r (complex_of t) v = true) /\
  (sc_edges sc = true <-> rc_edges r = true /\ rc_edge_scope r = B "all") /\
  (draws_screen_space_edges r = true <-> rc_edges r = true /\ rc_edge_scope r = B "screen_space_face_boundaries") /\
  ~ (sc_edges sc = true /\ draws_screen_space_edges r = true).
Proof. exact @scene_contents. Qed.
Print Assumptions C73_scene.
(** A drawn face is wound counterclockwise seen from outside, up to rounding:
    the determinant of its corners is at least -311 u r^3 (for double and
    coordinates up to r: -2^-44 r^3), so a face not that close to radial is wound
    outward. *)
Theorem C73_outward : forall V (point_of : V -> point3) (pos : V -> Q * Q * Q) rd u big r vs,
  rounds u big rd -> (0 <= u)%Q -> (u * 1000 <= 1)%Q -> (1 <= r)%Q -> (1000 * (r * r * r) <= big)%Q ->
  (forall v, v ∈ vs -> at_point (point_of v) (pos v) /\ within r (pos v)) -> length vs = 3%nat ->
  exists a b c, orient_outward point_of rd vs = [a; b; c] /\ [a; b; c] ≡ₚ vs /\
    (- (311 * u * (r * r * r)) <= det3 (pos a) (pos b) (pos c))%Q.
Proof. intros V point_of pos rd u big r vs R U0 U1 R1 Bg. exact (outward_rounded rd u big r R U0 U1 R1 Bg point_of pos vs). Qed.
Print Assumptions C73_outward.
(** Rounding down to multiples of 2^-60 is an example of such a rounding. *)
Example C73_outward_met : rounds (1 # 9007199254740992) 1000000 fixed_point.
Proof. exact (fixed_point_rounds _). Qed.
Example C73_example : sorts toy_key toy_sort /\ facets_ok (toy_complex 4) /\ keys_distinguish toy_key (toy_complex 4) /\
  draws_vertex 0%nat toy_key toy_sort toy_render (toy_complex 4) 3%nat = true.
Proof. exact scene_sample. Qed.
