(** src/cdt-viewer.cpp: rendering, the event loop and main (lines 539-554,
    714-766, 772-793, 820-830, 905-910, 935-1121). *)
From Verif Require Import Base Config Text Fnv ViewerImage Viewer ViewerScene.
From Verif Require Program.
From Coq Require Import QArith.
Local Open Scope Z_scope.

(** Contents of regular files by path; [None]: no such file (or unreadable). *)
Definition files : Type := text -> option text.
Definition put (p : text) (c : option text) (f : files) : files := fun q => if bool_decide (q = p) then c else f q.

(** Lines printed on standard output. *)
Inductive vline : Type := VHelp | VVersion | Validated (fixture : text) (t : topology) | RenderedTo (width height : Z) (path : text).
Record world : Type := mkWorld { w_files : files; w_lines : list vline }.

(** src/cdt-viewer.cpp:1043-1058: the options after parsing; a string option
    that is not given is empty. *)
Record viewer_args : Type := mkViewerArgs {
  v_help : bool; v_version : bool; v_manifest : option text; v_fixture : text; v_output : text }.

(** What the Qt event loop delivers: the first initGL of the widget (after which
    the single-shot timer runs the callback), the watchdog, and a request to
    quit with a code coming from elsewhere (the window was closed). *)
Inductive event : Type := Initialised | Timeout | Quit (code : Z).

Section Main.
Context (rl rf rd : Q -> fp).
Context (parent_path : text -> text) (join : text -> text -> text) (weakly_canonical : text -> checked text).
Context (parse_json : text -> option json).
(** Lower-case hexadecimal SHA-256; whether QCryptographicHash can read the file. *)
Context (sha256_hex : text -> text) (hash_fails : text -> bool).
(** The triangulation, and include/Utilities.hpp:1937-1951 [read_file] as a
    function of the files it reads. *)
Context {T V : Type} `{EqDecision V} (read_fixture : files -> text -> T + exn).
Context (facts : T -> fixture_facts) (complex_of : T -> complex V) (vertices_of : T -> list V).
Context (infinite : V) (vertex_key : V -> list Z) (point_of : V -> point3) (sort_by_key : list V -> list V).
(** CGAL_VERSION_STR, qVersion(). *)
Context (cgal_version qt_version : text).
(** The scene handed to the viewer, lines 714-766. *)
Record scene : Type := mkScene { sc_faces : list (px * list V); sc_vertices : list V; sc_edges : bool }.
Definition make_scene (r : render_config) (t : T) : option scene :=
  faces ← faces_of vertex_key point_of rd sort_by_key r (complex_of t);
  Some (mkScene faces (List.filter (draws_vertex infinite vertex_key sort_by_key r (complex_of t)) (vertices_of t))
          (draws_scene_edges r)).
(** Qt and the operating system: configure_viewer (lines 772-793) may throw;
    create_directories may throw; saveSnapshot reports nothing and turns the
    old content of the output into some new one; decoding an image file and
    converting it to RGBA8888; QImage::save, with its result. *)
Context (configure : scene -> render_config -> option exn) (create_directories : text -> files -> option exn).
Context (save_snapshot : scene -> render_config -> option text -> option text).
Context (read_image : text -> option image) (save_png : image -> option text -> option text * bool).
(** std::exception::what(), and printing (fmt::print may throw). *)
Context (what : exn -> text) (say_fails : vline -> option exn).
(** What other processes do to the files before the three accesses of main:
    the manifest (0), hashing the fixture (1), reading the fixture (2). *)
Context (others : nat -> files -> files).

(** src/cdt-viewer.cpp:539-554 [sha256]. *)
Definition sha256 (fs : files) (p : text) : checked text :=
  match fs p with
  | None => Throws FilesystemError
  | Some c => if hash_fails p then Throws RuntimeError else Val (sha256_hex c)
  end.

(** src/cdt-viewer.cpp:820-910 [outline_face_boundaries] on the file. *)
Definition outline_file (output : text) (r : render_config) (fs : files) : res files unit :=
  if negb (draws_screen_space_edges r) then Ret fs tt
  else match fs output ≫= read_image with
       | None => Thr fs RuntimeError
       | Some src =>
           match outline (rc_edge r) (rc_point r) (rc_threshold r) (rc_tolerance r)
                   (fp_lt (fpz 1) (rc_line_width r)) src with
           | None => UB
           | Some out =>
               let '(c, ok) := save_png out (fs output) in
               let fs' := put output c fs in
               if (ok : bool) then Ret fs' tt else Thr fs' RuntimeError
           end
       end.
(** src/cdt-viewer.cpp:935-966 [validate_image]. QImageReader::canRead, size
    and read describe the one decoded image. *)
Definition validate_image (output : text) (r : render_config) (fs : files) : res files unit :=
  match fs output ≫= read_image with
  | None => Thr fs RuntimeError
  | Some im =>
      if negb (Z.of_nat (im_width im) =? rc_width r) || negb (Z.of_nat (im_height im) =? rc_height r) then Thr fs RuntimeError
      else match foreground_pixels (rc_background r) (rc_transparent r) im with
           | None => UB
           | Some n => if Z.of_nat n <? rc_minimum r then Thr fs RuntimeError else Ret fs tt
           end
  end.
(** src/cdt-viewer.cpp:989-1003: the body of the headless callback. *)
Definition render_artifact (s : scene) (r : render_config) (output : text) (fs : files) : res files unit :=
  match configure s r with
  | Some e => Thr fs e
  | None =>
      match create_directories output fs with
      | Some e => Thr fs e
      | None =>
          let fs := put output (save_snapshot s r (fs output)) fs in
          Program.andthen (outline_file output r fs) (fun _ fs => validate_image output r fs)
      end
  end.

(** The state of the event loop: files, render_error, the code of the last
    application.exit, callback_scheduled_, and whether the single-shot watchdog
    has fired. *)
Record qt : Type := mkQt {
  q_files : files; q_error : text; q_code : option Z; q_scheduled : bool; q_fired : bool }.
(** src/cdt-viewer.cpp:986-1031 and 161-171: delivering one event. *)
Definition deliver (s : scene) (r : render_config) (output : text) (e : event) (q : qt) : res qt unit :=
  match e with
  | Initialised =>
      if q_scheduled q then Ret q tt
      else if bool_decide (output = []) then
        match configure s r with
        | Some _ => Abort
        | None => Ret (mkQt (q_files q) (q_error q) (q_code q) true (q_fired q)) tt
        end
      else match render_artifact s r output (q_files q) with
           | Ret fs _ => Ret (mkQt fs (q_error q) (Some Program.EXIT_SUCCESS) true (q_fired q)) tt
           | Thr fs e => Ret (mkQt fs (what e) (Some Program.EXIT_FAILURE) true (q_fired q)) tt
           | UB => UB | Abort => Abort
           end
  | Timeout =>
      if q_fired q || bool_decide (output = []) then Ret q tt
      else Ret (mkQt (q_files q) (B "Headless renderer timed out before completion.") (Some Program.EXIT_FAILURE) (q_scheduled q) true) tt
  | Quit code => Ret (mkQt (q_files q) (q_error q) (Some code) (q_scheduled q) (q_fired q)) tt
  end.
(** application.exec(): [events] are the events delivered before it returned; a
    call of exit does not stop the delivery of events already due. *)
Fixpoint exec (s : scene) (r : render_config) (output : text) (events : list event) (q : qt) : res qt unit :=
  match events with
  | [] => Ret q tt
  | e :: l => match deliver s r output e q with Ret q' _ => exec s r output l q' | x => x end
  end.
(** src/cdt-viewer.cpp:968-1037 [run_viewer]; [None]: the loop has not
    returned after these events. *)
Definition run_viewer (s : scene) (r : render_config) (output : text) (events : list event) (fs : files)
  : res files (option Z) :=
  match exec s r output events (mkQt fs [] None false false) with
  | Ret q _ =>
      match q_code q with
      | None => Ret (q_files q) None
      | Some c => if bool_decide (q_error q = []) then Ret (q_files q) (Some c) else Thr (q_files q) RuntimeError
      end
  | Thr q e => Thr (q_files q) e
  | UB => UB | Abort => Abort
  end.

Definition say (l : vline) (w : world) : res world unit :=
  match say_fails l with Some e => Thr w e | None => Ret (mkWorld (w_files w) (w_lines w ++ [l])) tt end.
Definition meanwhile (n : nat) (w : world) : world := mkWorld (others n (w_files w)) (w_lines w).
(** src/cdt-viewer.cpp:1072-1109: after po::notify. *)
Definition show (a : viewer_args) (events : list event) (w : world) : res world (option Z) :=
  Program.andthen (Program.of_option (v_manifest a) LogicError w) (fun path w =>
  let w := meanwhile 0 w in
  Program.andthen (Program.of_checked (parse_manifest rl rf parent_path join weakly_canonical parse_json path (w_files w path)) w)
    (fun m w =>
  Program.andthen (if bool_decide (v_fixture a = []) then Ret w (vm_fixture m)
                   else Program.of_checked (weakly_canonical (v_fixture a)) w) (fun fixture w =>
  let w := meanwhile 1 w in
  Program.andthen (Program.of_checked (sha256 (w_files w) fixture) w) (fun digest w =>
  if negb (bool_decide (digest = vm_sha256 m)) then Thr w InvalidArgument else
  if negb (bool_decide (vm_cgal m = cgal_version)) || negb (bool_decide (vm_qt m = qt_version)) then Thr w RuntimeError else
  let w := meanwhile 2 w in
  Program.andthen (Program.of_sum (read_fixture (w_files w) fixture) w) (fun t w =>
  Program.andthen (Program.of_checked (validate_fixture (facts t) (vm_expected m)) w) (fun _ w =>
  match make_scene (vm_render m) t with
  | None => UB
  | Some s =>
      Program.andthen (say (Validated fixture (vm_expected m)) w) (fun _ w =>
      match run_viewer s (vm_render m) (v_output a) events (w_files w) with
      | Ret fs status =>
          let w := mkWorld fs (w_lines w) in
          match status with
          | None => Ret w None
          | Some c =>
              if bool_decide (v_output a = []) then Ret w (Some c)
              else Program.andthen (say (RenderedTo (rc_width (vm_render m)) (rc_height (vm_render m)) (v_output a)) w)
                     (fun _ w => Ret w (Some c))
          end
      | Thr fs e => Thr (mkWorld fs (w_lines w)) e
      | UB => UB | Abort => Abort
      end)
  end)))))).
(** src/cdt-viewer.cpp:1040-1120 [main]; [parsed]: the outcome of
    po::parse_command_line; [None] as a result: still running. *)
Definition viewer_main (parsed : viewer_args + exn) (events : list event) (w : world) : res world (option Z) :=
  let body :=
    match parsed with
    | inr e => Thr w e
    | inl a =>
        if v_help a then Program.andthen (say VHelp w) (fun _ w => Ret w (Some Program.EXIT_SUCCESS))
        else if v_version a then Program.andthen (say VVersion w) (fun _ w => Ret w (Some Program.EXIT_SUCCESS))
        else show a events w
    end in
  match body with Thr w _ => Ret w (Some Program.EXIT_FAILURE) | r => r end.
End Main.
