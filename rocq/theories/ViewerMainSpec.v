(** What the viewer promises about its fixture and its output (C71, C74). *)
From Verif Require Import Base Config Text ViewerImage ViewerImageSpec Viewer ViewerSpec ViewerScene ViewerSceneSpec ViewerMain.
From Coq Require Import QArith.
Local Open Scope Z_scope.

Section Spec.
Context (rl rf : Q -> fp).
Context (parent_path : text -> text) (join : text -> text -> text) (weakly_canonical : text -> checked text).
Context (parse_json : text -> option json) (sha256_hex : text -> text) (hash_fails : text -> bool).
Context {T : Type} (read_fixture : files -> text -> T + exn) (facts : T -> fixture_facts).
Context (cgal_version qt_version : text).

(** The manifest named on the command line, as found in [fs]. *)
Definition manifest_in (fs : files) (a : viewer_args) (m : viewer_manifest) : Prop :=
  exists path content root, v_manifest a = Some path /\ fs path = Some content /\ parse_json content = Some root /\
    declares rl rf parent_path join weakly_canonical path root m.
(** The fixture is the one declared, unless --fixture names another. *)
Definition fixture_path (a : viewer_args) (m : viewer_manifest) (fixture : text) : Prop :=
  (v_fixture a = [] /\ fixture = vm_fixture m) \/ (v_fixture a <> [] /\ weakly_canonical (v_fixture a) = Val fixture).
(** Its bytes have the declared digest. *)
Definition digest_in (fs : files) (m : viewer_manifest) (fixture : text) : Prop :=
  exists bytes, fs fixture = Some bytes /\ hash_fails fixture = false /\ sha256_hex bytes = vm_sha256 m.
(** The manifest was written for this renderer. *)
Definition versions_match (m : viewer_manifest) : Prop := vm_cgal m = cgal_version /\ vm_qt m = qt_version.
(** The fixture loads (payload and sidecar agree, include/Utilities.hpp) and has
    the declared topology. *)
Definition loads_in (fs : files) (m : viewer_manifest) (fixture : text) (t : T) : Prop :=
  read_fixture fs fixture = inl t /\ fixture_matches (facts t) (vm_expected m).
(** Everything that must hold before anything is shown; the manifest is read
    from [fs0], the fixture hashed in [fs1] and loaded from [fs2]. *)
Definition passes (fs0 fs1 fs2 : files) (a : viewer_args) (m : viewer_manifest) (fixture : text) (t : T) : Prop :=
  manifest_in fs0 a m /\ fixture_path a m fixture /\ digest_in fs1 m fixture /\ versions_match m /\ loads_in fs2 m fixture t.
End Spec.

(** Two file systems differ at most in [p]. *)
Definition same_except (p : text) (f g : files) : Prop := forall q, q <> p -> f q = g q.
(** Content [c] decodes to an image of the declared size with at least the
    declared number of foreground pixels. *)
Definition acceptable (read_image : text -> option image) (r : render_config) (c : text) : Prop :=
  exists im n, read_image c = Some im /\ is_image im /\
    Z.of_nat (im_width im) = rc_width r /\ Z.of_nat (im_height im) = rc_height r /\
    counts_pixels im (foreground (rc_background r) (rc_transparent r)) n /\ rc_minimum r <= Z.of_nat n.
(** [c] is what the snapshot of the scene [snap] becomes: itself, or, if face
    boundaries are to be drawn, the saved image that has the edge colour exactly
    on the edges found in the snapshot and is unchanged elsewhere. *)
Definition finished (read_image : text -> option image) (save_png : image -> option text -> option text * bool)
  (r : render_config) (snap : option text) (c : option text) : Prop :=
  if draws_screen_space_edges r then
    exists src out, snap ≫= read_image = Some src /\ save_png out snap = (c, true) /\
      im_width out = im_width src /\ im_height out = im_height src /\
      forall x y p, pixel src x y = Some p ->
        let edge := on_edge (rc_point r) (rc_threshold r) (rc_tolerance r) (fp_lt (fpz 1) (rc_line_width r)) src x y in
        (edge -> pixel out x y = Some (rc_edge r)) /\ (~ edge -> pixel out x y = Some p)
  else c = snap.
