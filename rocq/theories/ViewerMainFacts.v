(** Proofs about the viewer's main. *)
From Verif Require Import Base Config ConfigSpec Text ViewerImage ViewerImageSpec ViewerImageFacts Viewer ViewerSpec ViewerFacts ViewerFrame.
From Verif Require Import ViewerScene ViewerSceneSpec ViewerSceneFacts ViewerMain ViewerMainSpec.
From Verif Require Program.
From Coq Require Import QArith.
Local Open Scope Z_scope.
Local Opaque B.

Section Loop.
Context {V : Type} (configure : scene (V := V) -> render_config -> option exn) (create_directories : text -> files -> option exn).
Context (save_snapshot : scene (V := V) -> render_config -> option text -> option text).
Context (read_image : text -> option image) (save_png : image -> option text -> option text * bool).
Context (what : exn -> text).
Notation artifact := (render_artifact configure create_directories save_snapshot read_image save_png).
Notation step := (deliver configure create_directories save_snapshot read_image save_png what).
Notation loop_ := (exec configure create_directories save_snapshot read_image save_png what).
Notation runs := (run_viewer configure create_directories save_snapshot read_image save_png what).
Context (IM : forall c im, read_image c = Some im -> is_image im).

(** ** Rendering *)
Lemma outline_file_spec output r fs :
  (exists fs', outline_file read_image save_png output r fs = Ret fs' tt /\ same_except output fs fs' /\
     finished read_image save_png r (fs output) (fs' output)) \/
  (exists fs' e, outline_file read_image save_png output r fs = Thr fs' e /\ same_except output fs fs').
Proof using IM.
  unfold outline_file, finished. destruct (draws_screen_space_edges r); cbn [negb].
  2:{ left. exists fs. split; [done|]. by split. }
  destruct (fs output ≫= read_image) as [src|] eqn:E; [|right; exists fs, RuntimeError; by split].
  assert (I : is_image src).
  { destruct (fs output) as [c|]; [|done]. exact (IM c src E). }
  destruct (outline_exact (rc_edge r) (rc_point r) (rc_threshold r) (rc_tolerance r) (fp_lt (fpz 1) (rc_line_width r)) src I)
    as (out & Eo & Io & Ew & Eh & P).
  rewrite Eo. destruct (save_png out (fs output)) as [c ok] eqn:Es.
  assert (SE : same_except output fs (put output c fs)).
  { intros q N. unfold put. by rewrite bool_decide_eq_false_2. }
  destruct ok; [left|right; eauto]. exists (put output c fs). split; [done|]. split; [done|].
  exists src, out. split; [done|]. split; [|by split].
  unfold put. rewrite bool_decide_eq_true_2 by done. done.
Qed.
Lemma validate_image_spec output r fs :
  (validate_image read_image output r fs = Ret fs tt /\ exists c, fs output = Some c /\ acceptable read_image r c) \/
  (exists e, validate_image read_image output r fs = Thr fs e /\ forall c, fs output = Some c -> ~ acceptable read_image r c).
Proof using IM.
  unfold validate_image. destruct (fs output) as [c|] eqn:E; cbn; [|right; exists RuntimeError; by split].
  destruct (read_image c) as [im|] eqn:Ei.
  2:{ right. exists RuntimeError. split; [done|]. intros ? [= <-] (? & ? & ? & _). congruence. }
  pose proof (IM _ _ Ei) as I.
  destruct (Z.eqb_spec (Z.of_nat (im_width im)) (rc_width r)) as [Ew|Nw]; cbn [negb orb].
  2:{ right. exists RuntimeError. split; [done|]. intros ? [= <-] (im' & ? & Ei' & _ & W & _). rewrite Ei in Ei'. by injection Ei' as <-. }
  destruct (Z.eqb_spec (Z.of_nat (im_height im)) (rc_height r)) as [Eh|Nh]; cbn [negb].
  2:{ right. exists RuntimeError. split; [done|]. intros ? [= <-] (im' & ? & Ei' & _ & _ & H & _). rewrite Ei in Ei'. by injection Ei' as <-. }
  destruct (foreground_exact (rc_background r) (rc_transparent r) im I) as (n & En & C). rewrite En.
  destruct (Z.ltb_spec (Z.of_nat n) (rc_minimum r)) as [L|L].
  - right. exists RuntimeError. split; [done|]. intros ? [= <-] (im' & n' & Ei' & _ & _ & _ & C' & L').
    rewrite Ei in Ei'. injection Ei' as <-. assert (n = n') by (eapply counts_unique; [|exact C|exact C']; done). lia.
  - left. split; [done|]. exists c. split; [done|]. exists im, n. done.
Qed.
Lemma artifact_spec s r output fs :
  (exists fs' c, artifact s r output fs = Ret fs' tt /\ same_except output fs fs' /\ fs' output = Some c /\
     acceptable read_image r c /\ finished read_image save_png r (save_snapshot s r (fs output)) (Some c)) \/
  (exists fs' e, artifact s r output fs = Thr fs' e /\ same_except output fs fs').
Proof using IM.
  unfold render_artifact. destruct (configure s r) as [e|]; [right; exists fs, e; by split|].
  destruct (create_directories output fs) as [e|]; [right; exists fs, e; by split|].
  set (fs1 := put output _ fs).
  assert (S1 : same_except output fs fs1).
  { intros q N. unfold fs1, put. by rewrite bool_decide_eq_false_2. }
  assert (O1 : fs1 output = save_snapshot s r (fs output)).
  { unfold fs1, put. by rewrite bool_decide_eq_true_2. }
  destruct (outline_file_spec output r fs1) as [(fs2 & E & S2 & F) | (fs2 & e & E & S2)]; rewrite E; cbn.
  2:{ right. exists fs2, e. split; [done|]. intros q N. rewrite S1, S2 by done. done. }
  assert (S3 : same_except output fs fs2) by (intros q N; rewrite S1, S2 by done; done).
  destruct (validate_image_spec output r fs2) as [(Ev & c & Ec & A) | (e & Ev & _)]; rewrite Ev.
  - left. exists fs2, c. rewrite O1, Ec in F. done.
  - right. eauto.
Qed.

(** ** The event loop *)
Definition is_quit (e : event) : bool := match e with Quit _ => true | _ => false end.
Lemma exec_app s r output l1 l2 q : loop_ s r output (l1 ++ l2) q =
  match loop_ s r output l1 q with Ret q' _ => loop_ s r output l2 q' | x => x end.
Proof.
  revert q. induction l1 as [|e l IH]; intros q; cbn; [done|].
  destruct (step s r output e q); [apply IH|done..].
Qed.
Lemma B_timeout : B "Headless renderer timed out before completion." <> [].
Proof. by vm_compute. Qed.
Notation TO := (B "Headless renderer timed out before completion.").
(** The states of a headless loop that nobody quits. *)
Inductive reached (s : scene (V := V)) (r : render_config) (output : text) (fs : files) : list event -> qt -> Prop :=
| r_start : reached s r output fs [] (mkQt fs [] None false false)
| r_timeout es : Timeout ∈ es -> Initialised ∉ es -> reached s r output fs es (mkQt fs TO (Some 1) false true)
| r_ok es fs' : Initialised ∈ es -> Timeout ∉ es -> artifact s r output fs = Ret fs' tt ->
    reached s r output fs es (mkQt fs' [] (Some 0) true false)
| r_fail es fs' e : Initialised ∈ es -> Timeout ∉ es -> artifact s r output fs = Thr fs' e ->
    reached s r output fs es (mkQt fs' (what e) (Some 1) true false)
| r_late es fs' c u : Initialised ∈ es -> Timeout ∈ es ->
    artifact s r output fs = Ret fs' tt \/ (exists e, artifact s r output fs = Thr fs' e) -> u = TO ->
    reached s r output fs es (mkQt fs' u (Some c) true true)
| r_after es fs' e : Initialised ∈ es -> Timeout ∈ es -> artifact s r output fs = Thr fs' e ->
    reached s r output fs es (mkQt fs' (what e) (Some 1) true true).
Lemma deliver_reached s r output fs es e q : output <> [] -> is_quit e = false -> reached s r output fs es q ->
  exists q', step s r output e q = Ret q' tt /\ reached s r output fs (es ++ [e]) q'.
Proof using IM.
  intros NO NQ R. destruct e as [| |code]; [| |done].
  all: assert (M1 : forall x y : event, x ∈ es -> x ∈ es ++ [y]) by (intros; apply elem_of_app; auto).
  all: assert (M2 : forall x : event, x ∈ es ++ [x]) by (intros; apply elem_of_app; right; by apply elem_of_list_singleton).
  all: assert (M3 : forall x y : event, x ∉ es -> x <> y -> x ∉ es ++ [y])
    by (intros x y; rewrite elem_of_app, elem_of_list_singleton; tauto).
  - unfold deliver. rewrite (bool_decide_eq_false_2 (output = [])) by done.
    destruct (artifact_spec s r output fs) as [(fs' & c & A & _) | (fs' & e & A & _)];
      inversion R; subst; cbn [q_scheduled q_files q_error q_code q_fired]; rewrite ?A; eexists; (split; [reflexivity|]).
    + by apply r_ok; [apply M2|apply M3; [apply not_elem_of_nil|]|].
    + apply r_late; auto.
    + apply r_ok; auto.
    + eapply r_fail; eauto.
    + apply r_late; auto.
    + eapply r_after; eauto.
    + eapply r_fail; [apply M2|apply M3; [apply not_elem_of_nil|done]|done].
    + apply r_after; auto.
    + apply r_ok; auto.
    + eapply r_fail; eauto.
    + apply r_late; auto.
    + eapply r_after; eauto.
  - unfold deliver. rewrite (bool_decide_eq_false_2 (output = [])) by done.
    inversion R; subst; cbn [q_scheduled q_files q_error q_code q_fired orb]; eexists; (split; [reflexivity|]).
    + apply r_timeout; [apply M2|apply M3; [apply not_elem_of_nil|done]].
    + apply r_timeout; auto.
    + apply r_late; auto.
    + apply r_late; eauto.
    + apply r_late; auto.
    + eapply r_after; eauto.
Qed.
Lemma exec_reached s r output fs : output <> [] -> forall l es q, forallb (fun e => negb (is_quit e)) l = true ->
  reached s r output fs es q -> exists q', loop_ s r output l q = Ret q' tt /\ reached s r output fs (es ++ l) q'.
Proof using IM.
  intros NO. induction l as [|e l IH]; intros es q N R; [exists q; by rewrite app_nil_r|].
  cbn in N. apply andb_prop in N as [Ne Nl]. apply negb_true_iff in Ne.
  destruct (deliver_reached s r output fs es e q NO Ne R) as (q1 & E1 & R1). cbn [exec]. rewrite E1.
  destruct (IH _ _ Nl R1) as (q2 & E2 & R2). exists q2. rewrite <- app_assoc in R2. done.
Qed.
Lemma run_headless s r output events fs : output <> [] -> (forall c, Quit c ∉ events) ->
  (events = [] /\ runs s r output events fs = Ret fs None) \/
  (Initialised ∈ events /\ Timeout ∉ events /\ exists fs', artifact s r output fs = Ret fs' tt /\
     runs s r output events fs = Ret fs' (Some 0)) \/
  ((Timeout ∈ events \/ exists fs' e, artifact s r output fs = Thr fs' e) /\ exists fs', same_except output fs fs' /\
     (runs s r output events fs = Thr fs' RuntimeError \/
      (runs s r output events fs = Ret fs' (Some 1) /\ exists e, what e = [] /\ artifact s r output fs = Thr fs' e))).
Proof using IM.
  intros NO NQ. assert (N : forallb (fun e => negb (is_quit e)) events = true).
  { apply forallb_forall. intros [| |c] He; [done..|]. by apply elem_of_list_In, NQ in He. }
  destruct (exec_reached s r output fs NO events [] _ N (r_start s r output fs)) as (q & E & R). cbn [app] in R.
  unfold run_viewer. rewrite E.
  assert (SE : forall fs', (artifact s r output fs = Ret fs' tt \/ exists e, artifact s r output fs = Thr fs' e) -> same_except output fs fs').
  { intros fs' A. destruct (artifact_spec s r output fs) as [(fs1 & c & A1 & S & _) | (fs1 & e1 & A1 & S)];
      destruct A as [A | [e A]]; rewrite A in A1; inversion A1; subst; done. }
  inversion R; subst; cbn [q_code q_error q_files].
  - left. done.
  - right; right. split; [auto|]. exists fs. split; [done|]. left. rewrite bool_decide_eq_false_2 by apply B_timeout. done.
  - right; left. split; [done|]. split; [done|]. exists fs'. split; [done|]. by rewrite bool_decide_eq_true_2.
  - right; right. split; [right; eauto|]. exists fs'. split; [apply SE; eauto|].
    destruct (bool_decide_reflect (what e = [])) as [W|W]; [right|left]; eauto.
  - right; right. split; [auto|]. exists fs'. split; [by apply SE|]. left. rewrite bool_decide_eq_false_2 by apply B_timeout. done.
  - right; right. split; [auto|]. exists fs'. split; [apply SE; eauto|].
    destruct (bool_decide_reflect (what e = [])) as [W|W]; [right|left]; eauto.
Qed.

End Loop.

(** ** Manifests *)
Section Manifest.
Context (rl rf : Q -> fp) (parent_path : text -> text) (join : text -> text -> text) (weakly_canonical : text -> checked text).
Context (parse_json : text -> option json).
Notation means := (declares rl rf parent_path join weakly_canonical).
Notation accepts := (parse_manifest rl rf parent_path join weakly_canonical parse_json).
Lemma declares_is_object {path root m} : means path root m -> exists o, root = JObj o.
Proof. intros D. destruct (d_schema _ _ _ _ _ _ _ _ D) as (? & Dd & _). inversion Dd; subst. eauto. Qed.
Lemma manifest_exact path content m : accepts path (Some content) = Val m <->
  exists root, parse_json content = Some root /\ means path root m.
Proof.
  unfold parse_manifest. split.
  - destruct (parse_json content) as [[]|]; try done. intros H. eexists. split; [done|]. by apply parse_sound.
  - intros (root & -> & D). destruct (declares_is_object D) as [o ->]. by apply parse_complete.
Qed.
Lemma manifest_tame path content : (forall p, weakly_canonical p <> Undef) ->
  match accepts path content with
  | Val _ => True
  | Throws e => match content with None => e = FilesystemError | Some _ => e = InvalidArgument \/ exists p, weakly_canonical p = Throws e end
  | Undef => False
  end.
Proof.
  intros U. unfold parse_manifest. destruct content as [c|]; [|auto]. destruct (parse_json c) as [[]|]; auto.
  pose proof (parse_tame rl rf parent_path join weakly_canonical path o U) as T.
  destruct (parse_document rl rf parent_path join weakly_canonical path o); cbn in T; try done.
Qed.
Lemma declares_unique path root m m' : means path root m -> means path root m' -> m = m'.
Proof. intros D D'. destruct (declares_is_object D) as [o ->]. apply parse_complete in D, D'. rewrite D in D'. by injection D'. Qed.
Lemma declared_frame rd path root m : fp_contract rd rl -> means path root m ->
  0 < rc_width (vm_render m) /\ 0 < rc_height (vm_render m) /\
  rc_width (vm_render m) * rc_height (vm_render m) <= 268435456 /\
  rc_minimum (vm_render m) <= rc_width (vm_render m) * rc_height (vm_render m).
Proof.
  intros C D. destruct (d_width _ _ _ _ _ _ _ _ D) as [(? & _ & _ & W & _) W0]. destruct (d_height _ _ _ _ _ _ _ _ D) as [(? & _ & _ & H & _) H0].
  destruct (d_oversampling _ _ _ _ _ _ _ _ D) as [_ [O _]]. destruct (d_frame _ _ _ _ _ _ _ _ D) as (F1 & F2 & F3).
  split; [done|]. split; [done|]. split; [|apply (d_minimum _ _ _ _ _ _ _ _ D)].
  eapply (frame_bounded rd rl C); [lia|lia|exact O|done..].
Qed.
End Manifest.

Section Main.
Context (rl rf rd : Q -> fp).
Context (parent_path : text -> text) (join : text -> text -> text) (weakly_canonical : text -> checked text).
Context (parse_json : text -> option json) (sha256_hex : text -> text) (hash_fails : text -> bool).
Context {T V : Type} `{EqDecision V} (read_fixture : files -> text -> T + exn).
Context (facts : T -> fixture_facts) (complex_of : T -> complex V) (vertices_of : T -> list V).
Context (infinite : V) (vertex_key : V -> list Z) (point_of : V -> point3) (sort_by_key : list V -> list V).
Context (cgal_version qt_version : text).
Context (configure : scene (V := V) -> render_config -> option exn) (create_directories : text -> files -> option exn).
Context (save_snapshot : scene (V := V) -> render_config -> option text -> option text).
Context (read_image : text -> option image) (save_png : image -> option text -> option text * bool).
Context (what : exn -> text) (say_fails : vline -> option exn).
Context (others : nat -> files -> files).
Notation scene_of := (make_scene rd complex_of vertices_of infinite vertex_key point_of sort_by_key).
Notation artifact := (render_artifact configure create_directories save_snapshot read_image save_png).
Notation runs := (run_viewer configure create_directories save_snapshot read_image save_png what).
Notation shows := (show rl rf rd parent_path join weakly_canonical parse_json sha256_hex hash_fails read_fixture facts
  complex_of vertices_of infinite vertex_key point_of sort_by_key cgal_version qt_version
  configure create_directories save_snapshot read_image save_png what say_fails others).
Notation main := (viewer_main rl rf rd parent_path join weakly_canonical parse_json sha256_hex hash_fails read_fixture facts
  complex_of vertices_of infinite vertex_key point_of sort_by_key cgal_version qt_version
  configure create_directories save_snapshot read_image save_png what say_fails others).
Notation passes := (passes rl rf parent_path join weakly_canonical parse_json sha256_hex hash_fails read_fixture facts
  cgal_version qt_version).
Context (CU : forall p, weakly_canonical p <> Undef).
Context (FC : forall t, facts_consistent (facts t)).
Context (IM : forall c im, read_image c = Some im -> is_image im).

(** ** Before the event loop *)
Definition after (a : viewer_args) (events : list event) (m : viewer_manifest) (s : scene) (w : world) : res world (option Z) :=
  match runs s (vm_render m) (v_output a) events (w_files w) with
  | Ret fs status =>
      let w := mkWorld fs (w_lines w) in
      match status with
      | None => Ret w None
      | Some c =>
          if bool_decide (v_output a = []) then Ret w (Some c)
          else Program.andthen (say say_fails (RenderedTo (rc_width (vm_render m)) (rc_height (vm_render m)) (v_output a)) w)
                 (fun _ w => Ret w (Some c))
      end
  | Thr fs e => Thr (mkWorld fs (w_lines w)) e
  | UB => UB | Abort => Abort
  end.
Lemma scene_some r t : rc_palette r <> [] -> exists s, scene_of r t = Some s.
Proof.
  intros N. unfold make_scene, faces_of. destruct (rc_faces r); [|cbn; eauto].
  assert (H : exists l, mapM (face_of vertex_key point_of rd sort_by_key (rc_palette r)) (cx_facets (complex_of t)) = Some l).
  { induction (cx_facets (complex_of t)) as [|f l [l' IH]]; [by exists []|].
    destruct (face_of_some vertex_key point_of rd sort_by_key (rc_palette r) f N) as (c & E & _). cbn. rewrite E. cbn. rewrite IH. cbn. eauto. }
  destruct H as [l ->]. cbn. eauto.
Qed.
Lemma declares_object {path root m} : declares rl rf parent_path join weakly_canonical path root m -> exists o, root = JObj o.
Proof. intros D. destruct (d_schema _ _ _ _ _ _ _ _ D) as (? & Dd & _). inversion Dd; subst. eauto. Qed.
Lemma show_cases a events w :
  let fs0 := others 0 (w_files w) in let fs1 := others 1 fs0 in let fs2 := others 2 fs1 in
  (exists m fixture t s, passes fs0 fs1 fs2 a m fixture t /\ scene_of (vm_render m) t = Some s /\
     shows a events w = Program.andthen (say say_fails (Validated fixture (vm_expected m)) (mkWorld fs2 (w_lines w)))
       (fun _ w => after a events m s w)) \/
  ((forall m fixture t, ~ passes fs0 fs1 fs2 a m fixture t) /\
   exists fs e, shows a events w = Thr (mkWorld fs (w_lines w)) e /\ fs ∈ [w_files w; fs0; fs1; fs2]).
Proof using CU FC.
  intros fs0 fs1 fs2. unfold show.
  destruct (v_manifest a) as [path|] eqn:Ea; cbn [Program.of_option Program.andthen].
  2:{ right. split; [intros m f t ((path & ? & ? & E & _) & _); congruence|]. exists (w_files w), LogicError. split; [by destruct w|left]. }
  change (meanwhile others 0 w) with (mkWorld fs0 (w_lines w)). cbn [w_files].
  destruct (parse_manifest rl rf parent_path join weakly_canonical parse_json path (fs0 path)) as [m|e|] eqn:Em.
  3:{ exfalso. unfold parse_manifest in Em. destruct (fs0 path) as [c|]; [|done]. destruct (parse_json c) as [[]|]; try done.
      pose proof (parse_tame rl rf parent_path join weakly_canonical path o CU) as Ta. rewrite Em in Ta. done. }
  2:{ right. split.
      - intros m f t ((path' & c & root & E1 & E2 & E3 & D) & _). rewrite Ea in E1. injection E1 as <-. unfold parse_manifest in Em.
        rewrite E2, E3 in Em. destruct (declares_object D) as [o ->].
        by rewrite (parse_complete _ _ _ _ _ _ _ _ D) in Em.
      - exists fs0, e. split; [done|]. right; left. }
  assert (MI : manifest_in rl rf parent_path join weakly_canonical parse_json fs0 a m).
  { unfold parse_manifest in Em. destruct (fs0 path) as [c|] eqn:Ec; [|done]. destruct (parse_json c) as [root|] eqn:Ej; [|done].
    destruct root as [| | | | |o]; try done. exists path, c, (JObj o). split; [done|]. split; [done|]. split; [done|]. by apply parse_sound. }
  assert (MU : forall m', manifest_in rl rf parent_path join weakly_canonical parse_json fs0 a m' -> m' = m).
  { intros m' (path' & c & root & E1 & E2 & E3 & D). rewrite Ea in E1. injection E1 as <-. unfold parse_manifest in Em.
    rewrite E2, E3 in Em. destruct (declares_object D) as [o ->].
    rewrite (parse_complete _ _ _ _ _ _ _ _ D) in Em. by injection Em. }
  cbn [Program.of_checked Program.andthen].
  set (fx := if bool_decide (v_fixture a = []) then _ else _).
  assert (FX : (exists f, fx = Ret (mkWorld fs0 (w_lines w)) f /\ forall f', fixture_path weakly_canonical a m f' <-> f' = f) \/
    (exists e, fx = Thr (mkWorld fs0 (w_lines w)) e /\ forall f', ~ fixture_path weakly_canonical a m f')).
  { unfold fx, fixture_path. destruct (bool_decide_reflect (v_fixture a = [])) as [E|E].
    - left. exists (vm_fixture m). split; [done|]. intros f'. tauto.
    - destruct (weakly_canonical (v_fixture a)) as [f|e|] eqn:W; [| |by apply CU in W].
      + left. exists f. split; [done|]. intros f'. split; [intros [[? _] | [_ [=]]]; done|intros ->; auto].
      + right. exists e. split; [done|]. intros f' [[? _] | [_ [=]]]; done. }
  destruct FX as [(f & -> & Uf) | (e & -> & Nf)]; cbn [Program.andthen].
  2:{ right. split; [|exists fs0, e; split; [done|right; left]].
      intros m' f t (M & Fp & _). rewrite (MU _ M) in Fp. by apply Nf in Fp. }
  change (meanwhile others 1 (mkWorld fs0 (w_lines w))) with (mkWorld fs1 (w_lines w)). cbn [w_files].
  assert (Stop : forall (X : res world (option Z)) e fs, X = Thr (mkWorld fs (w_lines w)) e -> fs ∈ [w_files w; fs0; fs1; fs2] ->
    (forall t, digest_in sha256_hex hash_fails fs1 m f -> versions_match cgal_version qt_version m ->
       loads_in read_fixture facts fs2 m f t -> False) ->
    (forall m fixture t, ~ passes fs0 fs1 fs2 a m fixture t) /\
     exists fs e, X = Thr (mkWorld fs (w_lines w)) e /\ fs ∈ [w_files w; fs0; fs1; fs2]).
  { intros X e fs -> Hfs No. split; [|eauto]. intros m' f' t (M & Fp & D & Ve & L). rewrite (MU _ M) in Fp, D, Ve, L.
    apply Uf in Fp as ->. by apply (No t). }
  assert (In0 : fs0 ∈ [w_files w; fs0; fs1; fs2]) by (right; left).
  assert (In1 : fs1 ∈ [w_files w; fs0; fs1; fs2]) by (right; right; left).
  assert (In2 : fs2 ∈ [w_files w; fs0; fs1; fs2]) by (do 3 right; left).
  unfold sha256. destruct (fs1 f) as [bytes|] eqn:Eb; cbn [Program.of_checked Program.andthen].
  2:{ right. eapply Stop; [done|done|]. intros t (? & ? & _); congruence. }
  destruct (hash_fails f) eqn:Hf; cbn [Program.of_checked Program.andthen].
  { right. eapply Stop; [done|done|]. intros t (? & ? & ? & _); congruence. }
  destruct (bool_decide_reflect (sha256_hex bytes = vm_sha256 m)) as [Sh|Sh]; cbn [negb].
  2:{ right. eapply Stop; [done|done|]. intros t (? & ? & ? & ?); congruence. }
  destruct (bool_decide_reflect (vm_cgal m = cgal_version)) as [Vc|Vc]; cbn [negb orb].
  2:{ right. eapply Stop; [done|done|]. intros t _ [? _]; congruence. }
  destruct (bool_decide_reflect (vm_qt m = qt_version)) as [Vq|Vq]; cbn [negb].
  2:{ right. eapply Stop; [done|done|]. intros t _ [_ ?]; congruence. }
  change (meanwhile others 2 (mkWorld fs1 (w_lines w))) with (mkWorld fs2 (w_lines w)). cbn [w_files].
  destruct (read_fixture fs2 f) as [t|e] eqn:Er; cbn [Program.of_sum Program.andthen].
  2:{ right. eapply Stop; [done|done|]. intros t _ _ [? _]; congruence. }
  destruct (validate_exact (facts t) (vm_expected m) (FC t)) as [Vi Vn].
  destruct (validate_fixture (facts t) (vm_expected m)) as [[]|e|] eqn:Ev; cbn [Program.of_checked Program.andthen].
  3:{ exfalso. pose proof (Vn ltac:(done)); done. }
  2:{ right. eapply Stop; [done|done|]. intros t' _ _ [E Mt]. rewrite Er in E. injection E as <-. apply Vi in Mt. done. }
  left. assert (Np : rc_palette (vm_render m) <> []).
  { destruct MI as (? & ? & ? & _ & _ & _ & D). destruct (d_palette _ _ _ _ _ _ _ _ D) as (? & _ & _ & ?). done. }
  destruct (scene_some (vm_render m) t Np) as [s Es]. exists m, f, t, s. split; [|split; [done|by rewrite Es]].
  split; [done|]. split; [by apply Uf|]. split; [by exists bytes|]. split; [done|]. split; [done|]. by apply Vi.
Qed.

(** ** The whole program *)
Definition asks_only (a : viewer_args) : Prop := v_help a = false /\ v_version a = false.
Lemma main_show a events w : asks_only a ->
  main (inl a) events w = match shows a events w with Thr w _ => Ret w (Some 1) | r => r end.
Proof. intros [H1 H2]. unfold viewer_main. rewrite H1, H2. by destruct (shows a events w). Qed.
Lemma main_refused a events w : asks_only a ->
  let fs0 := others 0 (w_files w) in let fs1 := others 1 fs0 in let fs2 := others 2 fs1 in
  (forall m fixture t, ~ passes fs0 fs1 fs2 a m fixture t) ->
  exists fs, main (inl a) events w = Ret (mkWorld fs (w_lines w)) (Some 1) /\ fs ∈ [w_files w; fs0; fs1; fs2].
Proof using CU FC.
  intros A fs0 fs1 fs2 N. rewrite main_show by done.
  destruct (show_cases a events w) as [(m & f & t & s & P & _) | (_ & fs & e & E & I)]; [by apply N in P|].
  rewrite E. eauto.
Qed.
Lemma after_lines a events m s w w' x : after a events m s w = Ret w' x -> exists l, w_lines w' = w_lines w ++ l /\
  (l = [] \/ (l = [RenderedTo (rc_width (vm_render m)) (rc_height (vm_render m)) (v_output a)] /\ v_output a <> [])).
Proof.
  unfold after. destruct (runs s (vm_render m) (v_output a) events (w_files w)) as [fs st|fs e| |]; try done. destruct st as [c|].
  - destruct (bool_decide_reflect (v_output a = [])) as [E|E]; [intros [= <- <-]; exists []; split; [by rewrite app_nil_r|auto]|].
    unfold say. destruct (say_fails _); cbn; [done|]. intros [= <- <-]. eexists. split; [reflexivity|]. auto.
  - intros [= <- <-]. exists []. split; [by rewrite app_nil_r|auto].
Qed.
Lemma after_lines_thr a events m s w w' e : after a events m s w = Thr w' e -> w_lines w' = w_lines w.
Proof.
  unfold after. destruct (runs s (vm_render m) (v_output a) events (w_files w)) as [fs st|fs e'| |]; try done.
  - destruct st as [c|]; [|done]. destruct (bool_decide_reflect (v_output a = [])); [done|]. unfold say.
    destruct (say_fails _); cbn; [|done]. intros [= <- _]. done.
  - intros [= <- _]. done.
Qed.
(** A first line of output exists only if the checks passed, and is then the
    validated fixture. *)
Lemma main_validated a events w w' x : asks_only a -> main (inl a) events w = Ret w' x ->
  let fs0 := others 0 (w_files w) in let fs1 := others 1 fs0 in let fs2 := others 2 fs1 in
  (w_lines w' = w_lines w /\ x = Some 1) \/
  exists m fixture t l, passes fs0 fs1 fs2 a m fixture t /\
    w_lines w' = w_lines w ++ Validated fixture (vm_expected m) :: l /\
    (l = [] \/ (l = [RenderedTo (rc_width (vm_render m)) (rc_height (vm_render m)) (v_output a)] /\ v_output a <> [])).
Proof using CU FC.
  intros A E fs0 fs1 fs2. rewrite main_show in E by done.
  destruct (show_cases a events w) as [(m & f & t & s & P & _ & Es) | (_ & fs & e & Es & I)]; rewrite Es in E; clear Es.
  2:{ injection E as <- <-. auto. }
  unfold say in E. destruct (say_fails (Validated f (vm_expected m))); cbn [Program.andthen] in E; [injection E as <- <-; auto|].
  cbn [w_files w_lines] in E. right. exists m, f, t.
  destruct (after a events m s _) as [w1 st|w1 e| |] eqn:Ea; try done; injection E as <- <-.
  - apply after_lines in Ea as (l & -> & Hl). exists l. split; [done|]. cbn [w_lines]. by rewrite <- app_assoc.
  - apply after_lines_thr in Ea as ->. exists []. cbn [w_lines]. auto.
Qed.
(** With the checks passed the program goes on to print the line. *)
Lemma main_passes a events w m f t :
  let fs0 := others 0 (w_files w) in let fs1 := others 1 fs0 in let fs2 := others 2 fs1 in
  asks_only a -> passes fs0 fs1 fs2 a m f t -> say_fails (Validated f (vm_expected m)) = None ->
  exists s, scene_of (vm_render m) t = Some s /\
    main (inl a) events w = match after a events m s (mkWorld fs2 (w_lines w ++ [Validated f (vm_expected m)])) with
                            | Thr w _ => Ret w (Some 1) | r => r end.
Proof using CU FC.
  intros fs0 fs1 fs2 A P S. rewrite main_show by done.
  destruct (show_cases a events w) as [(m' & f' & t' & s & P' & Es & E) | (N & _)]; [|by apply N in P].
  assert (U : m' = m /\ f' = f /\ t' = t).
  { destruct P as ((p1 & c1 & r1 & A1 & A2 & A3 & D1) & Fp1 & _ & _ & L1 & _).
    destruct P' as ((p2 & c2 & r2 & B1 & B2 & B3 & D2) & Fp2 & _ & _ & L2 & _).
    rewrite A1 in B1. injection B1 as <-. fold fs0 in B2. rewrite A2 in B2. injection B2 as <-. rewrite A3 in B3. injection B3 as <-.
    destruct (declares_object D1) as [o ->]. apply parse_complete in D1, D2. rewrite D1 in D2. injection D2 as <-. split; [done|].
    assert (f' = f) as ->; [|split; [done|]; fold fs0 fs1 fs2 in L2; rewrite L1 in L2; by injection L2].
    destruct Fp1 as [[? ->] | [? W1]], Fp2 as [[? ->] | [? W2]]; try done. rewrite W1 in W2. by injection W2. }
  destruct U as (-> & -> & ->). exists s. split; [done|]. rewrite E. unfold say. rewrite S. done.
Qed.
Lemma main_headless a events w w' : asks_only a -> v_output a <> [] -> (forall c, Quit c ∉ events) ->
  let fs0 := others 0 (w_files w) in let fs1 := others 1 fs0 in let fs2 := others 2 fs1 in
  main (inl a) events w = Ret w' (Some 0) ->
  exists m fixture t s c, passes fs0 fs1 fs2 a m fixture t /\ scene_of (vm_render m) t = Some s /\
    Initialised ∈ events /\ Timeout ∉ events /\
    w_files w' (v_output a) = Some c /\ acceptable read_image (vm_render m) c /\
    finished read_image save_png (vm_render m) (save_snapshot s (vm_render m) (fs2 (v_output a))) (Some c) /\
    same_except (v_output a) fs2 (w_files w') /\
    w_lines w' = w_lines w ++ [Validated fixture (vm_expected m);
                               RenderedTo (rc_width (vm_render m)) (rc_height (vm_render m)) (v_output a)].
Proof using CU FC IM.
  intros A NO NQ fs0 fs1 fs2 E. rewrite main_show in E by done.
  destruct (show_cases a events w) as [(m & f & t & s & P & Sc & Es) | (_ & fs & e & Es & I)]; rewrite Es in E; clear Es; [|done].
  unfold say in E. destruct (say_fails (Validated f (vm_expected m))); cbn [Program.andthen] in E; [done|].
  cbn [w_files w_lines] in E. unfold after in E. cbn [w_files w_lines] in E. fold fs0 fs1 fs2 in E, P.
  destruct (run_headless configure create_directories save_snapshot read_image save_png what IM s (vm_render m) (v_output a) events fs2 NO NQ)
    as [(-> & R) | [(Hi & Ht & fs' & Ar & R) | (_ & fs' & _ & [R | (R & _)])]]; rewrite R in E; try done.
  - rewrite bool_decide_eq_false_2 in E by done. unfold say in E.
    destruct (say_fails _); cbn [Program.andthen] in E; [done|]. injection E as <-. cbn [w_files w_lines].
    destruct (artifact_spec configure create_directories save_snapshot read_image save_png IM s (vm_render m) (v_output a) fs2)
      as [(fs1' & c & A1 & S1 & O1 & Ac & Fi) | (? & ? & A1 & _)]; rewrite Ar in A1; [|done]. injection A1 as <-.
    exists m, f, t, s, c. rewrite <- app_assoc. done.
  - rewrite bool_decide_eq_false_2 in E by done. unfold say in E.
    destruct (say_fails _); cbn [Program.andthen] in E; done.
Qed.
(** Every outcome of a headless run. *)
Lemma main_headless_total a events w : asks_only a -> v_output a <> [] -> (forall c, Quit c ∉ events) ->
  exists w' x, main (inl a) events w = Ret w' x /\ (x = None \/ x = Some 0 \/ x = Some 1) /\
    (x = None -> events = []) /\ (Timeout ∈ events -> x = Some 1) /\
    ((forall n fs, others n fs = fs) -> same_except (v_output a) (w_files w) (w_files w')) /\
    ((forall e, what e <> []) -> forall v width height, w_lines w' = w_lines w ++ [v; RenderedTo width height (v_output a)] -> x = Some 0).
Proof using CU FC IM.
  intros A NO NQ. rewrite main_show by done.
  set (fs0 := others 0 (w_files w)). set (fs1 := others 1 fs0). set (fs2 := others 2 fs1).
  assert (Id : (forall n fs, others n fs = fs) -> fs2 = w_files w).
  { intros H. unfold fs2, fs1, fs0. by rewrite !H. }
  assert (L0 : forall (l : list vline) x y, l <> l ++ [x; y]) by (intros l x y H; apply (f_equal length) in H; rewrite app_length in H; cbn in H; lia).
  assert (L1 : forall (l : list vline) z x y, l ++ [z] <> l ++ [x; y]) by (intros l z x y H; apply (f_equal length) in H; rewrite !app_length in H; cbn in H; lia).
  destruct (show_cases a events w) as [(m & f & t & s & P & Sc & Es) | (_ & fs & e & Es & I)]; rewrite Es; clear Es.
  2:{ eexists _, _. split; [done|]. split; [auto|]. split; [done|]. split; [done|]. split; [|by intros _ v x y ?%L0].
      intros H q _. cbn [w_files]. rewrite !H in I. rewrite !elem_of_cons, elem_of_nil in I. naive_solver. }
  unfold say. destruct (say_fails (Validated f (vm_expected m))); cbn [Program.andthen].
  { eexists _, _. split; [done|]. split; [auto|]. split; [done|]. split; [done|]. split; [|by intros _ v x y ?%L0].
    intros H q _. cbn [w_files]. fold fs0 fs1 fs2. by rewrite Id. }
  cbn [w_files w_lines]. unfold after. cbn [w_files w_lines]. fold fs0 fs1 fs2.
  rewrite (bool_decide_eq_false_2 (v_output a = [])) by done.
  destruct (run_headless configure create_directories save_snapshot read_image save_png what IM s (vm_render m) (v_output a) events fs2 NO NQ)
    as [(-> & R) | [(Hi & Ht & fs' & Ar & R) | (Bad & fs' & SE & [R | (R & e & We & Ar)])]]; rewrite R.
  - eexists _, _. split; [done|]. split; [auto|]. split; [done|]. split; [by intros ?%elem_of_nil|].
    split; [intros H q _; cbn [w_files]; by rewrite Id|]. by intros _ v x y ?%L1.
  - assert (SE : same_except (v_output a) fs2 fs').
    { destruct (artifact_spec configure create_directories save_snapshot read_image save_png IM s (vm_render m) (v_output a) fs2)
        as [(fs1' & c & A1 & S1 & _) | (? & ? & A1 & _)]; rewrite Ar in A1; [|done]. by injection A1 as <-. }
    unfold say. destruct (say_fails (RenderedTo _ _ _)); cbn [Program.andthen]; eexists _, _; (split; [done|]);
      (split; [auto|]); (split; [done|]); (split; [done|]); (split; [intros H; cbn [w_files]; by rewrite <- Id|]).
    + by intros _ v x y ?%L1.
    + done.
  - eexists _, _. split; [done|]. split; [auto|]. split; [done|]. split; [done|].
    split; [intros H; cbn [w_files]; by rewrite <- Id|]. by intros _ v x y ?%L1.
  - unfold say. destruct (say_fails (RenderedTo _ _ _)); cbn [Program.andthen]; eexists _, _; (split; [done|]);
      (split; [auto|]); (split; [done|]); (split; [done|]); (split; [intros H; cbn [w_files]; by rewrite <- Id|]);
      intros W; by apply W in We.
Qed.
(** If nothing fails, the run succeeds. *)
Lemma main_completes a events w m f t s snap :
  let fs0 := others 0 (w_files w) in let fs1 := others 1 fs0 in let fs2 := others 2 fs1 in
  asks_only a -> v_output a <> [] -> (forall c, Quit c ∉ events) -> Initialised ∈ events -> Timeout ∉ events ->
  passes fs0 fs1 fs2 a m f t -> (forall l, say_fails l = None) -> scene_of (vm_render m) t = Some s ->
  configure s (vm_render m) = None -> create_directories (v_output a) fs2 = None ->
  save_snapshot s (vm_render m) (fs2 (v_output a)) = Some snap ->
  (if draws_screen_space_edges (vm_render m)
   then exists src, read_image snap = Some src /\ forall out, is_image out -> im_width out = im_width src -> im_height out = im_height src ->
     exists c, save_png out (Some snap) = (Some c, true) /\ acceptable read_image (vm_render m) c
   else acceptable read_image (vm_render m) snap) ->
  exists w', main (inl a) events w = Ret w' (Some 0).
Proof using CU FC IM.
  intros fs0 fs1 fs2 A NO NQ Hi Ht P S Sc Cf Cd Sn G.
  destruct (main_passes a events w m f t A P (S _)) as (s' & Sc' & ->). rewrite Sc in Sc'. injection Sc' as <-.
  fold fs0 fs1 fs2. unfold after. cbn [w_files w_lines].
  assert (Ar : exists fs', artifact s (vm_render m) (v_output a) fs2 = Ret fs' tt).
  { unfold render_artifact. rewrite Cf, Cd, Sn. set (fs3 := put _ _ _).
    assert (O3 : fs3 (v_output a) = Some snap) by (unfold fs3, put; by rewrite bool_decide_eq_true_2).
    assert (Vd : forall fs c, fs (v_output a) = Some c -> acceptable read_image (vm_render m) c ->
      validate_image read_image (v_output a) (vm_render m) fs = Ret fs tt).
    { intros fs c Ec Ac. destruct (validate_image_spec read_image IM (v_output a) (vm_render m) fs) as [[? _] | (e & _ & N)]; [done|].
      by apply N in Ac. }
    unfold outline_file. destruct (draws_screen_space_edges (vm_render m)); cbn [negb].
    - destruct G as (src & Es & G). rewrite O3. change (Some snap ≫= read_image) with (read_image snap). rewrite Es.
      destruct (outline_exact (rc_edge (vm_render m)) (rc_point (vm_render m)) (rc_threshold (vm_render m)) (rc_tolerance (vm_render m))
        (fp_lt (fpz 1) (rc_line_width (vm_render m))) src (IM _ _ Es)) as (out & Eo & Io & Ew & Eh & _).
      rewrite Eo. destruct (G out Io Ew Eh) as (c & Ec & Ac). rewrite Ec. cbn. eexists. apply (Vd _ c); [|done].
      unfold put. by rewrite bool_decide_eq_true_2.
    - cbn. eexists. by apply (Vd _ snap). }
  destruct Ar as [fs' Ar].
  destruct (run_headless configure create_directories save_snapshot read_image save_png what IM s (vm_render m) (v_output a) events fs2 NO NQ)
    as [(-> & R) | [(_ & _ & fs'' & Ar' & R) | ([?|(?&?&B)] & _)]]; [by apply elem_of_nil in Hi| |done|congruence].
  rewrite R. rewrite bool_decide_eq_false_2 by done. unfold say. rewrite S. cbn. eauto.
Qed.
End Main.

Section Plain.
Context (rl rf rd : Q -> fp).
Context (parent_path : text -> text) (join : text -> text -> text) (weakly_canonical : text -> checked text).
Context (parse_json : text -> option json) (sha256_hex : text -> text) (hash_fails : text -> bool).
Context {T V : Type} `{EqDecision V} (read_fixture : files -> text -> T + exn).
Context (facts : T -> fixture_facts) (complex_of : T -> complex V) (vertices_of : T -> list V).
Context (infinite : V) (vertex_key : V -> list Z) (point_of : V -> point3) (sort_by_key : list V -> list V).
Context (cgal_version qt_version : text).
Context (configure : scene (V := V) -> render_config -> option exn) (create_directories : text -> files -> option exn).
Context (save_snapshot : scene (V := V) -> render_config -> option text -> option text).
Context (read_image : text -> option image) (save_png : image -> option text -> option text * bool).
Context (what : exn -> text) (say_fails : vline -> option exn).
Notation main := (viewer_main rl rf rd parent_path join weakly_canonical parse_json sha256_hex hash_fails read_fixture facts
  complex_of vertices_of infinite vertex_key point_of sort_by_key cgal_version qt_version
  configure create_directories save_snapshot read_image save_png what say_fails (fun _ fs => fs)).
Notation passes := (passes rl rf parent_path join weakly_canonical parse_json sha256_hex hash_fails read_fixture facts
  cgal_version qt_version).
Notation tools := ((forall p, weakly_canonical p <> Undef) /\ (forall t, facts_consistent (facts t))).
Lemma run_gate a events w : tools -> v_help a = false -> v_version a = false ->
  (exists m fixture t, passes (w_files w) (w_files w) (w_files w) a m fixture t) \/ main (inl a) events w = Ret w (Some 1).
Proof.
  intros [CU FC] H1 H2.
  destruct (show_cases rl rf rd parent_path join weakly_canonical parse_json sha256_hex hash_fails read_fixture facts
    complex_of vertices_of infinite vertex_key point_of sort_by_key cgal_version qt_version
    configure create_directories save_snapshot read_image save_png what say_fails (fun _ fs => fs) CU FC a events w)
    as [(m & f & t & s & P & _) | (_ & fs & e & E & I)]; [left; eauto|right].
  rewrite main_show by done. rewrite E. cbv beta in I. rewrite !elem_of_cons, elem_of_nil in I. destruct w. cbn in *. naive_solver.
Qed.
Lemma run_announced a events w m fixture t : tools -> v_help a = false -> v_version a = false ->
  passes (w_files w) (w_files w) (w_files w) a m fixture t -> say_fails (Validated fixture (vm_expected m)) = None ->
  forall w' x, main (inl a) events w = Ret w' x -> exists l, w_lines w' = w_lines w ++ Validated fixture (vm_expected m) :: l.
Proof.
  intros [CU FC] H1 H2 P S w' x E.
  destruct (main_passes rl rf rd parent_path join weakly_canonical parse_json sha256_hex hash_fails read_fixture facts
    complex_of vertices_of infinite vertex_key point_of sort_by_key cgal_version qt_version
    configure create_directories save_snapshot read_image save_png what say_fails (fun _ fs => fs) CU FC a events w m fixture t (conj H1 H2) P S)
    as (s & _ & E'). rewrite E' in E.
  match type of E with match ?x with _ => _ end = _ => destruct x as [w1 st|w1 e| |] eqn:Ea end; try done; injection E as <- <-.
  - apply after_lines in Ea as (l & -> & _). exists l. cbn [w_lines]. by rewrite <- app_assoc.
  - apply after_lines_thr in Ea as ->. by exists [].
Qed.
Lemma run_others a events w e : main (inr e) events w = Ret w (Some 1) /\
  (v_help a = true -> say_fails VHelp = None -> main (inl a) events w = Ret (mkWorld (w_files w) (w_lines w ++ [VHelp])) (Some 0)) /\
  (v_help a = false -> v_version a = true -> say_fails VVersion = None ->
     main (inl a) events w = Ret (mkWorld (w_files w) (w_lines w ++ [VVersion])) (Some 0)).
Proof.
  unfold viewer_main, say. split; [done|]. split.
  - intros -> ->. done.
  - intros -> -> ->. done.
Qed.
Lemma run_headless_all a events w : tools -> (forall c im, read_image c = Some im -> is_image im) ->
  v_help a = false -> v_version a = false -> v_output a <> [] -> (forall c, Quit c ∉ events) ->
  exists w' x, main (inl a) events w = Ret w' x /\ (x = None \/ x = Some 0 \/ x = Some 1) /\
    (x = None -> events = []) /\ (Timeout ∈ events -> x = Some 1) /\
    same_except (v_output a) (w_files w) (w_files w') /\
    ((forall e, what e <> []) -> forall v width height, w_lines w' = w_lines w ++ [v; RenderedTo width height (v_output a)] -> x = Some 0).
Proof.
  intros [CU FC] IM H1 H2 NO NQ.
  destruct (main_headless_total rl rf rd parent_path join weakly_canonical parse_json sha256_hex hash_fails read_fixture facts
    complex_of vertices_of infinite vertex_key point_of sort_by_key cgal_version qt_version
    configure create_directories save_snapshot read_image save_png what say_fails (fun _ fs => fs) CU FC IM a events w (conj H1 H2) NO NQ)
    as (w' & x & E & H). exists w', x. naive_solver.
Qed.
End Plain.

Lemma transparent_kept edge point threshold tolerance wide im out x y p : is_image im ->
  outline edge point threshold tolerance wide im = Some out -> pixel im x y = Some p -> alpha p = 0 -> pixel out x y = Some p.
Proof.
  intros I E Hp A. destruct (outline_exact edge point threshold tolerance wide im I) as (out' & E' & _ & _ & _ & P).
  rewrite E in E'. injection E' as <-. apply (P x y p Hp). intros O. apply on_edge_opaque in O as (p' & Hp' & O).
  rewrite Hp in Hp'. injection Hp' as <-. done.
Qed.

(** The scene, and what draws the edges. *)
Lemma scene_contents {T V : Type} `{EqDecision V} (rd : Q -> fp) (complex_of : T -> complex V) (vertices_of : T -> list V)
    infinite key point_of sort r t sc :
  make_scene rd complex_of vertices_of infinite key point_of sort r t = Some sc ->
  faces_of key point_of rd sort r (complex_of t) = Some (sc_faces sc) /\
  (rc_faces r = false -> sc_faces sc = []) /\
  (forall v, v ∈ sc_vertices sc <-> v ∈ vertices_of t /\ draws_vertex infinite key sort r (complex_of t) v = true) /\
  (sc_edges sc = true <-> rc_edges r = true /\ rc_edge_scope r = B "all") /\
  (draws_screen_space_edges r = true <-> rc_edges r = true /\ rc_edge_scope r = B "screen_space_face_boundaries") /\
  ~ (sc_edges sc = true /\ draws_screen_space_edges r = true).
Proof.
  unfold make_scene. intros H.
  destruct (faces_of key point_of rd sort r (complex_of t)) as [fs|] eqn:E; [|done]. injection H as <-. cbn [sc_faces sc_vertices sc_edges].
  assert (E1 : draws_scene_edges r = true <-> rc_edges r = true /\ rc_edge_scope r = B "all").
  { unfold draws_scene_edges. by rewrite andb_true_iff, bool_decide_eq_true. }
  assert (E2 : draws_screen_space_edges r = true <-> rc_edges r = true /\ rc_edge_scope r = B "screen_space_face_boundaries").
  { unfold draws_screen_space_edges. by rewrite andb_true_iff, bool_decide_eq_true. }
  split; [done|]. split; [intros N; unfold faces_of in E; rewrite N in E; by injection E|].
  split. { intros v. rewrite !elem_of_list_In, filter_In. done. }
  split; [done|]. split; [done|]. intros [A B]. apply E1 in A as (_ & A). apply E2 in B as (_ & B). rewrite A in B. discriminate.
Qed.
