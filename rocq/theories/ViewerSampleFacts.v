(** Facts about the concrete data of ViewerSample.v. *)
From Verif Require Import Base Config ConfigSpec Text ViewerImage ViewerImageSpec Viewer ViewerSpec ViewerFacts.
From Verif Require Import ViewerScene ViewerSceneSpec ViewerSceneFacts ViewerMain ViewerMainSpec ViewerMainFacts ViewerSample.
From Coq Require Import QArith.
From stdpp Require Import sorting.
Local Open Scope Z_scope.
Local Open Scope list_scope.

Notation means := (declares Fin Fin toy_parent toy_join toy_canonical []).
Lemma hero_declared : exists m, means hero m /\
  tp_simplices (vm_expected m) = 27528 /\ length (rc_palette (vm_render m)) = 30%nat /\ rc_width (vm_render m) = 735.
Proof.
  pose (m := match parse_manifest Fin Fin toy_parent toy_join toy_canonical toy_json [] (Some (B "hero")) with
             | Val m => Some m | _ => None end).
  destruct m as [m0|] eqn:Em; [|vm_compute in Em; discriminate Em].
  exists m0. assert (P : parse_manifest Fin Fin toy_parent toy_join toy_canonical toy_json [] (Some (B "hero")) = Val m0).
  { unfold m in Em. clear m. destruct (parse_manifest _ _ _ _ _ _ _ _); [by injection Em as ->|done..]. }
  split.
  - apply manifest_exact in P as (root & E & D). assert (R : toy_json (B "hero") = Some hero) by (vm_compute; reflexivity).
    rewrite R in E. by injection E as <-.
  - vm_compute in P. injection P as <-. cbn. auto.
Qed.
Lemma large_refused m : ~ means (manifest_of 1 1 1 1 1 1 16385 16384 1) m.
Proof.
  intros D. destruct (declares_is_object _ _ _ _ _ D) as [o E]. rewrite E in D. apply parse_complete in D.
  unfold manifest_of in E. injection E as <-. vm_compute in D. discriminate D.
Qed.
Lemma toy_tools : (forall p, toy_canonical p <> Undef) /\ (forall t, facts_consistent (toy_facts t)) /\
  (forall c im, toy_image c = Some im -> is_image im) /\ (forall e, toy_what e <> []).
Proof.
  split; [done|]. split; [|split].
  - intros t. split; [done|]. intros l. cbn. rewrite !elem_of_cons, elem_of_nil. unfold in_int32, INT32_MIN, INT32_MAX.
    intros H. assert (l = 1 \/ l = 2) by tauto. lia.
  - intros c im. unfold toy_image. destruct (Nat.eqb_spec (length c) 8) as [E|]; [|done]. intros [= <-].
    split; [done|]. split; [|done]. cbn. intros row ?%elem_of_list_singleton. subst. done.
  - intros e. vm_compute. done.
Qed.
Notation fixture_name := (B "../../fixtures/v1/S3-7-27528-I1-R1-seed30.off").
Lemma swapped_fixture : exists others w',
  toy_main toy_snapshot others (inl toy_args) [Initialised] (mkWorld toy_files []) = Ret w' (Some 0) /\
  forall bytes, w_files w' fixture_name = Some bytes ->
    toy_sha bytes <> B "9d86a6e5bd410ea206663c0e3bb633162695768135243016043a34c8634d605b".
Proof.
  exists (fun n fs => if (n =? 2)%nat then put fixture_name (Some (B "other")) fs else fs).
  eexists. split; [vm_compute; reflexivity|]. intros bytes E. vm_compute in E. injection E as <-. vm_compute. discriminate.
Qed.
Lemma quit_early : exists w',
  toy_main toy_snapshot nobody (inl toy_args) [Quit 0] (mkWorld toy_files []) = Ret w' (Some 0) /\
  w_files w' (B "out.png") = None /\ RenderedTo 2 1 (B "out.png") ∈ w_lines w'.
Proof. eexists. split; [vm_compute; reflexivity|]. split; [vm_compute; reflexivity|]. right. left. Qed.
Lemma stale_picture : exists w',
  toy_main (fun _ _ old => old) nobody (inl toy_args) [Initialised] (mkWorld (put (B "out.png") (Some toy_picture) toy_files) []) =
    Ret w' (Some 0).
Proof. eexists. vm_compute. reflexivity. Qed.
Lemma rejected_picture_stays : exists w',
  toy_main (fun _ _ _ => Some [0; 0; 0; 0; 0; 0; 0; 0]) nobody (inl toy_args) [Initialised] (mkWorld toy_files []) = Ret w' (Some 1) /\
  toy_files (B "out.png") = None /\ w_files w' (B "out.png") = Some [0; 0; 0; 0; 0; 0; 0; 0].
Proof. eexists. split; [vm_compute; reflexivity|]. split; vm_compute; reflexivity. Qed.
Lemma edge_sample : is_image (mkImage 2 1 [toy_picture]) /\
  on_edge (mkPx 200 60 60 255) 24 6 false (mkImage 2 1 [toy_picture]) 0 0 /\
  ~ on_edge (mkPx 200 60 60 255) 24 6 false (mkImage 2 1 [toy_picture]) 1 0.
Proof.
  split; [apply toy_tools with (c := toy_picture); vm_compute; reflexivity|]. split.
  - left. do 2 eexists. split; [vm_compute; reflexivity|]. split; [vm_compute; reflexivity|]. vm_compute. split; [done|]. split; done.
  - intros [(p & q & _ & E & _) | [(p & q & _ & E & _) | [[? _] | [[? _] | [(p & E & _ & C) _]]]]]; [done|done|done|done|].
    vm_compute in E. injection E as <-. vm_compute in C. done.
Qed.
Definition toy_render : render_config :=
  mkRender 2 1 true 1 false (mkPx 0 0 0 0) true true true (B "convex_hull") (B "screen_space_face_boundaries") (fpz 1) (fpz 1) 24 6 true
    (mkPx 200 60 60 255) (mkPx 0 0 0 255) [mkPx 13 145 4 255; mkPx 118 18 108 255]
    (mkCamera (B "perspective") (1, 1, 1)%Q (0, 0, 0)%Q (0, 0, 1)%Q 1%Q) 1.
Lemma toy_sorts : sorts toy_key toy_sort.
Proof.
  intros l. split; [apply merge_sort_Permutation|]. unfold toy_sort.
  pose proof (StronglySorted_merge_sort le l) as S.
  induction S as [|a l' S IH F]; cbn; constructor; [done|].
  apply List.Forall_forall. intros k Hk. apply in_map_iff in Hk as (b & <- & Hb). rewrite List.Forall_forall in F. specialize (F b Hb).
  unfold toy_key. destruct (decide (a = b)) as [-> |]; [do 4 apply lex_eq; apply lex_nil|]. apply lex_lt. lia.
Qed.
Lemma scene_sample : sorts toy_key toy_sort /\ facets_ok (toy_complex 4) /\ keys_distinguish toy_key (toy_complex 4) /\
  draws_vertex 0%nat toy_key toy_sort toy_render (toy_complex 4) 3%nat = true.
Proof.
  split; [apply toy_sorts|]. split; [|split].
  - intros f Hf. cbn in Hf. rewrite !elem_of_cons, elem_of_nil in Hf. destruct Hf as [-> | [-> | [-> | [-> | []]]]].
    + exists [2%nat; 3%nat; 4%nat], [], 1%nat, [2%nat; 3%nat; 4%nat]. done.
    + exists [1%nat; 3%nat; 4%nat], [1%nat], 2%nat, [3%nat; 4%nat]. done.
    + exists [1%nat; 2%nat; 4%nat], [1%nat; 2%nat], 3%nat, [4%nat]. done.
    + exists [1%nat; 2%nat; 3%nat], [1%nat; 2%nat; 3%nat], 4%nat, []. done.
  - intros f g vs ws u v _ _ _ _ _ _ [= E]. lia.
  - vm_compute. reflexivity.
Qed.
