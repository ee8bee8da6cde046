(** Theorems about the executables cdt and initialize (C60, C66-C68). *)
From Verif Require Import Base Tracker Command Run Fnv Geom Metropolis RunCheckpoint Program ProgramSpec ProgramFacts Toy.
From Verif Require Import Text Names ProgramNames.
From Verif Require Config ConfigProps Action.
Local Open Scope Z_scope.
Local Open Scope list_scope.

(** C60. A success exit without --help/--version: the configuration was
    accepted, the generator returned a universe, all configured passes were
    completed (from the universe, the engine of the transition stream of the
    effective seed, with the configured couplings), the result is valid, and -
    unless --no-output - the files written are the due checkpoints, each with
    the state after its pass, followed by the final triangulation. *)
Theorem C60_success_is_truthful :
  forall (M G P W : Type) rd rl parallel_build (seed_engine : Z -> Z -> G) (geometry : M -> Geometry) propose check
    (accept : Action.PhysicalParameters -> Geometry -> Geometry -> MoveType -> P + exn) at_least draw_int draw_p
    (facts : manifold_facts M) (construct : Z -> Z -> Random G -> fp -> fp -> W -> res W M) is_valid say print write
    parsed entropy w w' files,
  cdt_main rd rl parallel_build seed_engine geometry propose check accept at_least draw_int draw_p facts
    (recording_construct construct) is_valid (recording_say say) (recording_print print) (recording write)
    parsed entropy (w, []) = Ret (w', files) EXIT_SUCCESS ->
  exists a, parsed = inl a /\
  ((a_help a || a_version a = true /\ files = []) \/
   (a_help a = false /\ a_version a = false /\
    exists c pp w1 w2 universe states checkpoints result s g,
    let seed := effective_seed (a_seed a) entropy in
    let tr := Config.sim_triangulation c in
    let s0 := set_geometry stats_zero (geometry universe) in
    let g0 := seed_engine seed 1 in
    accepted rd rl parallel_build a seed c /\ parameters_of c pp /\
    construct (Config.tr_simplices tr) (Config.tr_timeslices tr) (mkRandom seed 0 (seed_engine seed 0))
      (Config.tr_initial_radius tr) (Config.tr_foliation_spacing tr) w1 = Ret w2 universe /\
    evolves (mh_pass geometry propose check (accept pp) at_least draw_int draw_p) universe s0 g0 states /\
    length states = Z.to_nat (Config.sim_passes c) /\
    List.last states (universe, s0, g0) = (result, s, g) /\
    is_valid result = true /\
    Forall2 (checkpoint_file facts c states)
      (if a_no_output a then [] else checkpoint_passes (Config.sim_passes c) (Config.sim_checkpoint c)) checkpoints /\
    (if a_no_output a then files = []
     else exists d, files = checkpoints ++ [(result, d)] /\
          describes facts c FINAL_TRIANGULATION (Config.sim_passes c) (st_trace s) (st_count s) result d))).
Proof.
  intros until files. intros H. apply main_files in H. destruct H as (_ & H & _). exact (H eq_refl).
Qed.
Print Assumptions C60_success_is_truthful.

(** The only exit codes are 0 and 1; after a failure exit the files written are
    the checkpoints of an initial part of the run: never a final triangulation. *)
Theorem C60_failure_is_truthful :
  forall (M G P W : Type) rd rl parallel_build (seed_engine : Z -> Z -> G) (geometry : M -> Geometry) propose check
    (accept : Action.PhysicalParameters -> Geometry -> Geometry -> MoveType -> P + exn) at_least draw_int draw_p
    (facts : manifold_facts M) (construct : Z -> Z -> Random G -> fp -> fp -> W -> res W M) is_valid say print write
    parsed entropy w w' files code,
  cdt_main rd rl parallel_build seed_engine geometry propose check accept at_least draw_int draw_p facts
    (recording_construct construct) is_valid (recording_say say) (recording_print print) (recording write)
    parsed entropy (w, []) = Ret (w', files) code ->
  code <> EXIT_SUCCESS ->
  code = EXIT_FAILURE /\
  (files = [] \/
   exists a c pp w1 w2 universe states k, parsed = inl a /\
     let seed := effective_seed (a_seed a) entropy in
     let tr := Config.sim_triangulation c in
     accepted rd rl parallel_build a seed c /\ parameters_of c pp /\ a_no_output a = false /\
     construct (Config.tr_simplices tr) (Config.tr_timeslices tr) (mkRandom seed 0 (seed_engine seed 0))
       (Config.tr_initial_radius tr) (Config.tr_foliation_spacing tr) w1 = Ret w2 universe /\
     evolves (mh_pass geometry propose check (accept pp) at_least draw_int draw_p) universe
       (set_geometry stats_zero (geometry universe)) (seed_engine seed 1) states /\
     (length states <= Z.to_nat (Config.sim_passes c))%nat /\
     Forall2 (checkpoint_file facts c states)
       (take k (checkpoint_passes (Config.sim_passes c) (Config.sim_checkpoint c))) files).
Proof.
  intros until code. intros H N. apply main_files in H. destruct H as (Hc & _ & H). destruct Hc as [Hc|Hc]; [contradiction|]. subst code.
  split; [reflexivity|]. exact (H eq_refl).
Qed.
Print Assumptions C60_failure_is_truthful.

(** If the command line is accepted and no step fails, the program succeeds. *)
Theorem C60_only_a_failing_step_fails :
  forall (M G P W : Type) rd rl parallel_build (seed_engine : Z -> Z -> G) (geometry : M -> Geometry) propose check
    (accept : Action.PhysicalParameters -> Geometry -> Geometry -> MoveType -> P + exn) at_least draw_int draw_p
    (facts : manifold_facts M) (construct : Z -> Z -> Random G -> fp -> fp -> W -> res W M) is_valid say print write
    a entropy w c pp base x universe result,
  let seed := effective_seed (a_seed a) entropy in
  let tr := Config.sim_triangulation c in
  a_help a = false -> a_version a = false -> accepted rd rl parallel_build a seed c ->
  (forall y v, exists v', say y v = Ret v' tt) ->
  (forall v, exists v', construct (Config.tr_simplices tr) (Config.tr_timeslices tr) (mkRandom seed 0 (seed_engine seed 0))
     (Config.tr_initial_radius tr) (Config.tr_foliation_spacing tr) v = Ret v' universe) ->
  cdt_provenance facts c universe = inl base ->
  cdt_strategy c (mkRandom seed 1 (seed_engine seed 1)) base = inl (pp, x) ->
  (forall v, exists v' x', cdt_run geometry propose check accept at_least draw_int draw_p facts print write
     pp x universe v = Ret v' (x', result)) ->
  is_valid result = true ->
  (exists p t, mf_placement facts result = inl p /\ mf_fingerprint facts result = inl t) ->
  (forall d v, exists v', write result d v = Ret v' tt) ->
  exists w', cdt_main rd rl parallel_build seed_engine geometry propose check accept at_least draw_int draw_p
    facts construct is_valid say print write (inl a) entropy w = Ret w' EXIT_SUCCESS.
Proof. exact @main_succeeds. Qed.
Print Assumptions C60_only_a_failing_step_fails.

(** C66. The initializer: a success exit means the configuration was accepted,
    the universe was generated from the initialization stream of the effective
    seed, and with --output exactly one truthful file was written; a failure
    exit leaves no file. *)
Theorem C66_initializer_is_truthful :
  forall (M G W : Type) rd rl parallel_build (seed_engine : Z -> Z -> G)
    (facts : manifold_facts M) (construct : Z -> Z -> Random G -> fp -> fp -> W -> res W M) say write
    parsed entropy w w' files code,
  init_main rd rl parallel_build seed_engine facts (recording_construct construct) (recording_say say) (recording write)
    parsed entropy (w, []) = Ret (w', files) code ->
  (code = EXIT_SUCCESS \/ code = EXIT_FAILURE) /\
  (code = EXIT_SUCCESS ->
     exists a, parsed = inl a /\
     ((i_help a || i_version a = true /\ files = []) \/
      (i_help a = false /\ i_version a = false /\
       exists c w1 w2 universe,
       let seed := effective_seed (i_seed a) entropy in
       accepted_initial rd rl parallel_build a seed c /\
       construct (Config.tr_simplices c) (Config.tr_timeslices c) (mkRandom seed 0 (seed_engine seed 0))
         (Config.tr_initial_radius c) (Config.tr_foliation_spacing c) w1 = Ret w2 universe /\
       (if i_output a then exists d, files = [(universe, d)] /\ describes_initial facts c universe d
        else files = [])))) /\
  (code = EXIT_FAILURE -> files = []).
Proof. exact @init_files. Qed.
Print Assumptions C66_initializer_is_truthful.

(** C67. Giving the effective seed of a run as --seed repeats the run: same exit
    code, same output and files, whatever entropy the second run would draw. *)
Theorem C67_simulation_replays :
  forall (M G P W : Type) rd rl parallel_build (seed_engine : Z -> Z -> G) (geometry : M -> Geometry) propose check
    (accept : Action.PhysicalParameters -> Geometry -> Geometry -> MoveType -> P + exn) at_least draw_int draw_p
    (facts : manifold_facts M) (construct : Z -> Z -> Random G -> fp -> fp -> W -> res W M) is_valid say print write
    a e1 e2 w,
  cdt_main rd rl parallel_build seed_engine geometry propose check accept at_least draw_int draw_p
    facts construct is_valid say print write (inl (with_seed a (effective_seed (a_seed a) e1))) e2 w =
  cdt_main rd rl parallel_build seed_engine geometry propose check accept at_least draw_int draw_p
    facts construct is_valid say print write (inl a) e1 w.
Proof. exact @main_replays. Qed.
Print Assumptions C67_simulation_replays.
Theorem C67_initializer_replays :
  forall (M G W : Type) rd rl parallel_build (seed_engine : Z -> Z -> G)
    (facts : manifold_facts M) (construct : Z -> Z -> Random G -> fp -> fp -> W -> res W M) say write a e1 e2 w,
  init_main rd rl parallel_build seed_engine facts construct say write
    (inl (init_with_seed a (effective_seed (i_seed a) e1))) e2 w =
  init_main rd rl parallel_build seed_engine facts construct say write (inl a) e1 w.
Proof. exact @init_replays. Qed.
Print Assumptions C67_initializer_replays.
(** ... and that seed is the one recorded in every file of the run. *)
Theorem C67_files_carry_the_seed :
  forall (M G P W : Type) rd rl parallel_build (seed_engine : Z -> Z -> G) (geometry : M -> Geometry) propose check
    (accept : Action.PhysicalParameters -> Geometry -> Geometry -> MoveType -> P + exn) at_least draw_int draw_p
    (facts : manifold_facts M) (construct : Z -> Z -> Random G -> fp -> fp -> W -> res W M) is_valid say print write
    a entropy w w' files code,
  cdt_main rd rl parallel_build seed_engine geometry propose check accept at_least draw_int draw_p facts
    (recording_construct construct) is_valid (recording_say say) (recording_print print) (recording write)
    (inl a) entropy (w, []) = Ret (w', files) code ->
  Forall (fun f => md_seed (snd f) = effective_seed (a_seed a) entropy) files.
Proof. exact @files_seed. Qed.
Print Assumptions C67_files_carry_the_seed.

(** C68. No artifact of a run overwrites another: whatever the clock says at
    each write, the files of a run have pairwise different names. *)
Theorem C68_run_files_have_different_names :
  forall (M G P W : Type) rd rl parallel_build (seed_engine : Z -> Z -> G) (geometry : M -> Geometry) propose check
    (accept : Action.PhysicalParameters -> Geometry -> Geometry -> MoveType -> P + exn) at_least draw_int draw_p
    (facts : manifold_facts M) (construct : Z -> Z -> Random G -> fp -> fp -> W -> res W M) is_valid say print write
    (to_string : fp -> text), (forall v, ~ In SLASH (to_string v) /\ ~ In COLON (to_string v)) ->
  forall a entropy w w' files code,
  cdt_main rd rl parallel_build seed_engine geometry propose check accept at_least draw_int draw_p facts
    (recording_construct construct) is_valid (recording_say say) (recording_print print) (recording write)
    (inl a) entropy (w, []) = Ret (w', files) code ->
  0 <= effective_seed (a_seed a) entropy < two64 ->
  (forall stamp, Forall (fun f => exists p, artifact_name to_string facts stamp f = Some p) files) /\
  forall i j f f' stamp stamp' p, nth_error files i = Some f -> nth_error files j = Some f' -> i <> j ->
  ~ In SLASH stamp -> ~ In SLASH stamp' ->
  artifact_name to_string facts stamp f = Some p -> artifact_name to_string facts stamp' f' <> Some p.
Proof. exact @main_names_distinct. Qed.
Print Assumptions C68_run_files_have_different_names.
(** The name tells the seed, whether it is a checkpoint and of which pass; it
    is a plain file name (no directory, no colon) ending in .off. *)
Theorem C68_name_identifies :
  forall (to_string : fp -> text), (forall v, ~ In SLASH (to_string v) /\ ~ In COLON (to_string v)) ->
  forall (M : Type) (facts : manifold_facts M) stamp f stamp' f' p,
  ~ In SLASH stamp -> ~ In SLASH stamp' -> 0 <= md_seed (snd f) < two64 -> 0 <= md_seed (snd f') < two64 ->
  artifact_name to_string facts stamp f = Some p -> artifact_name to_string facts stamp' f' = Some p ->
  md_seed (snd f) = md_seed (snd f') /\
  (md_artifact (snd f) = CHECKPOINT <-> md_artifact (snd f') = CHECKPOINT) /\
  (md_artifact (snd f) = CHECKPOINT -> md_completed_passes (snd f) = md_completed_passes (snd f')) /\
  ~ In SLASH p /\ ~ In COLON p /\ exists q, p = q ++ B ".off".
Proof. exact @name_identifies. Qed.
Print Assumptions C68_name_identifies.
(** ... and the slices and simplices of the triangulation it holds. *)
Theorem C68_name_tells_the_counts :
  forall (to_string : fp -> text),
  (forall v, ~ In SLASH (to_string v) /\ ~ In COLON (to_string v)) -> (forall v, ~ In MINUS (to_string v)) ->
  forall (M : Type) (facts : manifold_facts M) stamp f stamp' f' p,
  ~ In SLASH stamp -> ~ In SLASH stamp' -> 0 <= md_seed (snd f) < two64 -> 0 <= md_seed (snd f') < two64 ->
  0 <= mf_dimension facts -> (forall m, 0 <= mf_max_time facts m /\ 0 <= mf_N3 facts m) ->
  artifact_name to_string facts stamp f = Some p -> artifact_name to_string facts stamp' f' = Some p ->
  mf_max_time facts (fst f) = mf_max_time facts (fst f') /\ mf_N3 facts (fst f) = mf_N3 facts (fst f').
Proof. exact @name_tells_counts. Qed.
Print Assumptions C68_name_tells_the_counts.
(** The payload, the sidecar and their temporaries never share a path, within
    one artifact or between artifacts with generated names. *)
Theorem C68_paths_never_collide : forall p q r r',
  (exists a, p = a ++ B ".off") -> (exists b, q = b ++ B ".off") ->
  role_path p r = role_path q r' -> p = q /\ r = r'.
Proof. exact role_paths_distinct. Qed.
Print Assumptions C68_paths_never_collide.

(** ** Concrete cases *)
Import QArith_base. Local Open Scope Z_scope.
Definition toy_facts : manifold_facts Z :=
  mkFacts Z SPHERICAL 3 (fun m => 4) (fun m => m) (fun m => 7) (fun m => 3) (fun _ => 1) (fun m => 3)
    (fun _ => Fin 1%Q) (fun _ => Fin 1%Q) (fun m => inl (m * 7)) (fun m => inl (m * 11)).
Definition toy_args (seed : option Z) (no_output : bool) : cdt_args :=
  mkCdtArgs false false true false (Some 640) (Some 4) 3 (Fin 1%Q) (Fin 1%Q) no_output seed 1
    (Some (Fin (6 # 10))) (Some (Fin (11 # 10))) (Some (Fin (1 # 10))) 5 2.
Definition toy_construct (n t : Z) (r : Random Z) (radius spacing : fp) (w : Z) : res Z Z := Ret (w + 1) (10 + rnd_engine r).
Definition toy_main (valid : bool) (fail_at : Z) (a : cdt_args) (entropy : Z) :=
  cdt_main (P := Z) ConfigProps.saturating ConfigProps.saturating false (fun seed stream => seed + stream) toy_geometry (toy_api false) toy_check
    (fun _ => toy_accept) toy_at_least toy_draw toy_probability toy_facts (recording_construct toy_construct) (fun _ => valid)
    (recording_say (fun (_ : line Z) (w : Z) => Ret w tt)) (recording_print (fun _ _ (w : Z) => Ret w tt))
    (recording (fun _ d (w : Z) => match md_completed_passes d with Some n => if n =? fail_at then Thr w FilesystemError else Ret w tt | None => Ret w tt end))
    (inl a) entropy (0, []).
(** What is on disk: the kind, the pass count and the seed of each file. *)
Definition seen (r : res (Z * list (Z * Metadata)) Z) : option (Z * list (ArtifactKind * option Z * Z)) :=
  match r with
  | Ret (_, l) code => Some (code, map (fun f => (md_artifact (snd f), md_completed_passes (snd f), md_seed (snd f))) l)
  | _ => None
  end.
Example C60_examples :
  seen (toy_main true 100 (toy_args (Some 92) false) 5) =
    Some (0, [(CHECKPOINT, Some 2, 92); (CHECKPOINT, Some 4, 92); (FINAL_TRIANGULATION, Some 5, 92)]) /\
  seen (toy_main true 100 (toy_args None true) 5) = Some (0, []) /\
  seen (toy_main false 100 (toy_args None false) 5) = Some (1, [(CHECKPOINT, Some 2, 5); (CHECKPOINT, Some 4, 5)]) /\
  seen (toy_main true 4 (toy_args (Some 92) false) 5) = Some (1, [(CHECKPOINT, Some 2, 92)]) /\
  seen (toy_main true 5 (toy_args (Some 92) false) 5) = Some (1, [(CHECKPOINT, Some 2, 92); (CHECKPOINT, Some 4, 92)]).
Proof. vm_compute. repeat split. Qed.
Example C67_example : toy_main true 100 (with_seed (toy_args None false) 5) 77 = toy_main true 100 (toy_args None false) 5.
Proof. vm_compute. reflexivity. Qed.
Example C66_example :
  seen (init_main ConfigProps.saturating ConfigProps.saturating false (fun seed stream => seed + stream) toy_facts
    (recording_construct toy_construct) (recording_say (fun (_ : line Z) (w : Z) => Ret w tt))
    (recording (fun _ _ (w : Z) => Ret w tt))
    (inl (mkInitArgs false false true false (Some 640) (Some 4) 3 (Fin 1%Q) (Fin 1%Q) (Some 92) 1 true)) 5 (0, []))
  = Some (0, [(INITIAL_TRIANGULATION, None, 92)]).
Proof. vm_compute. reflexivity. Qed.

(** "1.000000" for every value; the stamp of a real clock. *)
Example C68_example :
  let to_string := fun _ : fp => B "1.000000" in
  let name := artifact_name to_string toy_facts (B "2026-11-18.06:02:38UTC") in
  let d kind n := mkMetadata kind 92 0 1 SPHERICAL 3 640 4 4 10 7 3 1 3 (Fin 1%Q) (Fin 1%Q) None None None None None None n
                    None None None None None in
  (forall v, ~ In SLASH (to_string v) /\ ~ In COLON (to_string v)) /\
  name (10, d CHECKPOINT (Some 2)) = Some (B "S3-3-3-I1.000000-R1.000000-2026-11-18.06-02-38UTC-seed-92-pass-2.off") /\
  name (10, d FINAL_TRIANGULATION (Some 5)) = Some (B "S3-3-3-I1.000000-R1.000000-2026-11-18.06-02-38UTC-seed-92.off").
Proof. split; [intros v; split; chars|]. split; vm_compute; reflexivity. Qed.
