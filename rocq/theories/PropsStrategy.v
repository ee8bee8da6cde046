(** Theorems about the strategy objects (C93). *)
From Verif Require Import Base Tracker Command Run Fnv Geom Metropolis RunCheckpoint Toy Pcg Draw Strategy StrategySpec StrategyFacts.
From Verif Require Action.
Local Open Scope Z_scope.

(** C93. A MoveAlways is built exactly when both cadence values are positive. *)
Theorem C93_move_always_accepts :
  forall (G : Type) (seed_engine : Z -> Z -> G) p c seed wf (r : Random G) entropy,
  ((exists s, make_move_always p c r wf = inl s) <-> 0 < p /\ 0 < c) /\
  ((exists s, ma_seeded seed_engine p c seed wf = inl s) <-> 0 < p /\ 0 < c) /\
  ((exists s, ma_unseeded seed_engine p c entropy = inl s) <-> 0 < p /\ 0 < c) /\
  (forall e d, make_move_always p c r wf = inr (e, d) \/ ma_seeded seed_engine p c seed wf = inr (e, d) \/
               ma_unseeded seed_engine p c entropy = inr (e, d) -> e = InvalidArgument).
Proof. exact @ma_accepts. Qed.
Print Assumptions C93_move_always_accepts.

(** Its settings are the constructor's arguments after any calls, returning or throwing. *)
Theorem C93_move_always_settings :
  forall (M G W : Type) (seed_engine : Z -> Z -> G) (N3 : M -> Z) api check draw_int print write
    p c seed stream wf s (w : W) calls s' w' answers,
  make_move_always p c (make_random seed_engine seed stream) wf = inl s ->
  ma_history N3 api check draw_int print write s w calls = Some (s', w', answers) ->
  rp_passes (ma_reports s') = p /\ rp_checkpoint (ma_reports s') = c /\
  rp_seed (ma_reports s') = seed /\ rp_stream (ma_reports s') = stream /\
  rp_writes_files (ma_reports s') = wf.
Proof. exact @ma_settings. Qed.
Print Assumptions C93_move_always_settings.

(** However it was built and whatever was done with it, what its getters report
    builds an object that answers every call the same, with the same output. *)
Theorem C93_move_always_rebuilt :
  forall (M G W : Type) (seed_engine : Z -> Z -> G) (N3 : M -> Z) api check draw_int print write
    s (w : W) calls s' w' answers,
  ma_built seed_engine s ->
  ma_history N3 api check draw_int print write s w calls = Some (s', w', answers) ->
  let r := ma_reports s' in
  (exists t, make_move_always (rp_passes r) (rp_checkpoint r) (make_random seed_engine (rp_seed r) (rp_stream r))
               (rp_writes_files r) = inl t /\
     ma_history N3 api check draw_int print write t w calls = Some (s', w', answers)) /\
  (rp_stream r = 0 ->
   exists t, ma_seeded seed_engine (rp_passes r) (rp_checkpoint r) (rp_seed r) (rp_writes_files r) = inl t /\
     ma_history N3 api check draw_int print write t w calls = Some (s', w', answers)).
Proof. exact @ma_rebuilds. Qed.
Print Assumptions C93_move_always_rebuilt.
Example C93_move_always_example : exists s s' w' answers,
  ma_unseeded (fun seed stream => seed + stream) 2 1 6 = inl s /\
  ma_history toy_N3 (toy_api false) toy_check toy_draw toy_print toy_write s [] [10; 4] = Some (s', w', answers) /\
  answers = [Gives 11; Gives 6] /\ w' = [1; 2; 1; 2] /\ rp_seed (ma_reports s') = 6 /\
  rp_attempted (ma_reports s') = [2; 1; 1; 1; 1].
Proof. do 4 eexists. split; [reflexivity|]. split; [vm_compute; reflexivity|]. vm_compute. auto. Qed.

(** Not so for a stream that has been drawn from: two objects may report the same
    and yet run differently. *)
Theorem C93_used_stream_differs :
  exists (s t s' t' : move_always (Random pcg64)) a b,
    make_move_always 1 1 (make_random random_of 42 0) false = inl s /\
    make_move_always 1 1 (advance (make_random random_of 42 0) (random_after 1 (random_of 42 0))) false = inl t /\
    ma_reports s = ma_reports t /\
    let history := ma_history toy_N3 idle_api toy_check pcg_draw_int toy_print toy_write in
    history s [] [10] = Some (s', [], a) /\ history t [] [10] = Some (t', [], b) /\
    rp_attempted (ma_reports s') <> rp_attempted (ma_reports t').
Proof. exact used_stream_differs. Qed.
Print Assumptions C93_used_stream_differs.

(** A Metropolis is built exactly for finite couplings, alpha above one half and
    positive cadence values; couplings are judged first. *)
Theorem C93_metropolis_accepts :
  forall (G : Type) alpha k lambda p c wf (r : Random G) given,
  let built := mh_owned alpha k lambda p c wf r given in
  ((exists s, built = inl s) <->
   finite_and (fun a => QArith_base.Qlt (QArith_base.Qmake 1 2) a) alpha k lambda /\ 0 < p /\ 0 < c) /\
  (built = inr InvalidArgument <->
   ~ finite_and (fun _ => True) alpha k lambda \/
   finite_and (fun a => QArith_base.Qlt (QArith_base.Qmake 1 2) a) alpha k lambda /\ (p <= 0 \/ c <= 0)) /\
  (built = inr DomainError <-> finite_and (fun a => QArith_base.Qle a (QArith_base.Qmake 1 2)) alpha k lambda) /\
  (forall e, built = inr e -> e = InvalidArgument \/ e = DomainError).
Proof. exact @mh_accepts. Qed.
Print Assumptions C93_metropolis_accepts.

Theorem C93_metropolis_settings :
  forall (M G P W : Type) (geometry : M -> Geometry) propose check
    (accept : Action.PhysicalParameters -> Geometry -> Geometry -> MoveType -> P + exn) at_least draw_int draw_p
    (facts : manifold_facts M) print write
    alpha k lambda p c wf (r : Random G) given s (w : W) calls s' w' answers,
  mh_owned alpha k lambda p c wf r given = inl s ->
  mh_history geometry propose check accept at_least draw_int draw_p facts print write s w calls = Some (s', w', answers) ->
  let o := mh_reports s' in
  alpha = Fin (mr_alpha o) /\ k = Fin (mr_k o) /\ lambda = Fin (mr_lambda o) /\ mr_passes o = p /\
  mr_checkpoint o = c /\ mr_writes_files o = wf /\ mr_seed o = rnd_seed r /\ mr_stream o = rnd_stream r.
Proof. exact @mh_settings. Qed.
Print Assumptions C93_metropolis_settings.

(** Built with or without a seed: the seeded constructor given the reported
    values repeats everything. *)
Theorem C93_metropolis_rebuilt :
  forall (M G P W : Type) (seed_engine : Z -> Z -> G) (geometry : M -> Geometry) propose check
    (accept : Action.PhysicalParameters -> Geometry -> Geometry -> MoveType -> P + exn) at_least draw_int draw_p
    (facts : manifold_facts M) print write
    alpha k lambda p c wf seed s (w : W) calls s' w' answers,
  let history := mh_history geometry propose check accept at_least draw_int draw_p facts print write in
  mh_unseeded seed_engine alpha k lambda p c wf seed = inl s \/ mh_seeded seed_engine alpha k lambda p c wf seed = inl s ->
  history s w calls = Some (s', w', answers) ->
  let o := mh_reports s' in
  mr_seed o = seed /\ mr_stream o = 1 /\
  exists t, mh_seeded seed_engine (Fin (mr_alpha o)) (Fin (mr_k o)) (Fin (mr_lambda o)) (mr_passes o)
              (mr_checkpoint o) (mr_writes_files o) (mr_seed o) = inl t /\
    history t w calls = Some (s', w', answers).
Proof. exact @mh_rebuilds. Qed.
Print Assumptions C93_metropolis_rebuilt.
(** Built from the caller's stream (not drawn from yet) and provenance: the
    reported values and the same provenance repeat everything. *)
Theorem C93_metropolis_rebuilt_from_stream :
  forall (M G P W : Type) (seed_engine : Z -> Z -> G) (geometry : M -> Geometry) propose check
    (accept : Action.PhysicalParameters -> Geometry -> Geometry -> MoveType -> P + exn) at_least draw_int draw_p
    (facts : manifold_facts M) print write
    alpha k lambda p c wf seed stream given s (w : W) calls s' w' answers,
  let history := mh_history geometry propose check accept at_least draw_int draw_p facts print write in
  mh_owned alpha k lambda p c wf (make_random seed_engine seed stream) given = inl s ->
  history s w calls = Some (s', w', answers) ->
  let o := mh_reports s' in
  exists t, mh_owned (Fin (mr_alpha o)) (Fin (mr_k o)) (Fin (mr_lambda o)) (mr_passes o) (mr_checkpoint o)
              (mr_writes_files o) (make_random seed_engine (mr_seed o) (mr_stream o)) given = inl t /\
    history t w calls = Some (s', w', answers).
Proof. exact @mh_rebuilds_stream. Qed.
Print Assumptions C93_metropolis_rebuilt_from_stream.

(** After any calls the provenance the object hands out names the seed, stream,
    couplings, cadence and trace its getters report, whatever the caller's
    provenance said, and the manifold it is asked about. *)
Theorem C93_provenance_is_the_run :
  forall (M G P W : Type) (geometry : M -> Geometry) propose check
    (accept : Action.PhysicalParameters -> Geometry -> Geometry -> MoveType -> P + exn) at_least draw_int draw_p
    (facts : manifold_facts M) print write
    alpha k lambda p c wf (r : Random G) given s (w : W) calls s' w' answers m kind n d,
  mh_owned alpha k lambda p c wf r given = inl s ->
  mh_history geometry propose check accept at_least draw_int draw_p facts print write s w calls = Some (s', w', answers) ->
  reproducibility_metadata geometry facts s' m kind n = inl d ->
  tells_of_the_run (mh_reports s') kind n d /\ tells_of_the_state geometry facts m d /\
  tells_of_the_request geometry facts given m d.
Proof. exact @mh_describes. Qed.
Print Assumptions C93_provenance_is_the_run.

Example C93_metropolis_example : exists s s' w' answers d,
  mh_owned (Fin (QArith_base.Qmake 3 5)) (Fin (QArith_base.Qmake 1 1)) (Fin (QArith_base.Qmake 1 10)) 2 1 true
    (make_random (fun seed stream => seed + stream) 4 1) (Some toy_metadata) = inl s /\
  mh_history toy_geometry (toy_api false) toy_check (fun _ => toy_accept) toy_at_least toy_draw toy_probability
    toy_facts toy_print2 toy_write2 s []
    [CAttempt 10 TWO_THREE NaN; CRun 10; CSample 5; CInitialize 9] = Some (s', w', answers) /\
  answers = [(Throws InvalidArgument, 10); (Gives None, 11);
             (Gives (Some (mkTransition SIX_TWO EXECUTION_FAILED)), 5); (Gives None, 9)] /\
  mr_transition_count (mh_reports s') = 7 /\
  reproducibility_metadata toy_geometry toy_facts s' 11 FINAL_TRIANGULATION 2 = inl d /\
  md_seed d = 4 /\ md_transition_stream d = 1 /\ md_desired_simplices d = 100 /\ md_actual_vertices d = 11 /\
  md_alpha d = Some (Fin (QArith_base.Qmake 3 5)) /\ md_transition_count d = Some 7.
Proof.
  do 5 eexists. split; [vm_compute; reflexivity|]. split; [vm_compute; reflexivity|].
  split; [reflexivity|]. split; [reflexivity|]. split; [vm_compute; reflexivity|]. vm_compute. auto 8.
Qed.
