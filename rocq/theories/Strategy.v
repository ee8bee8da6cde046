(** The two strategy objects as a user handles them: their constructors, every
    public call, and what the getters report
    (include/Move_always.hpp:94-208, include/Metropolis.hpp:118-301, 634-714).
    The runs themselves are in Run.v and Metropolis.v. *)
From Verif Require Import Base Tracker Command Run Fnv Geom Metropolis RunCheckpoint.
From Verif Require Action.

(** include/Utilities.hpp:109-142: the default member initializers of
    Reproducibility_metadata. *)
Definition metadata_default : Metadata :=
  mkMetadata FINAL_TRIANGULATION 0 stream_initialization stream_transitions SPHERICAL 0 0 0 0 0 0 0 0 0
    (Fin (QArith_base.Qmake 0 1)) (Fin (QArith_base.Qmake 0 1))
    None None None None None None None None None None None None.

(** What one public call leaves: the answer, or the exception it threw. *)
Inductive answer (A : Type) : Type := Gives (a : A) | Throws (e : exn).
Arguments Gives {A}. Arguments Throws {A}.

Section MoveAlwaysObject.
  Context {M G W : Type}.
  Variable seed_engine : Z -> Z -> G.
  Variable N3 : M -> Z.
  Variable api : move_api M G.
  Variable check_move : M -> M -> MoveType -> bool.
  Variable draw_int : Z -> Z -> G -> Z * G.
  Variable print_results : results -> W -> res W unit.
  Variable write_file : M -> Z -> Z -> W -> res W unit.

  (** include/Random.hpp:134-147: Random{} given what entropy_seed returned;
      Random{seed} selects stream 0 (include/Random.hpp:48: m_value{}). *)
  Definition root_of (seed : Z) : Random G := make_random seed_engine seed 0.

  (** include/Move_always.hpp:94-95 [MoveStrategy() = default]; the cadence's own
      defaults, a Random{} and the member initializers of lines 41-47. *)
  Definition ma_default (entropy : Z) : move_always G :=
    mkMoveAlways cadence_default (root_of entropy) true results_zero 0.
  (** include/Move_always.hpp:101-104. *)
  Definition ma_unseeded (passes checkpoint entropy : Z) : move_always G + (exn * MoveRunCadenceError) :=
    make_move_always passes checkpoint (root_of entropy) true.
  (** include/Move_always.hpp:112-118. *)
  Definition ma_seeded (passes checkpoint seed : Z) (write_files : bool)
    : move_always G + (exn * MoveRunCadenceError) :=
    make_move_always passes checkpoint (root_of seed) write_files.

  (** include/Move_always.hpp:135-168: the getters. *)
  Record ma_report : Type := mkMaReport {
    rp_passes : Z; rp_checkpoint : Z; rp_checkpoint_events : Z; rp_seed : Z; rp_stream : Z;
    rp_writes_files : bool; rp_attempted : tracker; rp_succeeded : tracker; rp_failed : tracker }.
  Definition ma_reports (s : move_always G) : ma_report :=
    mkMaReport (cad_passes (ma_cadence s)) (cad_checkpoint (ma_cadence s)) (ma_checkpoint_events s)
      (rnd_seed (ma_random s)) (rnd_stream (ma_random s)) (ma_write_files s)
      (attempted (ma_results s)) (succeeded (ma_results s)) (failed (ma_results s)).

  (** A sequence of invocations of one object, with the answer of each;
      [None]: undefined behaviour or abort. *)
  Fixpoint ma_history (s : move_always G) (w : W) (l : list M) : option (move_always G * W * list (answer M)) :=
    match l with
    | [] => Some (s, w, [])
    | man :: l' =>
        match ma_run N3 api check_move draw_int print_results write_file s w man with
        | Ret (s', w') m =>
            match ma_history s' w' l' with Some (s2, w2, a) => Some (s2, w2, Gives m :: a) | None => None end
        | Thr (s', w') e =>
            match ma_history s' w' l' with Some (s2, w2, a) => Some (s2, w2, Throws e :: a) | None => None end
        | UB | Abort => None
        end
    end.
End MoveAlwaysObject.

Section MetropolisObject.
  Context {M G P W : Type}.
  Variable seed_engine : Z -> Z -> G.
  Variable geometry : M -> Geometry.
  Variable propose : move_api M G.
  Variable check_move : M -> M -> MoveType -> bool.
  Variable accept : Action.PhysicalParameters -> Geometry -> Geometry -> MoveType -> P + exn.
  Variable at_least : P -> fp -> bool.
  Variable draw_int : Z -> Z -> G -> Z * G.
  Variable draw_p : G -> fp * G.
  Variable facts : manifold_facts M.
  Variable print_results : results -> stats -> W -> res W unit.
  Variable write_file : M -> Metadata -> W -> res W unit.

  (** include/Metropolis.hpp:80-103: all members. *)
  Record strategy : Type := mkStrategy { sg_parameters : Action.PhysicalParameters; sg_rest : metropolis G }.

  (** include/Metropolis.hpp:174-184: the metadata the members start from. *)
  Definition initial_metadata (given : option Metadata) (r : Random G) (alpha k lambda : fp) (passes checkpoint : Z)
    : Metadata :=
    match given with
    | Some d => d
    | None =>
        mkMetadata (md_artifact metadata_default) (rnd_seed r) (md_initialization_stream metadata_default)
          (md_transition_stream metadata_default) (md_topology metadata_default) (md_dimension metadata_default)
          0 0 0 0 0 0 0 0 (md_initial_radius metadata_default) (md_foliation_spacing metadata_default)
          (Some alpha) (Some k) (Some lambda) (Some passes) None (Some checkpoint) None None None None None None
    end.

  (** include/Metropolis.hpp:163-196: the delegated-to constructor. Members are
      initialised in declaration order: parameters before cadence. *)
  Definition mh_owned (alpha k lambda : fp) (passes checkpoint : Z) (write_files : bool) (r : Random G)
      (given : option Metadata) : strategy + exn :=
    match Action.make_physical_parameters alpha k lambda with
    | inr e => inr e
    | inl pp =>
        match make_metropolis passes checkpoint write_files r
                (initial_metadata given r alpha k lambda passes checkpoint)
                (Fin (Action.pp_alpha pp)) (Fin (Action.pp_k pp)) (Fin (Action.pp_lambda pp)) with
        | inr (e, _) => inr e
        | inl x => inl (mkStrategy pp x)
        end
    end.
  (** include/Metropolis.hpp:132-145. *)
  Definition mh_unseeded (alpha k lambda : fp) (passes checkpoint : Z) (write_files : bool) (entropy : Z)
    : strategy + exn :=
    mh_owned alpha k lambda passes checkpoint write_files
      (split seed_engine (root_of seed_engine entropy) stream_transitions) None.
  (** include/Metropolis.hpp:209-222. *)
  Definition mh_seeded (alpha k lambda : fp) (passes checkpoint : Z) (write_files : bool) (seed : Z)
    : strategy + exn :=
    mh_owned alpha k lambda passes checkpoint write_files (make_random seed_engine seed stream_transitions) None.

  (** include/Metropolis.hpp:224-301: the getters. *)
  Record mh_report : Type := mkMhReport {
    mr_alpha : QArith_base.Q; mr_k : QArith_base.Q; mr_lambda : QArith_base.Q;
    mr_passes : Z; mr_checkpoint : Z; mr_checkpoint_events : Z; mr_writes_files : bool;
    mr_seed : Z; mr_stream : Z; mr_transition_trace : Z; mr_transition_count : Z;
    mr_proposed : tracker; mr_accepted : tracker; mr_rejected : tracker;
    mr_attempted : tracker; mr_succeeded : tracker; mr_failed : tracker; mr_geometry : Geometry }.
  Definition mh_reports (s : strategy) : mh_report :=
    let x := sg_rest s in
    mkMhReport (Action.pp_alpha (sg_parameters s)) (Action.pp_k (sg_parameters s)) (Action.pp_lambda (sg_parameters s))
      (cad_passes (mh_cadence x)) (cad_checkpoint (mh_cadence x)) (mh_checkpoint_events x) (mh_write_files x)
      (rnd_seed (mh_generator x)) (rnd_stream (mh_generator x)) (st_trace (mh_stats x)) (st_count (mh_stats x))
      (st_proposed (mh_stats x)) (st_accepted (mh_stats x)) (st_rejected (mh_stats x))
      (attempted (mh_results x)) (succeeded (mh_results x)) (failed (mh_results x)) (st_geometry (mh_stats x)).
  (** include/Metropolis.hpp:265-272 [reproducibility_metadata]. *)
  Definition reproducibility_metadata (s : strategy) (m : M) (kind : ArtifactKind) (completed : Z) : Metadata + exn :=
    make_metadata geometry (mf_max_time facts) (update_reproducibility_state facts)
      (mh_reproducibility (sg_rest s)) m kind completed (mh_stats (sg_rest s)).

  (** The public calls that may change the object. *)
  Inductive mh_call : Type :=
  | CRun (man : M)                                    (** include/Metropolis.hpp:677-714 *)
  | CAttempt (cur : M) (move : MoveType) (trial : fp) (** include/Metropolis.hpp:642-649 *)
  | CSample (cur : M)                                 (** include/Metropolis.hpp:658-660 *)
  | CInitialize (man : M).                            (** include/Metropolis.hpp:664-665 *)
  (** What the caller gets: a manifold (returned, or left in the argument) and the
      transition if there is one. *)
  Definition mh_answer : Type := (answer (option MetropolisTransition) * M)%type.

  Definition mh_step (s : strategy) (w : W) (c : mh_call) : option (strategy * W * mh_answer) :=
    let pp := sg_parameters s in
    match c with
    | CRun man =>
        match mh_run geometry propose check_move (accept pp) at_least draw_int draw_p (mf_max_time facts)
                (update_reproducibility_state facts) print_results write_file (sg_rest s) w man with
        | Ret (x, w') m => Some (mkStrategy pp x, w', (Gives None, m))
        | Thr (x, w') e => Some (mkStrategy pp x, w', (Throws e, man))
        | UB | Abort => None
        end
    | CAttempt cur m t =>
        match attempt_transition geometry propose check_move (accept pp) at_least (sg_rest s) cur m t with
        | Ret (x, cur') tr => Some (mkStrategy pp x, w, (Gives (Some tr), cur'))
        | Thr (x, cur') e => Some (mkStrategy pp x, w, (Throws e, cur'))
        | UB | Abort => None
        end
    | CSample cur =>
        match attempt_sampled geometry propose check_move (accept pp) at_least draw_int draw_p (sg_rest s) cur with
        | Ret (x, cur') tr => Some (mkStrategy pp x, w, (Gives (Some tr), cur'))
        | Thr (x, cur') e => Some (mkStrategy pp x, w, (Throws e, cur'))
        | UB | Abort => None
        end
    | CInitialize man => Some (mkStrategy pp (initialize geometry (sg_rest s) man), w, (Gives None, man))
    end.
  Fixpoint mh_history (s : strategy) (w : W) (l : list mh_call) : option (strategy * W * list mh_answer) :=
    match l with
    | [] => Some (s, w, [])
    | c :: l' =>
        match mh_step s w c with
        | None => None
        | Some (s', w', a) =>
            match mh_history s' w' l' with Some (s2, w2, r) => Some (s2, w2, a :: r) | None => None end
        end
    end.
End MetropolisObject.
Arguments strategy G : clear implicits.
Arguments mh_call M : clear implicits.
Arguments mh_answer M : clear implicits.
