(** Specification of the strategy objects (C93). *)
From Verif Require Import Base Tracker Command Run Fnv Geom Metropolis RunCheckpoint Strategy.
From Verif Require Action.
Local Open Scope Z_scope.

(** The couplings are finite numbers and [ok] holds of alpha. *)
Definition finite_and (ok : QArith_base.Q -> Prop) (alpha k lambda : fp) : Prop :=
  match alpha, k, lambda with Fin a, Fin _, Fin _ => ok a | _, _, _ => False end.

(** Every way of building a MoveAlways, a caller's own stream not drawn from yet. *)
Inductive ma_built {G : Type} (seed_engine : Z -> Z -> G) : move_always G -> Prop :=
| by_default entropy : ma_built seed_engine (ma_default seed_engine entropy)
| without_seed p c entropy s : ma_unseeded seed_engine p c entropy = inl s -> ma_built seed_engine s
| from_seed p c seed wf s : ma_seeded seed_engine p c seed wf = inl s -> ma_built seed_engine s
| from_stream p c seed stream wf s :
    make_move_always p c (make_random seed_engine seed stream) wf = inl s -> ma_built seed_engine s.

(** The provenance names the run the getters report. *)
Definition tells_of_the_run (o : mh_report) (kind : ArtifactKind) (n : Z) (d : Metadata) : Prop :=
  md_artifact d = kind /\ md_completed_passes d = Some n /\
  md_seed d = mr_seed o /\ md_transition_stream d = mr_stream o /\
  md_alpha d = Some (Fin (mr_alpha o)) /\ md_k d = Some (Fin (mr_k o)) /\ md_lambda d = Some (Fin (mr_lambda o)) /\
  md_configured_passes d = Some (mr_passes o) /\ md_checkpoint_interval d = Some (mr_checkpoint o) /\
  md_transition_trace d = Some (mr_transition_trace o) /\ md_transition_count d = Some (mr_transition_count o).
(** ... and the manifold handed in. *)
Definition tells_of_the_state {M : Type} (geometry : M -> Geometry) (facts : manifold_facts M) (m : M) (d : Metadata) : Prop :=
  md_topology d = mf_topology facts /\ md_dimension d = mf_dimension facts /\
  md_actual_vertices d = mf_N0 facts m /\ md_actual_edges d = mf_N1 facts m /\
  md_actual_faces d = mf_N2 facts m /\ md_actual_simplices d = mf_N3 facts m /\
  md_minimum_timeslice d = mf_min_time facts m /\ md_maximum_timeslice d = mf_max_time facts m /\
  md_initial_radius d = mf_radius facts m /\ md_foliation_spacing d = mf_spacing facts m /\
  (exists pl, mf_placement facts m = inl pl /\ md_placement_fingerprint d = Some pl) /\
  (exists fi, mf_fingerprint facts m = inl fi /\ md_topology_fingerprint d = Some fi).
(** From the caller's provenance only the initialization stream, the requested
    sizes, the attempts and the thread count are taken; a requested size that is
    absent or zero is filled in from the manifold. *)
Definition requested (v : option Z) (actual : Z) : Z :=
  match v with Some x => if x =? 0 then actual else x | None => actual end.
Definition tells_of_the_request {M : Type} (geometry : M -> Geometry) (facts : manifold_facts M)
    (given : option Metadata) (m : M) (d : Metadata) : Prop :=
  md_initialization_stream d = match given with Some g => md_initialization_stream g | None => 0 end /\
  md_desired_simplices d = requested (option_map md_desired_simplices given) (gN3 (geometry m)) /\
  md_desired_timeslices d = requested (option_map md_desired_timeslices given) (mf_max_time facts m) /\
  md_configured_attempts d = match given with Some g => md_configured_attempts g | None => None end /\
  md_max_threads d = match given with Some g => md_max_threads g | None => None end.

(** Concrete callbacks for the examples: every move finds no site. *)
Definition idle_api {G : Type} : move_api Z G :=
  let none m (_ : Z) (g : G) := (Failed (mkMoveError NO_CANDIDATE m), g) in
  mkMoveApi (none TWO_THREE) (none THREE_TWO) (none TWO_SIX) (none SIX_TWO) (none FOUR_FOUR).
Definition toy_facts : manifold_facts Z :=
  mkFacts Z SPHERICAL 3 (fun m => m) (fun m => m + 1) (fun m => m + 2) (fun m => 3) (fun _ => 1) (fun _ => 4)
    (fun _ => Fin (QArith_base.Qmake 1 1)) (fun _ => Fin (QArith_base.Qmake 1 1)) (fun m => inl (7 * m)) (fun m => inl (9 * m)).
