(** What a user of the two executables expects of the files on disk. *)
From Verif Require Import Base Tracker Command Run Fnv Geom Metropolis RunCheckpoint Program.
From Verif Require Config Action.
Local Open Scope Z_scope.
Local Open Scope list_scope.

(** The passes among 1..p at which a checkpoint is due. *)
Definition checkpoint_passes (p c : Z) : list Z :=
  List.filter (fun n => n mod c =? 0) (zseq 1 (Z.to_nat p)).

(** [d] truthfully describes the artifact [m] of kind [kind] written after
    [n] passes of a simulation configured by [c]; [trace], [count] are the
    transition trace and count so far. *)
Record describes {M} (x : manifold_facts M) (c : Config.Simulation) (kind : ArtifactKind)
    (n trace count : Z) (m : M) (d : Metadata) : Prop := {
  d_kind : md_artifact d = kind;
  d_seed : md_seed d = Config.tr_seed (Config.sim_triangulation c);
  d_streams : md_initialization_stream d = 0 /\ md_transition_stream d = 1;
  d_shape : md_topology d = mf_topology x /\ md_dimension d = mf_dimension x;
  d_desired : md_desired_simplices d = Config.tr_simplices (Config.sim_triangulation c) /\
              md_desired_timeslices d = Config.tr_timeslices (Config.sim_triangulation c);
  d_counts : md_actual_vertices d = mf_N0 x m /\ md_actual_edges d = mf_N1 x m /\
             md_actual_faces d = mf_N2 x m /\ md_actual_simplices d = mf_N3 x m;
  d_times : md_minimum_timeslice d = mf_min_time x m /\ md_maximum_timeslice d = mf_max_time x m;
  d_foliation : md_initial_radius d = mf_radius x m /\ md_foliation_spacing d = mf_spacing x m;
  d_couplings : md_alpha d = Some (Config.sim_alpha c) /\ md_k d = Some (Config.sim_k c) /\
                md_lambda d = Some (Config.sim_lambda c);
  d_cadence : md_configured_passes d = Some (Config.sim_passes c) /\
              md_checkpoint_interval d = Some (Config.sim_checkpoint c);
  d_completed : md_completed_passes d = Some n;
  d_threads : md_max_threads d = Some (Config.tr_threads (Config.sim_triangulation c));
  d_transitions : md_transition_trace d = Some trace /\ md_transition_count d = Some count;
  d_fingerprints : exists p t, mf_placement x m = inl p /\ mf_fingerprint x m = inl t /\
                   md_placement_fingerprint d = Some p /\ md_topology_fingerprint d = Some t }.

(** [d] describes a generated triangulation [m] (src/initialize.cpp). *)
Record describes_initial {M} (x : manifold_facts M) (c : Config.Triangulation) (m : M) (d : Metadata) : Prop := {
  di_kind : md_artifact d = INITIAL_TRIANGULATION;
  di_seed : md_seed d = Config.tr_seed c;
  di_streams : md_initialization_stream d = 0 /\ md_transition_stream d = 1;
  di_shape : md_topology d = mf_topology x /\ md_dimension d = mf_dimension x;
  di_desired : md_desired_simplices d = Config.tr_simplices c /\ md_desired_timeslices d = Config.tr_timeslices c;
  di_counts : md_actual_vertices d = mf_N0 x m /\ md_actual_edges d = mf_N1 x m /\
              md_actual_faces d = mf_N2 x m /\ md_actual_simplices d = mf_N3 x m;
  di_times : md_minimum_timeslice d = mf_min_time x m /\ md_maximum_timeslice d = mf_max_time x m;
  di_foliation : md_initial_radius d = mf_radius x m /\ md_foliation_spacing d = mf_spacing x m;
  di_no_run : md_alpha d = None /\ md_k d = None /\ md_lambda d = None /\ md_configured_passes d = None /\
              md_checkpoint_interval d = None /\ md_completed_passes d = None /\
              md_transition_trace d = None /\ md_transition_count d = None;
  di_threads : md_max_threads d = Some (Config.tr_threads c);
  di_fingerprints : exists p t, mf_placement x m = inl p /\ mf_fingerprint x m = inl t /\
                    md_placement_fingerprint d = Some p /\ md_topology_fingerprint d = Some t }.

(** A sequence of completed passes: each state (manifold, statistics, engine)
    is obtained from the previous one by one pass. *)
Inductive evolves {M SS G} (step : M -> SS -> G -> M -> SS -> G -> Prop)
  : M -> SS -> G -> list (M * SS * G) -> Prop :=
| evolves_nil m s g : evolves step m s g []
| evolves_cons m s g m' s' g' l : step m s g m' s' g' -> evolves step m' s' g' l ->
    evolves step m s g ((m', s', g') :: l).

(** Constructors and printers that leave the record of files alone. *)
Definition recording_construct {M W F A B C D E} (construct : A -> B -> C -> D -> E -> W -> res W M)
  (a : A) (b : B) (c : C) (d : D) (e : E) (wl : W * F) : res (W * F) M :=
  match construct a b c d e (fst wl) with
  | Ret w m => Ret (w, snd wl) m | Thr w x => Thr (w, snd wl) x | UB => UB | Abort => Abort
  end.
Definition recording_say {W F A} (say : A -> W -> res W unit) (a : A) (wl : W * F) : res (W * F) unit :=
  match say a (fst wl) with
  | Ret w m => Ret (w, snd wl) m | Thr w x => Thr (w, snd wl) x | UB => UB | Abort => Abort
  end.

(** One Metropolis-Hastings pass that completes. *)
Definition mh_pass {M G P} (geometry : M -> Geometry) (propose : move_api M G) (check : M -> M -> MoveType -> bool)
    (accept : Geometry -> Geometry -> MoveType -> P + exn) (at_least : P -> fp -> bool)
    (draw_int : Z -> Z -> G -> Z * G) (draw_p : G -> fp * G)
    (m : M) (s : stats) (g : G) (m' : M) (s' : stats) (g' : G) : Prop :=
  exists r, mh_execute_pass geometry propose check accept at_least draw_int draw_p m s (gN3 (geometry m)) g
            = Ret g' (mkPass m' r s').

(** The checkpoint file of pass [n]: the state after exactly [n] passes. *)
Definition checkpoint_file {M G} (x : manifold_facts M) (c : Config.Simulation)
    (states : list (M * stats * G)) (n : Z) (file : M * Metadata) : Prop :=
  exists m s g, nth_error states (Z.to_nat (n - 1)) = Some (m, s, g) /\ fst file = m /\
    describes x c CHECKPOINT n (st_trace s) (st_count s) m (snd file).

(** The seed of a run: the one given, or the entropy drawn at start. *)
Definition effective_seed (seed : option Z) (entropy : Z) : Z := match seed with Some s => s | None => entropy end.

(** The configuration made from the command line was accepted (C50, C51 say when). *)
Definition accepted (rd rl : QArith_base.Q -> fp) (parallel_build : bool) (a : cdt_args) (seed : Z) (c : Config.Simulation) : Prop :=
  exists n t alpha k lambda tr,
    a_simplices a = Some n /\ a_timeslices a = Some t /\ a_alpha a = Some alpha /\ a_k a = Some k /\ a_lambda a = Some lambda /\
    Config.make_triangulation rd rl parallel_build (a_spherical a) (a_toroidal a) n t (a_dimensions a)
      (a_radius a) (a_spacing a) seed (a_threads a) = Config.Val tr /\
    Config.make_simulation tr alpha k lambda (a_passes a) (a_checkpoint a) (negb (a_no_output a)) = Config.Val c.
Definition accepted_initial (rd rl : QArith_base.Q -> fp) (parallel_build : bool) (a : init_args) (seed : Z) (c : Config.Triangulation) : Prop :=
  exists n t, i_simplices a = Some n /\ i_timeslices a = Some t /\
    Config.make_triangulation rd rl parallel_build (i_spherical a) (i_toroidal a) n t (i_dimensions a)
      (i_radius a) (i_spacing a) seed (i_threads a) = Config.Val c.

(** The couplings used by the acceptance test are the configured ones. *)
Definition parameters_of (c : Config.Simulation) (pp : Action.PhysicalParameters) : Prop :=
  Config.sim_alpha c = Fin (Action.pp_alpha pp) /\ Config.sim_k c = Fin (Action.pp_k pp) /\
  Config.sim_lambda c = Fin (Action.pp_lambda pp).
