(** The two executables: src/cdt.cpp and src/initialize.cpp. *)
From Verif Require Import Base Tracker Command Run Fnv Geom Metropolis RunCheckpoint.
From Verif Require Config Action.
Local Open Scope Z_scope.
Local Open Scope list_scope.

(** src/cdt.cpp:77-120: the options after boost::program_options parsed the
    command line. [option]: options without a default; a missing required one
    (alpha, k, lambda) is reported by po::notify, line 138. *)
Record cdt_args : Type := mkCdtArgs {
  a_help : bool; a_version : bool; a_spherical : bool; a_toroidal : bool;
  a_simplices : option Z; a_timeslices : option Z; a_dimensions : Z;
  a_radius : fp; a_spacing : fp; a_no_output : bool; a_seed : option Z; a_threads : Z;
  a_alpha : option fp; a_k : option fp; a_lambda : option fp;
  a_passes : Z; a_checkpoint : Z }.
(** src/initialize.cpp:59-89. *)
Record init_args : Type := mkInitArgs {
  i_help : bool; i_version : bool; i_spherical : bool; i_toroidal : bool;
  i_simplices : option Z; i_timeslices : option Z; i_dimensions : Z;
  i_radius : fp; i_spacing : fp; i_seed : option Z; i_threads : Z; i_output : bool }.

(** What the programs print (fmt::print on standard output; may throw). *)
Inductive line (M : Type) : Type :=
| Help | Version
| Job (c : Config.Simulation)                  (** src/cdt.cpp:164-183, 188 *)
| JobTriangulation (c : Config.Triangulation) (save : bool)  (** src/initialize.cpp:129-138 *)
| Shown (m : M)                                (** print, print_details, print_volume_per_timeslice *)
| TooFewSlices (wanted got : Z)                (** src/cdt.cpp:225-230 *)
| FinalCount (n : Z).                          (** src/initialize.cpp:146 *)
Arguments Help {M}. Arguments Version {M}. Arguments Job {M}. Arguments JobTriangulation {M}.
Arguments Shown {M}. Arguments TooFewSlices {M}. Arguments FinalCount {M}.

(** <cstdlib>. *)
Definition EXIT_SUCCESS : Z := 0.
Definition EXIT_FAILURE : Z := 1.
(** include/Random.hpp:96-99. *)
Definition initialization_stream : Z := 0.
Definition transitions_stream : Z := 1.

(** Sequencing of operations that may throw. *)
Definition andthen {W A B} (x : res W A) (f : A -> W -> res W B) : res W B :=
  match x with Ret w a => f a w | Thr w e => Thr w e | UB => UB | Abort => Abort end.
Definition of_checked {W A} (x : Config.checked A) (w : W) : res W A :=
  match x with Config.Val a => Ret w a | Config.Throws e => Thr w e | Config.Undef => UB end.
Definition of_sum {W A} (x : A + exn) (w : W) : res W A :=
  match x with inl a => Ret w a | inr e => Thr w e end.
Definition of_option {W A} (x : option A) (e : exn) (w : W) : res W A :=
  match x with Some a => Ret w a | None => Thr w e end.

(** src/cdt.cpp:253-280, src/initialize.cpp:159-174: the function try block;
    every handler logs and returns EXIT_FAILURE (logging itself is assumed not
    to throw: spdlog catches its own errors). *)
Definition try_main {W} (body : res W Z) : res W Z :=
  match body with Thr w _ => Ret w EXIT_FAILURE | r => r end.

(** include/Utilities.hpp:1810-1831 [make_reproducibility_metadata]. *)
Definition new_metadata {M} (x : manifold_facts M) (m : M) (seed : Z) (kind : ArtifactKind) : Metadata + exn :=
  match mf_placement x m with
  | inr e => inr e
  | inl pl =>
      match mf_fingerprint x m with
      | inr e => inr e
      | inl fi =>
          inl (mkMetadata kind seed initialization_stream transitions_stream (mf_topology x) (mf_dimension x)
            (mf_N3 x m) (mf_max_time x m) (mf_N0 x m) (mf_N1 x m) (mf_N2 x m) (mf_N3 x m)
            (mf_min_time x m) (mf_max_time x m) (mf_radius x m) (mf_spacing x m)
            None None None None None None None None None None (Some pl) (Some fi))
      end
  end.

Section Programs.
  Context {M G P W : Type}.
  (** Floating-point rounding and build flag of the configuration. *)
  Variable rd rl : QArith_base.Q -> fp.
  Variable parallel_build : bool.
  (** pcg64's constructor. *)
  Variable seed_engine : Z -> Z -> G.
  Variable geometry : M -> Geometry.
  Variable propose : move_api M G.
  Variable check : M -> M -> MoveType -> bool.
  Variable accept : Action.PhysicalParameters -> Geometry -> Geometry -> MoveType -> P + exn.
  Variable at_least : P -> fp -> bool.
  Variable draw_int : Z -> Z -> G -> Z * G.
  Variable draw_p : G -> fp * G.
  Variable facts : manifold_facts M.
  (** include/Manifold.hpp:129-137: the generating constructor. *)
  Variable construct : Z -> Z -> Random G -> fp -> fp -> W -> res W M.
  (** include/Manifold.hpp:215 [is_valid]. *)
  Variable is_valid : M -> bool.
  Variable say : line M -> W -> res W unit.
  Variable print : results -> stats -> W -> res W unit.
  (** include/Utilities.hpp:1903-1921. *)
  Variable write : M -> Metadata -> W -> res W unit.

  (** src/cdt.cpp:144-145, include/Random.hpp:123-147: the seed given, or entropy. *)
  Definition root_random (seed : option Z) (entropy : Z) : Random G :=
    make_random seed_engine (match seed with Some s => s | None => entropy end) 0.

  (** src/cdt.cpp:146-152. *)
  Definition cdt_config (a : cdt_args) (root : Random G) (n t : Z) (alpha k lambda : fp) : Config.checked Config.Simulation :=
    Config.bind
      (Config.make_triangulation rd rl parallel_build (a_spherical a) (a_toroidal a) n t (a_dimensions a)
         (a_radius a) (a_spacing a) (rnd_seed root) (a_threads a))
      (fun tr => Config.make_simulation tr alpha k lambda (a_passes a) (a_checkpoint a) (negb (a_no_output a))).

  (** src/cdt.cpp:199-209: provenance handed to the strategy. *)
  Definition cdt_provenance (c : Config.Simulation) (universe : M) : Metadata + exn :=
    match new_metadata facts universe (Config.tr_seed (Config.sim_triangulation c)) FINAL_TRIANGULATION with
    | inr e => inr e
    | inl d =>
        inl (mkMetadata (md_artifact d) (md_seed d) (md_initialization_stream d) (md_transition_stream d)
          (md_topology d) (md_dimension d) (Config.tr_simplices (Config.sim_triangulation c))
          (Config.tr_timeslices (Config.sim_triangulation c))
          (md_actual_vertices d) (md_actual_edges d) (md_actual_faces d) (md_actual_simplices d)
          (md_minimum_timeslice d) (md_maximum_timeslice d) (md_initial_radius d) (md_foliation_spacing d)
          (Some (Config.sim_alpha c)) (Some (Config.sim_k c)) (Some (Config.sim_lambda c))
          (Some (Config.sim_passes c)) (md_configured_attempts d) (Some (Config.sim_checkpoint c))
          (md_completed_passes d) (Some (Config.tr_threads (Config.sim_triangulation c)))
          (md_transition_trace d) (md_transition_count d) (md_placement_fingerprint d) (md_topology_fingerprint d))
    end.

  (** src/cdt.cpp:212-214, include/Metropolis.hpp:163-193. *)
  Definition cdt_strategy (c : Config.Simulation) (r : Random G) (base : Metadata)
    : (Action.PhysicalParameters * metropolis G) + exn :=
    match Action.make_physical_parameters (Config.sim_alpha c) (Config.sim_k c) (Config.sim_lambda c) with
    | inr e => inr e
    | inl pp =>
        match make_metropolis (Config.sim_passes c) (Config.sim_checkpoint c) (Config.sim_write_files c) r base
                (Fin (Action.pp_alpha pp)) (Fin (Action.pp_k pp)) (Fin (Action.pp_lambda pp)) with
        | inr (e, _) => inr e
        | inl x => inl (pp, x)
        end
    end.

  (** src/cdt.cpp:222: [auto const result = run(universe)]. *)
  Definition cdt_run (pp : Action.PhysicalParameters) (x : metropolis G) (universe : M) (w : W)
    : res W (metropolis G * M) :=
    match mh_run geometry propose check (accept pp) at_least draw_int draw_p (mf_max_time facts)
            (update_reproducibility_state facts) print write x w universe with
    | Ret (x', w') m => Ret w' (x', m)
    | Thr (_, w') e => Thr w' e
    | UB => UB | Abort => Abort
    end.

  (** src/cdt.cpp:134-251: from po::notify to the end of the try block. *)
  Definition cdt_simulate (a : cdt_args) (entropy : Z) (w : W) : res W Z :=
    andthen (of_option (a_alpha a) LogicError w) (fun alpha w =>
    andthen (of_option (a_k a) LogicError w) (fun k w =>
    andthen (of_option (a_lambda a) LogicError w) (fun lambda w =>
    andthen (of_option (a_simplices a) InvalidArgument w) (fun n w =>
    andthen (of_option (a_timeslices a) InvalidArgument w) (fun t w =>
    let root := root_random (a_seed a) entropy in
    andthen (of_checked (cdt_config a root n t alpha k lambda) w) (fun c w =>
    let tr := Config.sim_triangulation c in
    let initialization_random := split seed_engine root initialization_stream in
    let transition_random := split seed_engine root transitions_stream in
    andthen (say (Job c) w) (fun _ w =>
    andthen (construct (Config.tr_simplices tr) (Config.tr_timeslices tr) initialization_random
               (Config.tr_initial_radius tr) (Config.tr_foliation_spacing tr) w) (fun universe w =>
    andthen (of_sum (cdt_provenance c universe) w) (fun base w =>
    andthen (of_sum (cdt_strategy c transition_random base) w) (fun ppx w =>
    andthen (say (Shown universe) w) (fun _ w =>
    andthen (cdt_run (fst ppx) (snd ppx) universe w) (fun xm w =>
    let result := snd xm in
    andthen (if mf_max_time facts result <? Config.tr_timeslices tr
             then say (TooFewSlices (Config.tr_timeslices tr) (mf_max_time facts result)) w
             else Ret w tt) (fun _ w =>
    if negb (is_valid result) then Thr w RuntimeError
    else
    andthen (say (Shown result) w) (fun _ w =>
    andthen (if Config.sim_write_files c then
               andthen (of_sum (make_metadata geometry (mf_max_time facts) (update_reproducibility_state facts)
                                  (mh_reproducibility (fst xm)) result FINAL_TRIANGULATION (Config.sim_passes c)
                                  (mh_stats (fst xm))) w)
                 (fun d w => write result d w)
             else Ret w tt) (fun _ w =>
    Ret w EXIT_SUCCESS))))))))))))))).

  (** src/cdt.cpp:72-280 [main]; [parsed] is the outcome of po::store and
      po::parse_command_line. *)
  Definition cdt_main (parsed : cdt_args + exn) (entropy : Z) (w : W) : res W Z :=
    try_main
      match parsed with
      | inr e => Thr w e
      | inl a =>
          if a_help a then andthen (say Help w) (fun _ w => Ret w EXIT_SUCCESS)
          else if a_version a then andthen (say Version w) (fun _ w => Ret w EXIT_SUCCESS)
          else cdt_simulate a entropy w
      end.

  (** src/initialize.cpp:149-154. *)
  Definition init_metadata (c : Config.Triangulation) (universe : M) : Metadata + exn :=
    match new_metadata facts universe (Config.tr_seed c) INITIAL_TRIANGULATION with
    | inr e => inr e
    | inl d =>
        inl (mkMetadata (md_artifact d) (md_seed d) (md_initialization_stream d) (md_transition_stream d)
          (md_topology d) (md_dimension d) (Config.tr_simplices c) (Config.tr_timeslices c)
          (md_actual_vertices d) (md_actual_edges d) (md_actual_faces d) (md_actual_simplices d)
          (md_minimum_timeslice d) (md_maximum_timeslice d) (md_initial_radius d) (md_foliation_spacing d)
          (md_alpha d) (md_k d) (md_lambda d) (md_configured_passes d) (md_configured_attempts d)
          (md_checkpoint_interval d) (md_completed_passes d) (Some (Config.tr_threads c))
          (md_transition_trace d) (md_transition_count d) (md_placement_fingerprint d) (md_topology_fingerprint d))
    end.

  (** src/initialize.cpp:103-157. *)
  Definition init_generate (a : init_args) (entropy : Z) (w : W) : res W Z :=
    andthen (of_option (i_simplices a) InvalidArgument w) (fun n w =>
    andthen (of_option (i_timeslices a) InvalidArgument w) (fun t w =>
    let root := root_random (i_seed a) entropy in
    andthen (of_checked (Config.make_triangulation rd rl parallel_build (i_spherical a) (i_toroidal a) n t
               (i_dimensions a) (i_radius a) (i_spacing a) (rnd_seed root) (i_threads a)) w) (fun c w =>
    andthen (say (JobTriangulation c (i_output a)) w) (fun _ w =>
    andthen (construct (Config.tr_simplices c) (Config.tr_timeslices c) (split seed_engine root initialization_stream)
               (Config.tr_initial_radius c) (Config.tr_foliation_spacing c) w) (fun universe w =>
    andthen (say (Shown universe) w) (fun _ w =>
    andthen (say (FinalCount (mf_N3 facts universe)) w) (fun _ w =>
    andthen (if i_output a
             then andthen (of_sum (init_metadata c universe) w) (fun d w => write universe d w)
             else Ret w tt) (fun _ w =>
    Ret w EXIT_SUCCESS)))))))).

  (** src/initialize.cpp:55-174 [main]. *)
  Definition init_main (parsed : init_args + exn) (entropy : Z) (w : W) : res W Z :=
    try_main
      match parsed with
      | inr e => Thr w e
      | inl a =>
          if i_help a then andthen (say Help w) (fun _ w => Ret w EXIT_SUCCESS)
          else if i_version a then andthen (say Version w) (fun _ w => Ret w EXIT_SUCCESS)
          else init_generate a entropy w
      end.
End Programs.
