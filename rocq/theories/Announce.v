(** The job parameters the programs print: src/cdt.cpp, src/initialize.cpp. *)
From Verif Require Import Base Config Text Tracker Command Run Fnv Geom Metropolis RunCheckpoint Program Transcript.
Local Open Scope Z_scope.
Local Open Scope list_scope.

(** include/Utilities.hpp:81-90 (operator<<) and 2385-2391 [topology_to_str]. *)
Definition topology_to_str (t : Config.topology) : text :=
  match t with Config.SPHERICAL => B "spherical" | Config.TOROIDAL => B "toroidal" end.

Section Announce.
  (** fmt::print "{}" of a double and of a long double. *)
  Variable show_double show_long : fp -> text.

  (** src/cdt.cpp:163-183. *)
  Definition announce_job (c : Config.Simulation) : text :=
    let tr := Config.sim_triangulation c in
    line [B "Topology is "; topology_to_str (Config.tr_topology tr)] ++
    line [B "Dimensionality: "; print_int (Config.tr_dimensions tr - 1); B "+"; print_int 1] ++
    line [B "Initial radius: "; show_double (Config.tr_initial_radius tr)] ++
    line [B "Foliation spacing: "; show_double (Config.tr_foliation_spacing tr)] ++
    line [B "Number of desired simplices: "; print_int (Config.tr_simplices tr)] ++
    line [B "Number of desired timeslices: "; print_int (Config.tr_timeslices tr)] ++
    line [B "Number of passes: "; print_int (Config.sim_passes c)] ++
    line [B "Checkpoint every "; print_int (Config.sim_checkpoint c); B " passes."] ++
    line [B "Effective random seed: "; print_unsigned (Config.tr_seed tr)] ++
    line [B "Maximum Delaunay threads: "; print_unsigned (Config.tr_threads tr)] ++
    line [B "=== Parameters ==="] ++
    line [B "Alpha: "; show_long (Config.sim_alpha c)] ++
    line [B "K: "; show_long (Config.sim_k c)] ++
    line [B "Lambda: "; show_long (Config.sim_lambda c)].

  (** src/initialize.cpp:128-138. Line 135 prints root_random.seed(), the value given
      to make_triangulation as its seed (113-116). *)
  Definition announce_generation (c : Config.Triangulation) (save : bool) : text :=
    line [B "Topology is "; topology_to_str (Config.tr_topology c)] ++
    line [B "Number of dimensions = "; print_int (Config.tr_dimensions c)] ++
    line [B "Number of desired simplices = "; print_int (Config.tr_simplices c)] ++
    line [B "Number of desired timeslices = "; print_int (Config.tr_timeslices c)] ++
    line [B "Initial radius = "; show_double (Config.tr_initial_radius c)] ++
    line [B "Foliation spacing = "; show_double (Config.tr_foliation_spacing c)] ++
    line [B "Effective random seed: "; print_unsigned (Config.tr_seed c)] ++
    line [B "Maximum Delaunay threads: "; print_unsigned (Config.tr_threads c)] ++
    (if save then line [B "Output will be saved."] else []).

  Context {M E : Type}.
  (** utilities::current_date_time (src/cdt.cpp:188), the help and version texts, and
      Manifold's print functions with the timing lines (src/cdt.cpp:217-219, 235-239;
      src/initialize.cpp:144-145): any text. *)
  Variable clock : E -> text.
  Variable help version : text.
  Variable shown : M -> E -> text.

  (** The text of each step of the programs; src/cdt.cpp:188 follows the parameters,
      228-229 and src/initialize.cpp:146 are the other two. *)
  Definition spoken (l : Program.line M) (e : E) : text :=
    match l with
    | Help => help
    | Version => version
    | Job c => announce_job c ++ line [B "cdt started at "; clock e]
    | JobTriangulation c save => announce_generation c save
    | Shown m => shown m e
    | TooFewSlices wanted got =>
        line [B "You wanted "; print_int wanted; B " timeslices, but only got "; print_int got; B "."]
    | FinalCount n => line [B "Final number of simplices: "; print_int n]
    end.
  (** Standard output so far and the rest of the world; fmt::print is taken not to
      fail. *)
  Definition speak (l : Program.line M) (w : text * E) : res (text * E) unit :=
    Ret (fst w ++ spoken l (snd w), snd w) tt.
End Announce.
