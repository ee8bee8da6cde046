(** Records shared by several parts of the model. *)
From Verif Require Import Base.

(** include/Geometry.hpp:30-67 [struct Geometry<3>]. *)
Record Geometry : Type := mkGeometry {
  gN3 : Z; gN3_31 : Z; gN3_13 : Z; gN3_31_13 : Z; gN3_22 : Z;
  gN2 : Z; gN1 : Z; gN1_TL : Z; gN1_SL : Z; gN0 : Z }.
(** Value-initialised Geometry. *)
Definition geometry_zero : Geometry := mkGeometry 0 0 0 0 0 0 0 0 0 0.

(** include/Utilities.hpp:96-101 [enum class ArtifactKind]. *)
Inductive ArtifactKind : Type := INITIAL_TRIANGULATION | CHECKPOINT | FINAL_TRIANGULATION.
(** include/Utilities.hpp:71-75 [enum class Topology]. *)
Inductive Topology : Type := SPHERICAL | TOROIDAL.

(** include/Utilities.hpp:109-142 [struct Reproducibility_metadata]. *)
Record Metadata : Type := mkMetadata {
  md_artifact : ArtifactKind;
  md_seed : Z;
  md_initialization_stream : Z;
  md_transition_stream : Z;
  md_topology : Topology;
  md_dimension : Z;
  md_desired_simplices : Z;
  md_desired_timeslices : Z;
  md_actual_vertices : Z;
  md_actual_edges : Z;
  md_actual_faces : Z;
  md_actual_simplices : Z;
  md_minimum_timeslice : Z;
  md_maximum_timeslice : Z;
  md_initial_radius : fp;
  md_foliation_spacing : fp;
  md_alpha : option fp;
  md_k : option fp;
  md_lambda : option fp;
  md_configured_passes : option Z;
  md_configured_attempts : option Z;
  md_checkpoint_interval : option Z;
  md_completed_passes : option Z;
  md_max_threads : option Z;
  md_transition_trace : option Z;
  md_transition_count : option Z;
  md_placement_fingerprint : option Z;
  md_topology_fingerprint : option Z }.
