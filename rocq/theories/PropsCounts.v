(** Theorems about counts and counters (C106). [W] as in PropsMoves.v: it gives the
    counts of a manifold and the move check; the move functions [api] are arbitrary:
    whatever they return, the check stands between them and the result. *)
From Verif Require Import Base Tracker Command Run Geom Metropolis Simplex Foliation Moves Links MoveSpec Manifold MoveProps Samples SampleFacts CountSpec CountFacts PropsLookup.
From stdpp Require Import fin_sets gmap.
From Verif Require Import Foliation.
Local Open Scope Z_scope.

(** What the specification says leaves nothing open: all ten counts are determined. *)
Theorem C106_determined : forall g g' g'' t, change g g' t -> change g g'' t -> g' = g''.
Proof.
  intros g g' g'' t A B. unfold change, change_by in *. destruct g', g''. cbn in *. f_equal; lia.
Qed.
Print Assumptions C106_determined.

(** The counts of the manifold that a MoveAlways run returns are those of the
    manifold it was given, changed by the published successes. *)
Theorem C106_always : forall (G : Type) W (api : move_api manifold G) (X : Type) N3 draw print write s (w : X) m s' w' m',
  ma_run N3 api (check_move W) draw print write s w m = Ret (s', w') m' ->
  change (geometry_m W m) (geometry_m W m') (succeeded (ma_results s')) /\
  max_time_m W m' = max_time_m W m /\ min_time_m W m' = min_time_m W m.
Proof. exact @always_counts. Qed.
Print Assumptions C106_always.

(** For Metropolis runs, by the published acceptances (not by the proposals that
    succeeded). *)
Theorem C106_metropolis : forall (G : Type) W (api : move_api manifold G) (P : Type) geometry
    (accept : Geometry -> Geometry -> MoveType -> P + exn) at_least draw_int draw_p
    (X : Type) max_time update print write (x : metropolis G) (w : X) m x' w' m',
  (forall g k g', draw_int 0 4 g = (k, g') -> supported k) ->
  mh_run geometry api (check_move W) accept at_least draw_int draw_p max_time update print write x w m = Ret (x', w') m' ->
  change (geometry_m W m) (geometry_m W m') (st_accepted (mh_stats x')) /\
  max_time_m W m' = max_time_m W m /\ min_time_m W m' = min_time_m W m.
Proof. exact @metropolis_counts. Qed.
Print Assumptions C106_metropolis.

(** For a command object, whose counters go on from call to call, by their growth
    during the call, also when a move function throws. *)
Theorem C106_command : forall (G : Type) W (api : move_api manifold G) (c : command manifold) g c' g' u,
  counters_ok c -> execute api (check_move W) c g = Ret (c', g') u ->
  change_since (geometry_m W (cm_manifold c)) (geometry_m W (cm_manifold c')) (cm_succeeded c) (cm_succeeded c') /\
  max_time_m W (cm_manifold c') = max_time_m W (cm_manifold c) /\ min_time_m W (cm_manifold c') = min_time_m W (cm_manifold c).
Proof. exact @command_counts. Qed.
Print Assumptions C106_command.
Theorem C106_command_thrown : forall (G : Type) W (api : move_api manifold G) (c : command manifold) g c' g' x,
  counters_ok c -> execute api (check_move W) c g = Thr (c', g') x ->
  change_since (geometry_m W (cm_manifold c)) (geometry_m W (cm_manifold c')) (cm_succeeded c) (cm_succeeded c') /\
  max_time_m W (cm_manifold c') = max_time_m W (cm_manifold c) /\ min_time_m W (cm_manifold c') = min_time_m W (cm_manifold c).
Proof. exact @command_counts_thrown. Qed.
Print Assumptions C106_command_thrown.

(** One pass of each strategy with one (2,6) success, and a command that makes that
    move and then meets an exception. *)
Definition queue_26 : command manifold := enqueue (enqueue (make_command m_26) TWO_SIX) TWO_SIX.
Example C106_example :
  match one_pass_always with
  | Ret (s', _) m' => (slot (succeeded (ma_results s')) TWO_SIX =? 1) && (gN0 (geometry_m W_26 m') =? 6) | _ => false end = true /\
  match one_pass_metropolis with
  | Ret (x', _) m' => (slot (st_accepted (mh_stats x')) TWO_SIX =? 1) && (gN3 (geometry_m W_26 m') =? 6) | _ => false end = true /\
  match execute (do_api W_26 plain no_escape) (check_move W_26) queue_26 tt with
  | Thr (c', _) _ => (slot (cm_succeeded c') TWO_SIX =? 1) && (gN1 (geometry_m W_26 (cm_manifold c')) =? 14) | _ => false end = true /\
  counters_ok queue_26 /\ gN0 (geometry_m W_26 m_26) = 5 /\ gN3 (geometry_m W_26 m_26) = 2 /\ gN1 (geometry_m W_26 m_26) = 9.
Proof.
  split; [vm_compute; reflexivity|]. split; [vm_compute; reflexivity|]. split; [vm_compute; reflexivity|].
  split; [repeat constructor|]. vm_compute. auto.
Qed.
