(** Theorems about what runs show and write along the way (C69). Vocabulary:
    CheckpointState.v, first section. *)
From Verif Require Import Base Tracker Command Run Fnv Geom Metropolis RunCheckpoint CheckpointState Toy.
Local Open Scope Z_scope.
Local Open Scope list_scope.

(** ** C69: the n-th pass' report shows the counters, and the n-th pass' file
    holds the state, that a run of n passes of the same strategy from the same
    state would have returned, whatever is printed or written; a run that throws
    has produced an initial part of this. [ma_told] spells out each output. *)
Theorem C69_move_always_outputs : forall (M G W : Type) N3 api check draw_int print write
    (s : move_always G) (w : W) (man : M), cadence_ok (ma_cadence s) ->
  match ma_run N3 api check draw_int (keeping_print print)
          (fun m seed n => keeping_write (fun b => write (fst (fst b)) (snd (fst b)) (snd b)) (m, seed, n)) s (w, []) man with
  | Ret (_, (_, l)) _ => Forall2 (ma_told N3 api check draw_int s man)
      (outputs_due (cad_passes (ma_cadence s)) (cad_checkpoint (ma_cadence s)) (ma_write_files s)) l
  | Thr (_, (_, l)) _ => exists k, Forall2 (ma_told N3 api check draw_int s man)
      (take k (outputs_due (cad_passes (ma_cadence s)) (cad_checkpoint (ma_cadence s)) (ma_write_files s))) l
  | _ => True
  end.
Proof. exact @ma_outputs. Qed.
Print Assumptions C69_move_always_outputs.

Theorem C69_metropolis_outputs : forall (M G P W : Type) geometry propose check (accept : Geometry -> Geometry -> MoveType -> P + exn)
    at_least draw_int draw_p facts print write (x : metropolis G) (w : W) (man : M), cadence_ok (mh_cadence x) ->
  match mh_run geometry propose check accept at_least draw_int draw_p (mf_max_time facts) (update_reproducibility_state facts)
          (fun r s => keeping_print (fun a => print (fst a) (snd a)) (r, s))
          (fun m d => keeping_write (fun b => write (fst b) (snd b)) (m, d)) x (w, []) man with
  | Ret (_, (_, l)) _ => Forall2 (mh_told geometry propose check accept at_least draw_int draw_p facts x man)
      (outputs_due (cad_passes (mh_cadence x)) (cad_checkpoint (mh_cadence x)) (mh_write_files x)) l
  | Thr (_, (_, l)) _ => exists k, Forall2 (mh_told geometry propose check accept at_least draw_int draw_p facts x man)
      (take k (outputs_due (cad_passes (mh_cadence x)) (cad_checkpoint (mh_cadence x)) (mh_write_files x))) l
  | _ => True
  end.
Proof. exact @mh_outputs. Qed.
Print Assumptions C69_metropolis_outputs.

Example C69_due : outputs_due 7 3 true = [Reported 3; Written 3; Reported 6; Written 6; Reported 7] /\
  outputs_due 4 2 false = [Reported 2; Reported 4; Reported 4].
Proof. split; reflexivity. Qed.
Definition toy_kept : Type := list Z * list (shown_or_written results (Z * Z * Z)).
Example C69_example : exists s' w' r1 r2 r3,
  ma_run toy_N3 (toy_api false) toy_check toy_draw (keeping_print toy_print)
    (fun m seed n => keeping_write (fun b => toy_write (fst (fst b)) (snd (fst b)) (snd b)) (m, seed, n))
    (mkMoveAlways (mkCadence 7 3) toy_random true results_zero 0) ([], []) 10
  = Ret (s', (w', [Showed r1; Wrote (12, 0, 3); Showed r2; Wrote (14, 0, 6); Showed r3])) 15 /\
  attempted r1 <> attempted r2 /\ r3 = ma_results s'.
Proof. do 5 eexists. split; [vm_compute; reflexivity|]. split; [discriminate|reflexivity]. Qed.
Definition toy_facts : manifold_facts Z :=
  mkFacts Z SPHERICAL 3 (fun m => m) (fun m => m + 1) (fun m => m + 2) (fun m => 3) (fun _ => 1) (fun _ => 4)
    (fun _ => Fin (QArith_base.Qmake 1 1)) (fun _ => Fin (QArith_base.Qmake 1 1)) (fun m => inl m) (fun m => inl (m + 5)).
Example C69_example_metropolis : exists x' w' a b c d1 d2,
  mh_run toy_geometry (toy_api false) toy_check toy_accept (fun p _ => p <? 14) (fun lo hi g => (lo + (g / 2) mod 5, g + 1)) toy_probability
    (mf_max_time toy_facts) (update_reproducibility_state toy_facts)
    (fun r s => keeping_print (fun a => toy_print2 (fst a) (snd a)) (r, s))
    (fun m d => keeping_write (fun b => toy_write2 (fst b) (snd b)) (m, d))
    (mkMetropolis (mkCadence 5 2) true toy_random toy_metadata results_zero stats_zero 0) ([], []) 10
  = Ret (x', (w', [Showed a; Wrote (12, d1); Showed b; Wrote (13, d2); Showed c])) 13 /\
  md_transition_count d1 = Some 6 /\ md_transition_count d2 = Some 12 /\ st_count (mh_stats x') = 15.
Proof. do 7 eexists. split; [vm_compute; reflexivity|]. repeat split. Qed.
