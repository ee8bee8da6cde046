(** C90-C91: what runs print. *)
From Verif Require Import Base Config Tracker Command Run Metropolis Text Geom Toy Transcript TranscriptSpec TranscriptRuns TranscriptCounts.
From stdpp Require Import list.
From Verif Require Import Base Config Tracker Command Run Metropolis Text Geom Toy Transcript TranscriptSpec TranscriptRuns TranscriptCounts.
Local Open Scope Z_scope.
Local Open Scope list_scope.

(** ** C90: the output of a run *)
(** [told] (TranscriptSpec.v): the opening lines with seed and stream, the pass
    lines in order, a report after each [interval]-th pass and at the end, and the
    announcement of each file. [always_report h]: the numbers counted in the moves
    [h] that the passes made. *)
Theorem C90_move_always :
  forall {M G W : Type} (N3 : M -> Z) (api : move_api M G) (check : M -> M -> MoveType -> bool)
         (draw : Z -> Z -> G -> Z * G) (write_file : M -> Z -> Z -> W -> res W unit)
         (s : move_always G) w man w' rr,
    cadence_ok (ma_cadence s) -> 0 <= rnd_seed (ma_random s) -> 0 <= rnd_stream (ma_random s) ->
    ma_printed N3 api check draw write_file s w man = Ret w' rr ->
    exists hs, length hs = Z.to_nat (cad_passes (ma_cadence s)) /\
      always_passes N3 api check man hs (rr_manifold rr) /\
      read_log always_shapes (fst w') =
        Some (told (rnd_seed (ma_random s)) (rnd_stream (ma_random s)) (cad_passes (ma_cadence s)) (cad_checkpoint (ma_cadence s))
                   (ma_write_files s) (fun n => always_report (firstn n hs))).
Proof. exact @always_transcript. Qed.
Print Assumptions C90_move_always.

(** A run that throws: its output ends with the number of the pass that threw, or
    with the announcement of the file that could not be written. *)
Theorem C90_move_always_interrupted :
  forall {M G W : Type} (N3 : M -> Z) (api : move_api M G) (check : M -> M -> MoveType -> bool)
         (draw : Z -> Z -> G -> Z * G) (write_file : M -> Z -> Z -> W -> res W unit)
         (s : move_always G) w man w' x,
    0 <= rnd_seed (ma_random s) -> 0 <= rnd_stream (ma_random s) ->
    ma_printed N3 api check draw write_file s w man = Thr w' x ->
    exists hs m, (length hs <= Z.to_nat (cad_passes (ma_cadence s)))%nat /\ always_passes N3 api check man hs m /\
      let said := told_passes (rnd_seed (ma_random s)) (rnd_stream (ma_random s)) (cad_checkpoint (ma_cadence s)) (ma_write_files s)
                    (fun n => always_report (firstn n hs)) (length hs) in
      ((length hs < Z.to_nat (cad_passes (ma_cadence s)))%nat /\
       read_log always_shapes (fst w') = Some (said ++ [Pass (Z.of_nat (S (length hs)))]) \/
       ma_write_files s = true /\ hs <> [] /\ Z.of_nat (length hs) mod cad_checkpoint (ma_cadence s) = 0 /\
       read_log always_shapes (fst w') = Some said).
Proof. exact @always_interrupted. Qed.
Print Assumptions C90_move_always_interrupted.

Theorem C90_metropolis :
  forall {M G P W : Type} (geometry : M -> Geometry) (propose : move_api M G) (check : M -> M -> MoveType -> bool)
         (accept : Geometry -> Geometry -> MoveType -> P + exn) (at_least : P -> fp -> bool)
         (draw_int : Z -> Z -> G -> Z * G) (draw_p : G -> fp * G) (max_time : M -> Z)
         (update : Metadata -> M -> Metadata + exn) (write_file : M -> Metadata -> W -> res W unit),
    (forall g m g', draw_int 0 4 g = (m, g') -> supported m) ->
    forall (x : metropolis G) w man w' rr,
    cadence_ok (mh_cadence x) -> 0 <= rnd_seed (mh_generator x) -> 0 <= rnd_stream (mh_generator x) ->
    mh_printed geometry propose check accept at_least draw_int draw_p max_time update write_file x w man = Ret w' rr ->
    exists hs, length hs = Z.to_nat (cad_passes (mh_cadence x)) /\
      run_chain geometry propose check accept at_least draw_int draw_p man hs (rr_manifold rr) /\
      read_log metropolis_shapes (fst w') =
        Some (told (rnd_seed (mh_generator x)) (rnd_stream (mh_generator x)) (cad_passes (mh_cadence x)) (cad_checkpoint (mh_cadence x))
                   (mh_write_files x) (fun n => metropolis_report (firstn n hs))).
Proof. exact @metropolis_transcript. Qed.
Print Assumptions C90_metropolis.

Theorem C90_metropolis_interrupted :
  forall {M G P W : Type} (geometry : M -> Geometry) (propose : move_api M G) (check : M -> M -> MoveType -> bool)
         (accept : Geometry -> Geometry -> MoveType -> P + exn) (at_least : P -> fp -> bool)
         (draw_int : Z -> Z -> G -> Z * G) (draw_p : G -> fp * G) (max_time : M -> Z)
         (update : Metadata -> M -> Metadata + exn) (write_file : M -> Metadata -> W -> res W unit),
    (forall g m g', draw_int 0 4 g = (m, g') -> supported m) ->
    forall (x : metropolis G) w man w' ex,
    0 <= rnd_seed (mh_generator x) -> 0 <= rnd_stream (mh_generator x) ->
    mh_printed geometry propose check accept at_least draw_int draw_p max_time update write_file x w man = Thr w' ex ->
    exists hs m, (length hs <= Z.to_nat (cad_passes (mh_cadence x)))%nat /\
      run_chain geometry propose check accept at_least draw_int draw_p man hs m /\
      let said := told_passes (rnd_seed (mh_generator x)) (rnd_stream (mh_generator x)) (cad_checkpoint (mh_cadence x)) (mh_write_files x)
                    (fun n => metropolis_report (firstn n hs)) (length hs) in
      ((length hs < Z.to_nat (cad_passes (mh_cadence x)))%nat /\
       read_log metropolis_shapes (fst w') = Some (said ++ [Pass (Z.of_nat (S (length hs)))]) \/
       mh_write_files x = true /\ hs <> [] /\ Z.of_nat (length hs) mod cad_checkpoint (mh_cadence x) = 0 /\
       read_log metropolis_shapes (fst w') = Some said).
Proof. exact @metropolis_interrupted. Qed.
Print Assumptions C90_metropolis_interrupted.

(** The runs that print are the runs of the other theorems, [ma_run] and [mh_run],
    with these texts as their reports. *)
Theorem C90_same_run :
  (forall {M G W : Type} (N3 : M -> Z) (api : move_api M G) check draw (write_file : M -> Z -> Z -> W -> res W unit) s w man,
     ma_run N3 api check draw (fun r => or_ub (ma_print_results r)) write_file s w man =
     match ma_printed N3 api check draw write_file s w man with
     | Ret (_, (g, w')) rr => Ret (mkMoveAlways (ma_cadence s) (advance (ma_random s) g) (ma_write_files s) (rr_results rr) (rr_checkpoint_events rr), w') (rr_manifold rr)
     | Thr (_, (g, w')) x => Thr (mkMoveAlways (ma_cadence s) (advance (ma_random s) g) (ma_write_files s) (ma_results s) (ma_checkpoint_events s), w') x
     | UB => UB
     | Abort => Abort
     end) /\
  (forall {M G P W : Type} geometry (propose : move_api M G) check (accept : Geometry -> Geometry -> MoveType -> P + exn)
     at_least draw_int draw_p max_time update (write_file : M -> Metadata -> W -> res W unit) x w man,
     mh_run geometry propose check accept at_least draw_int draw_p max_time update (fun r s => or_ub (mh_print_results r s)) write_file x w man =
     match mh_printed geometry propose check accept at_least draw_int draw_p max_time update write_file x w man with
     | Ret (_, (g, w')) rr => Ret (mkMetropolis (mh_cadence x) (mh_write_files x) (advance (mh_generator x) g) (mh_reproducibility x)
                                     (rr_results rr) (rr_state rr) (rr_checkpoint_events rr), w') (rr_manifold rr)
     | Thr (_, (g, w')) e => Thr (mkMetropolis (mh_cadence x) (mh_write_files x) (advance (mh_generator x) g) (mh_reproducibility x)
                                    (mh_results x) (mh_stats x) (mh_checkpoint_events x), w') e
     | UB => UB
     | Abort => Abort
     end).
Proof. exact (conj (@always_same) (@metropolis_same)). Qed.
Print Assumptions C90_same_run.

Definition toy_strategy_90 : move_always Z := mkMoveAlways (mkCadence 3 2) toy_random true results_zero 0.
Definition zeros (k : MoveType) : entry := Tally k [0; 0; 0].
Example C90_example : exists w' rr r2 r3,
  ma_printed toy_N3 (toy_api false) toy_check toy_draw toy_write toy_strategy_90 [] 10 = Ret w' rr /\
  cadence_ok (ma_cadence toy_strategy_90) /\
  read_log always_shapes (fst w') =
    Some ([Started; Seeded (rnd_seed toy_random) (rnd_stream toy_random); Moving; Pass 1; Pass 2] ++ r2 ++
          [Writing 2; Pass 3; Finished] ++ r3) /\ r2 <> r3 /\ length r2 = 6%nat /\ length r3 = 6%nat.
Proof.
  do 2 eexists. match goal with |- exists r2 r3, ma_printed ?a ?b ?c ?d ?e ?f ?g ?h = _ /\ _ =>
    let v := eval vm_compute in (ma_printed a b c d e f g h) in
    match v with Ret ?w ?r =>
      let l := eval vm_compute in (read_log always_shapes (fst w)) in
      match l with Some ?l =>
        let r2 := eval vm_compute in (firstn 6 (skipn 5 l)) in
        let r3 := eval vm_compute in (skipn 14 l) in
        exists r2, r3
      end end end.
  split; [vm_compute; reflexivity|]. split; [refine (conj _ _); vm_compute; [split; [reflexivity|discriminate]|split; [reflexivity|discriminate]]|]. split; [vm_compute; reflexivity|].
  split; [discriminate|]. split; reflexivity.
Qed.
Definition toy_failing (m seed n : Z) (w : list Z) : res (list Z) unit := if n =? 4 then Thr w FilesystemError else Ret w tt.
(** The second file cannot be written. *)
Example C90_example_interrupted : exists w' r2 r4,
  ma_printed toy_N3 (toy_api false) toy_check toy_draw toy_failing (mkMoveAlways (mkCadence 5 2) toy_random true results_zero 0) [] 10 =
    Thr w' FilesystemError /\
  read_log always_shapes (fst w') =
    Some ([Started; Seeded (rnd_seed toy_random) (rnd_stream toy_random); Moving; Pass 1; Pass 2] ++ r2 ++
          [Writing 2; Pass 3; Pass 4] ++ r4 ++ [Writing 4]).
Proof.
  eexists. match goal with |- exists r2 r3, ma_printed ?a ?b ?c ?d ?e ?f ?g ?h = _ /\ _ =>
    let v := eval vm_compute in (ma_printed a b c d e f g h) in
    match v with Thr ?w ?r =>
      let l := eval vm_compute in (read_log always_shapes (fst w)) in
      match l with Some ?l =>
        let r2 := eval vm_compute in (firstn 6 (skipn 5 l)) in
        let r3 := eval vm_compute in (firstn 6 (skipn 14 l)) in
        exists r2, r3
      end end end.
  split; vm_compute; reflexivity.
Qed.
Definition toy_metropolis_90 : metropolis Z := mkMetropolis (mkCadence 2 2) true toy_random toy_metadata results_zero stats_zero 0.
Notation toy_mh_printed := (mh_printed toy_geometry (toy_api false) toy_check toy_accept (fun p _ => p <? 12)
    (fun lo hi g => (lo + (g / 2) mod 5, g + 1)) toy_probability (fun _ => 4) toy_update toy_write2).
Example C90_example_metropolis : exists w' rr a b,
  toy_mh_printed toy_metropolis_90 [] 10 = Ret w' rr /\
  read_log metropolis_shapes (fst w') =
    Some ([Started; Seeded (rnd_seed toy_random) (rnd_stream toy_random); Moving; Pass 1; Pass 2; Results; Totals [6; 2; 4]; Candidates [6; 3; 3]] ++ a ++
          [Writing 2; Finished; Results; Totals [6; 2; 4]; Candidates [6; 3; 3]] ++ b) /\ length a = 5%nat /\ a = b /\
  (forall g m g', (0 + (g / 2) mod 5, g + 1) = (m, g') -> supported m).
Proof.
  do 2 eexists. match goal with |- exists r2 r3, mh_printed ?a ?b ?c ?d ?e ?f ?g ?h ?i ?j ?k ?l ?m = _ /\ _ =>
    let v := eval vm_compute in (mh_printed a b c d e f g h i j k l m) in
    match v with Ret ?w ?r =>
      let l := eval vm_compute in (read_log metropolis_shapes (fst w)) in
      match l with Some ?l =>
        let r2 := eval vm_compute in (firstn 5 (skipn 8 l)) in
        exists r2, r2
      end end end.
  split; [vm_compute; reflexivity|]. split; [vm_compute; reflexivity|]. split; [reflexivity|]. split; [reflexivity|].
  intros g m g' H. injection H as <- _. unfold supported. pose proof (Z.mod_pos_bound (g / 2) 5 ltac:(lia)). lia.
Qed.

(** ** C91: the counters of a command and the counts of a manifold, as printed *)
Theorem C91_command :
  forall {M} (c : command M), counters_ok c ->
  (exists t, print_attempts c = Some t /\ read_text [counts_shape (B "attempted")] t = Some [map (slot (cm_attempted c)) kinds]) /\
  (exists t, print_successful c = Some t /\ read_text [counts_shape (B "successful")] t = Some [map (slot (cm_succeeded c)) kinds]) /\
  ((forall k, supported k -> slot (cm_failed c) k = 0) -> print_errors c = Some (B "There were no failed moves." ++ [NL])) /\
  ((exists k, supported k /\ slot (cm_failed c) k <> 0) ->
   exists t, print_errors c = Some t /\ read_text [counts_shape (B "failed")] t = Some [map (slot (cm_failed c)) kinds]).
Proof. exact @command_printed. Qed.
Print Assumptions C91_command.
(** A new command with the moves [ms] prints, after executing them, the numbers of
    moves attempted, successful and failed in the history of that execution. *)
Theorem C91_execution :
  forall {M G} (api : move_api M G) check (man : M) ms g c' g' u,
  execute api check (enqueue_all (make_command man) ms) g = Ret (c', g') u ->
  exists h, history api check man g h (cm_manifold c') g' /\ map fst h = ms /\
    let counts p := map (fun k => number (fun x => (fst x =? k) && p (snd x)) h) kinds in
    (exists t, print_attempts c' = Some t /\ read_text [counts_shape (B "attempted")] t = Some [counts (fun _ => true)]) /\
    (exists t, print_successful c' = Some t /\ read_text [counts_shape (B "successful")] t = Some [counts (fun b => b)]) /\
    (if forallb snd h then print_errors c' = Some (B "There were no failed moves." ++ [NL])
     else exists t, print_errors c' = Some t /\ read_text [counts_shape (B "failed")] t = Some [counts negb]).
Proof. exact @executed_printed. Qed.
Print Assumptions C91_execution.
Theorem C91_manifold : forall g,
  read_text [manifold_shape] (print_manifold g) = Some [[gN0 g; gN1 g; gN2 g; gN3 g]] /\
  read_text [simplices_shape; edges_shape] (print_details g) = Some [[gN3_31 g; gN3_22 g; gN3_13 g]; [gN1_TL g; gN1_SL g]].
Proof. exact manifold_printed. Qed.
Print Assumptions C91_manifold.
Definition printed (t : option text) : text := match t with Some t => t | None => [] end.
Example C91_example : exists c' g',
  execute (toy_api false) toy_check (enqueue (enqueue (enqueue (make_command 10) TWO_THREE) SIX_TWO) TWO_THREE) 0 = Ret (c', g') tt /\
  counters_ok c' /\ print_attempts c' = Some (B "There were 2 attempted (2,3) moves and 0 attempted (3,2) moves and 0 attempted (2,6) moves and 1 attempted (6,2) moves and 0 attempted (4,4) moves." ++ [NL]) /\
  read_text [counts_shape (B "failed")] (printed (print_errors c')) = Some [[0; 0; 0; 1; 0]].
Proof. do 2 eexists. split; [vm_compute; reflexivity|]. split; [vm_compute; repeat split|]. split; vm_compute; reflexivity. Qed.
