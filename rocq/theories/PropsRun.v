(** Theorems about counters, commands, the run loop and MoveAlways (C01-C13, C61).
    Every proof is one lemma of the files above. *)
From Verif Require Import Base Tracker Command Run Fnv Geom Metropolis Toy PropsRunLemmas.

(** ** C01 *)
Theorem C01_index_conversion :
  (forall i, 0 <= i -> (exists m, move_from_index i = Some m) <-> i < 5) /\
  (forall i m, 0 <= i -> move_from_index i = Some m -> as_integer m = i) /\
  (forall m, supported m -> move_from_index (as_integer m) = Some m).
Proof. exact index_conversion. Qed.
Print Assumptions C01_index_conversion.

Theorem C01_same_slot : forall t, tracker_ok t ->
  at_move t TWO_THREE = two_three_moves t /\ at_move t THREE_TWO = three_two_moves t /\
  at_move t TWO_SIX = two_six_moves t /\ at_move t SIX_TWO = six_two_moves t /\
  at_move t FOUR_FOUR = four_four_moves t /\
  (forall m, supported m -> at_move t m = Some (slot t m)) /\
  (forall m, ~ supported m -> at_move t m = None).
Proof. exact same_slot. Qed.
Print Assumptions C01_same_slot.

Theorem C01_increment_one_slot : forall t m t', tracker_ok t -> bump t m = COk t' ->
  supported m /\ tracker_ok t' /\ slot t' m = slot t m + 1 /\ in_int32 (slot t m + 1) /\
  (forall k, supported k -> k <> m -> slot t' k = slot t k).
Proof. exact bump_ok. Qed.
Print Assumptions C01_increment_one_slot.
Example C01_example : move_from_index 3 = Some SIX_TWO /\ move_from_index 5 = None /\
  bump [4; 5; 6; 7; 8] SIX_TWO = COk [4; 5; 6; 8; 8].
Proof. repeat split. Qed.

(** ** C02 *)
Theorem C02_addition_exact : forall a b, tracker_ok a -> tracker_ok b ->
  (forall c, tracker_add a b = Some c ->
     tracker_ok c /\ forall m, supported m -> slot c m = slot a m + slot b m) /\
  (tracker_add a b = None <-> exists m, supported m /\ ~ in_int32 (slot a m + slot b m)).
Proof. exact tracker_add_spec. Qed.
Print Assumptions C02_addition_exact.

Theorem C02_total_exact : forall t, tracker_ok t -> (forall m, supported m -> 0 <= slot t m) ->
  (in_int32 (slot t TWO_THREE + slot t THREE_TWO + slot t TWO_SIX + slot t SIX_TWO + slot t FOUR_FOUR) ->
   total t = Some (slot t TWO_THREE + slot t THREE_TWO + slot t TWO_SIX + slot t SIX_TWO + slot t FOUR_FOUR)) /\
  (~ in_int32 (slot t TWO_THREE + slot t THREE_TWO + slot t TWO_SIX + slot t SIX_TWO + slot t FOUR_FOUR) ->
   total t = None).
Proof. exact total_spec. Qed.
Print Assumptions C02_total_exact.
Example C02_example :
  tracker_add [1; 2; 3; 4; 5] [10; 20; 30; 40; 50] = Some [11; 22; 33; 44; 55] /\
  total [11; 22; 33; 44; 55] = Some 165 /\ total [2147483647; 1; 0; 0; 0] = None.
Proof. vm_compute. repeat split. Qed.

(** ** C03 *)
Theorem C03_failure_routing : forall e,
  (outcome_from e = INAPPLICABLE <->
     category e = NO_CANDIDATE \/ category e = INVALID_TOPOLOGY \/ category e = CAUSAL_INVALIDITY) /\
  (outcome_from e = EXECUTION_FAILED <->
     ~ (category e = NO_CANDIDATE \/ category e = INVALID_TOPOLOGY \/ category e = CAUSAL_INVALIDITY)) /\
  outcome_from e <> METROPOLIS_ACCEPTED /\ outcome_from e <> METROPOLIS_REJECTED /\
  outcome_from e <> SUCCEEDED.
Proof. exact failure_routing. Qed.
Print Assumptions C03_failure_routing.

Theorem C03_successful_report : forall t, successful t = true <->
  tr_outcome t = METROPOLIS_ACCEPTED \/ tr_outcome t = METROPOLIS_REJECTED \/ tr_outcome t = SUCCEEDED.
Proof. exact successful_report. Qed.
Print Assumptions C03_successful_report.
Example C03_example : outcome_from (mkMoveError INVALID_TOPOLOGY TWO_THREE) = INAPPLICABLE /\
  outcome_from (mkMoveError STALE_CANDIDATE TWO_THREE) = EXECUTION_FAILED.
Proof. split; reflexivity. Qed.

(** ** C04: [history] lists what was attempted, in order, with its verdict. *)
Theorem C04_fifo_each_once : forall (M G : Type) (api : move_api M G) check (man : M) ms g c' g' u,
  execute api check (enqueue_all (make_command man) ms) g = Ret (c', g') u ->
  size c' = 0%nat /\
  exists h, map fst h = ms /\ history api check man g h (cm_manifold c') g'.
Proof. exact @fifo_each_once. Qed.
Print Assumptions C04_fifo_each_once.
(** Each kind is attempted by the public function of that kind; any other value is
    refused without touching the generator. *)
Theorem C04_dispatch : forall (M G : Type) (api : move_api M G) (man : M) g,
  apply_random_move api man TWO_THREE g = api_23 api man g /\
  apply_random_move api man THREE_TWO g = api_32 api man g /\
  apply_random_move api man TWO_SIX g = api_26 api man g /\
  apply_random_move api man SIX_TWO g = api_62 api man g /\
  apply_random_move api man FOUR_FOUR g = api_44 api man g /\
  forall m, ~ supported m -> apply_random_move api man m g = (Failed (mkMoveError UNKNOWN_MOVE m), g).
Proof. exact @dispatch_table. Qed.
Print Assumptions C04_dispatch.
Example C04_example : exists c' g',
  execute (toy_api false) toy_check (enqueue_all (make_command 10) [TWO_THREE; SIX_TWO; THREE_TWO; FOUR_FOUR; TWO_THREE]) 0
    = Ret (c', g') tt /\ cm_manifold c' = 12 /\ cm_attempted c' = [2; 1; 0; 1; 1] /\ cm_succeeded c' = [2; 0; 0; 0; 1].
Proof. do 2 eexists. split; [vm_compute; reflexivity|]. repeat split. Qed.

(** ** C05: [commanded man ms c] = any history of enqueue and returning execute
    calls on a fresh command, [ms] being everything enqueued. *)
Theorem C05_counter_identities : forall (M G : Type) (api : move_api M G) check (man : M) ms c,
  commanded api check man ms c ->
  forall k, supported k ->
    slot (cm_attempted c) k + occurrences k (cm_moves c) = occurrences k ms /\
    slot (cm_attempted c) k = slot (cm_succeeded c) k + slot (cm_failed c) k /\
    0 <= slot (cm_succeeded c) k /\ 0 <= slot (cm_failed c) k.
Proof. exact @counter_identities. Qed.
Print Assumptions C05_counter_identities.

(** No undefined behaviour and no termination while the counters have room. *)
Theorem C05_defined : forall (M G : Type) (api : move_api M G) check (c : command M) g n,
  counters_ok c -> Forall supported (cm_moves c) -> counters_bounded n c ->
  n + Z.of_nat (size c) <= INT32_MAX ->
  execute api check c g <> UB /\ execute api check c g <> Abort.
Proof. exact @command_defined. Qed.
Print Assumptions C05_defined.
(** Resetting the counters keeps the manifold and the queue; afterwards the
    counters describe exactly what is executed from then on. *)
Theorem C05_reset : forall (M : Type) (c : command M), counters_ok c ->
  cm_manifold (reset_counters c) = cm_manifold c /\ pending (reset_counters c) = pending c /\
  forall k, supported k -> slot (cm_attempted (reset_counters c)) k = 0 /\
    slot (cm_succeeded (reset_counters c)) k = 0 /\ slot (cm_failed (reset_counters c)) k = 0.
Proof. exact @reset_counters_spec. Qed.
Print Assumptions C05_reset.
Theorem C05_reset_then_execute : forall (M G : Type) (api : move_api M G) check (c : command M) g c' g' u,
  counters_ok c -> execute api check (reset_counters c) g = Ret (c', g') u ->
  exists h, map fst h = pending c /\ history api check (cm_manifold c) g h (cm_manifold c') g' /\
    forall k, supported k ->
      slot (cm_attempted c') k = occurrences k (pending c) /\
      slot (cm_succeeded c') k = tally k true h /\ slot (cm_failed c') k = tally k false h.
Proof. exact @reset_then_execute. Qed.
Print Assumptions C05_reset_then_execute.
Example C05_example_reset : exists c' g',
  execute (toy_api false) toy_check
    (reset_counters (mkCommand 10 [TWO_THREE; SIX_TWO] [7; 1; 1; 1; 1] [6; 0; 0; 1; 0] [1; 1; 1; 0; 1])) 0
  = Ret (c', g') tt /\ cm_attempted c' = [1; 0; 0; 1; 0] /\ cm_succeeded c' = [1; 0; 0; 0; 0] /\ cm_failed c' = [0; 0; 0; 1; 0].
Proof. do 2 eexists. split; [vm_compute; reflexivity|]. repeat split. Qed.
Example C05_example : exists c, commanded (toy_api false) toy_check 10 [TWO_THREE; SIX_TWO; TWO_THREE] c /\
  cm_moves c = [] /\ cm_attempted c = [2; 0; 0; 1; 0] /\ cm_succeeded c = [2; 0; 0; 0; 0] /\
  cm_failed c = [0; 0; 0; 1; 0].
Proof.
  eexists. split.
  - refine (cmd_execute _ _ _ _ (enqueue (enqueue (enqueue (make_command 10) TWO_THREE) SIX_TWO) TWO_THREE)
              0 _ _ _ _ _); [|vm_compute; reflexivity].
    apply (cmd_enqueue _ _ 10 [TWO_THREE; SIX_TWO]).
    apply (cmd_enqueue _ _ 10 [TWO_THREE]). apply (cmd_enqueue _ _ 10 []). constructor.
  - repeat split.
Qed.

(** ** C06 *)
Theorem C06_only_validated_moves : forall (M G : Type) (api : move_api M G) check (c : command M) g c' g' u,
  counters_ok c -> execute api check c g = Ret (c', g') u ->
  exists n, validated_chain api check (cm_manifold c) n (cm_manifold c') /\
    Z.of_nat n = slot_sum (cm_succeeded c') - slot_sum (cm_succeeded c).
Proof. exact @execute_chain. Qed.
Print Assumptions C06_only_validated_moves.
Example C06_example : validated_chain (toy_api false) toy_check 10 2 12.
Proof.
  apply (vc_cons _ _ _ TWO_THREE 0 11 1); [reflexivity..|].
  apply (vc_cons _ _ _ TWO_THREE 0 12 1); [reflexivity..|]. constructor.
Qed.

(** ** C07 *)
Theorem C07_exception_commits_prefix : forall (M G : Type) (api : move_api M G) check (c : command M) g c' g' x,
  counters_ok c -> execute api check c g = Thr (c', g') x ->
  exists h m rest gm,
    pending c = map fst h ++ m :: rest /\ pending c' = m :: rest /\ supported m /\
    history api check (cm_manifold c) g h (cm_manifold c') gm /\
    apply_random_move api (cm_manifold c') m gm = (Raised x, g') /\
    (forall k, supported k ->
      slot (cm_attempted c') k =
        slot (cm_attempted c) k + occurrences k (map fst h) + (if m =? k then 1 else 0) /\
      slot (cm_succeeded c') k = slot (cm_succeeded c) k + tally k true h /\
      slot (cm_failed c') k = slot (cm_failed c) k + tally k false h /\
      tally k true h + tally k false h = occurrences k (map fst h)).
Proof. exact @exception_commits_prefix. Qed.
Print Assumptions C07_exception_commits_prefix.
Example C07_example : exists c' g',
  execute (toy_api true) toy_check (enqueue_all (make_command 10) [TWO_THREE; SIX_TWO; TWO_SIX; FOUR_FOUR]) 0
    = Thr (c', g') (ForeignException 7) /\ cm_manifold c' = 11 /\ pending c' = [TWO_SIX; FOUR_FOUR] /\
  cm_attempted c' = [1; 0; 1; 1; 0] /\ cm_succeeded c' = [1; 0; 0; 0; 0] /\ cm_failed c' = [0; 0; 0; 1; 0].
Proof. do 2 eexists. split; [vm_compute; reflexivity|]. repeat split. Qed.

(** ** C08 *)
Theorem C08_cadence_accepts_positive : forall p c,
  ((exists cad, cadence_parse p c = inl cad) <-> 0 < p /\ 0 < c) /\
  (forall cad, cadence_parse p c = inl cad -> cad_passes cad = p /\ cad_checkpoint cad = c) /\
  (cadence_parse p c = inr NONPOSITIVE_PASSES <-> p <= 0) /\
  (cadence_parse p c = inr NONPOSITIVE_CHECKPOINT <-> 0 < p /\ c <= 0).
Proof. exact cadence_accepts_positive. Qed.
Print Assumptions C08_cadence_accepts_positive.

Theorem C08_constructors_reject : forall (G : Type) p c r w,
  match @make_move_always G p c r w with
  | inl s => 0 < p /\ 0 < c /\ cad_passes (ma_cadence s) = p /\ cad_checkpoint (ma_cadence s) = c /\
             ma_results s = results_zero /\ ma_checkpoint_events s = 0
  | inr (e, why) => e = InvalidArgument /\ (p <= 0 \/ c <= 0) /\
             why = (if p <=? 0 then NONPOSITIVE_PASSES else NONPOSITIVE_CHECKPOINT)
  end /\
  forall base a k l, match @make_metropolis G p c w r base a k l with
  | inl s => 0 < p /\ 0 < c /\ cad_passes (mh_cadence s) = p /\ cad_checkpoint (mh_cadence s) = c /\
             mh_results s = results_zero /\ mh_stats s = stats_zero /\ mh_checkpoint_events s = 0
  | inr (e, why) => e = InvalidArgument /\ (p <= 0 \/ c <= 0) /\
             why = (if p <=? 0 then NONPOSITIVE_PASSES else NONPOSITIVE_CHECKPOINT)
  end.
Proof. exact @constructors_reject. Qed.
Print Assumptions C08_constructors_reject.
Example C08_example : cadence_parse 10 3 = inl (mkCadence 10 3) /\ cadence_parse (-1) 0 = inr NONPOSITIVE_PASSES.
Proof. split; reflexivity. Qed.

(** ** C09: the schedule, written down independently, is what an observer of the
    callbacks sees; [observed_run] is the same program with logging callbacks
    ([C09_observing_is_faithful]). *)
Theorem C09_observing_is_faithful :
  forall (M SS E : Type) N3 pass report checkpoint cad writes (m : M) (s : SS) (e : E),
  erase (observed_run N3 pass report checkpoint cad writes m s e) =
  execute_move_run N3 pass report checkpoint cad writes m s e.
Proof. exact @observed_erase. Qed.
Print Assumptions C09_observing_is_faithful.

Theorem C09_checkpoint_schedule :
  forall (M SS E : Type) N3 pass report checkpoint cad writes (m : M) (s : SS) (e : E) log e' rr,
  cadence_ok cad ->
  (forall m s a e0 e1 p, pass m s a e0 = Ret e1 p -> results_ok (pr_results p)) ->
  observed_run N3 pass report checkpoint cad writes m s e = Ret (log, e') rr ->
  map mark_of log =
    flat_map (fun n => MPass :: (if n mod cad_checkpoint cad =? 0
                                 then MReport :: (if writes then [MCheckpoint n] else []) else []))
             (zseq 1 (Z.to_nat (cad_passes cad))) ++ [MReport] /\
  rr_checkpoint_events rr = cad_passes cad / cad_checkpoint cad /\
  checkpoint_numbers log =
    (if writes then map (fun k => k * cad_checkpoint cad)
                        (zseq 1 (Z.to_nat (cad_passes cad / cad_checkpoint cad))) else []) /\
  list.last (reports_of log) = Some (rr_results rr).
Proof. exact @checkpoint_schedule. Qed.
Print Assumptions C09_checkpoint_schedule.
Example C09_example :
  map (fun k => k * 3) (zseq 1 (Z.to_nat (10 / 3))) = [3; 6; 9] /\
  exists s', ma_run toy_N3 (toy_api false) toy_check toy_draw toy_print toy_write
    (mkMoveAlways (mkCadence 7 3) toy_random true results_zero 0) [] 10 = Ret (s', [3; 6]) 15 /\
    ma_checkpoint_events s' = 2.
Proof. split; [reflexivity|]. eexists. split; [vm_compute; reflexivity|reflexivity]. Qed.

(** ** C10, C11 and C05 for MoveAlways runs *)
Theorem C10_C11_move_always_run :
  forall (M G W : Type) N3 api check draw print write s (w : W) (man : M) s' w' man',
  cadence_ok (ma_cadence s) ->
  @ma_run M G W N3 api check draw print write s w man = Ret (s', w') man' ->
  exists ps : list (pass_record M unit),
    length ps = Z.to_nat (cad_passes (ma_cadence s)) /\
    chained N3 man tt ps man' tt /\
    Forall (fun x =>
              slot_sum (attempted (pr_results (rec_result x))) = Z.max 0 (N3 (rec_start x)) /\
              exists h g1 g2, length h = Z.to_nat (N3 (rec_start x)) /\
                history api check (rec_start x) g1 h (pr_manifold (rec_result x)) g2) ps /\
    (forall k, supported k ->
       slot (attempted (ma_results s')) k = sum_slot attempted k ps /\
       slot (succeeded (ma_results s')) k = sum_slot succeeded k ps /\
       slot (failed (ma_results s')) k = sum_slot failed k ps /\
       slot (attempted (ma_results s')) k =
         slot (succeeded (ma_results s')) k + slot (failed (ma_results s')) k) /\
    ma_checkpoint_events s' = cad_passes (ma_cadence s) / cad_checkpoint (ma_cadence s).
Proof. exact @ma_run_Ret. Qed.
Print Assumptions C10_C11_move_always_run.

(** The same for Metropolis runs; [run_chain] consists of passes with exactly N3
    sampled transitions each, N3 taken at the start of the pass. *)
Theorem C10_C11_metropolis_run :
  forall (M G P W : Type) geometry propose check accept at_least draw_int draw_p max_time update print write
         (x : metropolis G) (w : W) (man : M) x' w' man',
  (forall g m g', draw_int 0 4 g = (m, g') -> supported m) ->
  cadence_ok (mh_cadence x) ->
  @mh_run M G P W geometry propose check accept at_least draw_int draw_p max_time update print write x w man
    = Ret (x', w') man' ->
  exists hs : list trecord,
    length hs = Z.to_nat (cad_passes (mh_cadence x)) /\
    Forall (fun p => supported (fst p)) (concat hs) /\
    run_chain geometry propose check accept at_least draw_int draw_p man hs man' /\
    results_reflect (mh_results x') (concat hs) /\
    stats_reflect (mh_stats x') (concat hs) /\
    mh_checkpoint_events x' = cad_passes (mh_cadence x) / cad_checkpoint (mh_cadence x).
Proof. exact @metropolis_run. Qed.
Print Assumptions C10_C11_metropolis_run.
Example C10_example : exists s', ma_run toy_N3 (toy_api false) toy_check toy_draw toy_print toy_write
    (mkMoveAlways (mkCadence 2 5) toy_random true (mkResults [9; 9; 9; 9; 9] [9; 9; 9; 9; 9] [9; 9; 9; 9; 9]) 77) [] 10 = Ret (s', []) 11 /\
    ma_results s' = mkResults [1; 2; 1; 1; 1] [1; 0; 0; 0; 1] [0; 2; 1; 1; 0].
Proof. eexists. split; [vm_compute; reflexivity|reflexivity]. Qed.

(** ** C12 *)
Theorem C12_move_always_all_or_nothing :
  forall (M G W : Type) N3 api check draw print write s (w : W) (man : M) s' w' x,
  @ma_run M G W N3 api check draw print write s w man = Thr (s', w') x ->
  ma_results s' = ma_results s /\ ma_checkpoint_events s' = ma_checkpoint_events s /\
  ma_cadence s' = ma_cadence s /\ ma_write_files s' = ma_write_files s /\
  rnd_seed (ma_random s') = rnd_seed (ma_random s) /\
  rnd_stream (ma_random s') = rnd_stream (ma_random s).
Proof. exact @ma_run_Thr. Qed.
Print Assumptions C12_move_always_all_or_nothing.

Theorem C12_metropolis_all_or_nothing :
  forall (M G P W : Type) geometry propose check accept at_least draw_int draw_p max_time update print write
         (x : metropolis G) (w : W) (man : M) x' w' e,
  @mh_run M G P W geometry propose check accept at_least draw_int draw_p max_time update print write x w man
    = Thr (x', w') e ->
  mh_results x' = mh_results x /\ mh_stats x' = mh_stats x /\
  mh_checkpoint_events x' = mh_checkpoint_events x /\ mh_cadence x' = mh_cadence x /\
  mh_write_files x' = mh_write_files x /\ mh_reproducibility x' = mh_reproducibility x /\
  rnd_seed (mh_generator x') = rnd_seed (mh_generator x) /\
  rnd_stream (mh_generator x') = rnd_stream (mh_generator x).
Proof. exact @mh_run_Thr. Qed.
Print Assumptions C12_metropolis_all_or_nothing.
Example C12_example : exists s',
  ma_run toy_N3 (toy_api true) toy_check toy_draw toy_print toy_write
    (mkMoveAlways (mkCadence 7 1) toy_random true (mkResults [1; 1; 1; 1; 1] [0; 0; 0; 0; 0] [1; 1; 1; 1; 1]) 77) [] 10
    = Thr (s', []) (ForeignException 7) /\
  attempted (ma_results s') = [1; 1; 1; 1; 1] /\ rnd_engine (ma_random s') <> rnd_engine toy_random.
Proof. eexists. split; [vm_compute; reflexivity|]. split; [reflexivity|discriminate]. Qed.

(** ** C13 *)
Theorem C13_move_always_replay :
  forall (M G W : Type) N3 api check draw print write s1 s2 (w : W) (man : M),
  ma_cadence s1 = ma_cadence s2 -> ma_random s1 = ma_random s2 ->
  ma_write_files s1 = ma_write_files s2 ->
  match @ma_run M G W N3 api check draw print write s1 w man,
        @ma_run M G W N3 api check draw print write s2 w man with
  | Ret (a, wa) ma, Ret (b, wb) mb => a = b /\ wa = wb /\ ma = mb
  | Thr (a, wa) x, Thr (b, wb) y => ma_random a = ma_random b /\ wa = wb /\ x = y
  | UB, UB => True
  | Abort, Abort => True
  | _, _ => False
  end.
Proof. exact @ma_run_replay. Qed.
Print Assumptions C13_move_always_replay.

Theorem C13_metropolis_replay :
  forall (M G P W : Type) geometry propose check accept at_least draw_int draw_p max_time update print write
         (x y : metropolis G) (w : W) (man : M),
  mh_cadence x = mh_cadence y -> mh_write_files x = mh_write_files y ->
  mh_generator x = mh_generator y -> mh_reproducibility x = mh_reproducibility y ->
  match @mh_run M G P W geometry propose check accept at_least draw_int draw_p max_time update print write x w man,
        @mh_run M G P W geometry propose check accept at_least draw_int draw_p max_time update print write y w man with
  | Ret (a, wa) ma, Ret (b, wb) mb => a = b /\ wa = wb /\ ma = mb
  | Thr (a, wa) e1, Thr (b, wb) e2 => mh_generator a = mh_generator b /\ wa = wb /\ e1 = e2
  | UB, UB => True
  | Abort, Abort => True
  | _, _ => False
  end.
Proof. exact @mh_run_replay. Qed.
Print Assumptions C13_metropolis_replay.

Theorem C13_split_forgets_draws : forall (G : Type) (seed_engine : Z -> Z -> G) r r' s,
  reaches seed_engine r r' -> split seed_engine r' s = split seed_engine r s.
Proof. exact split_forgets_draws. Qed.
Print Assumptions C13_split_forgets_draws.
Example C13_example : exists r : Random Z,
  reaches (fun a b => a + b) (make_random (fun a b => a + b) 7 0) r /\
  rnd_engine r <> rnd_engine (make_random (fun a b => a + b) 7 0) /\
  split (fun a b => a + b) r 1 = make_random (fun a b => a + b) 7 1.
Proof.
  exists (advance (make_random (fun a b => a + b) 7 0) 99).
  split; [apply reaches_advance; constructor|]. split; [discriminate|reflexivity].
Qed.

(** ** C61: reports, checkpoints and their cadence do not influence the chain. *)
Theorem C61_output_does_not_influence_chain :
  forall (M SS G W : Type) N3 pass rep1 rep2 chk1 chk2 passes c1 c2 w1 w2 (m : M) (s : SS) (g : G) (wa wb : W)
         g1 g2 wa' wb' r1 r2,
  execute_move_run N3 (pass_env pass) (rep_env rep1) (chk_env chk1) (mkCadence passes c1) w1 m s (g, wa)
    = Ret (g1, wa') r1 ->
  execute_move_run N3 (pass_env pass) (rep_env rep2) (chk_env chk2) (mkCadence passes c2) w2 m s (g, wb)
    = Ret (g2, wb') r2 ->
  g1 = g2 /\ rr_manifold r1 = rr_manifold r2 /\ rr_results r1 = rr_results r2 /\ rr_state r1 = rr_state r2.
Proof. exact @decoupled_run. Qed.
Print Assumptions C61_output_does_not_influence_chain.
Example C61_example : exists s1 s2,
  ma_run toy_N3 (toy_api false) toy_check toy_draw toy_print toy_write
    (mkMoveAlways (mkCadence 7 3) toy_random true results_zero 0) [] 10 = Ret (s1, [3; 6]) 15 /\
  ma_run toy_N3 (toy_api false) toy_check toy_draw toy_print toy_write
    (mkMoveAlways (mkCadence 7 2) toy_random false results_zero 0) [1] 10 = Ret (s2, [1]) 15 /\
  ma_results s1 = ma_results s2.
Proof. do 2 eexists. do 2 (split; [vm_compute; reflexivity|]). reflexivity. Qed.
