(** Theorems about the Metropolis strategy (C14-C17). *)
From Verif Require Import Base Tracker Command Run Fnv Geom Metropolis Toy PropsRunLemmas.

(** ** C14 and C17: for every history of calls on a newly constructed strategy
    ([calls]: attempt_transition with any move and trial, sampled transitions,
    initialize, runs that complete and runs that throw) there is one list of
    recorded transitions that all counters, the trace and the count describe. *)
Theorem C14_C17_counters_describe_one_history :
  forall (M G P W : Type) geometry propose check accept at_least draw_int draw_p max_time update print write
         passes checkpoint writes (r : Random G) base a k l x0 (cur0 : M) x cur,
  (forall g m g', draw_int 0 4 g = (m, g') -> supported m) ->
  make_metropolis passes checkpoint writes r base a k l = inl x0 ->
  passes <= INT32_MAX -> checkpoint <= INT32_MAX ->
  @calls M G P W geometry propose check accept at_least draw_int draw_p max_time update print write x0 cur0 x cur ->
  exists h : list (MoveType * MoveOutcome), Forall (fun p => supported (fst p)) h /\
    results_reflect (mh_results x) h /\ stats_reflect (mh_stats x) h /\
    (forall k, supported k ->
     slot (st_proposed (mh_stats x)) k
       = slot (st_accepted (mh_stats x)) k + slot (st_rejected (mh_stats x)) k /\
     slot (attempted (mh_results x)) k
       = slot (succeeded (mh_results x)) k + slot (failed (mh_results x)) k /\
     slot (attempted (mh_results x)) k = slot (st_proposed (mh_stats x)) k /\
     0 <= slot (failed (mh_results x)) k <= slot (st_rejected (mh_stats x)) k /\
     0 <= slot (st_accepted (mh_stats x)) k <= slot (succeeded (mh_results x)) k) /\
    st_count (mh_stats x) = wrap64 (slot_sum (st_proposed (mh_stats x))).
Proof. exact @history_identities. Qed.
Print Assumptions C14_C17_counters_describe_one_history.

(** What "describe" means, spelled out (definition of the two relations). *)
Theorem C14_C17_reflection_meaning : forall r s h,
  (results_reflect r h <->
   results_ok r /\ forall k, supported k ->
     slot (attempted r) k = count_of k (fun _ => true) h /\
     slot (succeeded r) k = count_of k (fun o => match o with METROPOLIS_ACCEPTED | METROPOLIS_REJECTED => true | _ => false end) h /\
     slot (failed r) k = count_of k (fun o => match o with METROPOLIS_ACCEPTED | METROPOLIS_REJECTED => false | _ => true end) h) /\
  (stats_reflect s h ->
   (forall k, supported k ->
     slot (st_proposed s) k = count_of k (fun _ => true) h /\
     slot (st_accepted s) k = count_of k (fun o => match o with METROPOLIS_ACCEPTED => true | _ => false end) h /\
     slot (st_rejected s) k = count_of k (fun o => match o with METROPOLIS_ACCEPTED => false | _ => true end) h) /\
   st_trace s = fnv1a (flat_map (fun p => [fst p mod 256; outcome_byte (snd p)]) h) /\
   st_count s = Z.of_nat (length h) mod 2 ^ 64).
Proof. exact reflection_meaning. Qed.
Print Assumptions C14_C17_reflection_meaning.

Definition toy_strategy : metropolis Z :=
  match make_metropolis 2 1 true toy_random toy_metadata (Fin (QArith_base.Qmake 3 5)) (Fin (QArith_base.Qmake 1 1))
          (Fin (QArith_base.Qmake 1 10)) with
  | inl x => x
  | inr _ => mkMetropolis cadence_default false toy_random toy_metadata results_zero stats_zero 0
  end.
Notation toy_calls := (calls toy_geometry (toy_api false) toy_check toy_accept toy_at_least toy_draw
    toy_probability (fun _ => 4) toy_update toy_print2 toy_write2).
Example C14_example : exists x cur, toy_calls toy_strategy 10 x cur /\ cur = 11 /\
  st_count (mh_stats x) = 7 /\ st_proposed (mh_stats x) = [1; 1; 0; 5; 0] /\
  failed (mh_results x) = [0; 1; 0; 5; 0].
Proof.
  do 2 eexists. split.
  - eapply calls_snoc.
    + eapply calls_snoc; [apply calls_nil|].
      eapply (call_run _ _ _ _ _ _ _ _ _ _ _ toy_strategy 10 [] 10). vm_compute. reflexivity.
    + eapply (call_attempt _ _ _ _ _ _ _ _ _ _ _ _ _ TWO_THREE (Fin (QArith_base.Qmake 1 2))).
      vm_compute. reflexivity.
  - vm_compute. repeat split.
Qed.

(** ** C15 *)
Theorem C15_state_changes_only_on_acceptance :
  forall (M G P : Type) geometry propose check accept at_least
         (x : metropolis G) (cur : M) m t x' cur' r,
  @attempt_transition M G P geometry propose check accept at_least x cur m t = Ret (x', cur') r ->
  tr_move r = m /\
  (tr_outcome r <> METROPOLIS_ACCEPTED -> cur' = cur) /\
  (tr_outcome r = METROPOLIS_ACCEPTED ->
     exists g' p, propose_candidate propose cur m (rnd_engine (mh_generator x)) = (Moved cur', g') /\
       check cur cur' m = true /\ accept (geometry cur) (geometry cur') m = inl p /\
       at_least p t = true) /\
  (forall cand g' p, supported m ->
     propose_candidate propose cur m (rnd_engine (mh_generator x)) = (Moved cand, g') ->
     check cur cand m = true -> accept (geometry cur) (geometry cand) m = inl p ->
     (tr_outcome r = METROPOLIS_ACCEPTED <-> at_least p t = true)).
Proof. exact (fun M G P => @state_changes_only_on_acceptance M G P). Qed.
Print Assumptions C15_state_changes_only_on_acceptance.

(** A kind is proposed by the proposal function of that kind. *)
Theorem C15_dispatch : forall (M G : Type) (propose : move_api M G) (cur : M) g,
  propose_candidate propose cur TWO_THREE g = api_23 propose cur g /\
  propose_candidate propose cur THREE_TWO g = api_32 propose cur g /\
  propose_candidate propose cur TWO_SIX g = api_26 propose cur g /\
  propose_candidate propose cur SIX_TWO g = api_62 propose cur g /\
  propose_candidate propose cur FOUR_FOUR g = api_44 propose cur g /\
  forall m, ~ supported m -> propose_candidate propose cur m g = (Failed (mkMoveError UNKNOWN_MOVE m), g).
Proof. exact proposal_dispatch. Qed.
Print Assumptions C15_dispatch.

Theorem C15_throwing_keeps_state :
  forall (M G P : Type) geometry propose check accept at_least
         (x : metropolis G) (cur : M) m t x' cur' e,
  @attempt_transition M G P geometry propose check accept at_least x cur m t = Thr (x', cur') e -> cur' = cur.
Proof. exact (fun M G P => @throwing_keeps_state M G P). Qed.
Print Assumptions C15_throwing_keeps_state.
Notation toy_attempt := (attempt_transition toy_geometry (toy_api false) toy_check toy_accept toy_at_least).
Example C15_example :
  (exists x', toy_attempt toy_strategy 10 TWO_THREE (Fin (QArith_base.Qmake 1 2)) = Ret (x', 11) (mkTransition TWO_THREE METROPOLIS_ACCEPTED)) /\
  (exists x', toy_attempt toy_strategy 11 TWO_THREE (Fin (QArith_base.Qmake 1 2)) = Ret (x', 11) (mkTransition TWO_THREE METROPOLIS_REJECTED)).
Proof. split; eexists; vm_compute; reflexivity. Qed.

(** ** C16 *)
Theorem C16_no_effect : forall (M G P : Type) geometry propose check accept at_least
         (x : metropolis G) (cur : M) m t,
  (trial_invalid t = true ->
     @attempt_transition M G P geometry propose check accept at_least x cur m t = Thr (x, cur) InvalidArgument) /\
  (trial_invalid t = false -> ~ supported m ->
     @attempt_transition M G P geometry propose check accept at_least x cur m t
       = Ret (x, cur) (mkTransition m EXECUTION_FAILED)).
Proof. exact (fun M G P => @no_effect M G P). Qed.
Print Assumptions C16_no_effect.

Theorem C16_valid_trials : forall t, trial_invalid t = false <->
  exists q, t = Fin q /\ QArith_base.Qle (QArith_base.Qmake 0 1) q /\ QArith_base.Qle q (QArith_base.Qmake 1 1).
Proof. exact trial_invalid_iff. Qed.
Print Assumptions C16_valid_trials.
Example C16_example : trial_invalid NaN = true /\ trial_invalid (Fin (QArith_base.Qmake 3 2)) = true /\
  trial_invalid (Fin (QArith_base.Qmake 1 2)) = false /\ ~ supported 7.
Proof. repeat split. unfold supported. lia. Qed.

(** ** C17: histories differing in exactly one recorded byte *)
(** The trace is FNV-1a with 64 bits over these codes. *)
Theorem C17_trace_function :
  fnv1a [] = 14695981039346656037 /\
  (forall bs b, fnv1a (bs ++ [b]) = (Z.lxor (fnv1a bs) b * 1099511628211) mod 2 ^ 64) /\
  outcome_byte INAPPLICABLE = 0 /\ outcome_byte METROPOLIS_ACCEPTED = 1 /\ outcome_byte METROPOLIS_REJECTED = 2 /\
  outcome_byte EXECUTION_FAILED = 3 /\ outcome_byte SUCCEEDED = 4.
Proof. exact fnv_meaning. Qed.
Print Assumptions C17_trace_function.
Theorem C17_one_byte_changes_trace : forall (h1 h2 : list (MoveType * MoveOutcome)),
  Forall (fun p => supported (fst p)) h1 -> Forall (fun p => supported (fst p)) h2 ->
  (exists pre a b post, history_bytes h1 = pre ++ a :: post /\ history_bytes h2 = pre ++ b :: post /\ a <> b) ->
  fnv1a (history_bytes h1) <> fnv1a (history_bytes h2).
Proof. exact one_byte_changes_trace. Qed.
Print Assumptions C17_one_byte_changes_trace.
Example C17_example :
  history_bytes [(TWO_THREE, METROPOLIS_ACCEPTED); (SIX_TWO, INAPPLICABLE)] = [0; 1; 3; 0] /\
  fnv1a [0; 1; 3; 0] <> fnv1a [0; 2; 3; 0].
Proof. split; [reflexivity|]. vm_compute. discriminate. Qed.
