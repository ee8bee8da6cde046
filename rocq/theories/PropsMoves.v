(** Theorems about the moves on triangulations (C21-C35). [W] is what the model
    leaves open about the numeric and CGAL layers, [R] the random choices,
    [escape] what the program does where a CGAL operation leaves the modelled
    state space; [moved W R escape k m m'] says that do_*_move or propose_*_move of
    kind [k] on [m] returned [m']. *)
From Verif Require Import Base Tracker Command Run Geom Metropolis Mp Action Acceptance Simplex Pachner Foliation Moves Links MoveCore MoveTools Move26Site MoveSpec Manifold ManifoldFacts ManifoldMoves ClassFacts PropsRunLemmas MoveProps NoThrow Select Loops Undo Samples SampleFacts.
From Coq Require Import Reals.
From stdpp Require Import fin_sets gmap sorting.
From Verif Require Import Foliation.
Local Open Scope Z_scope.

(** ** C21 *)
Theorem C21_site_counts_positive :
  forall (G : Type) W (R : choices G) escape k m m', choices_ok R -> stays_modelled escape ->
  valid (m_cells m) -> moved W R escape k m m' -> check_move W m m' k = true ->
  exists r, reverse_move k = Some r /\
    0 < proposal_site_count (geometry_m W m) k /\ 0 < proposal_site_count (geometry_m W m') r.
Proof. exact @proposed_site_counts. Qed.
Print Assumptions C21_site_counts_positive.

Theorem C21_acceptance_defined :
  forall W (G : Type) (R : choices G), choices_ok R -> forall escape, escapes_fail escape ->
  forall round p k m g cand g', rounding round -> valid_parameters p -> params_in_range p ->
  valid (m_cells m) -> room (geometry_m W m) ->
  apply_random_move (propose_api W R escape) m k g = (Moved cand, g') -> check_move W m cand k = true ->
  exists r a, reverse_move k = Some r /\
    0 < proposal_site_count (geometry_m W m) k /\ 0 < proposal_site_count (geometry_m W cand) r /\
    acceptance_probability round p (geometry_m W m) (geometry_m W cand) k = inl (PNum a) /\ (0 <= a <= 1)%R.
Proof. exact @candidate_acceptance. Qed.
Print Assumptions C21_acceptance_defined.

Theorem C21_transition_never_throws :
  forall W (G : Type) (R : choices G), choices_ok R -> forall escape, escapes_fail escape ->
  forall round p (x : metropolis G) cur k t s e,
  rounding round -> valid_parameters p -> params_in_range p -> valid (m_cells cur) -> room (geometry_m W cur) ->
  trial_invalid t = false ->
  attempt_transition (geometry_m W) (propose_api W R escape) (check_move W) (acceptance_probability round p) mp_at_least x cur k t
    <> Thr s e.
Proof. exact @transition_never_throws. Qed.
Print Assumptions C21_transition_never_throws.
Example C21_example : valid (m_cells m_26) /\ moved W_26 plain no_escape TWO_SIX m_26 m_62 /\
  check_move W_26 m_26 m_62 TWO_SIX = true /\ room (geometry_m W_26 m_26) /\
  is_done m_62 (apply_random_move (propose_api W_26 plain give_up) m_26 TWO_SIX tt) = true /\
  choices_ok plain /\ stays_modelled no_escape /\ escapes_fail give_up /\ rounding PNum.
Proof.
  split; [apply well_formed_samples|]. split; [apply moved_m26|]. split; [apply sample_26|].
  split; [repeat constructor; vm_compute; discriminate|]. split; [vm_compute; reflexivity|].
  split; [apply plain_ok|]. split; [apply no_escape_modelled|]. split; [apply give_up_fails|apply rounding_exact].
Qed.

(** ** C22: a given result comes from at most one site, and each site is selected
    by exactly one value of the draw (C35), so the documented probability
    1/(5 * sites) is the actual one. *)
Theorem C22_one_site_per_result : forall W m k s1 s2 T', valid (m_cells m) ->
  site_gives W m k s1 T' -> site_gives W m k s2 T' -> s1 = s2.
Proof. exact one_site. Qed.
Print Assumptions C22_one_site_per_result.

(** Inverse sites: only after (2,3), (2,6) and (4,4). Missing: (3,2) and (6,2), for
    which the claim is false (next two theorems). *)
Theorem C22_inverse_site_partial : forall W m k s m', cgal_accepts W ->
  valid (m_cells m) -> causal (label_of W m) (m_cells m) ->
  k = TWO_THREE \/ k = TWO_SIX \/ k = FOUR_FOUR ->
  m_radius m' = m_radius m -> m_spacing m' = m_spacing m ->
  site_gives W m k s (m_cells m') -> check_move W m m' k = true ->
  exists r s', reverse_move k = Some r /\ site_gives W m' r s' (m_cells m).
Proof. exact inverse_exists. Qed.
Print Assumptions C22_inverse_site_partial.

(** After this (3,2) move, no (2,3) site proposes the old triangulation: the only
    (2,2) cell has another facet that is tried first. *)
Theorem C22_inverse_of_32_refuted : exists s,
  is_structurally_correct W_22 m_22 = true /\ is_structurally_correct W_22 m_22' = true /\
  site_gives W_22 m_22 THREE_TWO s (m_cells m_22') /\ forall s', ~ site_gives W_22 m_22' TWO_THREE s' (m_cells m_22).
Proof. exact no_inverse_23. Qed.
Print Assumptions C22_inverse_of_32_refuted.

(** After (6,2) at a vertex that is not the centroid of the facet, no (2,6) site
    restores it; in general and on a sample. *)
Theorem C22_inverse_of_62_lost : forall W m m' v, valid (m_cells m) -> valid (m_cells m') ->
  v ∈ vertices (m_cells m) -> v ∉ vertices (m_cells m') -> (forall f, w_centroid W f <> v) ->
  forall s, ~ site_gives W m' TWO_SIX s (m_cells m).
Proof. exact lost_62. Qed.
Print Assumptions C22_inverse_of_62_lost.
Theorem C22_inverse_of_62_refuted : exists s,
  is_structurally_correct W_lost m_lost = true /\ is_structurally_correct W_lost m_lost' = true /\
  site_gives W_lost m_lost SIX_TWO s (m_cells m_lost') /\ forall s', ~ site_gives W_lost m_lost' TWO_SIX s' (m_cells m_lost).
Proof. exact no_inverse_26. Qed.
Print Assumptions C22_inverse_of_62_refuted.
Example C22_example : exists s, site_gives W_23 m_23 TWO_THREE s (m_cells m_32) /\ valid (m_cells m_23) /\
  cgal_accepts W_flat /\ exists s', site_gives W_flat m_26 TWO_SIX s' (m_cells m_62).
Proof.
  destruct (moved_site W_23 plain plain_ok no_escape no_escape_modelled _ _ _ moved_m23) as [H _].
  apply site_gives_from in H as [s H]. exists s. split; [exact H|]. split; [apply well_formed_samples|].
  split; [split; reflexivity|]. apply site_gives_from.
  exact (proj1 (moved_site W_flat plain plain_ok no_escape no_escape_modelled _ _ _ (proj1 moved_flat))).
Qed.

(** ** C23: classification of cells. [spans label c t k]: all vertices of [c] are on
    slices t and t+1, [k] of them on t. *)
Theorem C23_classification : forall label c, size c = 4%nat ->
  (cell_type label c = THREE_ONE <-> exists t, spans label c t 3) /\
  (cell_type label c = TWO_TWO <-> exists t, spans label c t 2) /\
  (cell_type label c = ONE_THREE <-> exists t, spans label c t 1) /\
  (cell_type label c = ACAUSAL <-> ~ exists t k, (1 <= k <= 3)%nat /\ spans label c t k).
Proof. exact cell_type_exact. Qed.
Print Assumptions C23_classification.
Theorem C23_counts_partition : forall label T, pure T ->
  (n3_of label THREE_ONE T + n3_of label TWO_TWO T + n3_of label ONE_THREE T = n3 T <->
   forall c, c ∈ T -> infinite ∉ c -> exists t k, (1 <= k <= 3)%nat /\ spans label c t k).
Proof. exact counts_partition_iff. Qed.
Print Assumptions C23_counts_partition.
Example C23_example : pure (m_cells m_23) /\
  map (cell_type (label_of W_23 m_23)) [of_list [2; 3; 4; 5]%positive; of_list [3; 4; 5; 6]%positive] = [THREE_ONE; TWO_TWO] /\
  cell_type (label_of W_30 m_30') (of_list [6; 3; 4; 5]%positive) = ACAUSAL.
Proof. split; [apply va_pure, well_formed_samples|]. split; vm_compute; reflexivity. Qed.

(** ** C24: classification of edges. *)
Theorem C24_partition : forall label T, n1_tl label T + n1_sl label T = n1 T.
Proof. exact edges_partition. Qed.
Print Assumptions C24_partition.
Theorem C24_classes : forall label e a b, a <> b -> e = of_list [a; b] ->
  (timelike label e = true <-> label a <> label b) /\ (spacelike label e = true <-> label a = label b).
Proof. exact edge_class. Qed.
Print Assumptions C24_classes.
Theorem C24_timelike_adjacent : forall label T a b, valid T -> causal label T -> a <> b ->
  of_list [a; b] ∈ faces 2 T -> infinite ∉ [a; b] -> label a <> label b -> Z.abs (label a - label b) = 1.
Proof. exact timelike_adjacent. Qed.
Print Assumptions C24_timelike_adjacent.
Example C24_example : n1_tl (label_of W_44 m_44) (m_cells m_44) = 8 /\ n1_sl (label_of W_44 m_44) (m_cells m_44) = 5 /\
  n1 (m_cells m_44) = 13.
Proof. vm_compute. auto. Qed.

(** ** C25-C29: effects of the moves. *)
Theorem C25_two_three : forall W (G : Type) (R : choices G), choices_ok R -> forall escape, stays_modelled escape ->
  forall m m', valid (m_cells m) -> moved W R escape TWO_THREE m m' ->
  good_result W TWO_THREE m m' /\ vertices (m_cells m') = vertices (m_cells m) /\
  exists v w a b x, two_three (label_of W m) (m_cells m) (m_cells m') v w a b x.
Proof. exact @moved_23. Qed.
Print Assumptions C25_two_three.
Example C25_example : valid (m_cells m_23) /\ moved W_23 plain no_escape TWO_THREE m_23 m_32.
Proof. split; [apply well_formed_samples|apply moved_m23]. Qed.

Theorem C26_three_two : forall W (G : Type) (R : choices G), choices_ok R -> forall escape, stays_modelled escape ->
  forall m m', valid (m_cells m) -> moved W R escape THREE_TWO m m' ->
  good_result W THREE_TWO m m' /\ vertices (m_cells m') = vertices (m_cells m) /\
  exists v w a b x, two_three (label_of W m) (m_cells m') (m_cells m) v w a b x.
Proof. exact @moved_32. Qed.
Print Assumptions C26_three_two.
Example C26_example : valid (m_cells m_32) /\ moved W_23 plain no_escape THREE_TWO m_32 m_23.
Proof. split; [apply well_formed_samples|apply moved_m32]. Qed.

(** The hypotheses of C27: no infinite cell carries the stale info (3,1), and the
    centroid of three points of a slice is assigned to that slice. *)
Theorem C27_two_six : forall W (G : Type) (R : choices G), choices_ok R -> forall escape, stays_modelled escape ->
  forall m m', valid (m_cells m) -> moved W R escape TWO_SIX m m' ->
  no_infinite_31 (label_of W m) (w_junk W) (m_cells m) ->
  (forall a b c, label_of W m a = label_of W m b -> label_of W m b = label_of W m c ->
     label_of W m (w_centroid W (of_list [a; b; c])) = label_of W m a) ->
  good_result W TWO_SIX m m' /\
  exists a b c x d e, two_six (label_of W m) (m_cells m) (m_cells m') a b c x d e /\ x = w_centroid W (of_list [a; b; c]) /\
    vertices (m_cells m') = {[x]} ∪ vertices (m_cells m) /\ x ∉ vertices (m_cells m).
Proof. exact @moved_26. Qed.
Print Assumptions C27_two_six.
(** Without those hypotheses, for every result that the move check accepts. *)
Theorem C27_two_six_checked : forall W (G : Type) (R : choices G), choices_ok R -> forall escape, stays_modelled escape ->
  forall m m', valid (m_cells m) -> moved W R escape TWO_SIX m m' -> check_move W m m' TWO_SIX = true ->
  good_result W TWO_SIX m m' /\
  exists a b c x d e, two_six (label_of W m) (m_cells m) (m_cells m') a b c x d e /\ x = w_centroid W (of_list [a; b; c]) /\
    vertices (m_cells m') = {[x]} ∪ vertices (m_cells m) /\ x ∉ vertices (m_cells m).
Proof. exact @moved_26_checked. Qed.
Print Assumptions C27_two_six_checked.
Example C27_example : moved W_flat plain no_escape TWO_SIX m_26 m_62 /\ well_formed W_flat m_26 /\
  no_infinite_31 (label_of W_flat m_26) (w_junk W_flat) (m_cells m_26) /\
  (forall a b c, label_of W_flat m_26 a = label_of W_flat m_26 b -> label_of W_flat m_26 b = label_of W_flat m_26 c ->
     label_of W_flat m_26 (w_centroid W_flat (of_list [a; b; c])) = label_of W_flat m_26 a) /\
  moved W_26 plain no_escape TWO_SIX m_26 m_62 /\ check_move W_26 m_26 m_62 TWO_SIX = true.
Proof.
  destruct moved_flat as (A & B & C & D). split; [exact A|]. split; [exact B|]. split; [exact C|]. split; [exact D|].
  split; [apply moved_m26|apply sample_26].
Qed.

Theorem C28_six_two : forall W (G : Type) (R : choices G), choices_ok R -> forall escape, stays_modelled escape ->
  forall m m', valid (m_cells m) -> moved W R escape SIX_TWO m m' ->
  good_result W SIX_TWO m m' /\
  exists a b c v d e, two_six (label_of W m) (m_cells m') (m_cells m) a b c v d e /\
    vertices (m_cells m) = {[v]} ∪ vertices (m_cells m') /\ v ∉ vertices (m_cells m').
Proof. exact @moved_62. Qed.
Print Assumptions C28_six_two.
Example C28_example : valid (m_cells m_62) /\ moved W_26 plain no_escape SIX_TWO m_62 m_26.
Proof. split; [apply well_formed_samples|apply moved_m62]. Qed.

Theorem C29_four_four : forall W (G : Type) (R : choices G), choices_ok R -> forall escape, stays_modelled escape ->
  forall m m', valid (m_cells m) -> moved W R escape FOUR_FOUR m m' ->
  good_result W FOUR_FOUR m m' /\ vertices (m_cells m') = vertices (m_cells m) /\
  exists p q a b top bot, four_four (label_of W m) (m_cells m) (m_cells m') p q a b top bot.
Proof. exact @moved_44. Qed.
Print Assumptions C29_four_four.
Example C29_example : valid (m_cells m_44) /\ moved W_44 plain no_escape FOUR_FOUR m_44 m_44'.
Proof. split; [apply well_formed_samples|apply moved_m44]. Qed.

(** ** C30 is false: a (2,6) move of a structurally correct manifold, reported as a
    success, whose result is not causal. Five points with integer coordinates,
    radius and spacing 8. *)
Theorem C30_refuted : moved W_30 plain no_escape TWO_SIX m_30 m_30' /\
  is_structurally_correct W_30 m_30 = true /\ is_structurally_correct W_30 m_30' = false /\
  exists c, c ∈ m_cells m_30' /\ infinite ∉ c /\ cell_type (label_of W_30 m_30') c = ACAUSAL.
Proof. exact success_not_causal. Qed.
Print Assumptions C30_refuted.

(** ** C31 *)
Theorem C31_undo_two_three : forall W (G : Type) (R : choices G), choices_ok R -> forall escape, stays_modelled escape ->
  forall m m', valid (m_cells m) -> moved W R escape TWO_THREE m m' ->
  exists v w a b x, two_three (label_of W m) (m_cells m) (m_cells m') v w a b x /\
    of_list [v; w] ∈ sites_32 W m' /\
    (w_locates W (m_cells m') v = true -> w_locates W (m_cells m') w = true ->
     w_geo_edge W (m_cells m') (of_list [v; w]) = true ->
     draw_gives R (sites_32 W m') (of_list [v; w]) (propose_32 W R escape m') m).
Proof. exact @undo_23. Qed.
Print Assumptions C31_undo_two_three.
Theorem C31_undo_two_six : forall W (G : Type) (R : choices G), choices_ok R -> forall escape, stays_modelled escape ->
  forall m m', valid (m_cells m) -> causal (label_of W m) (m_cells m) ->
  moved W R escape TWO_SIX m m' -> check_move W m m' TWO_SIX = true ->
  exists a b c x d e, two_six (label_of W m) (m_cells m) (m_cells m') a b c x d e /\
    x ∈ sites_62 m' /\
    (w_locates W (m_cells m') x = true -> draw_gives R (sites_62 m') x (propose_62 W R escape m') m).
Proof. exact @undo_26_moved. Qed.
Print Assumptions C31_undo_two_six.
Theorem C31_undo_four_four : forall W (G : Type) (R : choices G), choices_ok R -> forall escape, stays_modelled escape ->
  forall m m', valid (m_cells m) -> moved W R escape FOUR_FOUR m m' ->
  exists p q a b top bot, four_four (label_of W m) (m_cells m) (m_cells m') p q a b top bot /\
    of_list [a; b] ∈ sites_44 W m' /\
    ((forall y, y ∈ [a; b; top; bot] -> w_locates W (m_cells m') y = true) ->
     draw_gives R (sites_44 W m') (of_list [a; b]) (propose_44 W R escape m') m).
Proof. exact @undo_44. Qed.
Print Assumptions C31_undo_four_four.
Example C31_example : moved W_23 plain no_escape TWO_THREE m_23 m_32 /\ (forall T v, w_locates W_23 T v = true) /\
  w_geo_edge W_23 (m_cells m_32) (of_list [2; 6]%positive) = true /\
  moved W_26 plain no_escape TWO_SIX m_26 m_62 /\ well_formed W_26 m_26 /\ check_move W_26 m_26 m_62 TWO_SIX = true /\
  moved W_44 plain no_escape FOUR_FOUR m_44 m_44' /\ valid (m_cells m_44).
Proof.
  split; [apply moved_m23|]. split; [reflexivity|]. split; [vm_compute; reflexivity|]. split; [apply moved_m26|].
  split; [apply well_formed_samples|]. split; [apply sample_26|]. split; [apply moved_m44|apply well_formed_samples].
Qed.

(** ** C32 *)
Theorem C32_check_exact : forall W before after k, check_move W before after k = true <->
  valid (m_cells after) /\ causal (label_of W after) (m_cells after) /\
  m_radius after = m_radius before /\ m_spacing after = m_spacing before /\
  max_time_m W after = max_time_m W before /\ min_time_m W after = min_time_m W before /\
  exists d, move_delta k = Some d /\ geometry_m W after = geometry_plus (geometry_m W before) d.
Proof. exact check_move_spec. Qed.
Print Assumptions C32_check_exact.
Theorem C32_moves_pass : forall W (G : Type) (R : choices G) escape k m m', choices_ok R -> stays_modelled escape ->
  valid (m_cells m) -> causal (label_of W m) (m_cells m) -> moved W R escape k m m' ->
  k <> TWO_SIX \/ (no_infinite_31 (label_of W m) (w_junk W) (m_cells m) /\
    (forall a b c, label_of W m a = label_of W m b -> label_of W m b = label_of W m c ->
     label_of W m (w_centroid W (of_list [a; b; c])) = label_of W m a)) ->
  check_move W m m' k = true.
Proof. exact @genuine_moves_pass. Qed.
Print Assumptions C32_moves_pass.
Example C32_example : check_move W_23 m_23 m_32 TWO_THREE = true /\ check_move W_23 m_23 m_32 THREE_TWO = false /\
  check_move W_44 m_44 m_44' FOUR_FOUR = true /\ check_move W_30 m_30 m_30' TWO_SIX = false.
Proof. vm_compute. auto. Qed.

(** ** C33 *)
Theorem C33_command : forall (G : Type) W (api : move_api manifold G) (c : command manifold) g c' g' u,
  counters_ok c -> execute api (check_move W) c g = Ret (c', g') u ->
  invariants_kept W (cm_manifold c) (cm_manifold c') /\ (well_formed W (cm_manifold c) -> well_formed W (cm_manifold c')).
Proof. exact @command_kept. Qed.
Print Assumptions C33_command.
Theorem C33_command_that_throws : forall (G : Type) W (api : move_api manifold G) (c : command manifold) g c' g' x,
  counters_ok c -> execute api (check_move W) c g = Thr (c', g') x ->
  invariants_kept W (cm_manifold c) (cm_manifold c') /\ (well_formed W (cm_manifold c) -> well_formed W (cm_manifold c')).
Proof. exact @command_throw_kept. Qed.
Print Assumptions C33_command_that_throws.
Theorem C33_move_always : forall (G X : Type) W N3 (api : move_api manifold G) draw print write s (w : X) man s' w' man',
  cadence_ok (ma_cadence s) ->
  ma_run N3 api (check_move W) draw print write s w man = Ret (s', w') man' ->
  invariants_kept W man man' /\ (well_formed W man -> well_formed W man').
Proof. exact @move_always_kept. Qed.
Print Assumptions C33_move_always.
Theorem C33_metropolis : forall (G P X : Type) W geometry (propose : move_api manifold G) (accept : Geometry -> Geometry -> MoveType -> P + exn)
    at_least draw_int draw_p max_time update print write (x : metropolis G) (w : X) man x' w' man',
  (forall g m g', draw_int 0 4 g = (m, g') -> supported m) -> cadence_ok (mh_cadence x) ->
  mh_run geometry propose (check_move W) accept at_least draw_int draw_p max_time update print write x w man = Ret (x', w') man' ->
  invariants_kept W man man' /\ (well_formed W man -> well_formed W man').
Proof. exact @metropolis_kept. Qed.
Print Assumptions C33_metropolis.
Theorem C33_attempt : forall (G P : Type) W geometry (propose : move_api manifold G) (accept : Geometry -> Geometry -> MoveType -> P + exn)
    at_least (x : metropolis G) cur m t x' cur' r,
  attempt_transition geometry propose (check_move W) accept at_least x cur m t = Ret (x', cur') r ->
  invariants_kept W cur cur' /\ (well_formed W cur -> well_formed W cur').
Proof. exact @attempt_kept. Qed.
Print Assumptions C33_attempt.
Example C33_example : invariants_kept W_26 m_26 m_62 /\ well_formed W_26 m_26 /\ euler (geometry_m W_26 m_62) = 1.
Proof.
  split; [eapply checked_kept; apply sample_26|]. split; [apply well_formed_samples|vm_compute; reflexivity].
Qed.

(** ** C34 *)
Theorem C34_search : forall W (G : Type) (R : choices G) escape m,
  searches_all R m TWO_THREE (sites_23 W m) (attempt_23 W m) (do_23 W R escape m) /\
  searches_all R m THREE_TWO (sites_32 W m) (attempt_32 W m) (do_32 W R escape m) /\
  searches_all R m SIX_TWO (sites_62 m) (attempt_62 R W m) (do_62 W R escape m) /\
  searches_all R m FOUR_FOUR (sites_44 W m) (attempt_44 W m) (do_44 W R escape m).
Proof. exact @all_searches. Qed.
Print Assumptions C34_search.
Theorem C34_no_candidate : forall W (G : Type) (R : choices G) escape m, choices_ok R ->
  ((forall c (g g' : G), c ∈ sites_23 W m -> attempt_23 W m c g <> (Unmodelled, g')) ->
   forall g, (exists k g', do_23 W R escape m g = (Failed (mkMoveError NO_CANDIDATE k), g')) <-> sites_23 W m = []) /\
  ((forall c (g g' : G), c ∈ sites_32 W m -> attempt_32 W m c g <> (Unmodelled, g')) ->
   forall g, (exists k g', do_32 W R escape m g = (Failed (mkMoveError NO_CANDIDATE k), g')) <-> sites_32 W m = []) /\
  ((forall c (g g' : G), c ∈ sites_62 m -> attempt_62 R W m c g <> (Unmodelled, g')) ->
   forall g, (exists k g', do_62 W R escape m g = (Failed (mkMoveError NO_CANDIDATE k), g')) <-> sites_62 m = []) /\
  ((forall c (g g' : G), c ∈ sites_44 W m -> attempt_44 W m c g <> (Unmodelled, g')) ->
   forall g, (exists k g', do_44 W R escape m g = (Failed (mkMoveError NO_CANDIDATE k), g')) <-> sites_44 W m = []).
Proof. exact @no_candidate_all. Qed.
Print Assumptions C34_no_candidate.
Theorem C34_two_six_first_prepared : forall W (G : Type) (R : choices G), choices_ok R -> forall escape m g order g1,
  shuffle R simplex (sites_26 W m) g = (order, g1) ->
  (sites_26 W m = [] -> do_26 W R escape m g = (Failed (mkMoveError NO_CANDIDATE TWO_SIX), g)) /\
  (sites_26 W m <> [] -> (forall c, c ∈ order -> prepares_26 W m c = false) ->
     exists e, do_26 W R escape m g = (Failed (mkMoveError e TWO_SIX), g1) /\ e <> NO_CANDIDATE) /\
  (forall before c after, order = before ++ c :: after -> (forall c', c' ∈ before -> prepares_26 W m c' = false) ->
     prepares_26 W m c = true ->
     do_26 W R escape m g = finish escape m TWO_SIX (attempt_26 W m c g1)).
Proof. exact @do_26_searches. Qed.
Print Assumptions C34_two_six_first_prepared.
Example C34_example : length (sites_32 W_22 m_22) = 7%nat /\
  (exists c1 c2, bool_decide (c1 ∈ sites_32 W_22 m_22) = true /\ bool_decide (c2 ∈ sites_32 W_22 m_22) = true /\
   fst (attempt_32 W_22 m_22 c1 tt) = Fail CAUSAL_INVALIDITY /\
   outcome_is (m_cells m_22') (fst (attempt_32 W_22 m_22 c2 tt)) = true) /\
  sites_26 W_23 m_23 = [] /\ prepares_26 W_26 m_26 (of_list [2; 3; 4; 6]%positive) = true.
Proof.
  split; [vm_compute; reflexivity|]. split.
  - exists (of_list [2; 6]%positive), (of_list [3; 4]%positive). vm_compute. auto.
  - vm_compute. auto.
Qed.

(** ** C35 *)
Theorem C35_order_free : forall (G A : Type) (le : A -> A -> Prop) (D : RelDecision le), Total le -> Transitive le -> AntiSymm (=) le ->
  forall precedes : A -> A -> bool, (forall x y, precedes x y = false <-> le y x) ->
  forall (R : choices G) nth nth' l l' g,
  (forall n l, nth_element_post precedes n l (nth n l)) ->
  (forall n l, nth_element_post precedes n l (nth' n l)) -> l ≡ₚ l' ->
  canonical_random_element_cpp R nth l g = canonical_random_element_cpp R nth' l' g.
Proof. exact @selection_order_free'. Qed.
Print Assumptions C35_order_free.
Theorem C35_one_draw_per_site : forall (A : Type) (le : A -> A -> Prop) (D : RelDecision le), Total le -> Transitive le -> AntiSymm (=) le ->
  forall precedes : A -> A -> bool, (forall x y, precedes x y = false <-> le y x) ->
  forall l s nth, NoDup l -> s ∈ l ->
  (forall n l, nth_element_post precedes n l (nth n l)) ->
  exists i, (i < length l)%nat /\ nth i l !! i = Some s /\ forall j, nth j l !! j = Some s -> j = i.
Proof. exact @selection_bijective'. Qed.
Print Assumptions C35_one_draw_per_site.
(** The orders the program uses are such orders ... *)
Theorem C35_program_orders :
  (Total simplex_le /\ Transitive simplex_le /\ AntiSymm (=) simplex_le /\
   forall x y, simplex_precedes x y = false <-> simplex_le y x) /\
  (Total Pos.le /\ Transitive Pos.le /\ AntiSymm (=) Pos.le /\
   forall x y, point_precedes x y = false <-> (y <= x)%positive).
Proof. exact program_orders. Qed.
Print Assumptions C35_program_orders.
(** ... and every proposal's site is a function of the triangulation and the draw,
    whatever the order in which its cells, edges and vertices are stored. *)
Theorem C35_sites : forall (G : Type) (W : world) (R : choices G) m g nth vnth,
  (forall n l, nth_element_post simplex_precedes n l (nth n l)) ->
  (forall n l, nth_element_post point_precedes n l (vnth n l)) ->
  (forall l, stored_cells W m TWO_TWO l -> canonical_random_element_cpp R nth l g = canonical_random_element R (sites_23 W m) g) /\
  (forall l, stored_edges W m true l -> canonical_random_element_cpp R nth l g = canonical_random_element R (sites_32 W m) g) /\
  (forall l, stored_cells W m ONE_THREE l -> canonical_random_element_cpp R nth l g = canonical_random_element R (sites_26 W m) g) /\
  (forall l, stored_vertices m l -> canonical_random_element_cpp R vnth l g = canonical_random_element R (sites_62 m) g) /\
  (forall l, stored_edges W m false l -> canonical_random_element_cpp R nth l g = canonical_random_element R (sites_44 W m) g).
Proof. exact @site_choice. Qed.
Print Assumptions C35_sites.
Theorem C35_sorted_sites : forall l l' sorted, sort_post simplex_precedes l sorted -> l ≡ₚ l' -> sorted = canonicalize l'.
Proof. exact sorted_sites_cpp. Qed.
Print Assumptions C35_sorted_sites.
Example C35_example : (forall n l, nth_element_post simplex_precedes n l (merge_sort simplex_le l)) /\
  simplex_precedes (of_list [5; 2; 9; 4]%positive) (of_list [2; 4; 6; 5]%positive) = false /\
  stored_edges W_22 m_22 true (elements (list_to_set (sites_32 W_22 m_22) : gset simplex)).
Proof. exact selection_example. Qed.
