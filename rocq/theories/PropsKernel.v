(** C98: the chain the program runs and the weight exp(-S).

    [step_probability W p m m'] (KernelSpec.v) is the probability that one
    Metropolis step takes [m] to [m']: one of the five kinds with probability 1/5,
    each index the program can draw for it with the same probability, the modelled
    proposal run with that index, the modelled check, and the modelled acceptance
    probability in exact arithmetic. [weight W p m] is exp(-S(m)). *)
From Verif Require Import Base Tracker Command Run Geom Metropolis Simplex Pachner Foliation Moves Links MoveSpec Manifold ManifoldMoves MoveProps Samples SampleFacts Undo Mp Action Acceptance HastingsError KernelSpec KernelFacts KernelProps KernelBalance KernelStep.
From stdpp Require Import fin_sets gmap sorting.
From Verif Require Import Base Foliation Metropolis.
From Coq Require Import Reals Lra.
Local Open Scope R_scope.

(** The program draws from exactly [indices W m k] indices, and what it proposes is
    what the drawn index yields, whatever the generator and its shuffles. *)
Theorem C98_draws : forall W (G : Type) (R : choices G) escape m k g m', choices_ok R -> stays_modelled escape -> valid (m_cells m) ->
  fst (propose_candidate (propose_api W R escape) m k g) = Moved m' <->
  candidate W (fst (draw_index R (indices W m k) g)) m k = Moved m'.
Proof. exact @drawn_candidate. Qed.
Print Assumptions C98_draws.

(** A transition of the program accepts [m'] exactly under the conditions whose
    probabilities [step_probability] multiplies. *)
Theorem C98_transition : forall (G P : Type) W (R : choices G) escape acc at_least (x : mstate manifold G) k t x' o m',
  choices_ok R -> stays_modelled escape -> valid (m_cells (ms_cur x)) ->
  resolve_transition (P := P) (geometry_m W) (propose_api W R escape) (check_move W) acc at_least x k t = Ret x' o ->
  (o = METROPOLIS_ACCEPTED /\ ms_cur x' = m') <->
  (candidate W (fst (draw_index R (indices W (ms_cur x) k) (ms_gen x))) (ms_cur x) k = Moved m' /\
   check_move W (ms_cur x) m' k = true /\
   exists a, acc (geometry_m W (ms_cur x)) (geometry_m W m') k = inl a /\ at_least a t = true).
Proof. exact @accepted_step. Qed.
Print Assumptions C98_transition.

(** They are probabilities of disjoint events. *)
Theorem C98_probabilities : forall W p m, valid_parameters p ->
  (forall m', 0 <= step_probability W p m m') /\
  (forall targets, NoDup targets -> fold_right Rplus 0 (map (step_probability W p m) targets) <= 1).
Proof. intros W p m VP. split; [intros m'; apply step_nonneg, VP|intros L; apply steps_sum, VP]. Qed.
Print Assumptions C98_probabilities.

(** Each candidate is yielded by at most one index of a kind. *)
Theorem C98_one_index : forall W m k m' i j, valid (m_cells m) ->
  candidate W i m k = Moved m' -> candidate W j m k = Moved m' -> i = j.
Proof. exact candidate_once. Qed.
Print Assumptions C98_one_index.

(** A step is possible exactly if some index of some kind yields a candidate that
    passes the check: the Metropolis test never excludes one. *)
Theorem C98_possible : forall W p m m', valid_parameters p -> valid (m_cells m) ->
  0 < step_probability W p m m' <->
  exists k i, (i < indices W m k)%nat /\ candidate W i m k = Moved m' /\ check_move W m m' k = true.
Proof. exact possible_step. Qed.
Print Assumptions C98_possible.

(** Detailed balance for every two manifolds each of which can be reached from the
    other, or neither. *)
Theorem C98_balance : forall W p, valid_parameters p -> forall m m',
  is_structurally_correct W m = true -> is_structurally_correct W m' = true ->
  (0 < step_probability W p m m' <-> 0 < step_probability W p m' m) ->
  weight W p m * step_probability W p m m' = weight W p m' * step_probability W p m' m.
Proof. exact balance_both. Qed.
Print Assumptions C98_balance.

(** Hence for every step by a (2,3), (2,6) or (4,4) move, if CGAL locates the
    points and accepts the flip back. *)
Theorem C98_balance_of_kinds : forall W p, valid_parameters p -> forall m k m', cgal_accepts W ->
  is_structurally_correct W m = true -> k = TWO_THREE \/ k = TWO_SIX \/ k = FOUR_FOUR ->
  0 < by_kind W p m k m' ->
  0 < step_probability W p m m' /\
  weight W p m * step_probability W p m m' = weight W p m' * step_probability W p m' m.
Proof. exact balance_kinds. Qed.
Print Assumptions C98_balance_of_kinds.

(** Without the hypothesis of [C98_balance] the claim is false: steps by (3,2) and
    (6,2) without a way back. *)
Theorem C98_balance_of_32_refuted : forall p, valid_parameters p ->
  is_structurally_correct W_22 m_22 = true /\ is_structurally_correct W_22 m_22' = true /\
  0 < step_probability W_22 p m_22 m_22' /\ step_probability W_22 p m_22' m_22 = 0 /\
  weight W_22 p m_22 * step_probability W_22 p m_22 m_22' <> weight W_22 p m_22' * step_probability W_22 p m_22' m_22.
Proof. exact one_way_22. Qed.
Print Assumptions C98_balance_of_32_refuted.
Theorem C98_balance_of_62_refuted : forall p, valid_parameters p ->
  is_structurally_correct W_lost m_lost = true /\ is_structurally_correct W_lost m_lost' = true /\
  0 < step_probability W_lost p m_lost m_lost' /\ step_probability W_lost p m_lost' m_lost = 0 /\
  weight W_lost p m_lost * step_probability W_lost p m_lost m_lost' <> weight W_lost p m_lost' * step_probability W_lost p m_lost' m_lost.
Proof. exact one_way_lost. Qed.
Print Assumptions C98_balance_of_62_refuted.

(** A step with a way back. *)
Example C98_example : forall p, valid_parameters p -> valid_parameters example_params /\
  cgal_accepts W_flat /\ is_structurally_correct W_flat m_26 = true /\ 0 < by_kind W_flat p m_26 TWO_SIX m_62 /\
  0 < step_probability W_flat p m_26 m_62.
Proof. exact flat_step. Qed.
