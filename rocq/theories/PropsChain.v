(** C100: the distribution exp(-S) and the chain of the Metropolis program.

    [kernel W p m m'] (ChainSpec.v) is the probability that [m'] is the state after
    one Metropolis step from [m]: the [step_probability] of C98, and for [m' = m] the
    probability of all outcomes that change nothing. [after W p X n m m'] is that of
    [m'] after [n] steps. [equilibrium W p X] is exp(-S) divided by its sum over [X].

    C98 shows that some steps have no way back; so [two_way] is a hypothesis here, and
    what follows is what the program does where it holds. *)
From Verif Require Import Base Tracker Command Run Geom Metropolis Simplex Pachner Foliation Moves Links Manifold Samples SampleFacts Mp Action Acceptance HastingsError KernelSpec ChainSpec ChainProps.
From stdpp Require Import fin_sets gmap sorting relations.
From Verif Require Import Base Foliation Metropolis.
From Coq Require Import Reals Lra.
Local Open Scope R_scope.

(** Steps and runs of [n] steps are probability distributions. *)
Theorem C100_step : forall W p m X, valid_parameters p -> valid (m_cells m) -> NoDup X -> m ∈ X ->
  (forall x, 0 < step_probability W p m x -> x ∈ X) ->
  (forall x, 0 <= kernel W p m x) /\ sum_on (kernel W p m) X = 1.
Proof. exact (fun W p m X VP V ND I C => conj (kernel_nonneg W p VP m) (kernel_sum W p VP m X V ND I C)). Qed.
Print Assumptions C100_step.
Theorem C100_steps : forall W p X, valid_parameters p -> NoDup X -> (forall x, x ∈ X -> is_structurally_correct W x = true) ->
  closed W p X -> forall n x, x ∈ X -> (forall y, y ∈ X -> 0 <= after W p X n x y) /\ sum_on (after W p X n x) X = 1.
Proof. exact (fun W p X VP ND C Cl => after_probability W p VP X ND C Cl). Qed.
Print Assumptions C100_steps.

(** exp(-S) is left unchanged by a step at every state [m] whose steps have ways back,
    whatever the rest of the space of states: [X] is any list with [m], its successors
    and its predecessors in it. *)
Theorem C100_stationary : forall W p X m, valid_parameters p -> NoDup X -> m ∈ X ->
  (forall x, x ∈ X -> is_structurally_correct W x = true) -> (forall x, 0 < step_probability W p m x -> x ∈ X) ->
  (forall x, x ∈ X -> (0 < step_probability W p m x <-> 0 < step_probability W p x m)) ->
  sum_on (fun x => weight W p x * kernel W p x m) X = weight W p m.
Proof. exact (fun W p X m VP => stationary_at W p VP X m). Qed.
Print Assumptions C100_stationary.

(** On a closed set with two-way steps a run started from the distribution exp(-S)
    stays in it. *)
Theorem C100_equilibrium : forall W p X, valid_parameters p -> NoDup X -> (forall x, x ∈ X -> is_structurally_correct W x = true) ->
  closed W p X -> two_way W p X -> forall n y, y ∈ X ->
  0 < equilibrium W p X y /\ sum_on (equilibrium W p X) X = 1 /\
  sum_on (fun x => equilibrium W p X x * after W p X n x y) X = equilibrium W p X y.
Proof.
  exact (fun W p X VP ND C Cl T n y I => conj (proj1 (equilibrium_probability W p X y I))
    (conj (proj2 (equilibrium_probability W p X y I)) (equilibrium_stationary W p VP X ND C Cl T n y I))).
Qed.
Print Assumptions C100_equilibrium.

(** If every state of the set can be reached from every other, it is the only such
    distribution ... *)
Theorem C100_unique : forall W p X, valid_parameters p -> NoDup X -> (forall x, x ∈ X -> is_structurally_correct W x = true) ->
  closed W p X -> two_way W p X -> linked W p X -> forall mu,
  sum_on mu X = 1 -> (forall y, y ∈ X -> sum_on (fun x => mu x * kernel W p x y) X = mu y) ->
  forall x, x ∈ X -> mu x = equilibrium W p X x.
Proof. exact (fun W p X VP ND C Cl T L => only_equilibrium W p VP X ND C Cl T L). Qed.
Print Assumptions C100_unique.
(** ... and if moreover some state has a chance of staying, long runs from any state
    approach it. *)
Theorem C100_converges : forall W p X, valid_parameters p -> NoDup X -> (forall x, x ∈ X -> is_structurally_correct W x = true) ->
  closed W p X -> two_way W p X -> linked W p X -> forall m, m ∈ X -> 0 < kernel W p m m ->
  forall eps, 0 < eps -> exists N, forall n x y, (N <= n)%nat -> x ∈ X -> y ∈ X ->
    Rabs (after W p X n x y - equilibrium W p X y) < eps.
Proof. exact (fun W p X VP ND C Cl T L => to_equilibrium W p VP X ND C Cl T L). Qed.
Print Assumptions C100_converges.

(** A state stays with probability at least 1/5 if one of the five kinds has no
    possible step there. *)
Theorem C100_stays : forall W p m k, valid_parameters p -> valid (m_cells m) -> In k five_moves ->
  (forall i x, (i < indices W m k)%nat -> candidate W i m k = Moved x -> check_move W m x k = false) ->
  1 / 5 <= kernel W p m m.
Proof. exact (fun W p m k VP => idle_kind W p VP m k). Qed.
Print Assumptions C100_stays.

(** Two manifolds, a (2,6) move apart, that meet all these hypotheses. *)
Example C100_example : forall p, valid_parameters p -> valid_parameters example_params /\
  NoDup two_states /\ (forall x, x ∈ two_states -> is_structurally_correct W_flat x = true) /\
  closed W_flat p two_states /\ two_way W_flat p two_states /\ linked W_flat p two_states /\
  0 < kernel W_flat p m_26 m_26.
Proof. intros p VP. split; [exact (proj1 example_parameters)|exact (two_states_chain p VP)]. Qed.
