(** C104: ways back to the manifolds a run has left.

    [step_probability W p x y] (KernelSpec.v) is the probability of one Metropolis step
    from [x] to [y]; [rtc] is the reflexive and transitive closure; [kernel], [after],
    [closed] and [equilibrium] are those of C100 (ChainSpec.v). *)
From Verif Require Import Base Tracker Command Run Geom Metropolis Simplex Pachner Foliation Moves Links Manifold Samples SampleFacts Undo Mp Action Acceptance HastingsError KernelSpec ChainSpec ChainProps PassSpec PassFacts TrapFacts.
From stdpp Require Import fin_sets gmap sorting relations.
From Verif Require Import Base Foliation Metropolis.
From Coq Require Import Reals Lra.
Local Open Scope R_scope.

(** From a manifold reached by any number of (2,3), (2,6) and (4,4) steps a run can go
    all the way back, if CGAL locates the points and accepts the flips. *)
Theorem C104_way_back : forall W p, valid_parameters p -> cgal_accepts W -> forall x y, is_structurally_correct W x = true ->
  rtc (fun a b => exists k, (k = TWO_THREE \/ k = TWO_SIX \/ k = FOUR_FOUR) /\ 0 < by_kind W p a k b) x y ->
  rtc (fun a b => 0 < step_probability W p a b) x y /\ rtc (fun a b => 0 < step_probability W p a b) y x.
Proof. exact way_back. Qed.
Print Assumptions C104_way_back.
Example C104_way_back_example : forall p, valid_parameters p -> valid_parameters example_params /\
  cgal_accepts W_flat /\ is_structurally_correct W_flat m_26 = true /\ m_26 <> m_62 /\
  rtc (fun a b => exists k, (k = TWO_THREE \/ k = TWO_SIX \/ k = FOUR_FOUR) /\ 0 < by_kind W_flat p a k b) m_26 m_62.
Proof. exact flat_path. Qed.

(** Where every manifold can reach [m], which can stay as it is, and [y] cannot be
    reached from [m], long runs are at [y] with a probability that tends to 0 ... *)
Theorem C104_lost : forall W p, valid_parameters p -> forall X, NoDup X -> (forall x, x ∈ X -> is_structurally_correct W x = true) ->
  closed W p X -> forall m y, m ∈ X -> y ∈ X -> 0 < kernel W p m m ->
  (forall x, x ∈ X -> rtc (fun a b => 0 < step_probability W p a b) x m) ->
  ~ rtc (fun a b => 0 < step_probability W p a b) m y ->
  forall eps, 0 < eps -> exists N, forall n x, (N <= n)%nat -> x ∈ X -> after W p X n x y < eps.
Proof. exact fades. Qed.
Print Assumptions C104_lost.
(** ... and every distribution that steps leave unchanged gives [y] the weight 0. *)
Theorem C104_weightless : forall W p, valid_parameters p -> forall X, NoDup X -> (forall x, x ∈ X -> is_structurally_correct W x = true) ->
  closed W p X -> forall m y, m ∈ X -> y ∈ X -> 0 < kernel W p m m ->
  (forall x, x ∈ X -> rtc (fun a b => 0 < step_probability W p a b) x m) ->
  ~ rtc (fun a b => 0 < step_probability W p a b) m y ->
  forall mu, (forall z, z ∈ X -> sum_on (fun x => mu x * kernel W p x z) X = mu z) -> mu y = 0.
Proof. exact preserved_zero. Qed.
Print Assumptions C104_weightless.

(** There are such manifolds, for exact geometry and every choice of couplings: [X] is
    the set of the manifolds that can be reached from [m_22], and [m_22] cannot be
    reached again from [m_22']. So the moves do not connect what they can reach, and a
    run that starts at [m_22] does not sample exp(-S) on the manifolds within its
    reach: its chance of being at [m_22] tends to 0, and exp(-S) is not left unchanged. *)
Theorem C104_ergodicity_refuted : forall p, valid_parameters p -> exists X,
  NoDup X /\ (forall x, x ∈ X -> is_structurally_correct W_22 x = true) /\ closed W_22 p X /\ m_22 ∈ X /\ m_22' ∈ X /\
  (forall x, x ∈ X -> rtc (fun a b => 0 < step_probability W_22 p a b) m_22 x) /\
  ~ rtc (fun a b => 0 < step_probability W_22 p a b) m_22' m_22 /\
  (forall eps, 0 < eps -> exists N, forall n x, (N <= n)%nat -> x ∈ X -> after W_22 p X n x m_22 < eps) /\
  0 < equilibrium W_22 p X m_22 /\
  exists y, y ∈ X /\ sum_on (fun x => equilibrium W_22 p X x * kernel W_22 p x y) X <> equilibrium W_22 p X y.
Proof. exact six_lost. Qed.
Print Assumptions C104_ergodicity_refuted.
Example C104_lost_example : forall p, valid_parameters p ->
  NoDup six_states /\ (forall x, x ∈ six_states -> is_structurally_correct W_22 x = true) /\ closed W_22 p six_states /\
  length six_states = 6%nat /\ m_22 ∈ six_states /\ m_22' ∈ six_states /\
  (forall x, x ∈ six_states -> rtc (fun a b => 0 < step_probability W_22 p a b) m_22 x) /\
  (forall x, x ∈ six_states -> rtc (fun a b => 0 < step_probability W_22 p a b) x m_22') /\
  ~ rtc (fun a b => 0 < step_probability W_22 p a b) m_22' m_22 /\
  0 < kernel W_22 p m_22' m_22'.
Proof. exact six_trap. Qed.
