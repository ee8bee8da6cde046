(** C102: averages over the steps of a long run. C103: the manifolds at the ends of passes.

    [kernel], [after], [closed], [two_way], [linked] and [equilibrium] are those of C100
    (ChainSpec.v). PassSpec.v adds: [expected W p X n x F], the expected value of a
    function of the [n] states that follow [x]; [likelihood], the probability that they
    satisfy a condition; [average f path]; [mean W p X f], the mean of [f] in the
    distribution exp(-S); [pass_end], the probability that a pass, as many attempts as
    its first manifold has simplices, ends in a given manifold; [passes_end], the same
    for several passes; [attempts_at], the expected number of attempts of a pass made at
    a given manifold. *)
From Verif Require Import Base Tracker Command Run Geom Metropolis Simplex Pachner Foliation Moves Links Manifold Samples SampleFacts Mp Action Acceptance HastingsError KernelSpec ChainSpec ChainProps PassSpec PassFacts.
From stdpp Require Import fin_sets gmap sorting relations.
From Verif Require Import Base Foliation Metropolis.
From Coq Require Import Reals Lra.
Local Open Scope R_scope.

(** [likelihood] is a probability; that of ending in [y] after [n] steps is [after]. *)
Theorem C102_likelihood : forall W p X, valid_parameters p -> NoDup X -> (forall x, x ∈ X -> is_structurally_correct W x = true) ->
  closed W p X -> forall n x, x ∈ X ->
  (forall (E : list manifold -> Prop) (dec : forall path, Decision (E path)), 0 <= likelihood W p X n x E <= 1) /\
  (forall y, y ∈ X -> likelihood W p X n x (fun path => List.last path x = y) = after W p X n x y).
Proof.
  exact (fun W p X VP ND C Cl n x I => conj (fun E dec => likelihood_range W p VP X ND C Cl n x E I)
    (fun y J => likelihood_end W p X n x y I J)).
Qed.
Print Assumptions C102_likelihood.

(** The expected average of any observable over the states of a long run, one per step,
    tends to its mean in the distribution exp(-S), from any start ... *)
Theorem C102_expected : forall W p X, valid_parameters p -> NoDup X -> (forall x, x ∈ X -> is_structurally_correct W x = true) ->
  closed W p X -> two_way W p X -> linked W p X -> forall m, m ∈ X -> 0 < kernel W p m m ->
  forall f eps, 0 < eps -> exists N, forall n x, (N <= n)%nat -> x ∈ X -> Rabs (expected W p X n x (average f) - mean W p X f) < eps.
Proof. exact (fun W p X VP ND C Cl T L => average_expected W p VP X ND C Cl T L). Qed.
Print Assumptions C102_expected.
(** ... and the average of one long run is as close to it as wished, with a
    probability as close to 1 as wished. *)
Theorem C102_likely : forall W p X, valid_parameters p -> NoDup X -> (forall x, x ∈ X -> is_structurally_correct W x = true) ->
  closed W p X -> two_way W p X -> linked W p X -> forall m, m ∈ X -> 0 < kernel W p m m ->
  forall f d eps, 0 < d -> 0 < eps -> exists N, forall n x, (N <= n)%nat -> x ∈ X ->
    1 - eps < likelihood W p X n x (fun path => Rabs (average f path - mean W p X f) < d).
Proof. exact (fun W p X VP ND C Cl T L => average_near W p VP X ND C Cl T L). Qed.
Print Assumptions C102_likely.
Example C102_example : forall p, valid_parameters p -> valid_parameters example_params /\
  NoDup two_states /\ (forall x, x ∈ two_states -> is_structurally_correct W_flat x = true) /\
  closed W_flat p two_states /\ two_way W_flat p two_states /\ linked W_flat p two_states /\
  0 < kernel W_flat p m_26 m_26.
Proof. intros p VP. split; [exact (proj1 example_parameters)|exact (two_states_chain p VP)]. Qed.

(** The end of a pass is a random manifold of the set. *)
Theorem C103_pass : forall W p X, valid_parameters p -> NoDup X -> (forall x, x ∈ X -> is_structurally_correct W x = true) ->
  closed W p X -> forall x, x ∈ X ->
  (forall y, y ∈ X -> 0 <= pass_end W p X x y) /\ sum_on (pass_end W p X x) X = 1 /\
  sum_on (attempts_at W p X x) X = INR (pass_length W x).
Proof.
  exact (fun W p X VP ND C Cl x I => conj (proj1 (pass_probability W p VP X ND C Cl x I))
    (conj (proj2 (pass_probability W p VP X ND C Cl x I)) (attempts_sum W p VP X ND C Cl x I))).
Qed.
Print Assumptions C103_pass.
(** Where all manifolds have the same number of simplices, [n] passes are [n] times as
    many steps, and the ends of passes tend to exp(-S). *)
Theorem C103_alike : forall W p X, valid_parameters p -> NoDup X -> (forall x, x ∈ X -> is_structurally_correct W x = true) ->
  closed W p X -> two_way W p X -> linked W p X -> forall m, m ∈ X -> 0 < kernel W p m m ->
  forall L, (forall x, x ∈ X -> pass_length W x = L) -> (0 < L)%nat ->
  (forall n x y, x ∈ X -> y ∈ X -> passes_end W p X n x y = after W p X (n * L) x y) /\
  forall eps, 0 < eps -> exists N, forall n x y, (N <= n)%nat -> x ∈ X -> y ∈ X -> Rabs (passes_end W p X n x y - equilibrium W p X y) < eps.
Proof. exact (fun W p X VP ND C Cl T L => passes_alike W p VP X ND C Cl T L). Qed.
Print Assumptions C103_alike.
Example C103_alike_example : forall p, valid_parameters p ->
  NoDup two_level /\ (forall x, x ∈ two_level -> is_structurally_correct W_44 x = true) /\
  closed W_44 p two_level /\ two_way W_44 p two_level /\ linked W_44 p two_level /\
  0 < kernel W_44 p m_44 m_44 /\ (forall x, x ∈ two_level -> pass_length W_44 x = 4%nat).
Proof. exact two_level_chain. Qed.
(** In general: if [nu] is a distribution of manifolds at the ends of passes that one
    more pass leaves unchanged, then the attempts of a pass that starts from it are
    made at each manifold in proportion to exp(-S). *)
Theorem C103_attempts : forall W p X, valid_parameters p -> NoDup X -> (forall x, x ∈ X -> is_structurally_correct W x = true) ->
  closed W p X -> two_way W p X -> linked W p X -> forall nu,
  (forall y, y ∈ X -> sum_on (fun x => nu x * pass_end W p X x y) X = nu y) ->
  forall y, y ∈ X ->
  sum_on (fun x => nu x * attempts_at W p X x y) X = equilibrium W p X y * sum_on (fun x => nu x * INR (pass_length W x)) X.
Proof. exact (fun W p X VP ND C Cl T L => attempts_equilibrium W p VP X ND C Cl T L). Qed.
Print Assumptions C103_attempts.
(** But [nu] itself need not be exp(-S), and so neither the limit of the ends of passes.
    Of the two manifolds of [two_states], of 2 and 6 simplices, the larger one is too
    rare at the ends of long sequences of passes, for every choice of couplings. *)
Theorem C103_ends_are_equilibrium_refuted : forall p, valid_parameters p -> exists nu,
  (forall y, y ∈ two_states -> sum_on (fun x => nu x * pass_end W_flat p two_states x y) two_states = nu y) /\
  sum_on nu two_states = 1 /\
  (forall eps, 0 < eps -> exists N, forall n x y, (N <= n)%nat -> x ∈ two_states -> y ∈ two_states ->
     Rabs (passes_end W_flat p two_states n x y - nu y) < eps) /\
  0 < nu m_62 < equilibrium W_flat p two_states m_62.
Proof. exact two_ends. Qed.
Print Assumptions C103_ends_are_equilibrium_refuted.
Example C103_example : forall p, valid_parameters p ->
  NoDup two_states /\ (forall x, x ∈ two_states -> is_structurally_correct W_flat x = true) /\
  closed W_flat p two_states /\ two_way W_flat p two_states /\ linked W_flat p two_states /\
  0 < kernel W_flat p m_26 m_26 /\ pass_length W_flat m_26 = 2%nat /\ pass_length W_flat m_62 = 6%nat.
Proof.
  intros p VP. pose proof (two_states_chain p VP) as (A & B & C & D & E & F).
  exact (conj A (conj B (conj C (conj D (conj E (conj F lengths_two)))))).
Qed.
