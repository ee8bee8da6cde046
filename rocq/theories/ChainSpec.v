(** The Markov chain of the Metropolis program: one step with its chances of staying,
    several steps, and the distribution with the weights exp(-S). The parts are those
    of KernelSpec.v: include/Metropolis.hpp:429-547 [propose_candidate],
    [resolve_transition], [sample_transition]. *)
From Verif Require Import Base Tracker Command Run Geom Metropolis Simplex Pachner Foliation Moves Manifold Mp Action Acceptance KernelSpec.
From stdpp Require Import fin_sets gmap sorting relations.
From Verif Require Import Base Foliation Metropolis.
From Coq Require Import Reals.
Local Open Scope R_scope.

Global Instance manifold_eq_dec : EqDecision manifold.
Proof. solve_decision. Defined.

(** The sum of [f] over a list. *)
Definition sum_on {A} (f : A -> R) (X : list A) : R := fold_right Rplus 0 (map f X).

Section Chain.
  Variable W : world.
  Variable p : PhysicalParameters.
  (** All manifolds the program can propose from [m], each once. *)
  Definition outcomes (m : manifold) : list manifold :=
    remove_dups (flat_map (fun k => flat_map (fun i => match candidate W i m k with Moved x => [x] | _ => [] end)
                                      (List.seq 0 (indices W m k))) five_moves).
  (** The probability that one step leaves [m] as it is: nothing is proposed, the
      check fails, or the Metropolis test rejects. *)
  Definition stay (m : manifold) : R := 1 - sum_on (step_probability W p m) (outcomes m).
  (** The probability that [m'] is the state after one step from [m]. *)
  Definition kernel (m m' : manifold) : R := step_probability W p m m' + (if decide (m = m') then stay m else 0).
  (** ... after [n] steps, through states of [X]. *)
  Fixpoint after (X : list manifold) (n : nat) (m m' : manifold) : R :=
    match n with
    | O => if decide (m = m') then 1 else 0
    | S n => sum_on (fun x => kernel m x * after X n x m') X
    end.
  (** No step leads out of [X]; every step inside [X] has a way back; every state of
      [X] can be reached from every other. *)
  Definition closed (X : list manifold) : Prop := forall m m', m ∈ X -> 0 < step_probability W p m m' -> m' ∈ X.
  Definition two_way (X : list manifold) : Prop := forall m m', m ∈ X -> m' ∈ X ->
    (0 < step_probability W p m m' <-> 0 < step_probability W p m' m).
  Definition linked (X : list manifold) : Prop := forall m m', m ∈ X -> m' ∈ X ->
    rtc (fun x y => 0 < step_probability W p x y) m m'.
  (** The distribution on [X] proportional to exp(-S). *)
  Definition equilibrium (X : list manifold) (m : manifold) : R := weight W p m / sum_on (weight W p) X.
End Chain.
