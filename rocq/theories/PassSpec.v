(** Averages over the steps of a run and the manifolds at the ends of its passes, for
    the chain of ChainSpec.v. A pass makes as many attempts as the manifold has
    simplices at its start: include/Move_run.hpp:201-205 [execute_move_run],
    include/Metropolis.hpp:549-563 [execute_pass]. *)
From Verif Require Import Base Tracker Command Run Geom Metropolis Simplex Pachner Foliation Moves Manifold Mp Action Acceptance KernelSpec ChainSpec.
From stdpp Require Import fin_sets gmap sorting relations.
From Verif Require Import Base Foliation Metropolis.
From Coq Require Import Reals.
Local Open Scope R_scope.

Global Instance Rlt_decision x y : Decision (x < y) := Rlt_dec x y.

Section Chain.
  Variable W : world.
  Variable p : PhysicalParameters.
  Variable X : list manifold.
  (** The expected value of [F], a function of the [n] states that follow [m] in a run
      of [n] steps through states of [X], in order. *)
  Fixpoint expected (n : nat) (m : manifold) (F : list manifold -> R) : R :=
    match n with
    | O => F []
    | S n => sum_on (fun x => kernel W p m x * expected n x (fun path => F (x :: path))) X
    end.
  (** The probability that those states satisfy [E]. *)
  Definition likelihood (n : nat) (m : manifold) (E : list manifold -> Prop) {dec : forall path, Decision (E path)} : R :=
    expected n m (fun path => if decide (E path) then 1 else 0).
  (** The mean of [f] over the states of a path. *)
  Definition average (f : manifold -> R) (path : list manifold) : R := sum_on f path / INR (length path).
  (** The mean of [f] in the distribution proportional to exp(-S). *)
  Definition mean (f : manifold -> R) : R := sum_on (fun x => equilibrium W p X x * f x) X.

  (** The number of attempts of a pass from [m]: its number of simplices. *)
  Definition pass_length (m : manifold) : nat := Z.to_nat (gN3 (geometry_m W m)).
  (** The probability that a pass from [m] ends in [m'], and that [n] passes do. *)
  Definition pass_end (m m' : manifold) : R := after W p X (pass_length m) m m'.
  Fixpoint passes_end (n : nat) (m m' : manifold) : R :=
    match n with
    | O => if decide (m = m') then 1 else 0
    | S n => sum_on (fun x => pass_end m x * passes_end n x m') X
    end.
  (** The expected number of attempts of a pass from [m] that are made at [m']. *)
  Definition attempts_at (m m' : manifold) : R := sum_on (fun k => after W p X k m m') (List.seq 0 (pass_length m)).
End Chain.
