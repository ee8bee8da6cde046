(** The chances of one Metropolis step between two given manifolds, computed by
    running the modelled program once for every index it can draw. *)
From Verif Require Import Base Tracker Command Run Geom Metropolis Simplex Pachner Foliation Moves Manifold Mp Action Acceptance.
From stdpp Require Import fin_sets gmap sorting.
From Verif Require Import Base Foliation Metropolis.
From Coq Require Import Reals.
Local Open Scope R_scope.

(** Random choices that always draw the index [i] and leave every sequence as it
    is, and a program that stops where it would leave the modelled states. *)
Definition always_draw (i : nat) : choices unit := mkChoices (fun _ g => (i, g)) (fun _ l g => (l, g)).
Definition stop_there (m : manifold) (g : unit) : move_result manifold * unit := (Raised (ForeignException 0), g).
(** The five kinds of moves. *)
Definition five_moves : list MoveType := [TWO_THREE; THREE_TWO; TWO_SIX; SIX_TWO; FOUR_FOUR].

Section Kernel.
  Variable W : world.
  (** The candidate a move of kind [k] from [m] yields if the program draws [i]. *)
  Definition candidate (i : nat) (m : manifold) (k : MoveType) : move_result manifold :=
    fst (propose_candidate (propose_api W (always_draw i) stop_there) m k tt).
  (** The number of indices it draws from, all with the same probability: (2,2)
      cells, timelike edges, (1,3) cells, vertices, spacelike edges. *)
  Definition indices (m : manifold) (k : MoveType) : nat := Z.to_nat (proposal_site_count (geometry_m W m) k).
  (** The share of the indices that yield [m']. *)
  Definition leads_to (m' : manifold) (r : move_result manifold) : bool :=
    match r with
    | Moved x => bool_decide (m_cells x = m_cells m' /\ m_radius x = m_radius m' /\ m_spacing x = m_spacing m')
    | _ => false
    end.
  Definition chance (m : manifold) (k : MoveType) (m' : manifold) : R :=
    INR (length (List.filter (fun i => leads_to m' (candidate i m k)) (List.seq 0 (indices m k)))) / INR (indices m k).
  (** The chance that a candidate [m'] passes the check and the Metropolis test,
      in exact arithmetic (Acceptance.v), against a uniform trial in [0,1]. *)
  Definition taken (p : PhysicalParameters) (m : manifold) (k : MoveType) (m' : manifold) : R :=
    if check_move W m m' k then
      match acceptance_probability PNum p (geometry_m W m) (geometry_m W m') k with inl (PNum a) => a | _ => 0 end
    else 0.
  (** One step: each kind is drawn with probability 1/5. *)
  Definition by_kind (p : PhysicalParameters) (m : manifold) (k : MoveType) (m' : manifold) : R :=
    1 / 5 * chance m k m' * taken p m k m'.
  Definition step_probability (p : PhysicalParameters) (m m' : manifold) : R :=
    fold_right Rplus 0 (map (fun k => by_kind p m k m') five_moves).
  (** The weight exp(-S) the program samples (up to normalization). *)
  Definition weight (p : PhysicalParameters) (m : manifold) : R := exp (- params_action p (geometry_m W m)).
End Kernel.
