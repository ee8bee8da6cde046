(** Theorems about looking up points, cells and edges, and about how far a move
    reaches (C105). [W], [R], [escape] as in PropsMoves.v; [checked W R escape k m m'],
    [some_move], [same_outside], [joined], [site_points], [cells_taken] and
    [cells_brought] are in LookupSpec.v. *)
From Verif Require Import Base Tracker Command Run Geom Metropolis Toy Simplex Pachner Foliation Moves Links MoveSpec Manifold ManifoldMoves ManifoldFacts MoveProps Samples SampleFacts Lookup LookupSpec LookupFacts LookupRuns.
From stdpp Require Import fin_sets gmap relations.
From Verif Require Import Foliation.
Local Open Scope Z_scope.

(** A cell is found exactly by its own four vertices, in any order, and every cell
    can be found. *)
Theorem C105_cell : forall T, pure T ->
  (forall a b c d s, find_cell T a b c d = Some s <-> s ∈ T /\ s = of_list [a; b; c; d]) /\
  (forall a b c d, find_cell T a b c d = None <-> of_list [a; b; c; d] ∉ T) /\
  (forall a b c d a' b' c' d', [a; b; c; d] ≡ₚ [a'; b'; c'; d'] -> find_cell T a b c d = find_cell T a' b' c' d') /\
  (forall s, s ∈ T -> exists a b c d, elements s = [a; b; c; d] /\ find_cell T a b c d = Some s).
Proof.
  intros T P. split; [|split; [|split]].
  - intros a b c d s. exact (find_cell_some T a b c d s P).
  - intros a b c d. exact (find_cell_none T a b c d P).
  - intros a b c d a' b' c' d'. exact (find_cell_order T a b c d a' b' c' d').
  - intros s. exact (find_cell_all T s P).
Qed.
Print Assumptions C105_cell.

(** A vertex that is found stores the point asked for and belongs to a cell; it is
    found whenever CGAL locates the point. *)
Theorem C105_point : forall locates T p,
  (forall q, find_vertex locates T p = Some q -> q = p /\ p <> infinite /\ exists c, c ∈ T /\ p ∈ c) /\
  (locates T p = true -> find_vertex locates T p = Some p <-> p <> infinite /\ exists c, c ∈ T /\ p ∈ c).
Proof. intros locates T p. split; [exact (find_vertex_some locates T p)|exact (find_vertex_present locates T p)]. Qed.
Print Assumptions C105_point.

(** The lists of edges and cells: everything once, nothing infinite, as many as the
    counts of the geometry. *)
Theorem C105_lists : forall T,
  (NoDup (collect_edges T) /\ Z.of_nat (length (collect_edges T)) = n1 T /\
   forall e, e ∈ collect_edges T <-> exists a b, e = of_list [a; b] /\ joined T a b) /\
  (NoDup (collect_cells T) /\ Z.of_nat (length (collect_cells T)) = n3 T /\
   forall c, c ∈ collect_cells T <-> c ∈ T /\ infinite ∉ c).
Proof. intros T. split; [exact (edges_listed T)|exact (cells_listed T)]. Qed.
Print Assumptions C105_lists.

(** The cells that can no longer be found after a move, and those that can be found
    only then, have the documented numbers. *)
Theorem C105_changes : forall (G : Type) W (R : choices G), choices_ok R -> forall escape, stays_modelled escape ->
  forall k m m', valid (m_cells m) -> checked W R escape k m m' ->
  exists old new, length old = cells_taken k /\ length new = cells_brought k /\ NoDup (old ++ new) /\
    forall a b c d, let s := of_list [a; b; c; d] in
      (s ∈ old <-> find_cell (m_cells m) a b c d = Some s /\ find_cell (m_cells m') a b c d = None) /\
      (s ∈ new <-> find_cell (m_cells m) a b c d = None /\ find_cell (m_cells m') a b c d = Some s).
Proof. exact @moved_changes. Qed.
Print Assumptions C105_changes.

(** A move reaches no further than the five or six points of its site; a run of any
    length no further than six points per step. *)
Theorem C105_local : forall (G : Type) W (R : choices G), choices_ok R -> forall escape, stays_modelled escape ->
  forall k m m', valid (m_cells m) -> checked W R escape k m m' ->
  exists S, size S = site_points k /\ infinite ∉ S /\ same_outside W S m m'.
Proof. exact @moved_same. Qed.
Print Assumptions C105_local.
Theorem C105_run : forall (G : Type) W (R : choices G), choices_ok R -> forall escape, stays_modelled escape ->
  forall n m m', valid (m_cells m) -> nsteps (some_move W R escape) n m m' ->
  exists S, (size S <= 6 * n)%nat /\ infinite ∉ S /\ same_outside W S m m'.
Proof. exact @run_same. Qed.
Print Assumptions C105_run.

(** Runs of the two strategies, whatever they draw, print and write: six points for
    each success (MoveAlways) or each acceptance (Metropolis) that the strategy's
    counters show. *)
Theorem C105_always : forall (G : Type) W (R : choices G) escape, choices_ok R -> stays_modelled escape ->
  forall (X : Type) N3 draw print write s (w : X) m s' w' m', valid (m_cells m) ->
  ma_run N3 (do_api W R escape) (check_move W) draw print write s w m = Ret (s', w') m' ->
  exists S, Z.of_nat (size S) <= 6 * all_five (succeeded (ma_results s')) /\ infinite ∉ S /\ same_outside W S m m'.
Proof. exact @always_reach. Qed.
Print Assumptions C105_always.
Theorem C105_metropolis : forall (G : Type) W (R : choices G) escape (P : Type) geometry
    (accept : Geometry -> Geometry -> MoveType -> P + exn) at_least draw_int draw_p,
  choices_ok R -> stays_modelled escape ->
  forall (X : Type) max_time update print write (x : metropolis G) (w : X) m x' w' m',
  (forall g k g', draw_int 0 4 g = (k, g') -> supported k) -> valid (m_cells m) ->
  mh_run geometry (propose_api W R escape) (check_move W) accept at_least draw_int draw_p max_time update print write x w m = Ret (x', w') m' ->
  exists S, Z.of_nat (size S) <= 6 * all_five (st_accepted (mh_stats x')) /\ infinite ∉ S /\ same_outside W S m m'.
Proof. exact @metropolis_reach. Qed.
Print Assumptions C105_metropolis.

(** Both hypotheses are met: (2,6) on a sample, and the two-step run there and back;
    a cell that only the result has, one that only the source has. *)
Example C105_example : valid (m_cells m_26) /\ checked W_26 plain no_escape TWO_SIX m_26 m_62 /\
  nsteps (some_move W_26 plain no_escape) 2 m_26 m_26 /\
  (exists a b c d, find_cell (m_cells m_26) a b c d <> None /\ find_cell (m_cells m_62) a b c d = None) /\
  length (collect_cells (m_cells m_62)) = (length (collect_cells (m_cells m_26)) + 4)%nat.
Proof.
  assert (A : checked W_26 plain no_escape TWO_SIX m_26 m_62) by (split; [apply moved_m26|apply sample_26]).
  assert (B : checked W_26 plain no_escape SIX_TWO m_62 m_26) by (split; [apply moved_m62|apply sample_62]).
  split; [apply well_formed_samples|]. split; [exact A|]. split; [|split].
  - eapply nsteps_l; [exists TWO_SIX; exact A|]. eapply nsteps_l; [exists SIX_TWO; exact B|]. constructor.
  - exists 2%positive, 3%positive, 4%positive, 6%positive. split; vm_compute; [discriminate|reflexivity].
  - vm_compute. reflexivity.
Qed.

(** One pass of each strategy on that sample, with a generator that always draws
    (2,6): one success, one acceptance, and the manifold has changed. Where the
    model has no answer, this one fails. *)
Definition give_up (_ : manifold) (g : unit) : move_result manifold * unit :=
  (Failed (mkMoveError STALE_CANDIDATE TWO_SIX), g).
Definition only_26 (_ _ : Z) (_ : unit) : Z * unit := (TWO_SIX, tt).
Definition one_pass_always :=
  ma_run (fun m => gN3 (geometry_m W_26 m)) (do_api W_26 plain give_up) (check_move W_26) only_26
    (fun _ w => Ret w tt) (fun _ _ _ w => Ret w tt)
    (mkMoveAlways (mkCadence 1 1) (make_random (fun _ _ => tt) 0 0) false results_zero 0) tt m_26.
Definition one_pass_metropolis :=
  mh_run (geometry_m W_26) (propose_api W_26 plain give_up) (check_move W_26)
    (fun _ _ _ => inl tt) (fun _ _ => true) only_26 (fun _ => (Fin (QArith_base.Qmake 1 2), tt)) (fun _ => 4) (fun d _ => inl d)
    (fun _ _ w => Ret w tt) (fun _ _ w => Ret w tt)
    (mkMetropolis (mkCadence 1 1) false (make_random (fun _ _ => tt) 0 0) toy_metadata results_zero stats_zero 0) tt m_26.
Example C105_example_runs : stays_modelled give_up /\ valid (m_cells m_26) /\ (forall g k g', only_26 0 4 g = (k, g') -> supported k) /\
  match one_pass_always with
  | Ret (s', _) m' => all_five (succeeded (ma_results s')) =? 1 | _ => false end = true /\
  match one_pass_metropolis with
  | Ret (x', _) m' => (all_five (st_accepted (mh_stats x')) =? 1) && negb (bool_decide (m_cells m' = m_cells m_26)) | _ => false end = true.
Proof.
  split; [intros m g m' g'; discriminate|]. split; [apply well_formed_samples|]. split; [|split; vm_compute; reflexivity].
  intros g k g' [= <- _]. unfold supported, TWO_SIX. lia.
Qed.
