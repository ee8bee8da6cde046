(** C99: moves and runs keep the topology of every time slice. *)
From Verif Require Import Base Tracker Command Run Geom Metropolis Simplex Pachner Foliation Moves Links Manifold ManifoldMoves MoveProps MoveSpec Samples SampleFacts SliceSpec SliceFacts SliceMoves SliceSample.
From stdpp Require Import fin_sets gmap.
From Verif Require Import Foliation SliceSpec.
Local Open Scope Z_scope.

(** A slice is a 2-dimensional complex; its triangles are what the program counts
    as the volume of the slice. *)
Theorem C99_slice : forall label t T, complex2 (slice label t T) /\ members 3 (slice label t T) = slice_volume label t T.
Proof. exact (fun label t T => conj (slice_complex label t T) (slice_triangles label t T)). Qed.
Print Assumptions C99_slice.

(** (2,3) and (3,2) moves change no slice at all. *)
Theorem C99_unchanged : forall W (G : Type) (R : choices G), choices_ok R -> forall escape, stays_modelled escape ->
  forall k m m', valid (m_cells m) -> moved W R escape k m m' -> k = TWO_THREE \/ k = THREE_TWO ->
  forall t, slice (label_of W m) t (m_cells m') = slice (label_of W m) t (m_cells m).
Proof. exact (fun W G => moved_unchanged W). Qed.
Print Assumptions C99_unchanged.

(** An accepted (2,6), (6,2) or (4,4) move changes exactly one slice, by exactly
    one bistellar move: a vertex put into a triangle, a vertex taken out of three
    triangles, an edge flipped. *)
Theorem C99_one : forall W (G : Type) (R : choices G), choices_ok R -> forall escape, stays_modelled escape ->
  forall k m m', valid (m_cells m) -> moved W R escape k m m' -> check_move W m m' k = true ->
  k = TWO_SIX \/ k = SIX_TWO \/ k = FOUR_FOUR ->
  exists t, (forall u, u <> t -> slice (label_of W m) u (m_cells m') = slice (label_of W m) u (m_cells m)) /\
    exists lU lV, surface_move (slice (label_of W m) t (m_cells m)) lU lV (slice (label_of W m) t (m_cells m')) /\
      length lU = if k =? TWO_SIX then 1%nat else if k =? SIX_TWO then 3%nat else 2%nat.
Proof. exact (fun W G => moved_one W). Qed.
Print Assumptions C99_one.

(** So the volume profile changes by +2 or -2 on one slice or not at all. *)
Theorem C99_volumes : forall W (G : Type) (R : choices G), choices_ok R -> forall escape, stays_modelled escape ->
  forall k m m', valid (m_cells m) -> moved W R escape k m m' -> check_move W m m' k = true ->
  let vol t T := slice_volume (label_of W m) t T in
  (k = TWO_THREE \/ k = THREE_TWO \/ k = FOUR_FOUR -> forall t, vol t (m_cells m') = vol t (m_cells m)) /\
  (k = TWO_SIX \/ k = SIX_TWO -> exists t,
     vol t (m_cells m') = vol t (m_cells m) + (if k =? TWO_SIX then 2 else -2) /\
     forall u, u <> t -> vol u (m_cells m') = vol u (m_cells m)).
Proof. exact (fun W G => moved_volumes W). Qed.
Print Assumptions C99_volumes.

(** Queues of moves and both kinds of runs leave every slice the same surface. *)
Theorem C99_command : forall W (G : Type) (R : choices G), choices_ok R -> forall escape, stays_modelled escape ->
  forall api, api = do_api W R escape \/ api = propose_api W R escape ->
  forall (c : command manifold) g c' g' u, counters_ok c -> execute api (check_move W) c g = Ret (c', g') u ->
  let m := cm_manifold c in let m' := cm_manifold c' in
  valid (m_cells m) -> valid (m_cells m') /\ (forall v, label_of W m' v = label_of W m v) /\
    forall t, same_surface (slice (label_of W m) t (m_cells m)) (slice (label_of W m') t (m_cells m')).
Proof. exact (fun W G => command_track W). Qed.
Print Assumptions C99_command.
Theorem C99_move_always : forall W (G X : Type) (R : choices G), choices_ok R -> forall escape, stays_modelled escape ->
  forall api, api = do_api W R escape \/ api = propose_api W R escape ->
  forall N3 draw print write s (w : X) m s' w' m', cadence_ok (ma_cadence s) ->
  ma_run N3 api (check_move W) draw print write s w m = Ret (s', w') m' ->
  valid (m_cells m) -> valid (m_cells m') /\ (forall v, label_of W m' v = label_of W m v) /\
    forall t, same_surface (slice (label_of W m) t (m_cells m)) (slice (label_of W m') t (m_cells m')).
Proof. exact (fun W G X R RO escape ES api Ha => move_always_track W R RO escape ES api Ha). Qed.
Print Assumptions C99_move_always.
Theorem C99_metropolis : forall W (G P X : Type) (R : choices G), choices_ok R -> forall escape, stays_modelled escape ->
  forall api, api = do_api W R escape \/ api = propose_api W R escape ->
  forall geometry (accept : Geometry -> Geometry -> MoveType -> P + exn) at_least draw_int draw_p max_time update print write
    (x : metropolis G) (w : X) m x' w' m',
  (forall g m g', draw_int 0 4 g = (m, g') -> supported m) -> cadence_ok (mh_cadence x) ->
  mh_run geometry api (check_move W) accept at_least draw_int draw_p max_time update print write x w m = Ret (x', w') m' ->
  valid (m_cells m) -> valid (m_cells m') /\ (forall v, label_of W m' v = label_of W m v) /\
    forall t, same_surface (slice (label_of W m) t (m_cells m)) (slice (label_of W m') t (m_cells m')).
Proof. exact (fun W G P X R RO escape ES api Ha geometry accept at_least draw_int draw_p => metropolis_track W R RO escape ES api Ha geometry accept at_least draw_int draw_p). Qed.
Print Assumptions C99_metropolis.

(** What being the same surface implies: equal Euler characteristic; both or
    neither without boundary; both or neither connected; numbers of triangles,
    edges and vertices differing by 2 n, 3 n and n for one n; and it is symmetric. *)
Theorem C99_same : forall S S', complex2 S -> same_surface S S' ->
  complex2 S' /\ same_surface S' S /\ euler_of S' = euler_of S /\
  (closed_surface S <-> closed_surface S') /\ (connected_surface S <-> connected_surface S') /\
  exists n, members 3 S' = members 3 S + 2 * n /\ members 2 S' = members 2 S + 3 * n /\ members 1 S' = members 1 S + n.
Proof.
  exact (fun S S' C H => conj (proj1 (same_back S S' C H)) (conj (proj2 (same_back S S' C H)) (conj (same_euler S S' C H)
    (conj (same_closed S S' C H) (conj (same_connected S S' C H) (same_triangles S S' C H)))))).
Qed.
Print Assumptions C99_same.
(** Components are kept vertex by vertex: two vertices that are in the slice before
    and after a move are joined inside it after the move iff they were before. *)
Theorem C99_paths : forall S S' lU lV v w, complex2 S -> surface_move S lU lV S' ->
  {[v]} ∈ S -> {[v]} ∈ S' -> {[w]} ∈ S -> {[w]} ∈ S' -> path S v w <-> path S' v w.
Proof. exact move_paths. Qed.
Print Assumptions C99_paths.

(** A moved manifold whose slice 3 grows from one triangle to three; and a closed
    connected surface with a move on it. *)
Example C99_example : valid (m_cells m_26) /\ moved W_26 plain no_escape TWO_SIX m_26 m_62 /\ check_move W_26 m_26 m_62 TWO_SIX = true /\
  slice_volume (label_of W_26 m_26) 3 (m_cells m_26) = 1 /\ slice_volume (label_of W_26 m_62) 3 (m_cells m_62) = 3.
Proof. split; [apply well_formed_samples|]. split; [exact moved_m26|]. split; [exact (proj2 (proj2 sample_26))|]. split; apply sample_volumes. Qed.
Example C99_surface_example : complex2 sphere /\ closed_surface sphere /\ connected_surface sphere /\ euler_of sphere = 2 /\
  surface_move sphere [6]%positive [3; 4; 5]%positive sphere'.
Proof.
  split; [exact sphere_complex|]. split; [exact sphere_closed|]. split; [exact sphere_connected|].
  split; [vm_compute; reflexivity|]. exact sphere_moved.
Qed.
