(** C78-C81: functions that take raw handles (edges, cells, vertices of a CGAL
    triangulation), validators, and the shape of the triangulation over runs. *)
From Verif Require Import Base Tracker Command Run Geom Metropolis Simplex Pachner Foliation Moves Links Manifold ManifoldMoves MoveProps MoveSpec Samples SampleFacts StarSpec Seams SeamSpec Flip FlipFacts SeamFacts SeamMoves SeamValid SeamSample.
From stdpp Require Import fin_sets gmap.
From Verif Require Import Foliation.
Local Open Scope Z_scope.

(** ** C78: the generic bistellar flip *)
(** It returns a triangulation exactly when the handle names an edge with exactly
    four finite cells around it, [bottom] and [top] are two different vertices of
    the ring around the edge, CGAL finds the four points, no cell contains both
    ring neighbours of [bottom] already, and the validator accepts; then the edge
    has been replaced by the one between the neighbours of [bottom]. *)
Theorem C78_exact : forall locates validator T, valid T -> joined_stars T -> forall e top bottom T',
  bistellar_flip_impl locates validator T e top bottom = Flip T' <->
  exists p q a far b t bot, names_edge T e p q /\ top = OwnVertex t /\ bottom = OwnVertex bot /\
    four_around T p q bot a far b /\ t ∈ [a; far; b] /\
    (locates T p = true /\ locates T q = true /\ locates T t = true /\ locates T bot = true) /\
    (forall c, c ∈ T -> ~ (a ∈ c /\ b ∈ c)) /\
    flipped_44 T p q bot a far b T' /\ validator T' = true.
Proof. exact flip_iff. Qed.
Print Assumptions C78_exact.
(** For every handle, null and foreign ones included, it answers. *)
Theorem C78_total : forall locates validator T, valid T -> joined_stars T -> forall e top bottom,
  bistellar_flip_impl locates validator T e top bottom = Nullopt \/
  exists T', bistellar_flip_impl locates validator T e top bottom = Flip T'.
Proof. exact flip_answers. Qed.
Print Assumptions C78_total.
(** The result is a valid triangulation with the same vertices and the same
    numbers of cells, facets, edges and vertices. *)
Theorem C78_effect : forall locates validator T, valid T -> joined_stars T -> forall e top bottom T',
  bistellar_flip_impl locates validator T e top bottom = Flip T' ->
  valid T' /\ joined_stars T' /\ vertices T' = vertices T /\
  n3 T' = n3 T /\ n2 T' = n2 T /\ n1 T' = n1 T /\ n0 T' = n0 T.
Proof. exact flip_effect. Qed.
Print Assumptions C78_effect.
(** Around edge 4-6 of the sample the ring is 5, 2, 3, 7. With [bottom] = 5 the edge
    becomes 2-7, whether [top] is the opposite vertex 3 or the neighbour 2; with
    [bottom] = 2 it would become 3-5; a vertex that is no ring vertex is refused. *)
Example C78_example : valid (m_cells m_44) /\ joined_stars (m_cells m_44) /\ names_edge (m_cells m_44) edge_44 4 6 /\
  bistellar_flip (w_locates W_44) (m_cells m_44) edge_44 (OwnVertex 3) (OwnVertex 5) = Flip (m_cells m_44') /\
  bistellar_flip (w_locates W_44) (m_cells m_44) edge_44 (OwnVertex 2) (OwnVertex 5) = Flip (m_cells m_44') /\
  bistellar_flip (w_locates W_44) (m_cells m_44) edge_44 (OwnVertex 4) (OwnVertex 5) = Nullopt /\
  bistellar_flip (w_locates W_44) (m_cells m_44) edge_44 ForeignVertex (OwnVertex 5) = Nullopt.
Proof.
  split; [apply well_formed_samples|]. split; [exact joined_44|]. split; [exact names_44|].
  split; [apply flips_to_sound; vm_compute; reflexivity|]. split; [apply flips_to_sound; vm_compute; reflexivity|].
  split; vm_compute; reflexivity.
Qed.

(** ** C79: functions on raw handles *)
(** A handle that names no edge of the triangulation (null, foreign, stale, index out
    of range, equal indices) is refused by every function, without being followed. *)
Theorem C79_refused : forall T e label junk, (forall p q, ~ names_edge T e p q) ->
  finite_incident_cells T e = Seen None /\
  raw_is_32_movable label junk T e = Seen false /\ raw_prepare_32 label junk T e = Seen (Fail INVALID_TOPOLOGY) /\
  raw_flip_location label junk T e = Seen None /\ raw_prepare_44 label junk T e = Seen (Fail INVALID_TOPOLOGY) /\
  forall top bottom, prepare_flip T e top bottom = Seen (Fail INVALID_TOPOLOGY).
Proof. exact refused. Qed.
Print Assumptions C79_refused.
Example C79_gone : forall p q, ~ names_edge (m_cells m_44) edge_gone p q.
Proof.
  intros p q (h & i & j & [= <- _ _] & _ & H & _). apply (bool_decide_pack _) in H. vm_compute in H. exact H.
Qed.
(** The cells around an edge: each exactly once, in cyclic order, or none if one of
    them is infinite; the circulation ends. *)
Theorem C79_incident : forall T, pure T -> closed T -> joined_stars T -> forall e p q, names_edge T e p q ->
  (exists l, finite_incident_cells T e = Seen (Some l) /\
     (forall c, c ∈ T -> p ∈ c -> q ∈ c -> infinite ∉ c)) \/
  (finite_incident_cells T e = Seen None /\ exists c, c ∈ T /\ p ∈ c /\ q ∈ c /\ infinite ∈ c).
Proof. exact incident_total. Qed.
Print Assumptions C79_incident.
Theorem C79_incident_cells : forall T, pure T -> closed T -> joined_stars T -> forall e p q l, names_edge T e p q ->
  finite_incident_cells T e = Seen (Some l) ->
  NoDup l /\ (forall c, c ∈ l <-> c ∈ T /\ p ∈ c /\ q ∈ c) /\ (forall c, c ∈ l -> infinite ∉ c) /\
  forall l1 l2 d d', l = l1 ++ d :: d' :: l2 ->
    exists f, size f = 3%nat /\ p ∈ f /\ q ∈ f /\ f ⊆ d /\ f ⊆ d'.
Proof. exact incident_some. Qed.
Print Assumptions C79_incident_cells.
Example C79_around : finite_incident_cells (m_cells m_44) edge_44 =
  Seen (Some [of_list [2; 4; 5; 6]; of_list [2; 3; 4; 6]; of_list [3; 4; 6; 7]; of_list [4; 5; 6; 7]]%positive).
Proof. apply goes_around_sound. vm_compute. reflexivity. Qed.
(** What the (3,2) and (4,4) preparations decide on a handle is what they decide on
    the edge it names (theorems C26, C29 and C31 are about the latter). *)
Theorem C79_prepare_32 : forall T, pure T -> closed T -> joined_stars T -> forall label junk e p q, names_edge T e p q ->
  raw_prepare_32 label junk T e =
  Seen (match prepare_32 label junk T (of_list [p; q]) with Done _ => Done (of_list [p; q]) | Fail f => Fail f | Unmodelled => Unmodelled end).
Proof. exact prepare_32_agrees. Qed.
Print Assumptions C79_prepare_32.
Theorem C79_prepare_44 : forall T, pure T -> closed T -> joined_stars T -> forall label junk e p q, names_edge T e p q ->
  raw_prepare_44 label junk T e =
  Seen (match prepare_44 label junk T (of_list [p; q]) with Done (t, b) => Done (of_list [p; q], t, b) | Fail f => Fail f | Unmodelled => Unmodelled end).
Proof. exact prepare_44_agrees. Qed.
Print Assumptions C79_prepare_44.
(** The pivot edge is the first handle of the list with four finite cells around it. *)
Theorem C79_pivot : forall T, pure T -> closed T -> joined_stars T -> forall edges, exists r,
  find_pivot_edge T edges = Seen r /\
  match r with
  | Some e => exists before after, edges = before ++ e :: after /\
      (exists p q w x y z, names_edge T e p q /\ four_around T p q w x y z) /\
      forall e', e' ∈ before -> forall p q w x y z, ~ (names_edge T e' p q /\ four_around T p q w x y z)
  | None => forall e', e' ∈ edges -> forall p q w x y z, ~ (names_edge T e' p q /\ four_around T p q w x y z)
  end.
Proof. exact pivot_first. Qed.
Print Assumptions C79_pivot.
Example C79_pivot_example : find_pivot_edge (m_cells m_44) [edge_gone; mkRawEdge NullCell 0 1; edge_44; edge_44] = Seen (Some edge_44).
Proof. vm_compute. reflexivity. Qed.
(** The vertices of a list of cells, each once. *)
Theorem C79_vertices : forall cells, NoDup (get_vertices cells) /\
  forall v, v ∈ get_vertices cells <-> exists h, h ∈ cells /\ v ∈ h.
Proof. exact get_vertices_exact. Qed.
Print Assumptions C79_vertices.
(** The search that starts at one cell of a vertex finds all its cells and no other. *)
Theorem C79_cells_of_vertex : forall T v start, pure T -> joined_stars T -> start ∈ T -> v ∈ start ->
  forall c, c ∈ incident_cells_of_vertex T v start <-> c ∈ T /\ v ∈ c.
Proof. exact vertex_search. Qed.
Print Assumptions C79_cells_of_vertex.

(** ** C80: validators, and functions that change a triangulation in place *)
(** With a validator each function gives the answer it gives without one, if the
    validator accepts the new triangulation, and refuses otherwise. *)
Theorem C80_flip : forall locates validator T e top bottom,
  bistellar_flip_impl locates validator T e top bottom =
  match bistellar_flip locates T e top bottom with Flip T' => if validator T' then Flip T' else Nullopt | r => r end.
Proof. intros. rewrite flip_validated. destruct bistellar_flip; reflexivity. Qed.
Print Assumptions C80_flip.
Theorem C80_four_four : forall locates validator T e top bottom,
  execute_44_with locates validator T e top bottom =
  match execute_44 locates T e top bottom with Done T' => if validator T' then Done T' else Fail INVARIANT_VIOLATION | r => r end.
Proof. intros. rewrite execute_44_validated. destruct execute_44; reflexivity. Qed.
Print Assumptions C80_four_four.
Theorem C80_six_two : forall label junk locates validator T v edges,
  try_62_move_impl label junk locates validator T v edges =
  match try_62_move label junk locates T v edges with Done T' => if validator T' then Done T' else Fail INVARIANT_VIOLATION | r => r end.
Proof. intros. rewrite try_62_validated. destruct try_62_move; reflexivity. Qed.
Print Assumptions C80_six_two.
Theorem C80_six_two_is : forall label junk locates T v edges,
  try_62_move label junk locates T (OwnVertex v) edges = move_62 label junk locates T v (edges v) /\
  try_62_move label junk locates T NullVertex edges = Fail INVALID_TOPOLOGY /\
  try_62_move label junk locates T ForeignVertex edges = Fail INVALID_TOPOLOGY.
Proof. intros. split; [apply try_62_is|split; reflexivity]. Qed.
Print Assumptions C80_six_two_is.
Theorem C80_two_six : forall W (G : Type) (R : choices G) escape, stays_modelled escape ->
  forall validator m, pure (m_cells m) -> forall only_first g,
  do_26_impl_with W R escape validator m only_first g =
  match do_26_impl W R escape m only_first g with
  | (Moved m', g') => if validator (m_cells m') then (Moved m', g') else (Failed (mkMoveError INVARIANT_VIOLATION TWO_SIX), g')
  | r => r
  end.
Proof.
  intros W G R escape ES validator m HP only_first g. rewrite (do_26_validated W R escape ES validator m HP only_first g).
  destruct (do_26_impl W R escape m only_first g) as [[m'|?|?] g']; reflexivity.
Qed.
Print Assumptions C80_two_six.
Example C80_two_six_example :
  is_done m_62 (do_26_impl_with W_26 plain no_escape (fun T => Nat.eqb (size T) 12) m_26 false tt) = true /\
  do_26_impl_with W_26 plain no_escape (fun T => Nat.eqb (size T) 8) m_26 false tt = (Failed (mkMoveError INVARIANT_VIOLATION TWO_SIX), tt).
Proof. split; vm_compute; reflexivity. Qed.
(** In place: [false] leaves the triangulation as it was; [true] means it has become
    the result of a (2,3) move at that cell, or of a (3,2) move at that edge. *)
Theorem C80_in_place_23 : forall label junk locates geo_facet T, valid T -> forall c ok T',
  try_23_move label junk locates geo_facet T c = Some (ok, T') ->
  if ok then (exists h, c = OwnCell h /\ length h = 4%nat /\ of_list h ∈ T) /\ valid T' /\
             exists v w a b x, two_three label T T' v w a b x
  else T' = T.
Proof. exact try_23_effect. Qed.
Print Assumptions C80_in_place_23.
Theorem C80_in_place_32 : forall label junk locates geo_edge T, valid T -> joined_stars T -> forall e ok T',
  try_32_move label junk locates geo_edge T e = Some (ok, T') ->
  if ok then exists v w a b x, (names_edge T e v w \/ names_edge T e w v) /\ valid T' /\ two_three label T' T v w a b x
  else T' = T.
Proof. exact try_32_effect. Qed.
Print Assumptions C80_in_place_32.
Example C80_in_place_example : valid (m_cells m_32) /\ joined_stars (m_cells m_32) /\
  match try_32_move (label_of W_23 m_32) (w_junk W_23) (w_locates W_23) (w_geo_edge W_23) (m_cells m_32) edge_32 with
  | Some (true, T') => bool_decide (T' = m_cells m_23) | _ => false end = true /\
  match try_23_move (label_of W_23 m_23) (w_junk W_23) (w_locates W_23) (w_geo_facet W_23) (m_cells m_23) (OwnCell [3; 4; 5; 6]%positive) with
  | Some (true, T') => bool_decide (T' = m_cells m_32) | _ => false end = true.
Proof. split; [apply well_formed_samples|]. split; [exact joined_32|]. split; vm_compute; reflexivity. Qed.
(** The (2,6) execution changes the triangulation it is given even if the validator
    then refuses: its callers, which hand it a copy, must drop the copy. *)
Theorem C80_in_place_26 : forall locates centroid validator T c v,
  execute_26_with locates centroid validator T c v =
  match execute_26 locates centroid T c v with
  | Done T' => (if validator T' then Done tt else Fail INVARIANT_VIOLATION, T')
  | Fail e => (Fail e, T)
  | Unmodelled => (Unmodelled, T)
  end.
Proof. intros. unfold execute_26_with. destruct execute_26 as [T'|?|]; [destruct (validator T')| |]; reflexivity. Qed.
Print Assumptions C80_in_place_26.
(** ** C81: moves and runs keep the cells joined *)
(** If the triangulation is valid and any two cells with a common face are joined
    around that face (for the empty face: the triangulation is connected), this is
    so after every successful move, queue of moves and run. *)
Theorem C81_move : forall W (G : Type) (R : choices G), choices_ok R -> forall escape, stays_modelled escape ->
  forall k m m', valid (m_cells m) -> joined_stars (m_cells m) -> moved W R escape k m m' -> joined_stars (m_cells m').
Proof. exact (fun W G => moved_joined W). Qed.
Print Assumptions C81_move.
Theorem C81_command : forall W (G : Type) (R : choices G), choices_ok R -> forall escape, stays_modelled escape ->
  forall api, api = do_api W R escape \/ api = propose_api W R escape ->
  forall (c : command manifold) g c' g' u, counters_ok c -> execute api (check_move W) c g = Ret (c', g') u ->
  valid (m_cells (cm_manifold c)) /\ joined_stars (m_cells (cm_manifold c)) ->
  valid (m_cells (cm_manifold c')) /\ joined_stars (m_cells (cm_manifold c')).
Proof. exact (fun W G => command_sturdy W). Qed.
Print Assumptions C81_command.
Theorem C81_move_always : forall W (G X : Type) (R : choices G), choices_ok R -> forall escape, stays_modelled escape ->
  forall api, api = do_api W R escape \/ api = propose_api W R escape ->
  forall N3 draw print write s (w : X) man s' w' man', cadence_ok (ma_cadence s) ->
  ma_run N3 api (check_move W) draw print write s w man = Ret (s', w') man' ->
  valid (m_cells man) /\ joined_stars (m_cells man) -> valid (m_cells man') /\ joined_stars (m_cells man').
Proof. exact (fun W G X R RO escape ES api Ha => move_always_sturdy W R RO escape ES api Ha). Qed.
Print Assumptions C81_move_always.
Theorem C81_metropolis : forall W (G P X : Type) (R : choices G), choices_ok R -> forall escape, stays_modelled escape ->
  forall api, api = do_api W R escape \/ api = propose_api W R escape ->
  forall geometry (accept : Geometry -> Geometry -> MoveType -> P + exn) at_least draw_int draw_p max_time update print write
    (x : metropolis G) (w : X) man x' w' man',
  (forall g m g', draw_int 0 4 g = (m, g') -> supported m) -> cadence_ok (mh_cadence x) ->
  mh_run geometry api (check_move W) accept at_least draw_int draw_p max_time update print write x w man = Ret (x', w') man' ->
  valid (m_cells man) /\ joined_stars (m_cells man) -> valid (m_cells man') /\ joined_stars (m_cells man').
Proof. exact (fun W G P X R RO escape ES api Ha geometry accept at_least draw_int draw_p => metropolis_sturdy W R RO escape ES api Ha geometry accept at_least draw_int draw_p). Qed.
Print Assumptions C81_metropolis.
Example C81_example : valid (m_cells m_62) /\ joined_stars (m_cells m_62) /\ moved W_26 plain no_escape SIX_TWO m_62 m_26.
Proof. split; [apply well_formed_samples|]. split; [exact joined_62|exact moved_m62]. Qed.
