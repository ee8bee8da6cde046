(** C31 and C22: undoing a move, and how many sites lead to a given result. *)
From Verif Require Import Base Tracker Command Run Geom Metropolis Simplex Pachner Foliation Moves Links MoveCore MoveTools Move23 Move44 Move26 Move26Site Move62Site MoveSpec MoveSound Manifold ManifoldFacts ManifoldMoves ClassFacts Reverse Reverse44 PropsRunLemmas MoveProps Select Samples.
From stdpp Require Import fin_sets gmap sorting.
From Verif Require Import Foliation.
Local Open Scope Z_scope.

(** A proposal function: every draw that selects [site] among [sites] makes it
    return [m]. *)
Definition draw_gives {G S} (R : choices G) (sites : list S) (site : S) (f : G -> move_result manifold * G) (m : manifold) : Prop :=
  forall g g', canonical_random_element R sites g = (Some site, g') -> exists g'', f g = (Moved m, g'').

Section Undo.
  Variable W : world.
  Context {G : Type}.
  Variable R : choices G.
  Hypothesis RO : choices_ok R.
  Variable escape : manifold -> G -> move_result manifold * G.
  Hypothesis ES : stays_modelled escape.

  Lemma manifold_back m m' T : m_cells m = T -> m_radius m' = m_radius m -> m_spacing m' = m_spacing m ->
    mkManifold T (m_radius m') (m_spacing m') = m.
  Proof. intros <- -> ->. destruct m. reflexivity. Qed.
  Lemma make_back m m' x : m_radius m' = m_radius m -> m_spacing m' = m_spacing m ->
    x ∈ vertices (m_cells m) -> x <> infinite -> make_manifold (m_cells m) m' = Moved m.
  Proof.
    intros A B Hx Hi. unfold make_manifold. destruct (bool_decide (finite_vertices (m_cells m) = ∅)) eqn:E.
    - apply bool_decide_eq_true in E. exfalso. assert (K : x ∈ finite_vertices (m_cells m)) by (unfold finite_vertices; set_solver + Hx Hi).
      rewrite E in K. set_solver + K.
    - f_equal. apply manifold_back; auto.
  Qed.

  Lemma undo_23 m m' : valid (m_cells m) -> moved W R escape TWO_THREE m m' ->
    exists v w a b x, two_three (label_of W m) (m_cells m) (m_cells m') v w a b x /\
      of_list [v; w] ∈ sites_32 W m' /\
      (w_locates W (m_cells m') v = true -> w_locates W (m_cells m') w = true ->
       w_geo_edge W (m_cells m') (of_list [v; w]) = true ->
       draw_gives R (sites_32 W m') (of_list [v; w]) (propose_32 W R escape m') m).
  Proof using RO ES.
    intros V H. apply moved_site in H as (H & A & B); [|assumption..].
    destruct H as [[_ (c & Hc & H)]|[[K _]|[[K _]|[[K _]|[K _]]]]]; try discriminate.
    apply move_23_effect in H as (v & w & a & b & x & N & F & E & ok & ET & L); [|exact V].
    exists v, w, a, b, x. rewrite ET. split; [apply pachner_23_spec; assumption|].
    pose proof (same_label W m m' A B) as LE.
    destruct (reverse_23 (label_of W m') (w_junk W) (w_locates W) (w_geo_edge W) (m_cells m) v w a b x V F ok) as (S & P & D);
      [rewrite LE; exact L|].
    split; [unfold sites_32; rewrite ET; apply elem_of_canonicalize; exact S|].
    intros Lv Lw Ge g g' Hg. specialize (D Lv Lw Ge). rewrite <- ET in D, P.
    exists g'. unfold propose_32, propose_one. rewrite Hg.
    assert (P' : prep_32 W m' (of_list [v; w]) = Done tt) by exact P. rewrite P'. unfold exec_32.
    unfold move_32, bind in D. rewrite P in D. rewrite D. cbn.
    rewrite (make_back m m' v A B); [reflexivity| |intros ->; apply F; set_solver +].
    apply elem_of_vertices. exists (of_list [v; a; b; x]). split; [rewrite <- E; apply site_cell in Hc; tauto|].
    rewrite elem_of_of_list. set_solver +.
  Qed.

  Lemma undo_26 m m' a b c x d e : valid (m_cells m) -> causal (label_of W m) (m_cells m) ->
    m_radius m' = m_radius m -> m_spacing m' = m_spacing m ->
    two_six (label_of W m) (m_cells m) (m_cells m') a b c x d e -> x ∉ vertices (m_cells m) ->
      x ∈ sites_62 m' /\
      (w_locates W (m_cells m') x = true -> draw_gives R (sites_62 m') x (propose_62 W R escape m') m).
  Proof using RO.
    intros V C A B (N & F & RP & t & La & Lb & Lc & Lx & Ld & Le) Hx.
    pose proof RP as (_ & _ & HO & _ & _).
    destruct (insert_ok (m_cells m) a b c x d e (va_pure _ V) (va_closed _ V) N) as [ok1 ok2];
      [apply HO; set_solver +|apply HO; set_solver +|exact Hx|].
    pose proof (replaces_26 _ _ _ _ _ _ _ N ok1 ok2) as RP'.
    assert (ET : m_cells m' = pachner (pachner (m_cells m) [x] [a; b; c; d]) [x; e] [a; b; c]).
    { eapply replaces_det; [exact RP|]. exact RP'. }
    pose proof (same_label W m m' A B) as LE.
    destruct (reverse_26 (label_of W m') (w_junk W) (w_locates W) (m_cells m) a b c x d e V) as (S & P & D); try assumption;
      [rewrite LE; exact C|rewrite LE; exists t; auto 8|].
    split.
    { unfold sites_62. rewrite ET. rewrite merge_sort_Permutation. exact S. }
    intros Lo g g' Hg. unfold propose_62, propose_one. rewrite Hg. unfold prep_62, exec_62. rewrite <- ET in P, D. rewrite P, Lo. cbn [negb].
    pose proof (shuffle_perm R RO _ (canonicalize (finite_incident_edges (m_cells m') x)) g') as HP.
    destruct (shuffle R simplex (canonicalize (finite_incident_edges (m_cells m') x)) g') as [edges g2]. cbn [fst] in HP.
    specialize (D Lo edges). unfold move_62, bind in D. rewrite P in D. rewrite D;
      [|rewrite HP; unfold canonicalize; apply merge_sort_Permutation].
    exists g2. cbn. rewrite (make_back m m' a A B); [reflexivity| |intros ->; apply F; set_solver +].
    apply elem_of_vertices. exists (of_list [a; b; c; d]). split; [apply HO; set_solver +|]. rewrite elem_of_of_list. set_solver +.
  Qed.

  Lemma undo_26_moved m m' : valid (m_cells m) -> causal (label_of W m) (m_cells m) ->
    moved W R escape TWO_SIX m m' -> check_move W m m' TWO_SIX = true ->
    exists a b c x d e, two_six (label_of W m) (m_cells m) (m_cells m') a b c x d e /\
      x ∈ sites_62 m' /\
      (w_locates W (m_cells m') x = true -> draw_gives R (sites_62 m') x (propose_62 W R escape m') m).
  Proof using RO ES.
    intros V C H K. destruct (moved_26_checked W R RO escape ES m m' V H K) as ([] & a & b & c & x & d & e & Q & _ & _ & Hx).
    exists a, b, c, x, d, e. split; [exact Q|]. eapply undo_26; eassumption.
  Qed.

  Lemma undo_44 m m' : valid (m_cells m) -> moved W R escape FOUR_FOUR m m' ->
    exists p q a b top bot, four_four (label_of W m) (m_cells m) (m_cells m') p q a b top bot /\
      of_list [a; b] ∈ sites_44 W m' /\
      ((forall y, y ∈ [a; b; top; bot] -> w_locates W (m_cells m') y = true) ->
       draw_gives R (sites_44 W m') (of_list [a; b]) (propose_44 W R escape m') m).
  Proof using RO ES.
    intros V H. apply moved_site in H as (H & A & B); [|assumption..].
    destruct H as [[K _]|[[K _]|[[K _]|[[K _]|[_ (e & He & H)]]]]]; try discriminate.
    apply move_44_effect in H as (p & q & a & b & top & bot & N & F & E & L & ok1 & ok2 & ET & V'); [|exact V].
    exists p, q, a, b, top, bot. rewrite ET.
    destruct (four_four_sound (label_of W m) _ _ _ _ _ _ _ V N F L ok1 ok2) as [_ Q]. split; [exact Q|].
    pose proof (same_label W m m' A B) as LE.
    destruct (reverse_44 (label_of W m') (w_junk W) (w_locates W) (m_cells m) p q a b top bot V N F) as (S & P & D); try assumption;
      [rewrite LE; exact L|].
    split; [unfold sites_44; rewrite ET; apply elem_of_canonicalize; exact S|].
    intros Lo g g' Hg. specialize (D Lo). rewrite <- ET in D, P.
    exists g'. unfold propose_44, propose_one. rewrite Hg.
    assert (P' : prep_44 W m' (of_list [a; b]) = Done (top, bot)) by exact P. rewrite P'. unfold exec_44.
    unfold move_44, bind in D. rewrite P in D. cbn [fst snd] in *. rewrite D. cbn.
    rewrite (make_back m m' p A B); [reflexivity| |intros ->; apply F; set_solver +].
    destruct Q as (_ & _ & (_ & _ & HO & _ & _) & _).
    apply elem_of_vertices. exists (of_list [p; q; a; top]). split; [apply HO; set_solver +|].
    rewrite elem_of_of_list. set_solver +.
  Qed.
End Undo.

(** ** At most one site leads to a given result *)
Lemma replaced_iff T o n T' : replaces T o n T' -> forall s, s ∈ o <-> s ∈ T /\ s ∉ T'.
Proof.
  intros (_ & _ & A & B & C) s. split.
  - intros Hs. split; [auto|]. intros K. apply C in K as [[_ K]|K]; [contradiction|]. exact (B s K (A s Hs)).
  - intros [Hs K]. destruct (decide (s ∈ o)) as [D|D]; [exact D|]. exfalso. apply K, C. auto.
Qed.

Section Unique.
  Variable label : vertex -> Z.
  Variable junk : tds -> simplex -> Z.
  Variable locates : tds -> vertex -> bool.

  Lemma unique_23 geo T c1 c2 T' : valid T -> cell_type label c1 = TWO_TWO -> cell_type label c2 = TWO_TWO ->
    move_23 label junk locates geo T c1 = Done T' -> move_23 label junk locates geo T c2 = Done T' -> c1 = c2.
  Proof.
    intros V C1 C2 H1 H2.
    apply move_23_effect in H1 as (v & w & a & b & x & N & F & E & ok & ET & L); [|exact V].
    apply move_23_effect in H2 as (v' & w' & a' & b' & x' & N' & F' & E' & ok' & ET' & L'); [|exact V].
    pose proof (pachner_23_spec label T v w a b x ok V F L) as (_ & _ & R & _ & X & _). rewrite <- ET in R.
    pose proof (pachner_23_spec label T v' w' a' b' x' ok' V F' L') as (_ & _ & R' & _ & _ & _). rewrite <- ET' in R'.
    assert (K : c2 ∈ [of_list [v; a; b; x]; of_list [w; a; b; x]]).
    { apply (replaced_iff _ _ _ _ R). apply (replaced_iff _ _ _ _ R'). rewrite E'. set_solver +. }
    rewrite !elem_of_cons, elem_of_nil in K. destruct K as [K|[K|[]]]; [congruence|].
    exfalso. apply X; [rewrite <- E; exact C1|rewrite <- K; exact C2].
  Qed.

  Lemma pair_eq (s : simplex) v w : v <> w -> size s = 2%nat -> (forall y, y ∈ s -> y = v \/ y = w) -> s = of_list [v; w].
  Proof.
    intros D Hs H. apply set_eq. intros y. rewrite elem_of_of_list, !elem_of_cons, elem_of_nil. split; [intros Hy; destruct (H y Hy); auto|].
    destruct (elements_two s Hs) as (p & q & E & Hpq & Es).
    assert (Hp : p ∈ s) by (apply elem_of_elements; rewrite E; set_solver +).
    assert (Hq : q ∈ s) by (apply elem_of_elements; rewrite E; set_solver +).
    destruct (H p Hp) as [-> | ->], (H q Hq) as [-> | ->]; try congruence; intros [-> |[-> |[]]]; assumption.
  Qed.

  Lemma unique_32 geo T e1 e2 T' : valid T ->
    move_32 label junk locates geo T e1 = Done T' -> move_32 label junk locates geo T e2 = Done T' -> e1 = e2.
  Proof.
    intros V H1 H2.
    apply move_32_effect in H1 as (v & w & a & b & x & N & F & E & ok & ET & L); [|exact V].
    apply move_32_effect in H2 as (v' & w' & a' & b' & x' & N' & F' & E' & ok' & ET' & L'); [|exact V].
    destruct (three_two_sound label T v w a b x ok V F L) as [_ (_ & _ & R & _)]. rewrite <- ET in R. apply replaces_sym in R.
    destruct (three_two_sound label T v' w' a' b' x' ok' V F' L') as [_ (_ & _ & R' & _)]. rewrite <- ET' in R'. apply replaces_sym in R'.
    assert (K : forall s, s ∈ [of_list [v; w; a; b]; of_list [v; w; b; x]; of_list [v; w; a; x]] -> e2 ⊆ s).
    { intros s Hs. assert (Hs' : s ∈ [of_list [v'; w'; a'; b']; of_list [v'; w'; b'; x']; of_list [v'; w'; a'; x']]).
      { apply (replaced_iff _ _ _ _ R'). apply (replaced_iff _ _ _ _ R). exact Hs. }
      intros y. rewrite E', elem_of_of_list. cases_list Hs'; subst s; rewrite elem_of_of_list; set_solver +. }
    apply NoDup_5 in N. apply NoDup_5 in N'.
    rewrite E. symmetry. apply pair_eq; [tauto|rewrite E'; apply of_list_size; apply NoDup_cons; split; [set_solver + N'|apply NoDup_singleton]|].
    intros y Hy. pose proof (K (of_list [v; w; a; b]) ltac:(set_solver +) y Hy) as K1.
    pose proof (K (of_list [v; w; b; x]) ltac:(set_solver +) y Hy) as K2.
    pose proof (K (of_list [v; w; a; x]) ltac:(set_solver +) y Hy) as K3.
    rewrite elem_of_of_list, !elem_of_cons, elem_of_nil in K1, K2, K3. clear - N K1 K2 K3. intuition congruence.
  Qed.

  Lemma unique_44 T e1 e2 T' : valid T ->
    move_44 label junk locates T e1 = Done T' -> move_44 label junk locates T e2 = Done T' -> e1 = e2.
  Proof.
    intros V H1 H2.
    apply move_44_effect in H1 as (p & q & a & b & top & bot & N & F & E & L & ok1 & ok2 & ET & _); [|exact V].
    apply move_44_effect in H2 as (p' & q' & a' & b' & top' & bot' & N' & F' & E' & L' & ok1' & ok2' & ET' & _); [|exact V].
    destruct (four_four_sound label _ _ _ _ _ _ _ V N F L ok1 ok2) as [_ (_ & _ & R & _)]. rewrite <- ET in R.
    destruct (four_four_sound label _ _ _ _ _ _ _ V N' F' L' ok1' ok2') as [_ (_ & _ & R' & _)]. rewrite <- ET' in R'.
    assert (K : forall s, s ∈ [of_list [p; q; a; top]; of_list [p; q; b; top]; of_list [p; q; a; bot]; of_list [p; q; b; bot]] -> e2 ⊆ s).
    { intros s Hs. apply (proj1 (replaced_iff _ _ _ _ R s)) in Hs. apply (proj2 (replaced_iff _ _ _ _ R' s)) in Hs.
      intros y. rewrite E', elem_of_of_list. cases_list Hs; subst s; rewrite elem_of_of_list; set_solver +. }
    apply nodup6 in N. apply nodup6 in N'.
    rewrite E. symmetry. apply pair_eq; [tauto|rewrite E'; apply of_list_size; apply NoDup_cons; split; [set_solver + N'|apply NoDup_singleton]|].
    intros y Hy. pose proof (K (of_list [p; q; a; top]) ltac:(set_solver +) y Hy) as K1.
    pose proof (K (of_list [p; q; b; top]) ltac:(set_solver +) y Hy) as K2.
    pose proof (K (of_list [p; q; a; bot]) ltac:(set_solver +) y Hy) as K3.
    rewrite elem_of_of_list, !elem_of_cons, elem_of_nil in K1, K2, K3. clear - N K1 K2 K3. intuition congruence.
  Qed.

  Lemma unique_26 centroid T c1 c2 T' : valid T -> infinite ∉ c1 -> infinite ∉ c2 ->
    cell_type label c1 = ONE_THREE -> cell_type label c2 = ONE_THREE ->
    move_26 label junk locates centroid T c1 = Done T' -> move_26 label junk locates centroid T c2 = Done T' -> c1 = c2.
  Proof.
    intros V F1 F2 C1 C2 H1 H2.
    apply move_26_raw in H1 as (a & b & c & d & e & N & F & E & ok1 & ok2 & ET & t & La & Lb & Lc & Ld & Le & _); try assumption.
    apply move_26_raw in H2 as (a' & b' & c' & d' & e' & N' & F' & E' & ok1' & ok2' & ET' & _); try assumption.
    pose proof (replaces_26 _ _ _ _ _ _ _ N ok1 ok2) as R. rewrite <- ET in R.
    pose proof (replaces_26 _ _ _ _ _ _ _ N' ok1' ok2') as R'. rewrite <- ET' in R'.
    assert (K : c2 ∈ [of_list [a; b; c; d]; of_list [a; b; c; e]]).
    { apply (replaced_iff _ _ _ _ R). apply (replaced_iff _ _ _ _ R'). rewrite E'. set_solver +. }
    rewrite !elem_of_cons, elem_of_nil in K. destruct K as [K|[K|[]]]; [congruence|].
    exfalso. rewrite K in C2. rewrite cell_type_of_list in C2.
    - cbn [map] in C2. rewrite La, Lb, Lc, Le in C2. replace t with (t + 0) in C2 at 1 2 3 by lia. rewrite classify4 in C2. discriminate.
    - apply nodup4. apply nodup6 in N. clear - N. intuition congruence.
  Qed.

  Lemma unique_62 T v1 v2 edges1 edges2 T' : valid T -> edges1 ≡ₚ finite_incident_edges T v1 -> edges2 ≡ₚ finite_incident_edges T v2 ->
    move_62 label junk locates T v1 edges1 = Done T' -> move_62 label junk locates T v2 edges2 = Done T' -> v1 = v2.
  Proof.
    intros V P1 P2 H1 H2.
    assert (HE : forall v edges, edges ≡ₚ finite_incident_edges T v -> forall e, e ∈ edges -> exists w, w <> v /\ e = of_list [v; w]).
    { intros v edges P e He. rewrite P in He. unfold finite_incident_edges in He. apply elem_of_list_fmap in He as (w & -> & Hw).
      exists w. split; [|reflexivity]. apply elem_of_elements, elem_of_difference in Hw as [Hw _]. apply elem_of_link in Hw as [Hw _]. set_solver + Hw. }
    apply move_62_effect in H1 as (a & b & c & d & e & N & F & L & ok1 & ok2 & E & V'); [|exact V|eauto].
    apply move_62_effect in H2 as (a' & b' & c' & d' & e' & N' & F' & L' & ok1' & ok2' & E' & _); [|exact V|eauto].
    destruct (vertices_26 _ _ _ _ _ _ _ N ok1 ok2) as [A B]. rewrite <- E in A.
    destruct (vertices_26 _ _ _ _ _ _ _ N' ok1' ok2') as [A' B']. rewrite <- E' in A'.
    assert (K : v2 ∈ {[v1]} ∪ vertices T') by (rewrite <- A, A'; set_solver +).
    rewrite elem_of_union, elem_of_singleton in K. destruct K as [K|K]; [congruence|contradiction].
  Qed.
End Unique.

(** Result [T'] of move [k] at the site [s], a set of vertices (a singleton for
    (6,2)); for (6,2) [edges] is any order of the incident edges. *)
Definition site_gives (W : world) (m : manifold) (k : MoveType) (s : simplex) (T' : tds) : Prop :=
  let T := m_cells m in let label := label_of W m in
  (k = TWO_THREE /\ s ∈ sites_23 W m /\ move_23 label (w_junk W) (w_locates W) (w_geo_facet W) T s = Done T') \/
  (k = THREE_TWO /\ s ∈ sites_32 W m /\ move_32 label (w_junk W) (w_locates W) (w_geo_edge W) T s = Done T') \/
  (k = TWO_SIX /\ s ∈ sites_26 W m /\ move_26 label (w_junk W) (w_locates W) (w_centroid W) T s = Done T') \/
  (k = SIX_TWO /\ exists v edges, s = {[v]} /\ v ∈ sites_62 m /\ edges ≡ₚ finite_incident_edges T v /\
                   move_62 label (w_junk W) (w_locates W) T v edges = Done T') \/
  (k = FOUR_FOUR /\ s ∈ sites_44 W m /\ move_44 label (w_junk W) (w_locates W) T s = Done T').

Lemma site_gives_from W m k T' : from_site W m k T' <-> exists s, site_gives W m k s T'.
Proof.
  unfold from_site, site_gives. cbv zeta. split.
  - intros [[K (c & A & B)]|[[K (c & A & B)]|[[K (c & A & B)]|[[K (v & ed & A & B & D)]|[K (c & A & B)]]]]]; try (exists c; tauto).
    exists {[v]}. right; right; right; left. split; [exact K|]. exists v, ed. auto.
  - intros [s [(K & A & B)|[(K & A & B)|[(K & A & B)|[(K & v & ed & _ & A & B & D)|(K & A & B)]]]]]; eauto 10.
Qed.

Lemma one_site W m k s1 s2 T' : valid (m_cells m) -> site_gives W m k s1 T' -> site_gives W m k s2 T' -> s1 = s2.
Proof.
  intros V [(-> & A & B)|[(-> & A & B)|[(-> & A & B)|[(-> & v & ed & -> & A & B & D)|(-> & A & B)]]]]
    [(K & A' & B')|[(K & A' & B')|[(K & A' & B')|[(K & v' & ed' & -> & A' & B' & D')|(K & A' & B')]]]]; try discriminate.
  - apply site_cell in A as (_ & _ & A). apply site_cell in A' as (_ & _ & A'). eapply unique_23; eassumption.
  - eapply unique_32; eassumption.
  - apply site_cell in A as (_ & F & A). apply site_cell in A' as (_ & F' & A'). eapply (unique_26 _ _ _ _ _ s1 s2); eassumption.
  - rewrite (unique_62 _ _ _ _ v v' ed ed' T' V B B' D D'). reflexivity.
  - eapply unique_44; eassumption.
Qed.

(** ** Moves that no inverse proposal undoes *)
(** A (2,6) move only ever creates a vertex at the centroid of its facet. *)
Lemma lost_62 W m m' v : valid (m_cells m) -> valid (m_cells m') -> v ∈ vertices (m_cells m) -> v ∉ vertices (m_cells m') ->
  (forall f, w_centroid W f <> v) -> forall s, ~ site_gives W m' TWO_SIX s (m_cells m).
Proof.
  intros V V' Hv Hv' HC s [(K & _)|[(K & _)|[(_ & A & B)|[(K & _)|(K & _)]]]]; try discriminate.
  apply site_cell in A as (_ & F & _).
  apply move_26_raw in B as (a & b & c & d & e & N & _ & _ & ok1 & ok2 & E & _); [|assumption..].
  destruct (vertices_26 _ _ _ _ _ _ _ N ok1 ok2) as [Q _]. rewrite <- E in Q.
  rewrite Q, elem_of_union, elem_of_singleton in Hv. destruct Hv as [Hv|Hv]; [exact (HC _ (eq_sym Hv))|contradiction].
Qed.

(** A triangulation with a vertex (90,1,1) inside the facet (90,0,0), (90,0,6),
    (90,6,0), whose centroid is (90,2,2). *)
Definition pts_lost : list point := [(60, 1, 1); (90, 0, 0); (90, 0, 6); (90, 1, 1); (90, 2, 2); (90, 6, 0); (120, 1, 1)].
Definition W_lost : world := exact_world pts_lost 30.
Definition m_lost : manifold := sample 30
  [[2; 3; 4; 5]; [2; 3; 5; 7]; [2; 5; 4; 7]; [3; 4; 5; 8]; [3; 5; 7; 8]; [5; 4; 7; 8];
   [1; 2; 3; 4]; [1; 2; 3; 7]; [1; 2; 4; 7]; [1; 8; 3; 4]; [1; 8; 3; 7]; [1; 8; 4; 7]]%positive.
Definition m_lost' : manifold := sample 30
  [[2; 3; 4; 7]; [3; 4; 7; 8]; [1; 2; 3; 4]; [1; 2; 3; 7]; [1; 2; 4; 7]; [1; 8; 3; 4]; [1; 8; 3; 7]; [1; 8; 4; 7]]%positive.
Lemma sample_lost : is_structurally_correct W_lost m_lost = true /\ is_structurally_correct W_lost m_lost' = true /\
  bool_decide (5%positive ∈ sites_62 m_lost) = true /\
  outcome_is (m_cells m_lost') (move_62 (label_of W_lost m_lost) (w_junk W_lost) (w_locates W_lost) (m_cells m_lost) 5
    (finite_incident_edges (m_cells m_lost) 5)) = true /\
  length (sites_26 W_lost m_lost') = 1%nat /\
  forallb (fun c => negb (outcome_is (m_cells m_lost) (move_26 (label_of W_lost m_lost') (w_junk W_lost) (w_locates W_lost) (w_centroid W_lost) (m_cells m_lost') c)))
    (sites_26 W_lost m_lost') = true.
Proof. vm_compute. auto 10. Qed.

Lemma forallb_sites (l : list simplex) f T : forallb (fun c => negb (outcome_is T (f c))) l = true ->
  forall c, c ∈ l -> f c <> Done T.
Proof.
  intros H c Hc. rewrite forallb_forall in H. apply elem_of_list_In in Hc. specialize (H c Hc).
  apply negb_true_iff in H. intros K. apply outcome_is_true in K. congruence.
Qed.
Lemma no_inverse_23 : exists s, is_structurally_correct W_22 m_22 = true /\ is_structurally_correct W_22 m_22' = true /\
  site_gives W_22 m_22 THREE_TWO s (m_cells m_22') /\ forall s', ~ site_gives W_22 m_22' TWO_THREE s' (m_cells m_22).
Proof.
  exists (of_list [3; 4]%positive). destruct sample_22 as (A & B & C & _).
  split; [exact A|]. split; [vm_compute; reflexivity|]. split.
  - right; left. split; [reflexivity|]. split; [|apply outcome_is_true; exact B].
    assert (K : bool_decide (of_list [3; 4]%positive ∈ sites_32 W_22 m_22) = true) by (vm_compute; reflexivity).
    apply bool_decide_eq_true in K. exact K.
  - intros s' [(_ & P & Q)|[(K & _)|[(K & _)|[(K & _)|(K & _)]]]]; [|discriminate K..].
    exact (forallb_sites _ _ _ C s' P Q).
Qed.
Lemma no_inverse_26 : exists s, is_structurally_correct W_lost m_lost = true /\ is_structurally_correct W_lost m_lost' = true /\
  site_gives W_lost m_lost SIX_TWO s (m_cells m_lost') /\ forall s', ~ site_gives W_lost m_lost' TWO_SIX s' (m_cells m_lost).
Proof.
  exists {[5%positive]}. destruct sample_lost as (A & B & C & D & _ & E).
  split; [exact A|]. split; [exact B|]. split.
  - right; right; right; left. split; [reflexivity|]. exists 5%positive, (finite_incident_edges (m_cells m_lost) 5).
    split; [reflexivity|]. split; [apply bool_decide_eq_true in C; exact C|]. split; [reflexivity|]. apply outcome_is_true. exact D.
  - intros s' [(K & _)|[(K & _)|[(_ & P & Q)|[(K & _)|(K & _)]]]]; [discriminate K|discriminate K| |discriminate K|discriminate K].
    exact (forallb_sites _ _ _ E s' P Q).
Qed.

(** Inverse sites exist after (2,3), (2,6) and (4,4), if CGAL can locate the
    points and accepts the flip. *)
Definition cgal_accepts (W : world) : Prop :=
  (forall T v, w_locates W T v = true) /\ (forall T e, w_geo_edge W T e = true).
Lemma inverse_exists W m k s m' : cgal_accepts W -> valid (m_cells m) -> causal (label_of W m) (m_cells m) ->
  k = TWO_THREE \/ k = TWO_SIX \/ k = FOUR_FOUR ->
  m_radius m' = m_radius m -> m_spacing m' = m_spacing m ->
  site_gives W m k s (m_cells m') -> check_move W m m' k = true ->
  exists r s', reverse_move k = Some r /\ site_gives W m' r s' (m_cells m).
Proof.
  intros [LO GE] V C HK A B H CM. pose proof (same_label W m m' A B) as LE.
  destruct H as [(-> & Hs & H)|[(-> & Hs & H)|[(-> & Hs & H)|[(-> & Hs)|(-> & Hs & H)]]]];
    try (destruct HK as [K|[K|K]]; discriminate).
  - apply move_23_effect in H as (v & w & a & b & x & N & F & E & ok & ET & L); [|exact V].
    destruct (reverse_23 (label_of W m') (w_junk W) (w_locates W) (w_geo_edge W) (m_cells m) v w a b x V F ok) as (S & P & D);
      [rewrite LE; exact L|].
    exists THREE_TWO, (of_list [v; w]). split; [reflexivity|]. right; left. split; [reflexivity|]. rewrite <- ET in S, D.
    split; [apply elem_of_canonicalize; exact S|]. apply D; [apply LO|apply LO|apply GE].
  - assert (FS : from_site W m TWO_SIX (m_cells m')).
    { apply site_gives_from. exists s. right; right; left. auto. }
    assert (E : m' = mkManifold (m_cells m') (m_radius m) (m_spacing m)) by (destruct m'; cbn in *; congruence).
    rewrite E in CM. destruct (checked_26 W m _ V FS CM) as (_ & a & b & c & x & d & e & (N & F & RP & t & La & Lb & Lc & Lx & Ld & Le) & _ & _ & Hx).
    pose proof RP as (_ & _ & HO & _ & _).
    destruct (insert_ok (m_cells m) a b c x d e (va_pure _ V) (va_closed _ V) N) as [ok1 ok2];
      [apply HO; set_solver +|apply HO; set_solver +|exact Hx|].
    assert (ET : m_cells m' = pachner (pachner (m_cells m) [x] [a; b; c; d]) [x; e] [a; b; c]).
    { eapply replaces_det; [exact RP|]. exact (replaces_26 _ _ _ _ _ _ _ N ok1 ok2). }
    destruct (reverse_26 (label_of W m') (w_junk W) (w_locates W) (m_cells m) a b c x d e V) as (S & P & D); try assumption;
      [rewrite LE; exact C|rewrite LE; exists t; auto 8|].
    exists SIX_TWO, {[x]}. split; [reflexivity|]. right; right; right; left. split; [reflexivity|]. rewrite <- ET in S, D.
    exists x, (finite_incident_edges (m_cells m') x). split; [reflexivity|].
    split; [unfold sites_62; rewrite merge_sort_Permutation; exact S|]. split; [reflexivity|]. apply D; [apply LO|reflexivity].
  - apply move_44_effect in H as (p & q & a & b & top & bot & N & F & E & L & ok1 & ok2 & ET & V'); [|exact V].
    destruct (reverse_44 (label_of W m') (w_junk W) (w_locates W) (m_cells m) p q a b top bot V N F) as (S & P & D); try assumption;
      [rewrite LE; exact L|].
    exists FOUR_FOUR, (of_list [a; b]). split; [reflexivity|]. right; right; right; right. split; [reflexivity|]. rewrite <- ET in S, D.
    split; [apply elem_of_canonicalize; exact S|]. apply D. intros y _. apply LO.
Qed.
