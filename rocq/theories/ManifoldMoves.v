(** The public move functions on manifolds: what a returned manifold is. *)
From Verif Require Import Base Tracker Command Geom Simplex Pachner Foliation Moves Links MoveCore MoveTools Move23 Move44 Move26 Move26Site Move62Site MoveSpec MoveSound Manifold ManifoldFacts.
From stdpp Require Import fin_sets gmap sorting.
From Verif Require Import Foliation.
Local Open Scope Z_scope.

(** The execution did not leave the modelled state space (Moves.v, [Unmodelled]). *)
Definition stays_modelled {G} (escape : manifold -> G -> move_result manifold * G) : Prop :=
  forall m g m', fst (escape m g) <> Moved m'.

(** [T'] results from preparing and executing the move [k] at one of its sites. *)
Definition from_site (W : world) (m : manifold) (k : MoveType) (T' : tds) : Prop :=
  let T := m_cells m in let label := label_of W m in
  (k = TWO_THREE /\ exists c, c ∈ sites_23 W m /\ move_23 label (w_junk W) (w_locates W) (w_geo_facet W) T c = Done T') \/
  (k = THREE_TWO /\ exists e, e ∈ sites_32 W m /\ move_32 label (w_junk W) (w_locates W) (w_geo_edge W) T e = Done T') \/
  (k = TWO_SIX /\ exists c, c ∈ sites_26 W m /\ move_26 label (w_junk W) (w_locates W) (w_centroid W) T c = Done T') \/
  (k = SIX_TWO /\ exists v edges, v ∈ sites_62 m /\ edges ≡ₚ finite_incident_edges T v /\
                   move_62 label (w_junk W) (w_locates W) T v edges = Done T') \/
  (k = FOUR_FOUR /\ exists e, e ∈ sites_44 W m /\ move_44 label (w_junk W) (w_locates W) T e = Done T').

Section Loop.
  Context {G S P : Type}.
  Variable prepare : S -> outcome P.
  Variable execute : S -> P -> G -> outcome tds * G.

  Lemma try_sites_Done stop last sites g T g' : try_sites prepare execute stop last sites g = (Done T, g') ->
    exists s p g0, s ∈ sites /\ prepare s = Done p /\ execute s p g0 = (Done T, g').
  Proof.
    revert last g. induction sites as [|s r IH]; intros last g H; [discriminate|]. cbn in H.
    destruct (prepare s) as [p|e|] eqn:Ep; [|apply IH in H as (s' & p & g0 & Hs & H); exists s', p, g0; split; [constructor; exact Hs|exact H]|discriminate].
    destruct (execute s p g) as [[T1|e|] g1] eqn:Ee; [|destruct stop; [discriminate|]|discriminate].
    - injection H as <- <-. exists s, p, g. split; [constructor|]. auto.
    - apply IH in H as (s' & p' & g0 & Hs & H). exists s', p', g0. split; [constructor; exact Hs|exact H].
  Qed.
End Loop.

Section Api.
  Variable W : world.
  Context {G : Type}.
  Variable R : choices G.
  Hypothesis RO : choices_ok R.
  Variable escape : manifold -> G -> move_result manifold * G.
  Hypothesis ES : stays_modelled escape.

  Lemma finish_Moved m k r m' g' : finish escape m k r = (Moved m', g') ->
    exists T g, r = (Done T, g) /\ m' = mkManifold T (m_radius m) (m_spacing m) /\ finite_vertices T <> ∅.
  Proof using ES.
    destruct r as [[T|e|] g]; cbn; [| |].
    - unfold make_manifold. destruct (bool_decide (finite_vertices T = ∅)) eqn:E; intros [= <- <-].
      exists T, g. apply bool_decide_eq_false in E. auto.
    - discriminate.
    - intros H. exfalso. apply (ES m g m'). rewrite H. reflexivity.
  Qed.

  Lemma random_element_In {S} (l : list S) g s g' : canonical_random_element R l g = (Some s, g') -> s ∈ l.
  Proof.
    unfold canonical_random_element. destruct l as [|x l]; [discriminate|].
    destruct (draw_index R (length (x :: l)) g) as [i g1] eqn:E. intros [= H _].
    apply nth_error_In in H. apply elem_of_list_In. exact H.
  Qed.

  Lemma do_loop_Moved {S P} m k (sites : list S) (prepare : S -> outcome P) execute g m' g' :
    do_loop R escape m k sites prepare execute g = (Moved m', g') ->
    exists s p (g0 g1 : G) T, s ∈ sites /\ prepare s = Done p /\ execute s p g0 = (Done T, g1) /\
      m' = mkManifold T (m_radius m) (m_spacing m).
  Proof using ES RO.
    unfold do_loop. pose proof (shuffle_perm R RO S sites g) as HP.
    destruct (shuffle R S sites g) as [order g1]. cbn [fst] in HP. destruct order as [|s0 order]; [discriminate|].
    intros H. apply finish_Moved in H as (T & g2 & E & -> & _).
    apply try_sites_Done in E as (s & p & g0 & Hs & Hp & He). exists s, p, g0, g2, T.
    split; [|auto]. rewrite <- HP. exact Hs.
  Qed.

  Lemma propose_one_Moved {S P} m k (sites : list S) (prepare : S -> outcome P) execute g m' g' :
    propose_one R escape m k sites prepare execute g = (Moved m', g') ->
    exists s p (g0 g1 : G) T, s ∈ sites /\ prepare s = Done p /\ execute s p g0 = (Done T, g1) /\
      m' = mkManifold T (m_radius m) (m_spacing m).
  Proof using ES.
    unfold propose_one. destruct (canonical_random_element R sites g) as [[s|] g1] eqn:E; [|discriminate].
    apply random_element_In in E. destruct (prepare s) as [p|e|] eqn:Ep; [|discriminate|].
    - intros H. apply finish_Moved in H as (T & g2 & Ee & -> & _). exists s, p, g1, g2, T. auto.
    - intros H. exfalso. apply (ES m g1 m'). rewrite H. reflexivity.
  Qed.

  Lemma do_26_Moved m b g m' g' : do_26_impl W R escape m b g = (Moved m', g') ->
    exists c p (g0 g1 : G) T, c ∈ sites_26 W m /\ prep_26 W m c = Done p /\ exec_26 W m c p g0 = (Done T, g1) /\
      m' = mkManifold T (m_radius m) (m_spacing m).
  Proof using ES RO.
    unfold do_26_impl. destruct (sites_26 W m) as [|c0 r] eqn:Es; [discriminate|]. rewrite <- Es. clear Es c0 r.
    destruct b.
    - destruct (canonical_random_element R (sites_26 W m) g) as [[c|] g1] eqn:E; [|discriminate].
      apply random_element_In in E. intros H. apply finish_Moved in H as (T & g2 & Ee & -> & _).
      apply try_sites_Done in Ee as (s & p & g0 & Hs & Hp & He). apply elem_of_list_singleton in Hs as ->.
      exists c, p, g0, g2, T. auto.
    - pose proof (shuffle_perm R RO _ (sites_26 W m) g) as HP.
      destruct (shuffle R simplex (sites_26 W m) g) as [order g1]. cbn [fst] in HP.
      intros H. apply finish_Moved in H as (T & g2 & Ee & -> & _).
      apply try_sites_Done in Ee as (s & p & g0 & Hs & Hp & He). exists s, p, g0, g2, T. split; [|auto].
      rewrite <- HP. exact Hs.
  Qed.

  (** Every manifold returned by a public move function comes from one site, and
      keeps radius and spacing. *)
  Lemma api_Moved k m g m' g' :
    apply_random_move (do_api W R escape) m k g = (Moved m', g') \/
    apply_random_move (propose_api W R escape) m k g = (Moved m', g') ->
    from_site W m k (m_cells m') /\ m_radius m' = m_radius m /\ m_spacing m' = m_spacing m.
  Proof using ES RO.
    unfold apply_random_move.
    destruct (k =? TWO_THREE) eqn:K1; [apply Z.eqb_eq in K1 as ->|].
    { intros H. assert (exists s p (g0 g1 : G) T, s ∈ sites_23 W m /\ prep_23 W m s = Done p /\ exec_23 W m s p g0 = (Done T, g1) /\
        m' = mkManifold T (m_radius m) (m_spacing m)) as (s & p & g0 & g1 & T & Hs & Hp & He & ->).
      { destruct H as [H|H]; [apply do_loop_Moved in H|apply propose_one_Moved in H]; exact H. }
      split; [|auto]. left. split; [reflexivity|]. exists s. split; [exact Hs|]. unfold move_23, bind.
      unfold prep_23 in Hp. rewrite Hp. unfold exec_23 in He. injection He as He _. exact He. }
    destruct (k =? THREE_TWO) eqn:K2; [apply Z.eqb_eq in K2 as ->|].
    { intros H. assert (exists s p (g0 g1 : G) T, s ∈ sites_32 W m /\ prep_32 W m s = Done p /\ exec_32 W m s p g0 = (Done T, g1) /\
        m' = mkManifold T (m_radius m) (m_spacing m)) as (s & p & g0 & g1 & T & Hs & Hp & He & ->).
      { destruct H as [H|H]; [apply do_loop_Moved in H|apply propose_one_Moved in H]; exact H. }
      split; [|auto]. right; left. split; [reflexivity|]. exists s. split; [exact Hs|]. unfold move_32, bind.
      unfold prep_32 in Hp. rewrite Hp. unfold exec_32 in He. injection He as He _. exact He. }
    destruct (k =? TWO_SIX) eqn:K3; [apply Z.eqb_eq in K3 as ->|].
    { intros H. assert (exists s p (g0 g1 : G) T, s ∈ sites_26 W m /\ prep_26 W m s = Done p /\ exec_26 W m s p g0 = (Done T, g1) /\
        m' = mkManifold T (m_radius m) (m_spacing m)) as (s & p & g0 & g1 & T & Hs & Hp & He & ->).
      { destruct H as [H|H]; apply do_26_Moved in H; exact H. }
      split; [|auto]. right; right; left. split; [reflexivity|]. exists s. split; [exact Hs|]. unfold move_26, bind.
      unfold prep_26 in Hp. rewrite Hp. unfold exec_26 in He. injection He as He _. exact He. }
    destruct (k =? SIX_TWO) eqn:K4; [apply Z.eqb_eq in K4 as ->|].
    { intros H. assert (exists s p (g0 g1 : G) T, s ∈ sites_62 m /\ prep_62 W m s = Done p /\ exec_62 W R m s p g0 = (Done T, g1) /\
        m' = mkManifold T (m_radius m) (m_spacing m)) as (s & p & g0 & g1 & T & Hs & Hp & He & ->).
      { destruct H as [H|H]; [apply do_loop_Moved in H|apply propose_one_Moved in H]; exact H. }
      split; [|auto]. right; right; right; left. split; [reflexivity|]. unfold exec_62 in He.
      destruct (w_locates W (m_cells m) s) eqn:El; cbn [negb] in He; [|discriminate].
      pose proof (shuffle_perm R RO _ (canonicalize (finite_incident_edges (m_cells m) s)) g0) as HP.
      destruct (shuffle R simplex (canonicalize (finite_incident_edges (m_cells m) s)) g0) as [edges g2]. cbn [fst] in HP.
      injection He as He _. exists s, edges. split; [exact Hs|]. split.
      - rewrite HP. apply merge_sort_Permutation.
      - unfold move_62, bind. unfold prep_62 in Hp. rewrite Hp. exact He. }
    destruct (k =? FOUR_FOUR) eqn:K5; [apply Z.eqb_eq in K5 as ->|].
    { intros H. assert (exists s p (g0 g1 : G) T, s ∈ sites_44 W m /\ prep_44 W m s = Done p /\ exec_44 W m s p g0 = (Done T, g1) /\
        m' = mkManifold T (m_radius m) (m_spacing m)) as (s & p & g0 & g1 & T & Hs & Hp & He & ->).
      { destruct H as [H|H]; [apply do_loop_Moved in H|apply propose_one_Moved in H]; exact H. }
      split; [|auto]. right; right; right; right. split; [reflexivity|]. exists s. split; [exact Hs|]. unfold move_44, bind.
      unfold prep_44 in Hp. rewrite Hp. unfold exec_44 in He. injection He as He _. exact He. }
    intros [H|H]; discriminate.
  Qed.
End Api.

(** ** Effects *)
Lemma elem_of_canonicalize s l : s ∈ canonicalize l <-> s ∈ l.
Proof. unfold canonicalize. apply elem_of_Permutation_proper, merge_sort_Permutation. Qed.

Lemma site_cell W m k c : c ∈ canonicalize (cell_sites (label_of W m) (w_junk W) k (m_cells m)) <->
  c ∈ m_cells m /\ infinite ∉ c /\ cell_type (label_of W m) c = k.
Proof.
  rewrite elem_of_canonicalize. unfold cell_sites. rewrite elem_of_elements, elem_of_filter, andb_true_iff, Z.eqb_eq.
  unfold cell_info. rewrite finite_spec. split.
  - intros [[F E] H]. rewrite (proj2 (finite_spec c) F) in E. auto.
  - intros (H & F & E). rewrite (proj2 (finite_spec c) F). auto.
Qed.

Lemma effect_23 W m T' : valid (m_cells m) -> from_site W m TWO_THREE T' ->
  sound_move (label_of W m) TWO_THREE (m_cells m) T' /\ vertices T' = vertices (m_cells m) /\
  exists v w a b x, two_three (label_of W m) (m_cells m) T' v w a b x /\
    cell_type (label_of W m) (of_list [v; a; b; x]) = TWO_TWO.
Proof.
  intros V [[_ (c & Hc & H)]|[[K _]|[[K _]|[[K _]|[K _]]]]]; try discriminate.
  apply move_23_effect in H as (v & w & a & b & x & N & F & E & ok & -> & L); [|exact V].
  split; [apply two_three_sound; assumption|]. split; [apply vertices_pachner; [exact ok|cbn; lia|cbn; lia]|].
  exists v, w, a, b, x. split; [apply pachner_23_spec; assumption|].
  apply site_cell in Hc as (_ & _ & Hc). rewrite <- E. exact Hc.
Qed.

Lemma effect_32 W m T' : valid (m_cells m) -> from_site W m THREE_TWO T' ->
  sound_move (label_of W m) THREE_TWO (m_cells m) T' /\ vertices T' = vertices (m_cells m) /\
  exists v w a b x, two_three (label_of W m) T' (m_cells m) v w a b x.
Proof.
  intros V [[K _]|[[_ (e & He & H)]|[[K _]|[[K _]|[K _]]]]]; try discriminate.
  apply move_32_effect in H as (v & w & a & b & x & N & F & E & ok & -> & L); [|exact V].
  destruct (three_two_sound _ _ _ _ _ _ _ ok V F L) as [S Q].
  split; [exact S|]. split; [apply vertices_pachner; [exact ok|cbn; lia|cbn; lia]|].
  exists v, w, a, b, x. exact Q.
Qed.

Lemma effect_44 W m T' : valid (m_cells m) -> from_site W m FOUR_FOUR T' ->
  sound_move (label_of W m) FOUR_FOUR (m_cells m) T' /\ vertices T' = vertices (m_cells m) /\
  exists p q a b top bot, four_four (label_of W m) (m_cells m) T' p q a b top bot.
Proof.
  intros V [[K _]|[[K _]|[[K _]|[[K _]|[_ (e & He & H)]]]]]; try discriminate.
  apply move_44_effect in H as (p & q & a & b & top & bot & N & F & E & L & ok1 & ok2 & -> & V'); [|exact V].
  destruct (four_four_sound _ _ _ _ _ _ _ _ V N F L ok1 ok2) as [S Q].
  split; [exact S|]. split; [eapply vertices_44; eassumption|].
  exists p, q, a, b, top, bot. exact Q.
Qed.

Lemma effect_62 W m T' : valid (m_cells m) -> from_site W m SIX_TWO T' ->
  sound_move (label_of W m) SIX_TWO (m_cells m) T' /\
  exists a b c v d e, two_six (label_of W m) T' (m_cells m) a b c v d e /\
    vertices (m_cells m) = {[v]} ∪ vertices T' /\ v ∉ vertices T'.
Proof.
  intros V [[K _]|[[K _]|[[K _]|[[_ (v & edges & Hv & He & H)]|[K _]]]]]; try discriminate.
  apply move_62_effect in H as (a & b & c & d & e & N & F & L & ok1 & ok2 & E & V'); [|exact V|].
  - destruct (six_two_sound _ _ _ _ _ _ _ _ _ N F L ok1 ok2 E V') as (S & Q & [D|D]).
    + split; [exact S|]. exists a, b, c, v, d, e. auto.
    + split; [exact S|]. exists a, b, c, v, e, d. auto.
  - intros e Hin. rewrite He in Hin. unfold finite_incident_edges in Hin.
    apply elem_of_list_fmap in Hin as (w & -> & Hw). exists w. split; [|reflexivity].
    intros ->. apply elem_of_elements, elem_of_difference in Hw as [Hw _]. unfold link_vertices in Hw. set_solver.
Qed.

(** Counting under a replacement of cells. *)
Lemma replaces_count P T o n T' : replaces T o n T' -> count P T' = count P T - sum_of P o + sum_of P n.
Proof.
  intros (A & B & C & D & E). replace T' with ((T ∖ list_to_set o) ∪ list_to_set n).
  - apply count_change; assumption.
  - apply set_eq. intros s. rewrite E, elem_of_union, elem_of_difference, !elem_of_list_to_set. tauto.
Qed.

(** A (2,6) result whose centre is not relabelled and whose upper cell is finite. *)
Lemma effect_26 W m T' : valid (m_cells m) -> from_site W m TWO_SIX T' ->
  no_infinite_31 (label_of W m) (w_junk W) (m_cells m) ->
  (forall a b c, label_of W m a = label_of W m b -> label_of W m b = label_of W m c ->
     label_of W m (w_centroid W (of_list [a; b; c])) = label_of W m a) ->
  sound_move (label_of W m) TWO_SIX (m_cells m) T' /\
  exists a b c x d e, two_six (label_of W m) (m_cells m) T' a b c x d e /\ x = w_centroid W (of_list [a; b; c]) /\
    vertices T' = {[x]} ∪ vertices (m_cells m) /\ x ∉ vertices (m_cells m).
Proof.
  intros V [[K _]|[[K _]|[[_ (c0 & Hc0 & H)]|[[K _]|[K _]]]]] NI CL; try discriminate.
  apply site_cell in Hc0 as (_ & F0 & _).
  apply move_26_effect in H as (a & b & c & d & e & N & F & E & ok1 & ok2 & ET & t & La & Lb & Lc & Ld & Le); try assumption.
  set (x := w_centroid W (of_list [a; b; c])) in *.
  assert (Lx : label_of W m x = t) by (unfold x; rewrite CL; congruence).
  assert (L : labels_26 (label_of W m) a b c x d e) by (exists t; auto 10).
  destruct (two_six_sound _ _ _ _ _ _ _ _ V N F L ok1 ok2) as (S & Q & D). rewrite <- ET in *.
  split; [exact S|]. exists a, b, c, x, d, e. split; [|split; [reflexivity|exact Q]].
  destruct D as [D|D]; [exact D|]. exfalso. destruct D as (_ & _ & _ & t' & A1 & _ & _ & _ & A2 & _). clear - A1 A2 La Ld Le. lia.
Qed.

(** A (2,6) result that passes the move check is always the specified one. *)
Lemma checked_26 W m T' : valid (m_cells m) -> from_site W m TWO_SIX T' ->
  check_move W m (mkManifold T' (m_radius m) (m_spacing m)) TWO_SIX = true ->
  sound_move (label_of W m) TWO_SIX (m_cells m) T' /\
  exists a b c x d e, two_six (label_of W m) (m_cells m) T' a b c x d e /\ x = w_centroid W (of_list [a; b; c]) /\
    vertices T' = {[x]} ∪ vertices (m_cells m) /\ x ∉ vertices (m_cells m).
Proof.
  intros V [[K _]|[[K _]|[[_ (c0 & Hc0 & H)]|[[K _]|[K _]]]]] HC; try discriminate.
  apply check_move_spec in HC as (_ & C' & _ & _ & _ & _ & g & [= <-] & HG). cbn [m_cells] in *.
  apply site_cell in Hc0 as (_ & F0 & _).
  apply move_26_raw in H as (a & b & c & d & e & N & F & E & ok1 & ok2 & ET & t & La & Lb & Lc & Ld & Le & _); try assumption.
  set (x := w_centroid W (of_list [a; b; c])) in *.
  pose proof (replaces_26 _ _ _ _ _ _ _ N ok1 ok2) as RP. rewrite <- ET in RP.
  change (causal (label_of W m) T') in C'.
  assert (He : infinite <> e).
  { intros Hi. assert (HN : n3 T' = n3 (m_cells m) + 4) by (injection HG as HG _; exact HG).
    unfold n3 in HN. rewrite (replaces_count _ _ _ _ _ RP) in HN.
    assert (Fin : forall l, (forall y, y ∈ l -> y ∈ [a; b; c; x; d]) -> finite_simplex (of_list l) = true).
    { intros l Hl. apply finite_spec. rewrite elem_of_of_list. intros Hy. apply F, Hl, Hy. }
    assert (Inf : forall l, e ∈ l -> finite_simplex (of_list l) = false).
    { intros l Hl. unfold finite_simplex. apply negb_false_iff, bool_decide_eq_true. rewrite elem_of_of_list, Hi. exact Hl. }
    unfold two_cells_of, six_cells_of in HN. cbn [sum_of fold_right] in HN.
    assert (F1 : finite_simplex (of_list [a; b; c; d]) = true) by (apply Fin; clear; set_solver).
    assert (F2 : finite_simplex (of_list [x; a; b; d]) = true) by (apply Fin; clear; set_solver).
    assert (F3 : finite_simplex (of_list [x; b; c; d]) = true) by (apply Fin; clear; set_solver).
    assert (F4 : finite_simplex (of_list [x; a; c; d]) = true) by (apply Fin; clear; set_solver).
    rewrite F1, F2, F3, F4 in HN.
    assert (F5 : finite_simplex (of_list [a; b; c; e]) = false) by (apply Inf; clear; set_solver).
    assert (F6 : finite_simplex (of_list [x; a; b; e]) = false) by (apply Inf; clear; set_solver).
    assert (F7 : finite_simplex (of_list [x; b; c; e]) = false) by (apply Inf; clear; set_solver).
    assert (F8 : finite_simplex (of_list [x; a; c; e]) = false) by (apply Inf; clear; set_solver).
    rewrite ?F5, ?F6, ?F7, ?F8 in HN. clear - HN. lia. }
  assert (F' : infinite ∉ [a; b; c; x; d; e]).
  { clear - F He. rewrite !elem_of_cons, !elem_of_nil in *. intuition congruence. }
  pose proof (proj1 (nodup6 _ _ _ _ _ _) N) as N'.
  assert (Lx : label_of W m x = t).
  { assert (HT : forall s, s ∈ six_cells_of a b c x d e -> s ∈ T') by (intros s Hs; apply RP; right; exact Hs).
    assert (A1 : causal_type (cell_type (label_of W m) (of_list [x; a; b; d])) = true).
    { apply C'; [apply HT; unfold six_cells_of; constructor|]. rewrite elem_of_of_list. clear - F'. rewrite !elem_of_cons, !elem_of_nil in *. tauto. }
    assert (A2 : causal_type (cell_type (label_of W m) (of_list [x; a; b; e])) = true).
    { apply C'; [apply HT; unfold six_cells_of; clear; set_solver|]. rewrite elem_of_of_list. clear - F'. rewrite !elem_of_cons, !elem_of_nil in *. tauto. }
    rewrite cell_type_of_list in A1, A2 by (rewrite nodup4; clear - N'; intuition congruence).
    cbn [map] in A1, A2. rewrite La, Lb, Ld in A1. rewrite La, Lb, Le in A2.
    apply causal_bits in A1 as (s1 & b1 & b2 & b3 & b4 & Q1 & Q2 & Q3 & Q4).
    apply causal_bits in A2 as (s2 & d1 & d2 & d3 & d4 & P1 & P2 & P3 & P4).
    clear - Q1 Q2 Q3 Q4 P1 P2 P3 P4. unfold b2z in *. destruct b2; destruct b4; try (exfalso; lia); destruct d2; destruct d4; try (exfalso; lia); destruct b1; destruct d1; lia. }
  assert (L : labels_26 (label_of W m) a b c x d e) by (exists t; auto 10).
  destruct (two_six_sound _ _ _ _ _ _ _ _ V N F' L ok1 ok2) as (S & Q & D). rewrite <- ET in *.
  split; [exact S|]. exists a, b, c, x, d, e. split; [|split; [reflexivity|exact Q]].
  destruct D as [D|D]; [exact D|]. exfalso. destruct D as (_ & _ & _ & t' & A1 & _ & _ & _ & A2 & _). clear - A1 A2 La Ld Le. lia.
Qed.
