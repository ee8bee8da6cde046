(** Proofs about objects: the stored geometry is the geometry of the complex. *)
From Verif Require MoveSound FoliationFacts.
From Verif Require Import Base Geom Simplex Foliation Repair Objects ObjectsSpec ObjectsFacts ObjectsRuns ObjectsReads ObjectsWorld ObjectsLemmas.
From stdpp Require Import fin_sets gmap sorting.
From Verif Require Import Base Geom Simplex Foliation Objects ObjectsSpec ObjectsFacts ObjectsRuns ObjectsReads ObjectsWorld ObjectsLemmas.
Local Open Scope Z_scope.

Lemma finite_spec s : finite_simplex s = true <-> infinite ∉ s.
Proof. unfold finite_simplex. rewrite negb_true_iff, bool_decide_eq_false. reflexivity. Qed.
Lemma count_enum P (S : gset simplex) l : NoDup l -> (forall s, s ∈ l <-> s ∈ S /\ infinite ∉ s) ->
  count (fun s => finite_simplex s && P s) S = sum_of P l.
Proof.
  intros N E. rewrite <- count_list by exact N. unfold count. do 2 f_equal. apply leibniz_equiv. intros s.
  rewrite !elem_of_filter, elem_of_list_to_set, E.
  rewrite andb_true_iff, finite_spec. tauto.
Qed.
Lemma sum_of_map {B} P (f : B -> simplex) l : sum_of P (map f l) = Z.of_nat (length (List.filter (fun x => P (f x)) l)).
Proof. induction l as [|x l IH]; [reflexivity|]. unfold sum_of in *. cbn [map fold_right List.filter]. rewrite IH. destruct (P (f x)); cbn [length]; lia. Qed.

Section Geometry.
  Variable timevalue : fp -> fp -> positive -> Z.
  Variables (H : heap) (o : foliated) (t : tri).
  Hypothesis K : coherent timevalue H o t.
  Hypothesis D : three_dimensional H t.
  Let label := timevalue (f_radius o) (f_spacing o).
  Let T := complex H t.
  Let W := co_made _ _ _ _ K.

  Lemma point_inj v w : v ∈ vertex_handles t -> w ∈ vertex_handles t -> point H v = point H w -> v = w.
  Proof using D.
    pose proof (td_points H t D) as N. induction (vertex_handles t) as [|x l IH]; [intros X; apply elem_of_nil in X; destruct X|].
    cbn in N. apply list.NoDup_cons in N as [N1 N2]. intros A B E. apply elem_of_cons in A, B. destruct A as [-> |A], B as [-> |B].
    - reflexivity.
    - destruct N1. rewrite E. apply elem_of_list_In, in_map, elem_of_list_In, B.
    - destruct N1. rewrite <- E. apply elem_of_list_In, in_map, elem_of_list_In, A.
    - apply IH; assumption.
  Qed.
  Lemma cell_vertex c v : c ∈ cell_handles t -> v ∈ c_vertices (h_cell H c) -> v ∈ vertex_handles t.
  Proof using W.
    intros X V. apply elem_of_app in X as [X|X]; [apply in_vertices, (wm_cell H t W c X), V|apply (wm_hull H t W c v X V)].
  Qed.
  Lemma cell_points_once c : c ∈ cell_handles t -> NoDup (map (point H) (c_vertices (h_cell H c))).
  Proof using W D.
    intros X. pose proof (td_cell H t D c X) as N. pose proof (fun v => cell_vertex c v X) as V. revert N V.
    induction (c_vertices (h_cell H c)) as [|x l IH]; intros N V; [constructor|]. apply list.NoDup_cons in N as [N1 N2]. cbn. apply list.NoDup_cons. split.
    - intros E. apply elem_of_list_In, in_map_iff in E as (y & E & Y). apply elem_of_list_In in Y. apply point_inj in E; [subst; contradiction| |].
      + apply V. right. exact Y.
      + apply V. left.
    - apply IH; [exact N2|]. intros v Hv. apply V. right. exact Hv.
  Qed.
  Lemma finite_point v : v ∈ t_vertices t -> point H v <> infinite.
  Proof using W D.
    intros V E. rewrite <- (td_infinite H t D) in E. apply point_inj in E; [|apply in_vertices, V|left]. subst.
    pose proof (wm_vertices H t W) as N. apply list.NoDup_cons in N as [N _]. contradiction.
  Qed.
  Lemma finite_cell c : c ∈ t_cells t -> infinite ∉ points_of H c.
  Proof using W D.
    intros X E. apply elem_of_of_list, elem_of_list_In, in_map_iff in E as (v & E & V). apply elem_of_list_In in V.
    apply (finite_point v); [apply (wm_cell H t W c X), V|exact E].
  Qed.
  Lemma hull_cell c : c ∈ t_hull t -> infinite ∈ points_of H c.
  Proof using D.
    intros X. apply elem_of_of_list, elem_of_list_In, in_map_iff. exists (t_infinite t). split; [apply D|].
    apply elem_of_list_In, D, X.
  Qed.
  Lemma cells_enum s : s ∈ map (points_of H) (t_cells t) <-> s ∈ T /\ infinite ∉ s.
  Proof using W D.
    unfold T, complex. rewrite elem_of_list_to_set, map_app, elem_of_app. split.
    - intros X. split; [left; exact X|]. apply elem_of_list_In, in_map_iff in X as (c & <- & X). apply finite_cell, elem_of_list_In, X.
    - intros [[X|X] N]; [exact X|]. apply elem_of_list_In, in_map_iff in X as (c & <- & X). destruct N. apply hull_cell, elem_of_list_In, X.
  Qed.
  Lemma cells_once : NoDup (map (points_of H) (t_cells t)).
  Proof using D. pose proof (td_cells H t D) as N. unfold cell_handles in N. rewrite map_app in N. apply list.NoDup_app in N. apply N. Qed.
  Lemma count_cells P : count (fun s => finite_simplex s && P s) T = Z.of_nat (length (List.filter (fun c => P (points_of H c)) (t_cells t))).
  Proof using W D. rewrite (count_enum P T _ cells_once cells_enum). apply sum_of_map. Qed.
  Lemma type_of_cell c : c ∈ t_cells t -> cell_type label (points_of H c) = type_of_points label H c.
  Proof using W D.
    intros X. unfold points_of. rewrite cell_type_of_list by (apply cell_points_once, in_cells, X). unfold type_of_points. rewrite map_map. reflexivity.
  Qed.
  Lemma count_type k : n3_of label k T = Z.of_nat (length (List.filter (fun c => type_of_points label H c =? k) (t_cells t))).
  Proof using W D.
    unfold n3_of, finite_of_type. rewrite (count_cells (fun s => cell_type label s =? k)). do 2 f_equal. apply filter_ext_in'.
    intros c X. rewrite type_of_cell by exact X. reflexivity.
  Qed.
  Lemma filter_all {B} (l : list B) : List.filter (fun _ => true) l = l.
  Proof using. induction l as [|x l IH]; [reflexivity|]. cbn. rewrite IH. reflexivity. Qed.
  Lemma finite_true (S : gset simplex) : count finite_simplex S = count (fun s => finite_simplex s && true) S.
  Proof using. apply count_ext. intros s _. rewrite andb_true_r. reflexivity. Qed.
  Lemma edge_ends c i j : (c, i, j) ∈ t_edges t -> point H (vertex_of H c i) <> point H (vertex_of H c j).
  Proof using W D.
    intros X E. assert (Y : edge_data H (c, i, j) ∈ map (edge_data H) (t_edges t)) by (apply elem_of_list_In, in_map, elem_of_list_In, X).
    apply (td_edges H t D) in Y as [Y _]. apply elem_of_faces in Y as [Y _]. unfold edge_data in Y. rewrite E in Y.
    replace (of_list _) with ({[point H (vertex_of H c j)]} : simplex) in Y; [rewrite size_singleton in Y; discriminate Y|].
    apply leibniz_equiv. intros x. rewrite elem_of_of_list. set_solver.
  Qed.
  Lemma vertex_enum s : s ∈ map (fun v => ({[point H v]} : simplex)) (t_vertices t) <-> s ∈ Simplex.faces 1 T /\ infinite ∉ s.
  Proof using W D.
    rewrite elem_of_faces. split.
    - intros X. apply elem_of_list_In, in_map_iff in X as (v & <- & V). apply elem_of_list_In in V. split; [split|].
      + apply size_singleton.
      + destruct (td_vertices H t D v V) as (c & X & Y). exists (points_of H c). split.
        * unfold T, complex. apply elem_of_list_to_set, elem_of_list_In, in_map, elem_of_list_In, X.
        * apply singleton_subseteq_l, elem_of_of_list, elem_of_list_In, in_map, elem_of_list_In, Y.
      + intros E. apply elem_of_singleton in E. symmetry in E. revert E. apply finite_point, V.
    - intros [[S (c & X & Y)] N]. apply size_1_elem_of in S as [p E]. apply leibniz_equiv in E. subst s.
      unfold T, complex in X. apply elem_of_list_to_set, elem_of_list_In, in_map_iff in X as (d & <- & X). apply elem_of_list_In in X.
      apply singleton_subseteq_l, elem_of_of_list, elem_of_list_In, in_map_iff in Y as (v & <- & V). apply elem_of_list_In in V.
      apply elem_of_list_In, in_map_iff. exists v. split; [reflexivity|]. apply elem_of_list_In.
      pose proof (cell_vertex d v X V) as Z. apply elem_of_cons in Z as [->|Z]; [|exact Z]. destruct N. rewrite (td_infinite H t D). set_solver.
  Qed.
  Lemma vertex_once : NoDup (map (fun v => ({[point H v]} : simplex)) (t_vertices t)).
  Proof using W D.
    pose proof (td_points H t D) as N. cbn in N. apply list.NoDup_cons in N as [_ N]. rewrite <- (map_map (point H) (fun p => ({[p]} : simplex))).
    apply NoDup_fmap_2; [|exact N]. intros x y E. set_solver.
  Qed.
  Lemma geometry_agrees :
    geometry_of_object o = (fun g => mkGeometry (narrow32 (gN3 g)) (narrow32 (gN3_31 g)) (narrow32 (gN3_13 g))
      (narrow32 (gN3_31 g) + narrow32 (gN3_13 g)) (narrow32 (gN3_22 g)) (narrow32 (gN2 g)) (narrow32 (gN1 g))
      (narrow32 (gN1_TL g)) (narrow32 (gN1_SL g)) (narrow32 (gN0 g))) (geometry_of label T).
  Proof using W D.
    unfold geometry_of_object, geometry_of. cbn [gN3 gN3_31 gN3_13 gN3_31_13 gN3_22 gN2 gN1 gN1_TL gN1_SL gN0].
    unfold to_int, N1_TL, N1_SL, to_int, number_of_finite_cells, number_of_finite_facets, number_of_finite_edges, number_of_vertices.
    rewrite (tri_of_coherent timevalue H o t K). rewrite !count_type.
    rewrite (co_three_one _ _ _ _ K), (co_two_two _ _ _ _ K), (co_one_three _ _ _ _ K), (co_timelike _ _ _ _ K), (co_spacelike _ _ _ _ K).
    fold label. f_equal; f_equal.
    - unfold n3. rewrite finite_true, count_cells, filter_all. reflexivity.
    - unfold n2, T. rewrite finite_true, (count_enum (fun _ => true) _ _ (td_facets_once H t D) (td_facets H t D)), sum_of_map, filter_all. reflexivity.
    - unfold n1, T. rewrite finite_true, (count_enum (fun _ => true) _ _ (td_edges_once H t D) (td_edges H t D)), sum_of_map, filter_all. reflexivity.
    - unfold n1_tl, T. rewrite (count_enum (timelike label) _ _ (td_edges_once H t D) (td_edges H t D)), sum_of_map. do 2 f_equal.
      apply filter_ext_in'. intros [[c i] j] X. cbn [joins_slices edge_data]. rewrite timelike_of_list by (apply edge_ends, X). reflexivity.
    - unfold n1_sl, T. rewrite (count_enum (spacelike label) _ _ (td_edges_once H t D) (td_edges H t D)), sum_of_map. do 2 f_equal.
      apply filter_ext_in'. intros [[c i] j] X. cbn [joins_slices edge_data]. rewrite spacelike_of_list by (apply edge_ends, X). apply negb_involutive.
    - unfold n0. rewrite finite_true, (count_enum (fun _ => true) _ _ vertex_once vertex_enum), sum_of_map, filter_all. reflexivity.
  Qed.
  (** Times. *)
  Lemma finite_vertices_enum p : p ∈ elements (finite_vertices T) <-> p ∈ map (point H) (t_vertices t).
  Proof using W D.
    rewrite elem_of_elements. unfold finite_vertices. rewrite elem_of_difference, elem_of_singleton.
    assert (V : p ∈ Foliation.vertices T <-> {[p]} ∈ Simplex.faces 1 T).
    { rewrite elem_of_faces. unfold Foliation.vertices. rewrite elem_of_union_list. split.
      - intros (c & C0 & P). split; [apply size_singleton|]. exists c. rewrite elem_of_elements in C0. split; [exact C0|set_solver].
      - intros [_ (c & C0 & P)]. exists c. rewrite elem_of_elements. split; [exact C0|set_solver]. }
    rewrite V. split.
    - intros [F N]. assert (X : {[p]} ∈ map (fun v => ({[point H v]} : simplex)) (t_vertices t)) by (apply vertex_enum; split; [exact F|set_solver]).
      apply elem_of_list_In, in_map_iff in X as (v & E & X). apply elem_of_list_In, in_map_iff. exists v. split; [set_solver|exact X].
    - intros X. assert (Y : ({[p]} : simplex) ∈ map (fun v => ({[point H v]} : simplex)) (t_vertices t)).
      { apply elem_of_list_In, in_map_iff in X as (v & <- & X). apply elem_of_list_In, in_map_iff. exists v. auto. }
      apply vertex_enum in Y as [Y N]. split; [exact Y|set_solver].
  Qed.
  Lemma times_agree : f_max o = max_time label T /\ f_min o = min_time label T.
  Proof using W D.
    rewrite (co_max _ _ _ _ K), (co_min _ _ _ _ K). fold label. unfold max_time, min_time.
    rewrite <- !(map_map (point H) label).
    assert (X : forall x, x ∈ map label (map (point H) (t_vertices t)) <-> x ∈ map label (elements (finite_vertices T))).
    { intros x. rewrite !elem_of_list_fmap. split; intros (p & -> & P); exists p; (split; [reflexivity|]); apply finite_vertices_enum, P. }
    split; [apply MoveSound.list_max_set|apply MoveSound.list_min_set]; exact X.
  Qed.
  Lemma three_elements (f : simplex) : size f = 3%nat -> exists a b c, elements f = [a; b; c].
  Proof using.
    intros S. assert (L : length (elements f) = 3%nat) by exact S.
    destruct (elements f) as [|a [|b [|c [|]]]]; try discriminate L. eauto.
  Qed.
  Lemma slice_agree (f : simplex) : size f = 3%nat -> slice_set label f = facet_slice label f.
  Proof using.
    intros S. destruct (three_elements f S) as (a & b & c & E). unfold slice_set, facet_slice. rewrite E.
    assert (M : (set_map label f : gset Z) = {[label a; label b; label c]}).
    { apply leibniz_equiv. intros x. rewrite elem_of_map. split.
      - intros (p & -> & P). apply elem_of_elements in P. rewrite E in P. clear -P.
        apply elem_of_cons in P as [-> | P]; [set_solver|]. apply elem_of_cons in P as [-> | P]; [set_solver|].
        apply elem_of_list_singleton in P as ->. set_solver.
      - intros X. assert (Y : x = label a \/ x = label b \/ x = label c) by (clear -X; set_solver).
        destruct Y as [-> | [-> | ->]]; [exists a|exists b|exists c]; (split; [reflexivity|]); apply elem_of_elements; rewrite E; repeat constructor. }
    rewrite M. clear E M. destruct (Z.eqb_spec (label a) (label b)) as [E1|N1], (Z.eqb_spec (label b) (label c)) as [E2|N2]; cbn [andb].
    - rewrite E1, <- E2. assert (Q : ({[label b; label b; label b]} : gset Z) = {[label b]}) by (clear; set_solver).
      rewrite Q, elements_singleton. reflexivity.
    - destruct (elements ({[label a; label b; label c]} : gset Z)) as [|u [|u' l]] eqn:U; try reflexivity. exfalso. apply N2.
      assert (X : forall x, x ∈ ({[label a; label b; label c]} : gset Z) -> x = u) by (intros x X; apply elem_of_elements in X; rewrite U in X; apply elem_of_list_singleton in X; exact X).
      rewrite (X (label b)), (X (label c)) by (clear; set_solver). reflexivity.
    - destruct (elements ({[label a; label b; label c]} : gset Z)) as [|u [|u' l]] eqn:U; try reflexivity. exfalso. apply N1.
      assert (X : forall x, x ∈ ({[label a; label b; label c]} : gset Z) -> x = u) by (intros x X; apply elem_of_elements in X; rewrite U in X; apply elem_of_list_singleton in X; exact X).
      rewrite (X (label a)), (X (label b)) by (clear; set_solver). reflexivity.
    - destruct (elements ({[label a; label b; label c]} : gset Z)) as [|u [|u' l]] eqn:U; try reflexivity. exfalso. apply N1.
      assert (X : forall x, x ∈ ({[label a; label b; label c]} : gset Z) -> x = u) by (intros x X; apply elem_of_elements in X; rewrite U in X; apply elem_of_list_singleton in X; exact X).
      rewrite (X (label a)), (X (label b)) by (clear; set_solver). reflexivity.
  Qed.
  Lemma omap_filter_length {B} (f : B -> option Z) (l : list B) x :
    length (List.filter (fun k => k =? x) (omap f l)) = length (List.filter (fun b => bool_decide (f b = Some x)) l).
  Proof using.
    induction l as [|b l IH]; [reflexivity|]. cbn [omap list_omap List.filter]. destruct (f b) as [k|].
    - cbn [List.filter]. destruct (Z.eqb_spec k x) as [->|N].
      + rewrite bool_decide_true by reflexivity. cbn [length]. f_equal. exact IH.
      + rewrite bool_decide_false by congruence. exact IH.
    - rewrite bool_decide_false by congruence. exact IH.
  Qed.
  Lemma slices_agree x : Z.of_nat (spacelike_face_count o x) = slice_volume label x T.
  Proof using W D.
    rewrite (count_of_slices timevalue H o t x K), (co_slices _ _ _ _ K). fold label.
    rewrite (filter_perm_length _ _ _ (Permutation_map fst (sort_perm _))), omap_keys, omap_filter_length.
    unfold slice_volume, T. rewrite (count_enum (fun f => bool_decide (facet_slice label f = Some x)) _ _ (td_facets_once H t D) (td_facets H t D)).
    rewrite sum_of_map, <- (filter_map_length (facet_data H) (fun s => bool_decide (slice_set label s = Some x))). do 2 f_equal.
    apply filter_ext_in'. intros f F. rewrite slice_agree; [reflexivity|].
    assert (Y : facet_data H f ∈ map (facet_data H) (t_facets t)) by (apply elem_of_list_In, in_map, elem_of_list_In, F).
    apply (td_facets H t D) in Y as [Y _]. apply elem_of_faces in Y. apply Y.
  Qed.
  Lemma narrow_small z : 0 <= z < 2147483648 -> narrow32 z = z.
  Proof using. intros R. unfold narrow32. rewrite Z.mod_small by lia. lia. Qed.
  Lemma count_small P Q (S : gset simplex) : (forall s, P s = true -> Q s = true) -> count P S <= count Q S.
  Proof using.
    intros I. unfold count. apply inj_le. apply subseteq_size. intros s. rewrite !elem_of_filter. intros [A B]. auto.
  Qed.
  Lemma geometry_exact : n3 T < 2147483648 -> n2 T < 2147483648 -> n1 T < 2147483648 -> n0 T < 2147483648 ->
    geometry_of_object o = geometry_of label T.
  Proof using W D.
    intros B3 B2 B1 B0. rewrite geometry_agrees. unfold geometry_of. cbn [gN3 gN3_31 gN3_13 gN3_31_13 gN3_22 gN2 gN1 gN1_TL gN1_SL gN0].
    assert (R : forall k, 0 <= n3_of label k T < 2147483648).
    { intros k. split; [apply count_nonneg|]. eapply Z.le_lt_trans; [|exact B3]. apply count_small. intros s X. apply andb_true_iff in X. apply X. }
    assert (R1 : 0 <= n1_tl label T < 2147483648).
    { split; [apply count_nonneg|]. eapply Z.le_lt_trans; [|exact B1]. apply count_small. intros s X. apply andb_true_iff in X. apply X. }
    assert (R2 : 0 <= n1_sl label T < 2147483648).
    { split; [apply count_nonneg|]. eapply Z.le_lt_trans; [|exact B1]. apply count_small. intros s X. apply andb_true_iff in X. apply X. }
    rewrite !narrow_small; auto; (split; [apply count_nonneg|assumption]).
  Qed.
End Geometry.

(** ** Histories *)
Section Histories.
  Variable timevalue : fp -> fp -> positive -> Z.
  Variable C : cgal.
  Variable luck : nat -> nat.
  Hypothesis CO : cgal_ok C.
  Lemma object_in_history H l w x v o t : history timevalue C luck (start H) l w -> w_var w x = Some v ->
    (v = VF o \/ exists m, v = VM m /\ m_triangulation m = o) -> f_tri o = Some t -> coherent timevalue (w_heap w) o t.
  Proof using CO.
    intros Hi E V T. pose proof (history_good timevalue C luck CO _ l w Hi (start_good timevalue H)) as [G _]. specialize (G x v E).
    destruct V as [-> | (m & -> & <-)]; [exact (G t T)|]. exact (proj1 (G t T)).
  Qed.
  Lemma manifold_geometry H l w x m t : history timevalue C luck (start H) l w -> w_var w x = Some (VM m) ->
    f_tri (m_triangulation m) = Some t -> three_dimensional (w_heap w) t ->
    (let T := complex (w_heap w) t in n3 T < 2147483648 /\ n2 T < 2147483648 /\ n1 T < 2147483648 /\ n0 T < 2147483648) ->
    m_geometry m = geometry_of (timevalue (f_radius (m_triangulation m)) (f_spacing (m_triangulation m))) (complex (w_heap w) t).
  Proof using CO.
    intros Hi E T D (B3 & B2 & B1 & B0). pose proof (history_good timevalue C luck CO _ l w Hi (start_good timevalue H)) as [G _].
    destruct (G x _ E t T) as [K Ge]. rewrite Ge. apply (geometry_exact timevalue (w_heap w) (m_triangulation m) t K D); assumption.
  Qed.
  Lemma object_times H l w x v o t : history timevalue C luck (start H) l w -> w_var w x = Some v ->
    (v = VF o \/ exists m, v = VM m /\ m_triangulation m = o) -> f_tri o = Some t -> three_dimensional (w_heap w) t ->
    let label := timevalue (f_radius o) (f_spacing o) in
    f_max o = max_time label (complex (w_heap w) t) /\ f_min o = min_time label (complex (w_heap w) t) /\
    (forall k, Z.of_nat (spacelike_face_count o k) = slice_volume label k (complex (w_heap w) t)).
  Proof using CO.
    intros Hi E V T D. pose proof (object_in_history H l w x v o t Hi E V T) as K. cbv zeta.
    split; [|split]; [apply (times_agree timevalue _ o t K D)..|intros k; apply (slices_agree timevalue _ o t K D)].
  Qed.
  Lemma object_checks H l w x v o t : history timevalue C luck (start H) l w -> w_var w x = Some v ->
    (v = VF o \/ exists m, v = VM m /\ m_triangulation m = o) -> f_tri o = Some t ->
    let label := timevalue (f_radius o) (f_spacing o) in
    let causal := forall c, c ∈ t_cells t -> type_of_points label (w_heap w) c ∈ [THREE_ONE; TWO_TWO; ONE_THREE] in
    (is_correct (w_heap w) o = true <-> is_tds_valid (w_heap w) o = true /\ causal) /\
    (is_foliated (w_heap w) o = true <-> causal) /\
    is_correct_with_diagnostics (w_heap w) o = is_correct (w_heap w) o /\
    check_all_vertices timevalue (w_heap w) o = true.
  Proof using CO.
    intros Hi E V T. pose proof (object_in_history H l w x v o t Hi E V T) as K. cbv zeta.
    assert (X : check_all_cells (w_heap w) o = true <->
      forall c, c ∈ t_cells t -> type_of_points (timevalue (f_radius o) (f_spacing o)) (w_heap w) c ∈ [THREE_ONE; TWO_TWO; ONE_THREE]).
    { unfold check_all_cells. rewrite (tri_of_coherent timevalue _ o t K). split.
      - intros Ch c Hc. pose proof (check_cells_types timevalue _ o t K Ch c Hc) as R. cbn in R. rewrite !elem_of_cons. tauto.
      - intros R. apply forallb_true. intros c Hc. specialize (R c Hc). unfold is_cell_type_correct.
        rewrite (coherent_expected timevalue _ o t c K Hc). rewrite (co_types _ _ _ _ K c Hc).
        rewrite !elem_of_cons, elem_of_nil in R. destruct R as [-> | [-> | [-> | []]]]; reflexivity. }
    rewrite (coherent_correct timevalue _ o t K), (coherent_foliated timevalue _ o t K), andb_true_iff, X.
    split; [reflexivity|]. split; [reflexivity|].
    split; [rewrite <- (coherent_correct timevalue _ o t K); apply (coherent_diagnostics timevalue _ o t K)|apply (coherent_check_vertices timevalue _ o t K)].
  Qed.
  Lemma manifold_checks H l w x m t : history timevalue C luck (start H) l w -> w_var w x = Some (VM m) ->
    f_tri (m_triangulation m) = Some t ->
    gN3 (m_geometry m) = simplices m /\ gN2 (m_geometry m) = faces m /\ gN1 (m_geometry m) = edges m /\ gN0 (m_geometry m) = vertices m /\
    check_simplices (w_heap w) m = is_foliated (w_heap w) (m_triangulation m).
  Proof using CO.
    intros Hi E T. pose proof (history_good timevalue C luck CO _ l w Hi (start_good timevalue H)) as [G _].
    destruct (G x _ E t T) as [K Ge]. unfold check_simplices. rewrite Ge, (coherent_foliated timevalue _ _ t K).
    do 4 (split; [reflexivity|]). cbn [gN3 geometry_of_object]. unfold simplices. rewrite Z.eqb_refl. reflexivity.
  Qed.
  Lemma statement_isolated H l w a : history timevalue C luck (start H) l w -> allowed w a ->
    match act timevalue C luck w a with
    | Done w' => separate w' /\ unchanged_except timevalue (changed_by a) w w'
    | Thrown w' => separate w' /\ unchanged_except timevalue (consumed_by a) w w'
    | Undefined => False
    end.
  Proof using CO.
    intros Hi A. pose proof (history_good timevalue C luck CO _ l w Hi (start_good timevalue H)) as G.
    pose proof (after_act timevalue C luck CO w a G A) as X. unfold after in X. destruct (act timevalue C luck w a); [| |exact X];
      destruct X as [X Y]; (split; [apply X|exact Y]).
  Qed.
  Lemma history_separate H l w : history timevalue C luck (start H) l w -> separate w.
  Proof using CO. intros Hi. apply (history_good timevalue C luck CO _ l w Hi (start_good timevalue H)). Qed.
  (** ** What each statement gives *)
  Let hg := fun H l w Hi => history_good timevalue C luck CO (start H) l w Hi (start_good timevalue H).
  Lemma history_copy H l w x y w' a : history timevalue C luck (start H) l w -> a = Copy x y \/ a = AssignCopy x y -> allowed w a ->
    act timevalue C luck w a = Done w' ->
    exists v v', w_var w y = Some v /\ w_var w' x = Some v' /\ same_reading (read timevalue (w_heap w') v') (read timevalue (w_heap w) v).
  Proof using CO.
    intros Hi [-> | ->] A E.
    - eapply copy_reads; [exact CO|exact (hg _ _ _ Hi)|exact A|exact E].
    - eapply assign_copy_reads; [exact CO|exact (hg _ _ _ Hi)|exact A|exact E].
  Qed.
  Lemma history_snapshot H l w x y w' : history timevalue C luck (start H) l w -> allowed w (Snapshot x y) ->
    act timevalue C luck w (Snapshot x y) = Done w' ->
    exists v v', w_var w y = Some v /\ w_var w' x = Some v' /\
      r_vertices (read timevalue (w_heap w') v') ≡ₚ r_vertices (read timevalue (w_heap w) v) /\
      r_cells (read timevalue (w_heap w') v') ≡ₚ r_cells (read timevalue (w_heap w) v).
  Proof using CO. intros Hi A E. eapply snapshot_reads; [exact CO|exact (hg _ _ _ Hi)|exact A|exact E]. Qed.
  Lemma history_updated H l w x y w' m : history timevalue C luck (start H) l w -> allowed w (Updated x y) ->
    act timevalue C luck w (Updated x y) = Done w' -> w_var w y = Some (VM m) -> number_of_vertices (m_triangulation m) <> 0%nat ->
    exists m', w_var w' x = Some (VM m') /\ same_reading (read timevalue (w_heap w') (VM m')) (read timevalue (w_heap w) (VM m)).
  Proof using CO. intros Hi A E. eapply updated_reads; [exact CO|exact (hg _ _ _ Hi)|exact A|exact E]. Qed.
  Lemma history_move H l w x y w' : history timevalue C luck (start H) l w -> allowed w (Move x y) ->
    act timevalue C luck w (Move x y) = Done w' ->
    w_var w' x = w_var w y /\ w_heap w' = w_heap w /\ forall v, w_var w' y = Some v -> triangulation_in v = None.
  Proof using CO. intros Hi A E. eapply move_reads; [exact (hg _ _ _ Hi)|exact A|exact E]. Qed.
  Lemma history_fix H l w x a w' : history timevalue C luck (start H) l w -> a = FixVertices x \/ a = FixCells x -> allowed w a ->
    act timevalue C luck w a = Done w' ->
    exists v v', w_var w x = Some v /\ w_var w' x = Some v' /\ same_reading (read timevalue (w_heap w') v') (read timevalue (w_heap w) v).
  Proof using CO. intros Hi Ea A E. eapply fix_reads; [exact CO|exact (hg _ _ _ Hi)|exact Ea|exact A|exact E]. Qed.
  Lemma history_is_fixed H l w x o w' : history timevalue C luck (start H) l w -> allowed w (IsFixed x) ->
    act timevalue C luck w (IsFixed x) = Done w' -> w_var w x = Some (VF o) ->
    exists o', w_var w' x = Some (VF o') /\ f_radius o' = f_radius o /\ f_spacing o' = f_spacing o /\
      (is_foliated (w_heap w) o = true -> read timevalue (w_heap w') (VF o') = read timevalue (w_heap w) (VF o)).
  Proof using CO. intros Hi A E Ex. eapply is_fixed_reads; [exact CO|exact (hg _ _ _ Hi)|exact A|exact E|exact Ex]. Qed.
  (** Wrapping. *)
  Lemma history_wrap H l w x y b w' o : history timevalue C luck (start H) l w -> allowed w (ManifoldOfFoliated x y b) ->
    act timevalue C luck w (ManifoldOfFoliated x y b) = Done w' -> w_var w y = Some (VF o) ->
    exists m, w_var w' x = Some (VM m) /\
      same_reading (read timevalue (w_heap w') (VF (m_triangulation m))) (read timevalue (w_heap w) (VF o)).
  Proof using CO.
    intros Hi (D & o0 & Ey & I) E Ey'. rewrite Ey in Ey'. injection Ey' as ->. pose proof (hg _ _ _ Hi) as [GV _].
    destruct (coherent_of_value timevalue _ o (GV y _ Ey) I) as [t K]. cbn [act] in E. rewrite Ey in E. destruct b.
    - cbn [foliated_move] in E. unfold pure in E. injection E as <-. exists (manifold_of_foliated o). cbn [w_var w_heap]. rewrite set_same.
      split; [reflexivity|]. cbn. apply read_refl.
    - match type of E with run ?w0 ?m ?f = _ =>
        destruct (run_done w0 m f (fun n H' => copied timevalue (w_heap w) o t (m_triangulation n) H') (quiet (w_heap w)) w') with (2 := E) as (m0 & k & X & Ew) end.
      { apply wp_bind. eapply wp_mono; [apply (wp_foliated_copy timevalue C luck CO o t _ K)| |auto]. intros o' H' X. apply wp_ret. exact X. }
      exists m0. split; [rewrite Ew; apply set_same|]. cbn [read]. eapply copied_reads; eassumption.
  Qed.
  (** Building on a plain triangulation, by copy or by move. *)
  Lemma history_of_plain H l w x y b r s w' t : history timevalue C luck (start H) l w -> allowed w (FoliatedOfPlain x y b r s) ->
    act timevalue C luck w (FoliatedOfPlain x y b r s) = Done w' -> w_var w y = Some (VP (Some t)) ->
    exists o, w_var w' x = Some (VF o) /\ f_radius o = r /\ f_spacing o = s /\ number_of_vertices o <> 0%nat /\
      map fst (r_vertices (read timevalue (w_heap w') (VF o))) ≡ₚ map fst (r_vertices (read timevalue (w_heap w) (VP (Some t)))) /\
      map fst (r_cells (read timevalue (w_heap w') (VF o))) ≡ₚ map fst (r_cells (read timevalue (w_heap w) (VP (Some t)))).
  Proof using CO.
    intros Hi (D & t0 & Ey) E Ey'. rewrite Ey in Ey'. injection Ey' as ->. pose proof (hg _ _ _ Hi) as [GV _].
    pose proof (GV y _ Ey t eq_refl) as W. cbn [act] in E. rewrite Ey in E.
    set (Q := fun (o : foliated) (H' : heap) => f_radius o = r /\ f_spacing o = s /\ number_of_vertices o <> 0%nat /\
      map fst (map (vertex_data H') (t_vertices (tri_of o))) ≡ₚ map fst (map (vertex_data (w_heap w)) (t_vertices t)) /\
      map fst (map (cell_data H') (t_cells (tri_of o))) ≡ₚ map fst (map (cell_data (w_heap w)) (t_cells t))).
    assert (New : forall t1 H1, well_made H1 t1 ->
      map fst (map (vertex_data H1) (t_vertices t1)) ≡ₚ map fst (map (vertex_data (w_heap w)) (t_vertices t)) ->
      map fst (map (cell_data H1) (t_cells t1)) ≡ₚ map fst (map (cell_data (w_heap w)) (t_cells t)) ->
      wp (foliated_of_delaunay timevalue luck t1 r s) Q (fun _ => True) H1).
    { intros t1 H1 W1 EV EC. unfold foliated_of_delaunay, foliated_of_state.
      destruct (bool_decide_reflect (t_vertices t1 = [])) as [N|N]; [intros k; exact I|].
      assert (X := wp_of_state timevalue luck t1 r s H1 W1). unfold foliated_of_state in X. rewrite bool_decide_false in X by exact N.
      eapply wp_mono; [exact X| |auto]. intros o H2 (R & K & Er & Es). unfold Q.
      rewrite (tri_of_coherent timevalue _ o t1 K). split; [exact Er|]. split; [exact Es|]. unfold number_of_vertices.
      rewrite (tri_of_coherent timevalue _ o t1 K). split; [destruct (t_vertices t1); [congruence|discriminate]|].
      rewrite !map_map in *. destruct R as (_ & RP & RC & _). split.
      - rewrite <- EV. erewrite map_ext; [reflexivity|]. intros v. cbn. apply RP.
      - rewrite <- EC. erewrite map_ext; [reflexivity|]. intros c. cbn. rewrite RC. apply map_ext, RP. }
    destruct b.
    - match type of E with run ?w0 ?m ?f = _ => destruct (run_done w0 m f Q (fun _ => True) w') with (2 := E) as (o & k & X & Ew) end.
      + cbn [w_heap]. apply New; [exact W|reflexivity|reflexivity].
      + exists o. split; [rewrite Ew; apply set_same|]. exact X.
    - match type of E with run ?w0 ?m ?f = _ => destruct (run_done w0 m f Q (fun _ => True) w') with (2 := E) as (o & k & X & Ew) end.
      + apply wp_bind. eapply wp_mono; [apply (wp_copy C luck CO t _ W)| |auto]. intros t1 H1 [M1 S1].
        apply New; [apply M1|apply Permutation_map, S1|apply Permutation_map, S1].
      + exists o. split; [rewrite Ew; apply set_same|]. exact X.
  Qed.
  (** Building from points. *)
  Lemma history_of_vertices H l w x ps r s w' : history timevalue C luck (start H) l w -> allowed w (FoliatedOfVertices x ps r s) ->
    act timevalue C luck w (FoliatedOfVertices x ps r s) = Done w' ->
    exists o, w_var w' x = Some (VF o) /\ f_radius o = r /\ f_spacing o = s /\ ps <> [] /\
      r_vertices (read timevalue (w_heap w') (VF o)) ≡ₚ map (fun p => (p, timevalue r s p)) (map fst ps) /\ NoDup (map fst ps).
  Proof using CO.
    intros Hi D E. cbn [act] in E.
    set (Q := fun (o : foliated) (H' : heap) => f_radius o = r /\ f_spacing o = s /\ ps <> [] /\
      map (vertex_data H') (t_vertices (tri_of o)) ≡ₚ map (fun p => (p, timevalue r s p)) (map fst ps) /\ NoDup (map fst ps)).
    match type of E with run ?w0 ?m ?f = _ => destruct (run_done w0 m f Q (fun _ => True) w') with (2 := E) as (o & k & X & Ew) end.
    - apply wp_bind. unfold delaunay_of_vertices. apply wp_bind. eapply wp_mono; [apply (wp_insert C luck CO)| |auto]. intros t1 H1 (M1 & N1 & S1).
      destruct (Nat.eqb_spec (length (t_vertices t1)) (length ps)) as [L|L]; [|apply wp_throw; exact I]. apply wp_ret.
      assert (P1 : map (point H1) (t_vertices t1) ≡ₚ map fst ps).
      { apply submseteq_Permutation_length_le; [rewrite !map_length; lia|apply NoDup_submseteq; [exact N1|exact S1]]. }
      unfold foliated_of_state.
      destruct (bool_decide_reflect (t_vertices t1 = [])) as [N|N]; [intros k; exact I|].
      assert (X := wp_of_state timevalue luck t1 r s H1 (proj1 (proj2 M1))). unfold foliated_of_state in X. rewrite bool_decide_false in X by exact N.
      eapply wp_mono; [exact X| |auto]. intros o H2 (R & K & Er & Es). unfold Q.
      rewrite (tri_of_coherent timevalue _ o t1 K). split; [exact Er|]. split; [exact Es|].
      split; [intros ->; apply N, length_zero_iff_nil, L|].
      assert (RP : map (point H2) (t_vertices t1) = map (point H1) (t_vertices t1)) by (apply map_ext; apply R).
      split; [|rewrite <- P1; exact N1].
      rewrite (coherent_vertex_data timevalue _ o t1 K), Er, Es, RP. apply Permutation_map, P1.
    - exists o. split; [rewrite Ew; apply set_same|]. exact X.
  Qed.
End Histories.
