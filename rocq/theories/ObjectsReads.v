(** Proofs about objects: what clients read. *)
From Verif Require Moves FoliationFacts MoveSound.
From Verif Require Import Base Geom Simplex Foliation Repair Objects ObjectsSpec ObjectsFacts ObjectsRuns.
From Coq Require Import Sorting.Sorted.
From stdpp Require Import fin_sets gmap sorting.
From Verif Require Import Base Geom Simplex Foliation Objects ObjectsSpec ObjectsFacts ObjectsRuns.
Local Open Scope Z_scope.

Section Reads.
  Variable timevalue : fp -> fp -> positive -> Z.

  Lemma tri_of_coherent H o t : coherent timevalue H o t -> tri_of o = t.
  Proof using. intros K. unfold tri_of. rewrite (co_tri _ _ _ _ K). reflexivity. Qed.

  Lemma filter_lengths {B} (p : B -> bool) l :
    (length (List.filter p l) + length (List.filter (fun x => negb (p x)) l) = length l)%nat.
  Proof using. induction l as [|x l IH]; [reflexivity|]. cbn. destruct (p x); cbn; lia. Qed.
  Lemma omap_length {B D} (p : B -> option D) (l : list B) : (length (omap p l) <= length l)%nat.
  Proof using. induction l as [|x l IH]; [cbn; lia|]. cbn. destruct (p x); cbn; lia. Qed.
  Lemma sort_perm {B} (l : list (Z * B)) : stable_sort_by_key l ≡ₚ l.
  Proof using. apply FoliationFacts.sort_spec. Qed.

  (** The containers of a coherent object agree with each other and with the
      triangulation. *)
  Lemma coherent_slices_length H o t : coherent timevalue H o t -> (length (f_spacelike_facets o) <= length (f_faces o))%nat.
  Proof using.
    intros K. rewrite (co_slices _ _ _ _ K), (co_faces _ _ _ _ K), (Permutation_length (sort_perm _)). apply omap_length.
  Qed.
  Lemma coherent_types_length H o t : coherent timevalue H o t ->
    (forall c, c ∈ t_cells t -> let k := type_of_points (timevalue (f_radius o) (f_spacing o)) H c in
       k = THREE_ONE \/ k = TWO_TWO \/ k = ONE_THREE) ->
    (length (f_three_one o) + length (f_two_two o) + length (f_one_three o) = length (f_cells o))%nat.
  Proof using.
    intros K G. rewrite (co_three_one _ _ _ _ K), (co_two_two _ _ _ _ K), (co_one_three _ _ _ _ K), (co_cells _ _ _ _ K).
    set (ty := type_of_points (timevalue (f_radius o) (f_spacing o)) H) in *. clearbody ty. clear K.
    induction (t_cells t) as [|c l IH]; [reflexivity|]. cbn [List.filter length].
    assert (IH' := IH (fun d X => G d (elem_of_list_further d c l X))). clear IH.
    specialize (G c (elem_of_list_here c l)). cbn in G. destruct G as [-> | [-> | ->]]; cbn; lia.
  Qed.
  Lemma coherent_times_order H o t : coherent timevalue H o t -> t_vertices t <> [] -> f_min o <= f_max o.
  Proof using.
    intros K N. rewrite (co_max _ _ _ _ K), (co_min _ _ _ _ K). set (l := map _ (t_vertices t)).
    assert (Nl : l <> []) by (intros X; apply map_eq_nil in X; contradiction).
    destruct (list_max_In l Nl) as [_ B]. destruct (list_min_In l Nl) as [A _]. auto.
  Qed.
  Lemma classify_range ts : let k := classify ts in
    k <> ACAUSAL -> k <> UNCLASSIFIED -> k = THREE_ONE \/ k = TWO_TWO \/ k = ONE_THREE.
  Proof using.
    cbn. unfold classify. repeat (destruct (_ =? _) || destruct (_ <? _) || destruct (_ || _) || destruct (_ && _)); auto; try congruence.
  Qed.
  Lemma check_cells_types H o t : coherent timevalue H o t -> check_cells H t = true ->
    forall c, c ∈ t_cells t -> let k := type_of_points (timevalue (f_radius o) (f_spacing o)) H c in
       k = THREE_ONE \/ k = TWO_TWO \/ k = ONE_THREE.
  Proof using.
    intros K Ch c X. unfold check_cells in Ch. rewrite forallb_forall in Ch. specialize (Ch c (proj1 (elem_of_list_In _ _) X)).
    unfold is_cell_type_correct in Ch. rewrite (coherent_expected timevalue H o t c K X) in Ch. cbn.
    apply andb_true_iff in Ch as [Ch _]. apply andb_true_iff in Ch as [C1 C2].
    apply negb_true_iff, Z.eqb_neq in C1. apply negb_true_iff, Z.eqb_neq in C2. apply classify_range; assumption.
  Qed.
  Lemma coherent_structure H o t : coherent timevalue H o t -> check_cells H t = true -> has_consistent_structure o = true.
  Proof using.
    intros K Ch. unfold has_consistent_structure, number_of_vertices. rewrite (tri_of_coherent H o t K).
    rewrite !andb_true_iff. repeat split.
    - rewrite (co_vertices _ _ _ _ K). apply Nat.eqb_refl.
    - apply Nat.leb_le, (coherent_slices_length H o t K).
    - apply Nat.eqb_eq, (coherent_types_length H o t K), (check_cells_types H o t K Ch).
    - apply Nat.eqb_eq. rewrite (co_timelike _ _ _ _ K), (co_spacelike _ _ _ _ K), (co_edges _ _ _ _ K). apply filter_lengths.
    - rewrite (co_vertices _ _ _ _ K). destruct (bool_decide_reflect (t_vertices t = [])) as [N|N].
      + rewrite (co_max _ _ _ _ K), (co_min _ _ _ _ K), N. reflexivity.
      + apply Z.leb_le, (coherent_times_order H o t K N).
  Qed.
  Lemma coherent_caches H o t : coherent timevalue H o t ->
    (forall k, filter_cells H (t_cells t) k = List.filter (fun c => type_of_points (timevalue (f_radius o) (f_spacing o)) H c =? k) (t_cells t)) /\
    collect_spacelike_facets H (t_facets t) = f_spacelike_facets o /\
    filter_edges H (t_edges t) true = f_timelike_edges o /\ filter_edges H (t_edges t) false = f_spacelike_edges o.
  Proof using.
    intros K. pose proof (co_made _ _ _ _ K) as W. split; [|split; [|split]].
    - intros k. apply filter_ext_in'. intros c X. rewrite (co_types _ _ _ _ K c X). reflexivity.
    - rewrite (co_slices _ _ _ _ K). unfold collect_spacelike_facets. f_equal. apply omap_ext_in. intros f X.
      rewrite (facet_time_slice (timevalue (f_radius o) (f_spacing o))); [reflexivity|].
      intros v V. apply K, (wm_facet H t W f X), V.
    - rewrite (co_timelike _ _ _ _ K). apply filter_ext_in'. intros [[c i] j] X. destruct (wm_edge H t W c i j X) as (_ & A & B & _).
      unfold is_timelike, joins_slices. rewrite (co_times _ _ _ _ K _ A), (co_times _ _ _ _ K _ B). destruct (negb _); reflexivity.
    - rewrite (co_spacelike _ _ _ _ K). apply filter_ext_in'. intros [[c i] j] X. destruct (wm_edge H t W c i j X) as (_ & A & B & _).
      unfold is_timelike, joins_slices. rewrite (co_times _ _ _ _ K _ A), (co_times _ _ _ _ K _ B). destruct (negb _); reflexivity.
  Qed.
  Lemma forallb_true {B} (p : B -> bool) l : (forall x, x ∈ l -> p x = true) -> forallb p l = true.
  Proof using. intros X. apply forallb_forall. intros x I. apply X, elem_of_list_In, I. Qed.
  Lemma coherent_derived H o t : coherent timevalue H o t -> has_consistent_derived_state H o = has_consistent_structure o.
  Proof using.
    intros K. pose proof (co_made _ _ _ _ K) as W. unfold has_consistent_derived_state.
    destruct (has_consistent_structure o); [|reflexivity]. cbn [negb].
    unfold number_of_finite_cells, number_of_finite_facets, number_of_finite_edges. rewrite (tri_of_coherent H o t K).
    rewrite (co_cells _ _ _ _ K), (co_faces _ _ _ _ K), (co_edges _ _ _ _ K), (co_vertices _ _ _ _ K), !Nat.eqb_refl. cbn [negb orb].
    rewrite (forallb_true (owns_vertex t)), (forallb_true (owns_cell t)), (forallb_true (fun f => owns_cell t f.1 && _)), (forallb_true (fun e => owns_cell t e.1.1)).
    2:{ intros [[c i] j] X. apply bool_decide_eq_true. exact (proj1 (wm_edge H t W c i j X)). }
    2:{ intros f X. destruct (wm_facet H t W f X) as (A & B & _). apply andb_true_iff. split; [apply bool_decide_eq_true, A|apply Nat.ltb_lt, B]. }
    2:{ intros c X. apply bool_decide_eq_true, in_cells, X. }
    2:{ intros v X. apply bool_decide_eq_true, in_vertices, X. }
    cbn [negb orb]. destruct (coherent_caches H o t K) as (A & -> & -> & ->). rewrite !A.
    rewrite <- (co_three_one _ _ _ _ K), <- (co_two_two _ _ _ _ K), <- (co_one_three _ _ _ _ K).
    rewrite !bool_decide_true by reflexivity. cbn [negb orb].
    destruct (bool_decide_reflect (t_vertices t = [])) as [N|N]; [reflexivity|].
    rewrite (find_max H _ N), (find_min H _ N).
    rewrite !bool_decide_true; [reflexivity| |]; f_equal; [rewrite (co_min _ _ _ _ K)|rewrite (co_max _ _ _ _ K)]; f_equal;
      apply map_ext_in'; apply K.
  Qed.
  Lemma coherent_diagnostics H o t : coherent timevalue H o t -> is_correct_with_diagnostics H o = is_correct H o.
  Proof using.
    intros K. unfold is_correct_with_diagnostics, is_correct. rewrite (coherent_derived H o t K).
    unfold is_structurally_correct. destruct (has_consistent_structure o); [|reflexivity]. rewrite andb_true_r. reflexivity.
  Qed.
  Lemma coherent_correct H o t : coherent timevalue H o t ->
    is_correct H o = is_tds_valid H o && check_all_cells H o.
  Proof using.
    intros K. unfold is_correct, is_structurally_correct, check_all_cells. rewrite (tri_of_coherent H o t K).
    destruct (check_cells H t) eqn:Ch; [|rewrite !andb_false_r; reflexivity].
    rewrite (coherent_structure H o t K Ch). reflexivity.
  Qed.
  Lemma coherent_check_vertices H o t : coherent timevalue H o t -> check_all_vertices timevalue H o = true.
  Proof using.
    intros K. unfold check_all_vertices, check_vertices. rewrite (tri_of_coherent H o t K). apply forallb_true.
    intros v V. unfold is_vertex_timevalue_correct. rewrite (co_times _ _ _ _ K v V). apply Z.eqb_refl.
  Qed.
  (** No cell of a wrong type: checking cells and checking the foliation are one. *)
  Lemma coherent_foliated H o t : coherent timevalue H o t -> is_foliated H o = check_all_cells H o.
  Proof using.
    intros K. unfold is_foliated, check_all_cells, check_cells, find_invalid_timevalue_cells. rewrite (tri_of_coherent H o t K).
    assert (T : forall c, c ∈ t_cells t -> expected_cell_type H c = c_info (h_cell H c)).
    { intros c X. rewrite (coherent_expected timevalue H o t c K X). symmetry. apply K, X. }
    revert T. induction (t_cells t) as [|c l IH]; intros T; [reflexivity|]. cbn [List.filter forallb].
    specialize (IH (fun d X => T d (elem_of_list_further d c l X))). specialize (T c (elem_of_list_here c l)).
    unfold is_cell_type_correct at 1. rewrite T, Z.eqb_refl, andb_true_r.
    destruct (c_info (h_cell H c) =? ACAUSAL), (c_info (h_cell H c) =? UNCLASSIFIED); cbn [orb negb andb]; try reflexivity. exact IH.
  Qed.

  (** ** Frame *)
  Lemma read_frame H H' g o t : agree t H H' -> coherent timevalue H o t ->
    read_foliated timevalue H' g o = read_foliated timevalue H g o.
  Proof using.
    intros A K. pose proof (coherent_frame timevalue H H' o t A K) as K'. pose proof (co_made _ _ _ _ K) as W.
    unfold read_foliated. rewrite (coherent_diagnostics H o t K), (coherent_diagnostics H' o t K'),
      (coherent_correct H o t K), (coherent_correct H' o t K'), (coherent_foliated H o t K), (coherent_foliated H' o t K'),
      (coherent_check_vertices H o t K), (coherent_check_vertices H' o t K').
    unfold is_tds_valid, check_all_cells. rewrite (tri_of_coherent H o t K), (agree_complex t H H' A W).
    replace (check_cells H' t) with (check_cells H t).
    2:{ apply forallb_ext_in. intros c X. unfold is_cell_type_correct. rewrite (agree_expected t H H' A W c X), (agree_cell t H H' A c (in_cells t c X)). reflexivity. }
    f_equal.
    - apply map_ext_in'. intros v V. unfold vertex_data. rewrite (agree_point t H H' A v V), (agree_info t H H' A v V). reflexivity.
    - apply map_ext_in'. intros c X. apply (agree_cell_data t H H' A W c X).
  Qed.
  Lemma plain_frame H H' t : agree t H H' -> well_made H t -> read timevalue H' (VP (Some t)) = read timevalue H (VP (Some t)).
  Proof using.
    intros A W. cbn. f_equal.
    - apply map_ext_in'. intros v V. unfold vertex_data. rewrite (agree_point t H H' A v V), (agree_info t H H' A v V). reflexivity.
    - apply map_ext_in'. intros c X. apply (agree_cell_data t H H' A W c X).
  Qed.

  (** ** Copies read the same *)
  Lemma sorted_unique l l' : StronglySorted Z.le l -> StronglySorted Z.le l' -> l ≡ₚ l' -> l = l'.
  Proof using. intros S S' P. apply (StronglySorted_unique Z.le); assumption. Qed.
  Lemma sort_keys {B} (l : list (Z * B)) : StronglySorted Z.le (map fst (stable_sort_by_key l)).
  Proof using.
    destruct (FoliationFacts.sort_spec l) as (S & _). revert S. generalize (stable_sort_by_key l). clear l.
    induction l as [|x l IH]; intros S; [constructor|]. apply StronglySorted_inv in S as [S F]. cbn. constructor; [apply IH, S|].
    rewrite List.Forall_map. exact F.
  Qed.
  Lemma sort_same_keys {B D} (l : list (Z * B)) (l' : list (Z * D)) : map fst l ≡ₚ map fst l' ->
    map fst (stable_sort_by_key l) = map fst (stable_sort_by_key l').
  Proof using.
    intros P. apply sorted_unique; [apply sort_keys|apply sort_keys|]. rewrite !(Permutation_map fst (sort_perm _)). exact P.
  Qed.
  Lemma filter_key_length {B} (l : list (Z * B)) t :
    length (List.filter (fun e => fst e =? t) l) = length (List.filter (fun k => k =? t) (map fst l)).
  Proof using. induction l as [|x l IH]; [reflexivity|]. cbn. destruct (fst x =? t); cbn; rewrite IH; reflexivity. Qed.
  Lemma count_of_slices H o t x : coherent timevalue H o t ->
    spacelike_face_count o x = length (List.filter (fun k => k =? x) (map fst (f_spacelike_facets o))).
  Proof using.
    intros K. unfold spacelike_face_count. rewrite FoliationFacts.equal_range_sorted.
    - apply filter_key_length.
    - rewrite (co_slices _ _ _ _ K). apply FoliationFacts.sort_spec.
  Qed.
  Lemma filter_map_length {B D} (f : B -> D) (p : D -> bool) l :
    length (List.filter (fun x => p (f x)) l) = length (List.filter p (map f l)).
  Proof using. induction l as [|x l IH]; [reflexivity|]. cbn. destruct (p (f x)); cbn; rewrite IH; reflexivity. Qed.
  Lemma filter_perm_length {B} (p : B -> bool) (l l' : list B) : l ≡ₚ l' -> length (List.filter p l) = length (List.filter p l').
  Proof using. intros P. induction P; cbn; repeat destruct (p _); cbn; lia. Qed.
  (** Whether an edge, as a set of points, joins two slices. *)
  Definition joins_set (label : positive -> Z) (e : simplex) : bool :=
    negb (bool_decide (size (set_map label e : gset Z) = 1%nat)).
  Lemma joins_edge label H e : joins_slices label H e = joins_set label (edge_data H e).
  Proof using.
    destruct e as [[c i] j]. unfold joins_slices, joins_set, edge_data. f_equal.
    set (p := point H (vertex_of H c i)). set (q := point H (vertex_of H c j)).
    replace (set_map label (of_list [p; q]) : gset Z) with ({[label p; label q]} : gset Z).
    2:{ apply leibniz_equiv. intros x. rewrite elem_of_map, elem_of_union, !elem_of_singleton. split.
        - intros [->| ->]; eexists; (split; [reflexivity|]); apply elem_of_of_list; set_solver.
        - intros (y & -> & Y). apply elem_of_of_list in Y. set_solver. }
    destruct (Z.eqb_spec (label p) (label q)) as [E|E].
    - rewrite E, union_idemp_L, size_singleton. reflexivity.
    - rewrite size_union, !size_singleton by set_solver. reflexivity.
  Qed.
  (** The slice of a facet, as a function of its points. *)
  Definition slice_set (label : positive -> Z) (f : simplex) : option Z :=
    match elements (set_map label f : gset Z) with [t] => Some t | _ => None end.
  Lemma omap_keys label H (l : list (nat * nat)) :
    map fst (omap (fun f => match slice_of_points label H f with Some x => Some (x, f) | None => None end) l) =
    omap (slice_set label) (map (facet_data H) l).
  Proof using.
    induction l as [|f l IH]; [reflexivity|]. rewrite map_cons. cbn [omap list_omap].
    change (slice_of_points label H f) with (slice_set label (facet_data H f)).
    destruct (slice_set label (facet_data H f)); [rewrite map_cons; cbn [fst]; f_equal|]; exact IH.
  Qed.

  Section Same.
    Variables (H H' : heap) (o o' : foliated) (t t' : tri).
    Hypothesis K : coherent timevalue H o t.
    Hypothesis K' : coherent timevalue H' o' t'.
    Hypothesis Er : f_radius o' = f_radius o.
    Hypothesis Es : f_spacing o' = f_spacing o.
    Hypothesis S : same_contents H t H' t'.
    Lemma same_type_count k :
      length (List.filter (fun c => type_of_points (timevalue (f_radius o') (f_spacing o')) H' c =? k) (t_cells t')) =
      length (List.filter (fun c => type_of_points (timevalue (f_radius o) (f_spacing o)) H c =? k) (t_cells t)).
    Proof using K K' Er Es S.
      rewrite (filter_ext_in' _ (fun c => snd (cell_data H' c) =? k) (t_cells t')).
      2:{ intros c X. cbn. rewrite (co_types _ _ _ _ K' c X). reflexivity. }
      rewrite (filter_ext_in' _ (fun c => snd (cell_data H c) =? k) (t_cells t)).
      2:{ intros c X. cbn. rewrite (co_types _ _ _ _ K c X). reflexivity. }
      rewrite !(filter_map_length (cell_data _) (fun d => snd d =? k)). apply filter_perm_length, S.
    Qed.
    Lemma same_keys : map fst (f_spacelike_facets o') = map fst (f_spacelike_facets o).
    Proof using K K' Er Es S.
      rewrite (co_slices _ _ _ _ K), (co_slices _ _ _ _ K'). apply sort_same_keys. rewrite !omap_keys, Er, Es.
      generalize (same_facets _ _ _ _ S). generalize (map (facet_data H') (t_facets t')). generalize (map (facet_data H) (t_facets t)).
      intros l l' P. induction P; cbn; try reflexivity.
      - destruct (slice_set _ x); [constructor|]; exact IHP.
      - destruct (slice_set _ x), (slice_set _ y); try reflexivity. constructor.
      - etransitivity; eassumption.
    Qed.
    Lemma same_edge_count (b : bool -> bool) :
      length (List.filter (fun e => b (joins_slices (timevalue (f_radius o') (f_spacing o')) H' e)) (t_edges t')) =
      length (List.filter (fun e => b (joins_slices (timevalue (f_radius o) (f_spacing o)) H e)) (t_edges t)).
    Proof using K K' Er Es S.
      rewrite (filter_ext_in' _ (fun e => b (joins_set (timevalue (f_radius o) (f_spacing o)) (edge_data H' e))) (t_edges t')).
      2:{ intros e _. rewrite joins_edge, Er, Es. reflexivity. }
      rewrite (filter_ext_in' _ (fun e => b (joins_set (timevalue (f_radius o) (f_spacing o)) (edge_data H e))) (t_edges t)).
      2:{ intros e _. rewrite joins_edge. reflexivity. }
      rewrite !(filter_map_length (edge_data _) (fun d => b (joins_set _ d))). apply filter_perm_length, S.
    Qed.
    Lemma same_complex : complex H' t' = complex H t.
    Proof using S.
      unfold complex. rewrite !map_app, !list_to_set_app_L.
      assert (G : forall (l l' : list simplex), l' ≡ₚ l -> (list_to_set l' : tds) = list_to_set l).
      { intros l l' P. apply leibniz_equiv. intros x. rewrite !elem_of_list_to_set, P. reflexivity. }
      f_equal; apply G; [|apply S].
      pose proof (Permutation_map (fun d => of_list (fst d)) (same_cells _ _ _ _ S)) as P. rewrite !map_map in P. exact P.
    Qed.
    Lemma same_check : check_cells H' t' = check_cells H t.
    Proof using K K' Er Es S.
      assert (G : forall H o t, coherent timevalue H o t -> check_cells H t =
        forallb (fun d => negb (snd d =? ACAUSAL) && negb (snd d =? UNCLASSIFIED)) (map (cell_data H) (t_cells t))).
      { clear. intros H o t K. unfold check_cells. pose proof (fun c => coherent_expected timevalue H o t c K) as X.
        pose proof (co_types _ _ _ _ K) as Y. induction (t_cells t) as [|c l IH]; [reflexivity|]. cbn.
        rewrite IH by (intros d D; first [apply X|apply Y]; right; exact D). f_equal. unfold is_cell_type_correct.
        rewrite (X c) by left. rewrite <- (Y c) by left. rewrite Z.eqb_refl, andb_true_r. reflexivity. }
      rewrite (G H o t K), (G H' o' t' K').
      generalize (same_cells _ _ _ _ S). generalize (map (cell_data H') (t_cells t')). generalize (map (cell_data H) (t_cells t)).
      intros l l' P. induction P; cbn [forallb]; try congruence.
      destruct (snd x =? ACAUSAL), (snd x =? UNCLASSIFIED), (snd y =? ACAUSAL), (snd y =? UNCLASSIFIED); reflexivity.
    Qed.
    Lemma nil_perm {B D} (f : B -> D) (g : B -> D) l l' : map f l' ≡ₚ map g l -> (l' = [] <-> l = []).
    Proof using.
      intros P. split; intros ->; cbn in P.
      - apply Permutation_nil_l in P. symmetry in P. exact (map_eq_nil _ _ P) || (apply map_eq_nil in P; exact P).
      - apply Permutation_nil_r in P. apply map_eq_nil in P. exact P.
    Qed.
    Lemma same_valid : is_tds_valid H' o' = is_tds_valid H o.
    Proof using K K' S.
      unfold is_tds_valid. rewrite (tri_of_coherent H o t K), (tri_of_coherent H' o' t' K'), same_complex. f_equal.
      apply bool_decide_ext. apply (nil_perm (cell_data H') (cell_data H)), S.
    Qed.
    Lemma same_read g : same_reading (read_foliated timevalue H' g o') (read_foliated timevalue H g o).
    Proof using K K' Er Es S.
      constructor; cbn [r_geometry r_counts r_edge_counts r_times r_configuration r_checks r_slices r_vertices r_cells read_foliated].
      - reflexivity.
      - unfold number_of_vertices, number_of_finite_edges, number_of_finite_facets, number_of_finite_cells, number_of_spacelike_faces.
        rewrite (tri_of_coherent H o t K), (tri_of_coherent H' o' t' K').
        rewrite (co_three_one _ _ _ _ K), (co_two_two _ _ _ _ K), (co_one_three _ _ _ _ K).
        rewrite (co_three_one _ _ _ _ K'), (co_two_two _ _ _ _ K'), (co_one_three _ _ _ _ K'). rewrite !same_type_count.
        pose proof (f_equal (@length Z) same_keys) as SK. rewrite !map_length in SK. rewrite SK.
        pose proof (Permutation_length (same_vertices _ _ _ _ S)) as S1. pose proof (Permutation_length (same_cells _ _ _ _ S)) as S2.
        pose proof (Permutation_length (same_facets _ _ _ _ S)) as S3. pose proof (Permutation_length (same_edges _ _ _ _ S)) as S4.
        rewrite !map_length in S1, S2, S3, S4. rewrite S1, S2, S3, S4. reflexivity.
      - unfold N1_TL, N1_SL. rewrite (co_timelike _ _ _ _ K), (co_timelike _ _ _ _ K'), (co_spacelike _ _ _ _ K), (co_spacelike _ _ _ _ K').
        pose proof (same_edge_count (fun b => b)) as X. pose proof (same_edge_count negb) as Y. cbv beta in X.
        rewrite X, Y. reflexivity.
      - rewrite (co_max _ _ _ _ K), (co_max _ _ _ _ K'), (co_min _ _ _ _ K), (co_min _ _ _ _ K'), Er, Es.
        pose proof (Permutation_map (fun d => timevalue (f_radius o) (f_spacing o) (fst d)) (same_vertices _ _ _ _ S)) as P.
        rewrite !map_map in P. cbn [vertex_data fst] in P. rewrite (list_max_perm _ _ P), (list_min_perm _ _ P). reflexivity.
      - rewrite Er, Es. reflexivity.
      - rewrite (coherent_diagnostics H o t K), (coherent_diagnostics H' o' t' K'),
          (coherent_correct H o t K), (coherent_correct H' o' t' K'), (coherent_foliated H o t K), (coherent_foliated H' o' t' K'),
          (coherent_check_vertices H o t K), (coherent_check_vertices H' o' t' K').
        rewrite same_valid. unfold check_all_cells. rewrite (tri_of_coherent H o t K), (tri_of_coherent H' o' t' K'), same_check. reflexivity.
      - pose proof same_keys as SK. rewrite (map_ext _ (fun e => (fst e, length (List.filter (fun k => k =? fst e) (map fst (f_spacelike_facets o'))))))
          by (intros e; rewrite (count_of_slices H' o' t' _ K'); reflexivity).
        rewrite (map_ext (fun e => (fst e, spacelike_face_count o (fst e))) (fun e => (fst e, length (List.filter (fun k => k =? fst e) (map fst (f_spacelike_facets o))))))
          by (intros e; rewrite (count_of_slices H o t _ K); reflexivity).
        rewrite SK. rewrite <- (map_map fst (fun x => (x, length (List.filter (fun k => k =? x) (map fst (f_spacelike_facets o)))))).
        rewrite <- (map_map fst (fun x => (x, length (List.filter (fun k => k =? x) (map fst (f_spacelike_facets o))))) (f_spacelike_facets o)).
        rewrite SK. reflexivity.
      - rewrite (tri_of_coherent H o t K), (tri_of_coherent H' o' t' K'). apply S.
      - rewrite (tri_of_coherent H o t K), (tri_of_coherent H' o' t' K'). apply S.
    Qed.
  End Same.

  (** A triangulation without vertices has nothing. *)
  Lemma no_vertices H t : well_made H t -> t_vertices t = [] -> t_cells t = [] /\ t_facets t = [] /\ t_edges t = [].
  Proof using.
    intros W N. split; [|split].
    - destruct (t_cells t) as [|c l] eqn:E; [reflexivity|]. destruct (wm_cell H t W c) as [L I]; [rewrite E; left|].
      destruct (c_vertices (h_cell H c)) as [|v vs]; [discriminate L|]. specialize (I v (elem_of_list_here _ _)).
      rewrite N in I. apply elem_of_nil in I. destruct I.
    - destruct (t_facets t) as [|f l] eqn:E; [reflexivity|]. destruct (wm_facet H t W f) as (_ & L & I & _); [rewrite E; left|].
      exfalso. assert (exists v, v ∈ facet_vertices H f) as [v V].
      { unfold facet_vertices. destruct f as [c i]. cbn [fst snd] in *. destruct i as [|i]; eexists; cbn; left. }
      specialize (I v V). rewrite N in I. apply elem_of_nil in I. destruct I.
    - destruct (t_edges t) as [|[[c i] j] l] eqn:E; [reflexivity|]. destruct (wm_edge H t W c i j) as (_ & I & _); [rewrite E; left|].
      rewrite N in I. apply elem_of_nil in I. destruct I.
  Qed.
  Lemma empty_reads H o t : coherent timevalue H o t -> t_vertices t = [] -> forall g,
    read_foliated timevalue H g o = Reading g [0;0;0;0;0;0;0;0]%nat (0, 0) (0, 0) (f_radius o, f_spacing o) [true; true; true; true] [] [] [].
  Proof using.
    intros K N g. destruct (no_vertices H t (co_made _ _ _ _ K) N) as (A & B & D).
    unfold read_foliated. rewrite (coherent_diagnostics H o t K), (coherent_correct H o t K), (coherent_foliated H o t K), (coherent_check_vertices H o t K).
    unfold number_of_vertices, number_of_finite_edges, number_of_finite_facets, number_of_finite_cells, number_of_spacelike_faces, N1_TL, N1_SL, is_tds_valid, check_all_cells, check_cells.
    rewrite (tri_of_coherent H o t K), (co_three_one _ _ _ _ K), (co_two_two _ _ _ _ K), (co_one_three _ _ _ _ K), (co_slices _ _ _ _ K),
      (co_timelike _ _ _ _ K), (co_spacelike _ _ _ _ K), (co_max _ _ _ _ K), (co_min _ _ _ _ K), A, B, D, N. reflexivity.
  Qed.
  Lemma copied_reads H o t o' H' g : coherent timevalue H o t -> copied timevalue H o t o' H' ->
    same_reading (read_foliated timevalue H' g o') (read_foliated timevalue H g o).
  Proof using.
    intros K (t' & _ & K' & Er & Es & [S|[N N']]); [eapply same_read; eassumption|].
    rewrite (empty_reads H o t K N), (empty_reads H' o' t' K' N'), Er, Es. constructor; reflexivity.
  Qed.
  (** Equal counts give equal geometry. *)
  Lemma reading_geometry o o' : r_counts (read_foliated timevalue (Heap (fun _ => VRec infinite 0) (fun _ => CRec [] 0) 0) None o') =
      r_counts (read_foliated timevalue (Heap (fun _ => VRec infinite 0) (fun _ => CRec [] 0) 0) None o) ->
    (N1_TL o', N1_SL o') = (N1_TL o, N1_SL o) -> geometry_of_object o' = geometry_of_object o.
  Proof using.
    cbn. intros [= A B D E F G I] [= J L]. unfold geometry_of_object. rewrite A, B, D, E, F, G, I, J, L. reflexivity.
  Qed.
End Reads.
