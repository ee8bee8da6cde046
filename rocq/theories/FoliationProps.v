(** Construction of foliated triangulations and its consequences. *)
From Verif Require Import Base Config Foliation Repair RepairFacts FoliationSpec FoliationFacts.
From Coq Require Import QArith Qround Lqa Sorting.Sorted.
From stdpp Require Import fin_sets gmap.
From Verif Require Import Foliation Repair RepairFacts FoliationSpec FoliationFacts.
Local Open Scope Z_scope.

Lemma defined_iff vi c : length c = 4%nat ->
  cell_type_defined (times vi c) = true <-> (forall v w, v ∈ c -> w ∈ c -> vi v - vi w <= INT32_MAX).
Proof.
  intros L. assert (NE : times vi c <> []) by (destruct c; discriminate).
  destruct (list_max_In _ NE) as [M1 M2]. destruct (list_min_In _ NE) as [m1 m2].
  unfold cell_type_defined. rewrite in_int32b_spec. unfold in_int32.
  assert (MM : list_min (times vi c) <= list_max (times vi c)) by (apply M2, m1).
  split.
  - intros [_ H] v w Hv Hw.
    assert (vi v <= list_max (times vi c)) by (apply M2, elem_of_list_fmap; eauto).
    assert (list_min (times vi c) <= vi w) by (apply m2, elem_of_list_fmap; eauto). lia.
  - intros H. split; [unfold INT32_MIN; lia|]. unfold times in M1 at 2. unfold times in m1 at 2.
    apply elem_of_list_fmap in M1 as (v & E & Hv). apply elem_of_list_fmap in m1 as (w & E' & Hw).
    rewrite E, E'. apply H; assumption.
Qed.

Section Construct.
Context (expected : positive -> Z).

Lemma classify_vertices_info d v : d_vinfo (classify_vertices expected d) v = if bool_decide (v ∈ d_vertices d) then expected v else d_vinfo d v.
Proof. cbn. apply fold_write. Qed.

Lemma wf_of d : well_formed d -> wf d.
Proof. intros (A & B & _). split; assumption. Qed.

Lemma classified_times d c : well_formed d -> c ∈ d_cells d -> times (d_vinfo (classify_vertices expected d)) c = times expected c.
Proof.
  intros (_ & W & _) Hc. apply times_ext. intros v Hv. rewrite classify_vertices_info.
  rewrite bool_decide_eq_true_2; [reflexivity|]. destruct (W c Hc) as (_ & _ & V). apply V, Hv.
Qed.

Lemma construct_spec d : well_formed d -> d_vertices d <> [] -> no_overflow expected d ->
  exists f, construct expected d = Val f /\ reports expected d f /\
    (forall c, c ∈ d_cells d -> d_cinfo (f_delaunay f) c = classify (times expected c)) /\
    d_vinfo (f_delaunay f) = d_vinfo (classify_vertices expected d).
Proof.
  intros W NE NO. pose proof W as (ND & WC & WF & WE). unfold construct. rewrite bool_decide_eq_false_2 by exact NE.
  set (d1 := classify_vertices expected d).
  assert (DF : cells_defined d1).
  { intros c Hc. change (d_cells d1) with (d_cells d) in Hc. unfold d1. rewrite classified_times by assumption.
    apply defined_iff; [apply (WC c Hc)|]. intros v w. apply NO, Hc. }
  destruct (write_cells_val d1 (d_cells d1) (d_cinfo d1) DF) as (g & E & G); [auto|].
  unfold classify_cells. rewrite E. cbn [bind].
  change (d_vertices (set_cinfo d1 g)) with (d_vertices d). change (d_vinfo (set_cinfo d1 g)) with (d_vinfo d1).
  change (d_cells (set_cinfo d1 g)) with (d_cells d). change (d_facets (set_cinfo d1 g)) with (d_facets d).
  change (d_edges (set_cinfo d1 g)) with (d_edges d). change (d_cinfo (set_cinfo d1 g)) with g.
  assert (IV : forall v, v ∈ d_vertices d -> d_vinfo d1 v = expected v).
  { intros v Hv. unfold d1. rewrite classify_vertices_info, bool_decide_eq_true_2 by exact Hv. reflexivity. }
  assert (GC : forall c, c ∈ d_cells d -> g c = classify (times expected c)).
  { intros c Hc. rewrite G. rewrite bool_decide_eq_true_2 by exact Hc. unfold cell_class, d1.
    rewrite classified_times by assumption. reflexivity. }
  destruct (d_vertices d) as [|x r] eqn:EV; [congruence|]. rewrite <- EV in *.
  assert (MX : find_max_timevalue (d_vinfo d1) (d_vertices d) = Val (d_vinfo d1 (max_element (d_vinfo d1) x r))) by (rewrite EV; reflexivity).
  assert (MN : find_min_timevalue (d_vinfo d1) (d_vertices d) = Val (d_vinfo d1 (min_element (d_vinfo d1) x r))) by (rewrite EV; reflexivity).
  rewrite MX, MN. cbn [bind]. eexists. split; [reflexivity|]. split; [|split; [exact GC|reflexivity]].
  assert (EI : forall e, e ∈ d_edges d -> edge_timelike (d_vinfo d1) e = negb (expected (fst (edge_ends e)) =? expected (snd (edge_ends e)))).
  { intros [[c i] j] He. destruct (WE c i j He) as (Hc & Hi & Hj & _). destruct (WC c Hc) as (L & _ & V).
    unfold edge_timelike, edge_ends. cbn [fst snd]. rewrite !IV; [reflexivity| |]; apply V, elem_of_list_In, nth_In; lia. }
  constructor; cbn [f_delaunay f_vertices f_cells f_three_one f_two_two f_one_three f_faces f_spacelike_facets f_edges f_timelike_edges f_spacelike_edges f_max f_min set_cinfo d_vertices d_cells d_facets d_edges d_vinfo d_cinfo].
  - auto.
  - auto.
  - auto.
  - auto.
  - exact IV.
  - intros c Hc. rewrite GC by exact Hc. apply classify_exact. apply (WC c Hc).
  - reflexivity.
  - reflexivity.
  - reflexivity.
  - unfold filter_edges. apply filter_ext_in. intros e He. rewrite EI by (apply elem_of_list_In; exact He).
    destruct (expected _ =? expected _); reflexivity.
  - unfold filter_edges. apply filter_ext_in. intros e He. rewrite EI by (apply elem_of_list_In; exact He).
    destruct (expected _ =? expected _); reflexivity.
  - intros t. unfold collect_spacelike_facets. fold (timed (d_vinfo d1) (d_facets d)).
    destruct (sort_spec (timed (d_vinfo d1) (d_facets d))) as (_ & _ & F). rewrite F, timed_filter.
    apply filter_ext_in. intros [c i] Hf. apply elem_of_list_In, WF in Hf as (Hc & Hi). destruct (WC c Hc) as (L & _ & V).
    apply eq_true_iff_eq. rewrite !facet_on_iff. split; intros H v Hv; specialize (H v Hv);
      (rewrite IV in * by (apply V; eapply facet_vertices_cell; eassumption)); exact H.
  - apply find_max_spec in MX as [(v & Hv & E1) H]. split.
    + exists v. split; [exact Hv|]. rewrite <- E1. symmetry. apply IV, Hv.
    + intros w Hw. rewrite <- IV by exact Hw. apply H, Hw.
  - apply find_min_spec in MN as [(v & Hv & E1) H]. split.
    + exists v. split; [exact Hv|]. rewrite <- E1. symmetry. apply IV, Hv.
    + intros w Hw. rewrite <- IV by exact Hw. apply H, Hw.
Qed.

Lemma write_cells_undef d l f : (exists c, In c l /\ cell_type_defined (times (d_vinfo d) c) = false) -> write_cells d l f = Undef.
Proof using.
  revert f. induction l as [|c l IH]; intros f (x & Hx & U); [destruct Hx|]. cbn [write_cells]. unfold expected_cell_type at 1.
  destruct (cell_type_defined (times (d_vinfo d) c)) eqn:D; [|reflexivity]. cbn [bind]. apply IH.
  destruct Hx as [->|Hx]; [congruence|]. eauto.
Qed.
Lemma construct_empty d : d_vertices d = [] -> construct expected d = Throws InvalidArgument.
Proof. intros E. unfold construct. rewrite bool_decide_eq_true_2 by exact E. reflexivity. Qed.
Lemma construct_undef d : well_formed d -> d_vertices d <> [] -> ~ no_overflow expected d -> construct expected d = Undef.
Proof.
  intros W NE NO. unfold construct. rewrite bool_decide_eq_false_2 by exact NE. unfold classify_cells.
  rewrite write_cells_undef; [reflexivity|]. change (d_cells (classify_vertices expected d)) with (d_cells d).
  destruct (List.Exists_dec (fun c => cell_type_defined (times expected c) = false) (d_cells d)
    (fun c => bool_dec (cell_type_defined (times expected c)) false)) as [H|H].
  - apply List.Exists_exists in H as (c & Hc & U). exists c. split; [exact Hc|].
    rewrite classified_times by (assumption || apply elem_of_list_In; exact Hc). exact U.
  - exfalso. apply NO. intros c v w Hc Hv Hw. destruct W as (_ & WC & _). destruct (WC c Hc) as (L & _).
    assert (D : cell_type_defined (times expected c) = true).
    { destruct (cell_type_defined (times expected c)) eqn:D; [reflexivity|]. exfalso. apply H, List.Exists_exists.
      exists c. split; [apply elem_of_list_In; exact Hc|exact D]. }
    exact (proj1 (defined_iff expected c L) D v w Hv Hw).
Qed.

Lemma construct_inv d f : well_formed d -> construct expected d = Val f ->
  d_vertices d <> [] /\ no_overflow expected d /\ reports expected d f /\
  (forall c, c ∈ d_cells d -> d_cinfo (f_delaunay f) c = classify (times expected c)) /\
  d_vinfo (f_delaunay f) = d_vinfo (classify_vertices expected d).
Proof.
  intros W E. assert (NE : d_vertices d <> []) by (intros K; rewrite construct_empty in E by exact K; discriminate).
  destruct (List.Forall_dec (fun c => cell_type_defined (times expected c) = true) (fun c => bool_dec (cell_type_defined (times expected c)) true) (d_cells d)) as [H|H].
  - assert (NO : no_overflow expected d).
    { intros c v w Hc Hv Hw. rewrite List.Forall_forall in H. destruct W as (_ & WC & _). destruct (WC c Hc) as (L & _).
      exact (proj1 (defined_iff expected c L) (H c (proj1 (elem_of_list_In _ _) Hc)) v w Hv Hw). }
    destruct (construct_spec d W NE NO) as (g & E' & R). rewrite E in E'. injection E' as ->. tauto.
  - exfalso. rewrite construct_undef in E; [discriminate|exact W|exact NE|].
    intros NO. apply H. rewrite List.Forall_forall. intros c Hc. apply elem_of_list_In in Hc.
    destruct W as (_ & WC & _). destruct (WC c Hc) as (L & _). apply defined_iff; [exact L|]. intros v w. apply NO, Hc.
Qed.

(** ** Structural correctness *)
Lemma class_sum (ci : list positive -> Z) l :
  (forall c, In c l -> ci c = THREE_ONE \/ ci c = TWO_TWO \/ ci c = ONE_THREE \/ ci c = ACAUSAL) ->
  (length (filter_cells ci THREE_ONE l) + length (filter_cells ci TWO_TWO l) + length (filter_cells ci ONE_THREE l) +
   length (filter_cells ci ACAUSAL l) = length l)%nat.
Proof.
  unfold filter_cells. induction l as [|c l IH]; intros H; [reflexivity|]. cbn [List.filter].
  specialize (IH (fun x Hx => H x (or_intror Hx))).
  destruct (H c (or_introl eq_refl)) as [E|[E|[E|E]]]; rewrite E; cbn [Z.eqb Pos.eqb THREE_ONE TWO_TWO ONE_THREE ACAUSAL length]; cbn; lia.
Qed.
Lemma edge_sum vi l : (length (filter_edges vi true l) + length (filter_edges vi false l) = length l)%nat.
Proof.
  unfold filter_edges. induction l as [|e l IH]; [reflexivity|]. cbn [List.filter].
  destruct (edge_timelike vi e); cbn [Bool.eqb eqb length] in *; cbn; lia.
Qed.
Lemma split_sum {A} (p : A -> bool) l : (length (List.filter (fun x => negb (p x)) l) + length (List.filter p l) = length l)%nat.
Proof. induction l as [|x l IH]; [reflexivity|]. cbn [List.filter]. destruct (p x); cbn [negb length]; lia. Qed.

(** The acausal count is what separates the total from the three classes. *)
Lemma counts_acausal d f : well_formed d -> reports expected d f ->
  (length (f_three_one f) + length (f_two_two f) + length (f_one_three f) +
   length (List.filter (fun c => (d_cinfo (f_delaunay f) c =? ACAUSAL)%Z) (d_cells d)) = length (d_cells d))%nat.
Proof.
  intros W R. rewrite (r_three_one _ _ _ R), (r_two_two _ _ _ R), (r_one_three _ _ _ R). apply class_sum.
  intros c Hc. apply elem_of_list_In, (r_class _ _ _ R) in Hc. apply Hc.
Qed.
Lemma no_acausal_iff d f : well_formed d -> reports expected d f ->
  length (List.filter (fun c => d_cinfo (f_delaunay f) c =? ACAUSAL) (d_cells d)) = 0%nat <->
  (forall c, c ∈ d_cells d -> causal_cell expected c).
Proof.
  intros W R. split.
  - intros E c Hc. pose proof (r_class _ _ _ R c Hc) as K. destruct W as (_ & WC & _). destruct (WC c Hc) as (L & _).
    apply (causal_type_of_class _ _ _ L K). unfold causal_type. rewrite !orb_true_iff, !Z.eqb_eq.
    destruct K as (_ & _ & _ & _ & [K|[K|[K|K]]]); [tauto..|]. exfalso.
    apply nil_length_inv in E. assert (I : In c (List.filter (fun c => d_cinfo (f_delaunay f) c =? ACAUSAL) (d_cells d))).
    { apply filter_In. split; [apply elem_of_list_In; exact Hc|apply Z.eqb_eq; exact K]. }
    rewrite E in I. destruct I.
  - intros H. destruct (List.filter (fun c => d_cinfo (f_delaunay f) c =? ACAUSAL) (d_cells d)) as [|c l] eqn:E; [reflexivity|].
    exfalso. assert (I : In c (List.filter (fun c => d_cinfo (f_delaunay f) c =? ACAUSAL) (d_cells d))) by (rewrite E; left; reflexivity).
    apply filter_In in I as [Hc K]. apply elem_of_list_In in Hc. apply Z.eqb_eq in K.
    destruct (r_class _ _ _ R c Hc) as (_ & _ & _ & D & _). apply D in K. apply K, H, Hc.
Qed.

Lemma timed_length vi l : (length (timed vi l) <= length l)%nat.
Proof.
  unfold timed. induction l as [|x l IH]; [reflexivity|]. cbn [omap list_omap]. destruct (facet_time vi x); cbn [length]; lia.
Qed.

Lemma check_cells_built d f : well_formed d -> construct expected d = Val f ->
  exists b, check_cells (f_delaunay f) = Val b /\ (b = true <-> forall c, c ∈ d_cells d -> causal_cell expected c).
Proof.
  intros W E. destruct (construct_inv d f W E) as (NE & NO & R & GC & IV).
  destruct (r_cells _ _ _ R) as [EC _]. pose proof W as (_ & WC & _).
  assert (TI : forall c, c ∈ d_cells d -> times (d_vinfo (f_delaunay f)) c = times expected c).
  { intros c Hc. rewrite IV. apply classified_times; assumption. }
  assert (DF : cells_defined (f_delaunay f)).
  { intros c Hc. rewrite EC in Hc. rewrite TI by exact Hc. apply defined_iff; [apply (WC c Hc)|]. intros v w. apply NO, Hc. }
  rewrite check_cells_val by exact DF. eexists. split; [reflexivity|]. rewrite forallb_forall, EC.
  split.
  - intros H c Hc. specialize (H c (proj1 (elem_of_list_In _ _) Hc)). destruct (WC c Hc) as (L & _).
    apply correct_cell_iff in H as [H _]; [|exact L]. unfold cell_class in H. rewrite TI in H by exact Hc.
    apply causal_type_iff; [exact L|]. destruct (classify_total (times expected c)) as [K|K]; [unfold times; rewrite map_length; exact L|contradiction|exact K].
  - intros H c Hc. apply elem_of_list_In in Hc. destruct (WC c Hc) as (L & _). apply correct_cell_iff; [exact L|].
    unfold cell_class. rewrite TI by exact Hc. split; [|apply GC, Hc].
    specialize (H c Hc). apply causal_type_iff in H; [|exact L]. intros K. rewrite K in H. discriminate.
Qed.

Lemma structurally_correct_iff d f : well_formed d -> construct expected d = Val f ->
  exists b, is_structurally_correct f = Val b /\ (b = true <-> forall c, c ∈ d_cells d -> causal_cell expected c).
Proof.
  intros W E. destruct (check_cells_built d f W E) as (b & CB & HB).
  destruct (construct_inv d f W E) as (NE & NO & R & GC & IV). unfold is_structurally_correct.
  assert (HS : has_consistent_structure f = true <-> forall c, c ∈ d_cells d -> causal_cell expected c).
  { rewrite <- (no_acausal_iff d f W R). pose proof (counts_acausal d f W R) as CS.
    unfold has_consistent_structure. rewrite !andb_true_iff, !Nat.eqb_eq, Nat.leb_le.
    destruct (r_vertices _ _ _ R) as [V1 V2]. destruct (r_cells _ _ _ R) as [_ C2]. destruct (r_edges _ _ _ R) as [_ E2].
    destruct (r_facets _ _ _ R) as [_ F2].
    assert (SF : (length (f_spacelike_facets f) <= length (f_faces f))%nat).
    { unfold construct in E. rewrite bool_decide_eq_false_2 in E by exact NE.
      destruct (classify_cells (classify_vertices expected d)) as [d2| |] eqn:Q; try discriminate. cbn [bind] in E.
      destruct (find_max_timevalue _ _) as [mx| |]; try discriminate. cbn [bind] in E.
      destruct (find_min_timevalue _ _) as [mn| |]; try discriminate. cbn [bind] in E. injection E as <-. cbn.
      unfold collect_spacelike_facets. destruct (sort_spec (timed (d_vinfo d2) (d_facets d2))) as (_ & P & _).
      fold (timed (d_vinfo d2) (d_facets d2)). rewrite P. apply timed_length. }
    assert (EE : (length (f_timelike_edges f) + length (f_spacelike_edges f) = length (f_edges f))%nat).
    { rewrite (r_timelike _ _ _ R), (r_spacelike _ _ _ R), E2. apply split_sum. }
    assert (MM : f_min f <= f_max f).
    { destruct (r_max _ _ _ R) as [(v & Hv & <-) _]. destruct (r_min _ _ _ R) as [_ H]. apply H, Hv. }
    rewrite V1, V2, C2. rewrite bool_decide_eq_false_2 by exact NE.
    split.
    - intros ((((_ & _) & K) & _) & _). lia.
    - intros K. split; [split; [split; [split; [reflexivity|exact SF]|lia]|exact EE]|apply Z.leb_le; exact MM]. }
  destruct (has_consistent_structure f) eqn:HC.
  - exists b. split; [exact CB|exact HB].
  - exists false. split; [reflexivity|]. split; [discriminate|]. intros K. apply HS in K. discriminate.
Qed.

Lemma is_foliated_iff d f : well_formed d -> construct expected d = Val f ->
  exists b, is_foliated f = Val b /\ (b = true <-> forall c, c ∈ d_cells d -> causal_cell expected c).
Proof.
  intros W E. destruct (construct_inv d f W E) as (NE & NO & R & GC & IV).
  destruct (r_cells _ _ _ R) as [EC _]. pose proof W as (_ & WC & _).
  assert (TI : forall c, c ∈ d_cells d -> times (d_vinfo (f_delaunay f)) c = times expected c).
  { intros c Hc. rewrite IV. apply classified_times; assumption. }
  assert (DF : cells_defined (f_delaunay f)).
  { intros c Hc. rewrite EC in Hc. rewrite TI by exact Hc. apply defined_iff; [apply (WC c Hc)|]. intros v w. apply NO, Hc. }
  assert (F4 : four (f_delaunay f)) by (intros c Hc; rewrite EC in Hc; apply (WC c Hc)).
  destruct (has_valid_iff (f_delaunay f) DF F4) as (b & HB & B). exists b. split; [exact HB|]. rewrite B, EC.
  unfold cell_class. split; intros H c Hc; specialize (H c Hc); destruct (WC c Hc) as (L & _);
    [rewrite TI in H by exact Hc|rewrite TI by exact Hc]; apply causal_type_iff; assumption.
Qed.

(** ** Volumes *)
Lemma built_sorted d f : construct expected d = Val f -> StronglySorted key_le (f_spacelike_facets f).
Proof.
  intros E. unfold construct in E. destruct (bool_decide _); [discriminate|].
  destruct (classify_cells (classify_vertices expected d)) as [d2| |] eqn:Q; try discriminate. cbn [bind] in E.
  destruct (find_max_timevalue _ _) as [mx| |]; try discriminate. cbn [bind] in E.
  destruct (find_min_timevalue _ _) as [mn| |]; try discriminate. cbn [bind] in E. injection E as <-. cbn.
  unfold collect_spacelike_facets. apply sort_spec.
Qed.
Lemma built_volume d f t : well_formed d -> construct expected d = Val f ->
  spacelike_face_count f t = Z.of_nat (length (List.filter (facet_on expected t) (d_facets d))).
Proof.
  intros W E. destruct (construct_inv d f W E) as (NE & NO & R & GC & IV). unfold spacelike_face_count.
  rewrite equal_range_sorted by (eapply built_sorted; exact E). rewrite <- (r_slices _ _ _ R t), map_length. reflexivity.
Qed.
Lemma facet_on_vertex d f0 t : well_formed d -> f0 ∈ d_facets d -> facet_on expected t f0 = true -> exists v, v ∈ d_vertices d /\ expected v = t.
Proof.
  intros (_ & WC & WF & _) Hf H. destruct f0 as [c i]. destruct (WF c i Hf) as (Hc & Hi). destruct (WC c Hc) as (L & _ & V).
  destruct (facet_vertices (c, i)) as [|v r] eqn:E; [destruct (facet_vertices_nonempty _ E)|].
  exists v. assert (I : v ∈ facet_vertices (c, i)) by (rewrite E; left). split.
  - apply V. eapply facet_vertices_cell; eassumption.
  - rewrite facet_on_iff in H. apply H, I.
Qed.
Lemma built_keys d f : well_formed d -> construct expected d = Val f ->
  forall e, In e (f_spacelike_facets f) -> f_min f <= fst e <= f_max f.
Proof.
  intros W E e He. destruct (construct_inv d f W E) as (NE & NO & R & GC & IV).
  assert (I : In (snd e) (List.filter (facet_on expected (fst e)) (d_facets d))).
  { rewrite <- (r_slices _ _ _ R (fst e)). apply in_map, filter_In. split; [exact He|apply Z.eqb_refl]. }
  apply filter_In in I as [I K]. apply elem_of_list_In in I.
  destruct (facet_on_vertex d (snd e) (fst e) W I K) as (v & Hv & <-).
  destruct (r_max _ _ _ R) as [_ M]. destruct (r_min _ _ _ R) as [_ m]. auto.
Qed.
Lemma built_volume_outside d f t : well_formed d -> construct expected d = Val f ->
  (t < f_min f \/ f_max f < t) -> spacelike_face_count f t = 0.
Proof.
  intros W E O. unfold spacelike_face_count. rewrite equal_range_sorted by (eapply built_sorted; exact E).
  rewrite filter_none; [reflexivity|]. intros e He. apply Z.eqb_neq. pose proof (built_keys d f W E e He). lia.
Qed.
Lemma built_volume_sum d f : well_formed d -> construct expected d = Val f ->
  sum (map (spacelike_face_count f) (slices (f_min f) (f_max f))) = number_of_spacelike_faces f.
Proof.
  intros W E. unfold number_of_spacelike_faces, slices. rewrite map_map.
  rewrite <- (sum_filter (f_spacelike_facets f) (f_min f) (Z.to_nat (f_max f - f_min f + 1))).
  - f_equal. apply map_ext. intros i. unfold spacelike_face_count. rewrite equal_range_sorted by (eapply built_sorted; exact E). reflexivity.
  - intros e He. pose proof (built_keys d f W E e He). lia.
Qed.
Lemma built_printed d f : well_formed d -> construct expected d = Val f ->
  print_volume_per_timeslice f =
    if f_max f =? INT32_MAX then Undef
    else Val (map (fun t => (t, Z.of_nat (length (List.filter (facet_on expected t) (d_facets d))))) (slices (f_min f) (f_max f))).
Proof.
  intros W E. unfold print_volume_per_timeslice. destruct (f_max f =? INT32_MAX); [reflexivity|].
  f_equal. unfold slices. rewrite map_map. apply map_ext. intros i. cbv zeta. rewrite (built_volume d f _ W E). reflexivity.
Qed.
Lemma built_spacelike_total d f : well_formed d -> construct expected d = Val f ->
  number_of_spacelike_faces f = Z.of_nat (length (List.filter (fun f0 => existsb (fun v => facet_on expected (expected v) f0) (d_vertices d)) (d_facets d))).
Proof.
  intros W E. destruct (construct_inv d f W E) as (NE & NO & R & GC & IV).
  assert (P : f_spacelike_facets f ≡ₚ timed (d_vinfo (f_delaunay f)) (d_facets d)).
  { unfold construct in E. rewrite bool_decide_eq_false_2 in E by exact NE.
    destruct (classify_cells (classify_vertices expected d)) as [d2| |] eqn:Q; try discriminate. cbn [bind] in E.
    destruct (find_max_timevalue _ _) as [mx| |]; try discriminate. cbn [bind] in E.
    destruct (find_min_timevalue _ _) as [mn| |]; try discriminate. cbn [bind] in E. injection E as <-.
    destruct (r_facets _ _ _ R) as [F1 _]. cbn in F1 |- *. rewrite <- F1. apply sort_spec. }
  unfold number_of_spacelike_faces. rewrite P. f_equal.
  pose proof W as (_ & WC & WF & _).
  assert (H : forall l, (forall f0, In f0 l -> In f0 (d_facets d)) -> length (timed (d_vinfo (f_delaunay f)) l) =
    length (List.filter (fun f0 => existsb (fun v => facet_on expected (expected v) f0) (d_vertices d)) l)).
  { induction l as [|f0 l IH]; intros Hl; [reflexivity|]. unfold timed in *. cbn [omap list_omap List.filter].
    specialize (IH (fun g Hg => Hl g (or_intror Hg))). specialize (Hl f0 (or_introl eq_refl)). apply elem_of_list_In in Hl.
    assert (FE : forall t, facet_on (d_vinfo (f_delaunay f)) t f0 = facet_on expected t f0).
    { intros t. destruct f0 as [c i]. destruct (WF c i Hl) as (Hc & Hi). destruct (WC c Hc) as (L & _ & V).
      apply eq_true_iff_eq. rewrite !facet_on_iff. split; intros H v Hv; specialize (H v Hv);
      (rewrite (r_time _ _ _ R) in * by (apply V; eapply facet_vertices_cell; eassumption)); exact H. }
    destruct (facet_time (d_vinfo (f_delaunay f)) f0) as [t|] eqn:Q.
    - apply facet_time_iff in Q. rewrite FE in Q. destruct (facet_on_vertex d f0 t W Hl Q) as (v & Hv & <-).
      replace (existsb _ _) with true; [cbn [length]; f_equal; exact IH|]. symmetry. apply existsb_exists. exists v. split; [apply elem_of_list_In; exact Hv|exact Q].
    - destruct (existsb _ _) eqn:X; [|exact IH]. apply existsb_exists in X as (v & Hv & X). rewrite <- FE in X.
      apply facet_time_iff in X. congruence. }
  apply H. auto.
Qed.
End Construct.
