(** Proofs about objects: what each constructor and member does. *)
From Verif Require Moves FoliationFacts MoveSound.
From Verif Require Import Base Geom Simplex Foliation Repair Objects ObjectsSpec ObjectsFacts.
From Coq Require Import Sorting.Sorted.
From stdpp Require Import fin_sets gmap sorting.
From Verif Require Import Base Geom Simplex Foliation Objects ObjectsSpec ObjectsFacts.
Local Open Scope Z_scope.

(** [m], started on [H], returns within [Q], throws within [E], and is defined. *)
Definition wp {A} (m : M A) (Q : A -> heap -> Prop) (E : heap -> Prop) (H : heap) : Prop :=
  forall k, match m H k with Ok a H' _ => Q a H' | Ex H' _ => E H' | Bad => False end.
Lemma wp_ret {A} (a : A) (Q : A -> heap -> Prop) (E : heap -> Prop) H : Q a H -> wp (ret a) Q E H.
Proof. intros X k. exact X. Qed.
Lemma wp_throw {A} (Q : A -> heap -> Prop) (E : heap -> Prop) H : E H -> wp throw Q E H.
Proof. intros X k. exact X. Qed.
Lemma wp_bind {A B} (m : M A) (f : A -> M B) Q E H : wp m (fun a H' => wp (f a) Q E H') E H -> wp (x <- m ;; f x) Q E H.
Proof.
  intros X k. specialize (X k). unfold bind. destruct (m H k) as [a H' k'|H' k'|]; [|exact X|exact X]. apply X.
Qed.
Lemma wp_mono {A} (m : M A) (Q Q' : A -> heap -> Prop) (E E' : heap -> Prop) H :
  wp m Q E H -> (forall a H', Q a H' -> Q' a H') -> (forall H', E H' -> E' H') -> wp m Q' E' H.
Proof. intros X S S' k. specialize (X k). destruct (m H k); auto. Qed.
Lemma wp_get (Q : heap -> heap -> Prop) E H : Q H H -> wp get_heap Q E H.
Proof. intros X k. exact X. Qed.
Lemma wp_put H1 (Q : unit -> heap -> Prop) (E : heap -> Prop) H : Q tt H1 -> wp (put_heap H1) Q E H.
Proof. intros X k. exact X. Qed.

Section Runs.
  Variable timevalue : fp -> fp -> positive -> Z.
  Variable C : cgal.
  Variable luck : nat -> nat.
  Hypothesis CO : cgal_ok C.

  Lemma wp_choose (Q : nat -> heap -> Prop) E H : (forall n, Q n H) -> wp (choose luck) Q E H.
  Proof using. intros X k. apply X. Qed.
  Lemma wp_may_throw (Q : unit -> heap -> Prop) (E : heap -> Prop) H : Q tt H -> E H -> wp (may_throw luck) Q E H.
  Proof using.
    intros X Y. apply wp_bind, wp_choose. intros n. destruct (n =? 0)%nat; [apply wp_throw, Y|apply wp_ret, X].
  Qed.
  Lemma wp_copy t H : well_made H t ->
    wp (copy_delaunay C luck t) (fun t' H' => makes H H' t' /\ same_contents H t H' t') (fun H' => H' = H) H.
  Proof using CO.
    intros W. apply wp_bind, wp_may_throw; [|reflexivity]. apply wp_bind, wp_choose. intros n.
    apply wp_bind, wp_get. destruct (cg_copy C n H t) as [H' t'] eqn:Q. apply wp_bind, wp_put, wp_ret.
    exact (copy_ok C CO n H t H' t' W Q).
  Qed.
  Lemma wp_insert ps H : wp (insert_points C luck ps) (fun t' H' => makes H H' t' /\ NoDup (map (point H') (t_vertices t')) /\ (forall p, p ∈ map (point H') (t_vertices t') -> p ∈ map fst ps)) (fun H' => H' = H) H.
  Proof using CO.
    apply wp_bind, wp_may_throw; [|reflexivity]. apply wp_bind, wp_choose. intros n.
    apply wp_bind, wp_get. destruct (cg_insert C n H ps) as [H' t'] eqn:Q. apply wp_bind, wp_put, wp_ret.
    exact (insert_ok C CO n H ps H' t' Q).
  Qed.
  Lemma wp_remove t vs H : well_made H t -> wp (remove_vertices C luck t vs) (fun t' H' => edits t H H' t') (fun H' => H' = H) H.
  Proof using CO.
    intros W. apply wp_bind, wp_may_throw; [|reflexivity]. apply wp_bind, wp_choose. intros n.
    apply wp_bind, wp_get. destruct (cg_remove C n H t vs) as [H' t'] eqn:Q. apply wp_bind, wp_put, wp_ret.
    exact (remove_ok C CO n H t vs H' t' W Q).
  Qed.

  (** ** Repairs edit the triangulation they are given *)
  Lemma distinct_elem x l : x ∈ distinct l <-> x ∈ l.
  Proof using. apply elem_of_remove_dups. Qed.
  Lemma filter_elem {B} (p : B -> bool) l x : x ∈ List.filter p l <-> x ∈ l /\ p x = true.
  Proof using. rewrite !elem_of_list_In. apply filter_In. Qed.
  Lemma wp_fix_vertices r s t H : well_made H t ->
    wp (fix_vertices timevalue r s t) (fun b H' => edits t H H' t) (fun H' => H' = H) H.
  Proof using.
    intros W. apply wp_bind, wp_get, wp_bind, wp_put, wp_ret.
    eapply relabels_edits; [apply write_times_relabels|exact W| |intros c X; apply elem_of_nil in X; destruct X].
    intros v V. apply filter_elem in V as [V _]. unfold get_vertices_from_cells in V. rewrite distinct_elem, elem_of_list_In in V.
    apply in_flat_map in V as (c & X & V). apply elem_of_list_In in X, V.
    apply in_vertices, (wm_cell H t W c X), V.
  Qed.
  Lemma wp_fix_cells t H : well_made H t ->
    wp (fix_cells t) (fun b H' => edits t H H' t) (fun H' => H' = H) H.
  Proof using.
    intros W. apply wp_bind, wp_get, wp_bind, wp_put, wp_ret.
    eapply relabels_edits; [apply write_types_relabels|exact W|intros c X; apply elem_of_nil in X; destruct X|].
    intros v V. apply filter_elem in V as [V _]. apply in_cells, V.
  Qed.
  Lemma wp_fix_timevalues t H : well_made H t ->
    wp (fix_timevalues C luck t) (fun p H' => edits t H H' (fst p)) (fun H' => H' = H) H.
  Proof using CO.
    intros W. apply wp_bind, wp_get. destruct (find_invalid_timevalue_cells H t) as [|x l].
    - apply wp_ret. apply edits_refl, W.
    - apply wp_bind. eapply wp_mono; [apply wp_remove, W| |auto]. intros t' H' E. apply wp_ret. exact E.
  Qed.
  (** A step that edits. *)
  Definition editing (f : tri -> M (tri * bool)) : Prop := forall t H, well_made H t ->
    wp (f t) (fun p H' => edits t H H' (fst p)) (fun H' => writes_only (vertex_handles t) (cell_handles t) H H') H.
  Lemma editing_vertices r s : editing (keeping (fix_vertices timevalue r s)).
  Proof using.
    intros t H W. apply wp_bind. eapply wp_mono; [apply wp_fix_vertices, W| |intros ? ->; apply writes_refl].
    intros b H' E. apply wp_ret. exact E.
  Qed.
  Lemma editing_cells : editing (keeping fix_cells).
  Proof using.
    intros t H W. apply wp_bind. eapply wp_mono; [apply wp_fix_cells, W| |intros ? ->; apply writes_refl].
    intros b H' E. apply wp_ret. exact E.
  Qed.
  Lemma editing_timevalues : editing (fix_timevalues C luck).
  Proof using CO.
    intros t H W. eapply wp_mono; [apply wp_fix_timevalues, W|auto|intros ? ->; apply writes_refl].
  Qed.
  Lemma wp_passes f n : editing f -> forall t H, well_made H t ->
    wp (passes n f t) (fun t' H' => edits t H H' t') (fun H' => writes_only (vertex_handles t) (cell_handles t) H H') H.
  Proof using.
    intros Ef. induction n as [|n IH]; intros t H W; cbn [passes]; [apply wp_ret, edits_refl, W|].
    apply wp_bind. eapply wp_mono; [apply Ef, W| |auto]. intros [t1 b] H1 E. cbn [fst snd] in *.
    destruct b; [|apply wp_ret, E]. eapply wp_mono; [apply IH, E| |].
    - intros t2 H2 E2. eapply edits_trans; eassumption.
    - intros H2 X. eapply edits_writes; eassumption.
  Qed.

  (** ** Constructors *)
  (** Whatever happens, nothing existing is written. *)
  Definition quiet (H : heap) (H' : heap) : Prop := writes_only [] [] H H'.
  Lemma wp_empty H : wp (empty_delaunay luck) (fun t H' => makes H H' t /\ t_vertices t = [] /\ t_cells t = [] /\ t_facets t = [] /\ t_edges t = [])
    (quiet H) H.
  Proof using.
    apply wp_bind, wp_may_throw; [|apply writes_refl]. apply wp_bind, wp_get, wp_bind, wp_put, wp_ret.
    split; [|auto]. split; [|split].
    - split; [cbn; lia|]. split; cbn; intros v L _; rewrite (proj2 (Nat.eqb_neq v (h_next H))) by lia; reflexivity.
    - constructor; cbn.
      + split; intros v V; apply elem_of_list_singleton in V; cbn in V; cbn; lia.
      + apply NoDup_singleton.
      + apply NoDup_singleton.
      + intros c X. apply elem_of_nil in X. destruct X.
      + intros c v X. apply elem_of_list_singleton in X as ->. rewrite Nat.eqb_refl. cbn. auto.
      + intros c X. apply elem_of_nil in X. destruct X.
      + intros c i j X. apply elem_of_nil in X. destruct X.
    - split; intros v V; apply elem_of_list_singleton in V; cbn in V; lia.
  Qed.
  Lemma empty_coherent H t r s : well_made H t -> t_vertices t = [] -> t_cells t = [] -> t_facets t = [] -> t_edges t = [] ->
    coherent timevalue H (Foliated (Some t) r s [] [] [] [] [] [] [] [] [] [] 0 0) t.
  Proof using.
    intros W A B D E. constructor; cbn; rewrite ?A, ?B, ?D, ?E; try reflexivity; try assumption;
    intros c X; apply elem_of_nil in X; destruct X.
  Qed.

  Lemma fold_max H l x : info H (fold_left (fun best y => if info H best <? info H y then y else best) l x) =
    list_max (map (info H) (x :: l)).
  Proof using.
    revert x. induction l as [|y l IH]; intros x; [reflexivity|]. cbn [fold_left]. rewrite IH.
    destruct (Z.ltb_spec (info H x) (info H y)) as [L|L]; cbn [map list_max].
    - clear IH. induction l as [|z l IH]; cbn [map fold_right] in *; lia.
    - clear IH. induction l as [|z l IH]; cbn [map fold_right] in *; lia.
  Qed.
  Lemma fold_min H l x : info H (fold_left (fun best y => if info H y <? info H best then y else best) l x) =
    list_min (map (info H) (x :: l)).
  Proof using.
    revert x. induction l as [|y l IH]; intros x; [reflexivity|]. cbn [fold_left]. rewrite IH.
    destruct (Z.ltb_spec (info H y) (info H x)) as [L|L]; cbn [map list_min].
    - clear IH. induction l as [|z l IH]; cbn [map fold_right] in *; lia.
    - clear IH. induction l as [|z l IH]; cbn [map fold_right] in *; lia.
  Qed.
  Lemma find_max H l : l <> [] -> find_max_timevalue H l = Some (list_max (map (info H) l)).
  Proof using. destruct l as [|x l]; [congruence|]. intros _. unfold find_max_timevalue. rewrite fold_max. reflexivity. Qed.
  Lemma find_min H l : l <> [] -> find_min_timevalue H l = Some (list_min (map (info H) l)).
  Proof using. destruct l as [|x l]; [congruence|]. intros _. unfold find_min_timevalue. rewrite fold_min. reflexivity. Qed.

  Lemma facet_time_slice label H f : (forall v, v ∈ facet_vertices H f -> info H v = label (point H v)) ->
    facet_time H f = slice_of_points label H f.
  Proof using.
    intros I. unfold facet_time, slice_of_points. replace (list_to_set (map (info H) (facet_vertices H f)) : gset Z)
      with (set_map label (facet_data H f) : gset Z); [reflexivity|].
    apply leibniz_equiv. intros x. rewrite elem_of_list_to_set, elem_of_map. unfold facet_data. split.
    - intros (p & -> & P). apply elem_of_of_list in P. apply elem_of_list_In, in_map_iff in P as (v & <- & V).
      apply elem_of_list_In in V. apply elem_of_list_In, in_map_iff. exists v. split; [apply I, V|apply elem_of_list_In, V].
    - intros X. apply elem_of_list_In, in_map_iff in X as (v & <- & V). exists (point H v).
      split; [apply I, elem_of_list_In, V|]. apply elem_of_of_list. apply elem_of_list_In, in_map, V.
  Qed.

  Lemma wp_of_state t r s H : well_made H t ->
    wp (foliated_of_state timevalue luck t r s)
       (fun o H' => relabels (t_vertices t) (t_cells t) H H' /\ coherent timevalue H' o t /\ f_radius o = r /\ f_spacing o = s)
       (fun H' => H' = H) H.
  Proof using.
    intros W. unfold foliated_of_state. destruct (bool_decide_reflect (t_vertices t = [])) as [N|N]; [apply wp_throw; reflexivity|].
    apply wp_bind, wp_may_throw; [|reflexivity]. apply wp_bind, wp_get, wp_bind, wp_put.
    destruct (write_times_spec timevalue r s (t_vertices t) H) as (A1 & B1 & C1 & D1 & E1).
    destruct (write_types_spec (t_cells t) (write_times timevalue r s (t_vertices t) H)) as (A2 & B2 & C2 & D2 & E2).
    set (H1 := write_times timevalue r s (t_vertices t) H) in *. set (H2 := write_types (t_cells t) H1) in *.
    assert (R : relabels (t_vertices t) (t_cells t) H H2).
    { eapply relabels_trans; [apply write_times_relabels|apply write_types_relabels|..]; auto;
      intros x X; apply elem_of_nil in X; destruct X. }
    assert (W2 : well_made H2 t) by (eapply relabels_made; eassumption).
    assert (T : forall v, v ∈ t_vertices t -> info H2 v = timevalue r s (point H2 v)).
    { intros v V. unfold info. rewrite B2. destruct R as (_ & P & _). rewrite P. apply E1, V. }
    assert (TY : forall c, c ∈ t_cells t -> c_info (h_cell H2 c) = type_of_points (timevalue r s) H2 c).
    { intros c X. rewrite E2 by exact X. unfold expected_cell_type, type_of_points. rewrite C2. f_equal.
      apply map_ext_in'. intros v V. rewrite <- T.
      - unfold info. rewrite B2. reflexivity.
      - rewrite B1 in V. apply (wm_cell H t W c X), V. }
    rewrite (find_max H2 _ N), (find_min H2 _ N). apply wp_ret. split; [exact R|]. split; [|split; reflexivity].
    assert (FT : forall k, filter_cells H2 (t_cells t) k =
      List.filter (fun c => type_of_points (timevalue r s) H2 c =? k) (t_cells t)).
    { intros k. apply filter_ext_in'. intros c X. rewrite TY by exact X. reflexivity. }
    assert (FE : forall e, e ∈ t_edges t -> is_timelike H2 e = joins_slices (timevalue r s) H2 e).
    { intros [[c i] j] X. destruct (wm_edge H2 t W2 c i j X) as (_ & V1 & V2 & _). unfold is_timelike, joins_slices.
      rewrite (T _ V1), (T _ V2). reflexivity. }
    constructor; cbn [f_tri f_radius f_spacing f_vertices f_cells f_three_one f_two_two f_one_three f_faces f_spacelike_facets
      f_edges f_timelike_edges f_spacelike_edges f_max f_min]; auto.
    - unfold collect_spacelike_facets. f_equal. apply omap_ext_in. intros f X.
      rewrite (facet_time_slice (timevalue r s)); [reflexivity|]. intros v V. apply T, (wm_facet H2 t W2 f X), V.
    - apply filter_ext_in'. intros e X. rewrite FE by exact X. destruct (joins_slices _ _ _); reflexivity.
    - apply filter_ext_in'. intros e X. rewrite FE by exact X. destruct (joins_slices _ _ _); reflexivity.
    - f_equal. apply map_ext_in'. intros v V. apply T, V.
    - f_equal. apply map_ext_in'. intros v V. apply T, V.
  Qed.

  (** A new object made of new vertices and cells. *)
  Definition new_object (H : heap) (o : foliated) (H' : heap) : Prop :=
    exists t, makes H H' t /\ coherent timevalue H' o t.
  Lemma wp_default H : wp (foliated_default luck) (fun o H' => new_object H o H' /\
      o = Foliated (f_tri o) INITIAL_RADIUS FOLIATION_SPACING [] [] [] [] [] [] [] [] [] [] 0 0 /\
      forall t, f_tri o = Some t -> t_vertices t = [] /\ t_cells t = []) (quiet H) H.
  Proof using.
    apply wp_bind. eapply wp_mono; [apply wp_empty| |auto]. intros t H' (Mk & A & B & D & E). apply wp_ret.
    split; [|split; [reflexivity|]].
    - exists t. split; [exact Mk|]. apply empty_coherent; auto. apply Mk.
    - cbn. intros ? [= <-]. auto.
  Qed.
  Lemma wp_of_new t r s H0 H : makes H0 H t ->
    wp (foliated_of_state timevalue luck t r s)
       (fun o H' => relabels (t_vertices t) (t_cells t) H H' /\ makes H0 H' t /\ coherent timevalue H' o t /\ f_radius o = r /\ f_spacing o = s)
       (quiet H0) H.
  Proof using.
    intros Mk. eapply wp_mono; [apply wp_of_state, Mk| |intros ? ->; apply Mk].
    intros o H' (R & K & Er & Es). split; [exact R|]. split; [|auto]. eapply makes_edits; [exact Mk|].
    eapply relabels_edits; [exact R|apply Mk|apply in_vertices|apply in_cells].
  Qed.
  Lemma wp_delaunay_of_vertices ps H : wp (delaunay_of_vertices C luck ps) (fun t H' => makes H H' t) (quiet H) H.
  Proof using CO.
    apply wp_bind. eapply wp_mono; [apply wp_insert| |intros ? ->; apply writes_refl]. intros t H' [Mk _].
    destruct (length (t_vertices t) =? length ps)%nat; [apply wp_ret, Mk|apply wp_throw, Mk].
  Qed.
  Lemma wp_of_vertices ps r s H : wp (foliated_of_vertices timevalue C luck ps r s)
    (fun o H' => new_object H o H' /\ f_radius o = r /\ f_spacing o = s) (quiet H) H.
  Proof using CO.
    apply wp_bind. eapply wp_mono; [apply wp_delaunay_of_vertices| |auto]. intros t H' Mk.
    eapply wp_mono; [apply wp_of_new, Mk| |auto]. intros o H2 (_ & Mk2 & K & Er & Es). split; [exists t|]; auto.
  Qed.
  Lemma wp_make r s H : wp (make_triangulation timevalue C luck r s) (fun t H' => makes H H' t) (quiet H) H.
  Proof using CO.
    apply wp_bind, wp_may_throw; [|apply writes_refl]. apply wp_bind, wp_choose. intros n.
    apply wp_bind. eapply wp_mono; [apply wp_delaunay_of_vertices| |auto]. intros t1 H1 M1.
    apply wp_bind. eapply wp_mono; [apply wp_passes; [apply editing_vertices|apply M1]| |intros X Y; exact (makes_writes _ _ _ _ M1 Y)].
    intros t2 H2 E2. pose proof (makes_edits _ _ _ _ _ M1 E2) as M2.
    apply wp_bind. eapply wp_mono; [apply wp_passes; [apply editing_timevalues|apply M2]| |intros X Y; exact (makes_writes _ _ _ _ M2 Y)].
    intros t3 H3 E3. pose proof (makes_edits _ _ _ _ _ M2 E3) as M3.
    eapply wp_mono; [apply wp_passes; [apply editing_cells|apply M3]| |intros X Y; exact (makes_writes _ _ _ _ M3 Y)].
    intros t4 H4 E4. exact (makes_edits _ _ _ _ _ M3 E4).
  Qed.
  Lemma wp_random r s H : wp (foliated_random timevalue C luck r s)
    (fun o H' => new_object H o H' /\ f_radius o = r /\ f_spacing o = s) (quiet H) H.
  Proof using CO.
    apply wp_bind. eapply wp_mono; [apply wp_make| |auto]. intros t H' Mk.
    eapply wp_mono; [apply wp_of_new, Mk| |auto]. intros o H2 (_ & Mk2 & K & Er & Es). split; [exists t|]; auto.
  Qed.

  Lemma quiet_makes H0 H H' t : quiet H0 H -> makes H H' t -> makes H0 H' t.
  Proof using.
    intros Q (A & W & B & D). split.
    - eapply writes_trans; [exact Q|exact A| |]; intros x X; apply elem_of_nil in X; destruct X.
    - split; [exact W|]. destruct Q as (Q & _). split; intros x X; [specialize (B x X)|specialize (D x X)]; lia.
  Qed.
  Lemma quiet_trans H0 H H' : quiet H0 H -> quiet H H' -> quiet H0 H'.
  Proof using. intros Q R. eapply writes_trans; [exact Q|exact R| |]; intros x X; apply elem_of_nil in X; destruct X. Qed.
  Lemma quiet_agree H H' t : quiet H H' -> below (h_next H) t -> agree t H H'.
  Proof using. intros Q B. eapply writes_agree; [exact Q|exact B| |]; intros x _ X; apply elem_of_nil in X; destruct X. Qed.

  (** ** Contents *)
  Lemma perm_map_ext {B D} (f g : B -> D) l : (forall x, x ∈ l -> f x = g x) -> map f l ≡ₚ map g l.
  Proof using. intros X. rewrite (map_ext_in' f g l X). reflexivity. Qed.
  Lemma same_contents_frame H0 H t H' t' : agree t H0 H -> well_made H0 t -> same_contents H t H' t' -> same_contents H0 t H' t'.
  Proof using.
    intros A W S. destruct S as [S1 S2 S3 S4 S5]. constructor.
    - rewrite S1. apply perm_map_ext. intros v V. unfold vertex_data.
      rewrite (agree_point t H0 H A v V), (agree_info t H0 H A v V). reflexivity.
    - rewrite S2. apply perm_map_ext. intros c X. apply (agree_cell_data t H0 H A W c X).
    - rewrite S3. apply perm_map_ext. intros c X. apply (agree_points_of t H0 H A W c (in_hull t c X)).
    - rewrite S4. apply perm_map_ext. intros c X. apply (agree_facet_data t H0 H A W c X).
    - rewrite S5. apply perm_map_ext. intros c X. apply (agree_edge_data t H0 H A W c X).
  Qed.
  Lemma coherent_vertex_data H o t : coherent timevalue H o t ->
    map (vertex_data H) (t_vertices t) = map (fun p => (p, timevalue (f_radius o) (f_spacing o) p)) (map (point H) (t_vertices t)).
  Proof using. intros K. rewrite map_map. apply map_ext_in'. intros v V. unfold vertex_data. rewrite (co_times _ _ _ _ K v V). reflexivity. Qed.
  Lemma coherent_cell_data H o t : coherent timevalue H o t ->
    map (cell_data H) (t_cells t) =
    map (fun ps => (ps, classify (map (timevalue (f_radius o) (f_spacing o)) ps))) (map (fun c => map (point H) (c_vertices (h_cell H c))) (t_cells t)).
  Proof using.
    intros K. rewrite map_map. apply map_ext_in'. intros c X. unfold cell_data. rewrite (co_types _ _ _ _ K c X).
    unfold type_of_points. rewrite map_map. reflexivity.
  Qed.
  Lemma same_contents_relabel H o t H1 H2 o' t' : coherent timevalue H o t -> coherent timevalue H2 o' t' ->
    f_radius o' = f_radius o -> f_spacing o' = f_spacing o ->
    same_contents H t H1 t' -> relabels (t_vertices t') (t_cells t') H1 H2 -> same_contents H t H2 t'.
  Proof using.
    intros K K' Er Es [S1 S2 S3 S4 S5] R. pose proof R as (_ & P & V & _). constructor.
    - rewrite (coherent_vertex_data _ _ _ K), (coherent_vertex_data _ _ _ K'), Er, Es. apply Permutation_map.
      apply (Permutation_map fst) in S1. rewrite !map_map in S1. rewrite (map_ext (point H2) (point H1)) by apply P. exact S1.
    - rewrite (coherent_cell_data _ _ _ K), (coherent_cell_data _ _ _ K'), Er, Es. apply Permutation_map.
      apply (Permutation_map fst) in S2. rewrite !map_map in S2. cbn [fst cell_data] in S2.
      erewrite (map_ext (fun c => map (point H2) _)); [exact S2|]. intros c. cbn. rewrite V. apply map_ext, P.
    - rewrite <- S3. apply perm_map_ext. intros c _. unfold points_of. rewrite V. f_equal. apply map_ext, P.
    - rewrite <- S4. apply perm_map_ext. intros f _. unfold facet_data. rewrite (relabels_facet _ _ _ _ f R). f_equal. apply map_ext, P.
    - rewrite <- S5. apply perm_map_ext. intros [[c i] j] _. unfold edge_data. rewrite !(relabels_vertex_of _ _ _ _ _ _ R), !P. reflexivity.
  Qed.

  (** A copy of an object. *)
  Definition copied (H : heap) (o : foliated) (t : tri) (o' : foliated) (H' : heap) : Prop :=
    exists t', makes H H' t' /\ coherent timevalue H' o' t' /\ f_radius o' = f_radius o /\ f_spacing o' = f_spacing o /\
      (same_contents H t H' t' \/ t_vertices t = [] /\ t_vertices t' = []).
  Lemma wp_foliated_copy o t H : coherent timevalue H o t ->
    wp (foliated_copy timevalue C luck o) (fun o' H' => copied H o t o' H') (quiet H) H.
  Proof using CO.
    intros K. pose proof (co_made _ _ _ _ K) as W. unfold foliated_copy. rewrite (co_tri _ _ _ _ K). apply wp_bind.
    eapply wp_mono; [apply wp_default| |auto]. intros this H0 ((u & Mu & Ku) & This & Empty).
    destruct (bool_decide_reflect (t_vertices t = [])) as [N|N].
    - apply wp_ret. exists u. split; [exact Mu|]. rewrite This in *. cbn [f_tri f_radius f_spacing f_vertices f_cells f_three_one f_two_two f_one_three f_faces f_spacelike_facets
      f_edges f_timelike_edges f_spacelike_edges f_max f_min] in *. pose proof (co_tri _ _ _ _ Ku) as Tu. cbn in Tu. rewrite Tu.
      destruct (Empty u Tu) as [Eu Ec]. split; [|split; [reflexivity|]; split; [reflexivity|]; auto].
      apply empty_coherent; auto; [apply Mu| |].
      + exact (eq_sym (co_faces _ _ _ _ Ku)).
      + exact (eq_sym (co_edges _ _ _ _ Ku)).
    - assert (Q0 : quiet H H0) by apply Mu.
      pose proof (quiet_agree _ _ _ Q0 (wm_below _ _ W)) as A0. apply wp_bind.
      eapply wp_mono; [apply wp_copy, (agree_made _ _ _ A0 W)| |intros ? ->; exact Q0].
      intros t' H1 [M1 S1]. apply wp_bind. pose proof (quiet_makes _ _ _ _ Q0 M1) as M1'.
      eapply wp_mono; [apply (wp_of_new t' _ _ H H1), M1'| |auto]. intros o' H2 (R & M2 & K2 & Er & Es).
      apply wp_ret. unfold foliated_swap. cbn. destruct o'. cbn in *. exists t'. split; [exact M2|]. split; [exact K2|].
      split; [exact Er|]. split; [exact Es|]. left.
      eapply same_contents_relabel; [exact K|exact K2|exact Er|exact Es| |exact R].
      eapply same_contents_frame; [exact A0|exact W|exact S1].
  Qed.
  Lemma swap_right a b : foliated_swap a b = (b, a).
  Proof using. destruct a, b. reflexivity. Qed.
  Lemma manifold_swap_right a b : manifold_swap a b = (b, a).
  Proof using. destruct a as [? []], b as [? []]. unfold manifold_swap. rewrite swap_right. reflexivity. Qed.
  Lemma wp_assign_copy this o t H : coherent timevalue H o t ->
    wp (foliated_assign_copy timevalue C luck this o) (fun o' H' => copied H o t o' H') (quiet H) H.
  Proof using CO.
    intros K. apply wp_bind. eapply wp_mono; [apply wp_foliated_copy, K| |auto]. intros c H' X. rewrite swap_right. apply wp_ret, X.
  Qed.
  Lemma wp_snapshot o t H : coherent timevalue H o t ->
    wp (delaunay_snapshot C luck o) (fun t' H' => makes H H' t' /\ same_contents H t H' t') (quiet H) H.
  Proof using CO.
    intros K. unfold delaunay_snapshot. rewrite (co_tri _ _ _ _ K).
    eapply wp_mono; [apply wp_copy, K|auto|intros ? ->; apply writes_refl].
  Qed.
  (** The repairing members: the same object, or a new one with the same
      configuration. *)
  Lemma wp_member f this t H : editing f -> coherent timevalue H this t ->
    wp (member timevalue C luck f this)
       (fun p H' => if snd p : bool
          then new_object H (fst p) H' /\ f_radius (fst p) = f_radius this /\ f_spacing (fst p) = f_spacing this
          else quiet H H' /\ fst p = this) (quiet H) H.
  Proof using CO.
    intros Ef K. pose proof (co_made _ _ _ _ K) as W. unfold member. rewrite (co_tri _ _ _ _ K). apply wp_bind.
    eapply wp_mono; [apply wp_copy, W| |intros ? ->; apply writes_refl]. intros t1 H1 [M1 _]. apply wp_bind.
    eapply wp_mono; [apply Ef, M1| |intros X Y; exact (makes_writes _ _ _ _ M1 Y)].
    intros [t2 b] H2 E2. cbn [fst snd] in *. pose proof (makes_edits _ _ _ _ _ M1 E2) as M2. destruct b.
    - apply wp_bind. eapply wp_mono; [apply wp_of_new, M2| |auto]. intros o H3 (_ & M3 & K3 & Er & Es).
      rewrite swap_right. apply wp_ret. cbn. split; [exists t2; auto|auto].
    - apply wp_ret. cbn. split; [apply M2|reflexivity].
  Qed.
  Lemma editing_is_fixed r s : editing (fun t => b1 <- fix_vertices timevalue r s t ;;
                     b2 <- fix_cells t ;; p <- fix_timevalues C luck t ;; ret (fst p, b1 || b2 || snd p)).
  Proof using CO.
    intros t H W. apply wp_bind. eapply wp_mono; [apply wp_fix_vertices, W| |intros ? ->; apply writes_refl].
    intros b1 H1 E1. apply wp_bind. eapply wp_mono; [apply wp_fix_cells, E1| |intros ? ->; apply E1].
    intros b2 H2 E2. pose proof (edits_trans _ _ _ _ _ _ E1 E2) as E12. apply wp_bind.
    eapply wp_mono; [apply wp_fix_timevalues, E12| |intros ? ->; apply E12].
    intros [t3 b3] H3 E3. apply wp_ret. exact (edits_trans _ _ _ _ _ _ E12 E3).
  Qed.

  (** ** Manifolds *)
  Definition geometric (m : manifold) : Prop := m_geometry m = geometry_of_object (m_triangulation m).
  Lemma of_foliated_geometric o : m_triangulation (manifold_of_foliated o) = o /\ geometric (manifold_of_foliated o).
  Proof using. split; reflexivity. Qed.
  Lemma wp_manifold_default H : wp (manifold_default luck) (fun m H' => new_object H (m_triangulation m) H' /\ geometric m) (quiet H) H.
  Proof using.
    apply wp_bind. eapply wp_mono; [apply wp_default| |auto]. intros o H' ((t & Mt & K) & E & T). apply wp_ret. cbn.
    split; [exists t; auto|]. unfold geometric. cbn [m_geometry m_triangulation].
    pose proof (co_tri _ _ _ _ K) as Tt. destruct (T t Tt) as [Ev Ec].
    pose proof (co_faces _ _ _ _ K) as Ef. pose proof (co_edges _ _ _ _ K) as Ee. rewrite E in Ef, Ee |- *. cbn in Ef, Ee.
    unfold geometry_of_object, number_of_finite_cells, number_of_finite_facets, number_of_finite_edges, number_of_vertices, tri_of, N1_TL, N1_SL.
    cbn [f_tri f_three_one f_one_three f_two_two f_timelike_edges f_spacelike_edges]. rewrite Tt. cbn [default].
    unfold from_option, id. rewrite Ev, Ec, <- Ef, <- Ee. reflexivity.
  Qed.
  Lemma wp_manifold_random r s H : wp (manifold_random timevalue C luck r s)
    (fun m H' => new_object H (m_triangulation m) H' /\ geometric m /\ f_radius (m_triangulation m) = r /\ f_spacing (m_triangulation m) = s) (quiet H) H.
  Proof using CO.
    apply wp_bind. eapply wp_mono; [apply wp_random| |auto]. intros o H' (N & Er & Es). apply wp_ret. repeat split; auto.
  Qed.
  Lemma wp_manifold_of_vertices ps r s H : wp (manifold_of_vertices timevalue C luck ps r s)
    (fun m H' => new_object H (m_triangulation m) H' /\ geometric m /\ f_radius (m_triangulation m) = r /\ f_spacing (m_triangulation m) = s) (quiet H) H.
  Proof using CO.
    apply wp_bind. eapply wp_mono; [apply wp_of_vertices| |auto]. intros o H' (N & Er & Es). apply wp_ret. repeat split; auto.
  Qed.
End Runs.
