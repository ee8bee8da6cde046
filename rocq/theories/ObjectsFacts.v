(** Proofs about objects: frames, the effect of each constructor and member. *)
From Verif Require Moves FoliationFacts MoveSound.
From Verif Require Import Base Geom Simplex Foliation Repair Objects ObjectsSpec.
From Coq Require Import Sorting.Sorted.
From stdpp Require Import fin_sets gmap sorting.
From Verif Require Import Base Geom Simplex Foliation Objects ObjectsSpec.
Local Open Scope Z_scope.

(** ** Frames *)
Lemma writes_refl vs cs H : writes_only vs cs H H.
Proof. split; [lia|]. split; auto. Qed.
Lemma writes_trans vs cs vs' cs' H H' H'' :
  writes_only vs cs H H' -> writes_only vs' cs' H' H'' ->
  (forall v, v ∈ vs' -> v ∈ vs \/ (h_next H <= v)%nat) -> (forall c, c ∈ cs' -> c ∈ cs \/ (h_next H <= c)%nat) ->
  writes_only vs cs H H''.
Proof.
  intros (A & B & C) (A' & B' & C') Dv Dc. split; [lia|]. split.
  - intros v L N. rewrite B'; [apply B; assumption|lia|]. intros X. destruct (Dv v X); [contradiction|lia].
  - intros c L N. rewrite C'; [apply C; assumption|lia|]. intros X. destruct (Dc c X); [contradiction|lia].
Qed.
Lemma writes_weaken vs cs vs' cs' H H' : writes_only vs cs H H' ->
  (forall v, v ∈ vs -> v ∈ vs') -> (forall c, c ∈ cs -> c ∈ cs') -> writes_only vs' cs' H H'.
Proof. intros (A & B & C) Dv Dc. split; [exact A|]. split; auto. Qed.
Lemma writes_fresh vs cs H H' : writes_only vs cs H H' ->
  (forall v, v ∈ vs -> (h_next H <= v)%nat) -> (forall c, c ∈ cs -> (h_next H <= c)%nat) -> writes_only [] [] H H'.
Proof.
  intros (A & B & C) Dv Dc. split; [exact A|]. split.
  - intros v L _. apply B; [lia|]. intros X. specialize (Dv v X). lia.
  - intros c L _. apply C; [lia|]. intros X. specialize (Dc c X). lia.
Qed.

(** Nothing a triangulation owns differs. *)
Definition agree (t : tri) (H H' : heap) : Prop :=
  (h_next H <= h_next H')%nat /\ (forall v, v ∈ vertex_handles t -> h_vertex H' v = h_vertex H v) /\
  (forall c, c ∈ cell_handles t -> h_cell H' c = h_cell H c).
Lemma writes_agree vs cs H H' t : writes_only vs cs H H' -> below (h_next H) t ->
  (forall v, v ∈ vertex_handles t -> v ∉ vs) -> (forall c, c ∈ cell_handles t -> c ∉ cs) -> agree t H H'.
Proof. intros (A & B & C) [Bv Bc] Dv Dc. split; [exact A|]. split; auto. Qed.

Section Agree.
  Variables (t : tri) (H H' : heap).
  Hypothesis A : agree t H H'.
  Hypothesis W : well_made H t.
  Lemma in_cells c : c ∈ t_cells t -> c ∈ cell_handles t.
  Proof using. intros X. apply elem_of_app. auto. Qed.
  Lemma in_hull c : c ∈ t_hull t -> c ∈ cell_handles t.
  Proof using. intros X. apply elem_of_app. auto. Qed.
  Lemma in_vertices v : v ∈ t_vertices t -> v ∈ vertex_handles t.
  Proof using. intros X. apply elem_of_cons. auto. Qed.
  Lemma agree_vertex v : v ∈ t_vertices t -> h_vertex H' v = h_vertex H v.
  Proof using A. intros X. apply A, in_vertices, X. Qed.
  Lemma agree_cell c : c ∈ cell_handles t -> h_cell H' c = h_cell H c.
  Proof using A. intros X. apply A, X. Qed.
  Lemma agree_facet f : f ∈ t_facets t -> facet_vertices H' f = facet_vertices H f.
  Proof using A W.
    intros X. destruct (wm_facet H t W f X) as (F & _). unfold facet_vertices, vertex_of.
    rewrite (agree_cell (fst f) F). reflexivity.
  Qed.
  Lemma agree_end c i j : (c, i, j) ∈ t_edges t -> vertex_of H' c i = vertex_of H c i /\ vertex_of H' c j = vertex_of H c j.
  Proof using A W.
    intros X. destruct (wm_edge H t W c i j X) as (F & _). unfold vertex_of. rewrite (agree_cell c F). auto.
  Qed.
  Lemma agree_made : well_made H' t.
  Proof using A W.
    destruct A as (An & Av & Ac). constructor.
    - destruct (wm_below H t W) as [B C]. split; intros x X; [specialize (B x X)|specialize (C x X)]; lia.
    - apply W.
    - apply W.
    - intros c X. rewrite (agree_cell c (in_cells c X)). apply (wm_cell H t W c X).
    - intros c v X. rewrite (agree_cell c (in_hull c X)). apply (wm_hull H t W c v X).
    - intros f X. rewrite (agree_facet f X), (agree_cell _ (proj1 (wm_facet H t W f X))). apply (wm_facet H t W f X).
    - intros c i j X. destruct (agree_end c i j X) as [-> ->]. rewrite (agree_cell _ (proj1 (wm_edge H t W c i j X))). apply (wm_edge H t W c i j X).
  Qed.
  Lemma agree_point v : v ∈ t_vertices t -> point H' v = point H v.
  Proof using A. intros X. unfold point. rewrite (agree_vertex v X). reflexivity. Qed.
  Lemma agree_info v : v ∈ t_vertices t -> info H' v = info H v.
  Proof using A. intros X. unfold info. rewrite (agree_vertex v X). reflexivity. Qed.
  Lemma agree_type label c : c ∈ t_cells t -> type_of_points label H' c = type_of_points label H c.
  Proof using A W.
    intros X. unfold type_of_points. rewrite (agree_cell c (in_cells c X)). f_equal. apply map_ext_in.
    intros v V. apply elem_of_list_In in V. rewrite agree_point by (apply (wm_cell H t W c X), V). reflexivity.
  Qed.
  Lemma agree_facet_data f : f ∈ t_facets t -> facet_data H' f = facet_data H f.
  Proof using A W.
    intros X. unfold facet_data. rewrite (agree_facet f X). f_equal. apply map_ext_in.
    intros v V. apply elem_of_list_In in V. apply agree_point, (wm_facet H t W f X), V.
  Qed.
  Lemma agree_joins label e : e ∈ t_edges t -> joins_slices label H' e = joins_slices label H e.
  Proof using A W.
    destruct e as [[c i] j]. intros X. unfold joins_slices. destruct (agree_end c i j X) as [-> ->].
    destruct (wm_edge H t W c i j X) as (_ & X1 & X2 & _). rewrite !agree_point by assumption. reflexivity.
  Qed.
  Lemma agree_edge_data e : e ∈ t_edges t -> edge_data H' e = edge_data H e.
  Proof using A W.
    destruct e as [[c i] j]. intros X. unfold edge_data. destruct (agree_end c i j X) as [-> ->].
    destruct (wm_edge H t W c i j X) as (_ & X1 & X2 & _). rewrite !agree_point by assumption. reflexivity.
  Qed.
  Lemma agree_cell_data c : c ∈ t_cells t -> cell_data H' c = cell_data H c.
  Proof using A W.
    intros X. unfold cell_data. rewrite (agree_cell c (in_cells c X)). f_equal. apply map_ext_in.
    intros v V. apply elem_of_list_In in V. apply agree_point, (wm_cell H t W c X), V.
  Qed.
  Lemma agree_expected c : c ∈ t_cells t -> expected_cell_type H' c = expected_cell_type H c.
  Proof using A W.
    intros X. unfold expected_cell_type. rewrite (agree_cell c (in_cells c X)). f_equal. apply map_ext_in.
    intros v V. apply elem_of_list_In in V. apply agree_info, (wm_cell H t W c X), V.
  Qed.
  Lemma agree_points_of c : c ∈ cell_handles t -> points_of H' c = points_of H c.
  Proof using A W.
    intros X. unfold points_of. rewrite (agree_cell c X). f_equal. apply map_ext_in.
    intros v V. apply elem_of_list_In in V. unfold point. f_equal. apply A. apply elem_of_app in X as [X|X].
    - apply in_vertices, (wm_cell H t W c X), V.
    - apply (wm_hull H t W c v X V).
  Qed.
  Lemma agree_complex : complex H' t = complex H t.
  Proof using A W.
    unfold complex. f_equal. apply map_ext_in. intros c X. apply elem_of_list_In in X. apply agree_points_of, X.
  Qed.
End Agree.

Lemma filter_ext_in' {B} (p q : B -> bool) l : (forall x, x ∈ l -> p x = q x) -> List.filter p l = List.filter q l.
Proof. intros X. apply filter_ext_in. intros x I. apply X, elem_of_list_In, I. Qed.
Lemma forallb_ext_in {B} (p q : B -> bool) l : (forall x, x ∈ l -> p x = q x) -> forallb p l = forallb q l.
Proof.
  intros X. induction l as [|x l IH]; [reflexivity|]. cbn. rewrite X by left.
  rewrite IH; [reflexivity|]. intros y Y. apply X. right. exact Y.
Qed.
Lemma omap_ext_in {B D} (p q : B -> option D) (l : list B) : (forall x, x ∈ l -> p x = q x) -> omap p l = omap q l.
Proof.
  intros X. induction l as [|x l IH]; [reflexivity|]. cbn. rewrite X by left.
  rewrite IH by (intros y Y; apply X; right; exact Y). reflexivity.
Qed.
Lemma map_ext_in' {B D} (p q : B -> D) l : (forall x, x ∈ l -> p x = q x) -> map p l = map q l.
Proof. intros X. apply map_ext_in. intros x I. apply X, elem_of_list_In, I. Qed.

Section Coherent.
  Variable timevalue : fp -> fp -> positive -> Z.
  Lemma coherent_frame H H' o t : agree t H H' -> coherent timevalue H o t -> coherent timevalue H' o t.
  Proof using.
    intros A K. pose proof (co_made _ _ _ _ K) as W. constructor; try apply K.
    - exact (agree_made t H H' A W).
    - intros v V. rewrite (agree_info t H H' A v V), (agree_point t H H' A v V). apply K, V.
    - intros c X. rewrite (agree_cell t H H' A c (in_cells t c X)), (agree_type t H H' A W _ c X). apply K, X.
    - rewrite (co_three_one _ _ _ _ K). apply filter_ext_in'. intros c X. rewrite (agree_type t H H' A W _ c X). reflexivity.
    - rewrite (co_two_two _ _ _ _ K). apply filter_ext_in'. intros c X. rewrite (agree_type t H H' A W _ c X). reflexivity.
    - rewrite (co_one_three _ _ _ _ K). apply filter_ext_in'. intros c X. rewrite (agree_type t H H' A W _ c X). reflexivity.
    - rewrite (co_slices _ _ _ _ K). f_equal. apply omap_ext_in. intros f X. unfold slice_of_points.
      rewrite (agree_facet_data t H H' A W f X). reflexivity.
    - rewrite (co_timelike _ _ _ _ K). apply filter_ext_in'. intros e X. rewrite (agree_joins t H H' A W _ e X). reflexivity.
    - rewrite (co_spacelike _ _ _ _ K). apply filter_ext_in'. intros e X. rewrite (agree_joins t H H' A W _ e X). reflexivity.
    - rewrite (co_max _ _ _ _ K). f_equal. apply map_ext_in'. intros v V. rewrite (agree_point t H H' A v V). reflexivity.
    - rewrite (co_min _ _ _ _ K). f_equal. apply map_ext_in'. intros v V. rewrite (agree_point t H H' A v V). reflexivity.
  Qed.

  (** ** What the members hold is what labelling gives *)
  Lemma coherent_expected H o t c : coherent timevalue H o t -> c ∈ t_cells t ->
    expected_cell_type H c = type_of_points (timevalue (f_radius o) (f_spacing o)) H c.
  Proof using.
    intros K X. unfold expected_cell_type, type_of_points. f_equal. apply map_ext_in'. intros v V.
    apply (co_times _ _ _ _ K). apply (wm_cell H t (co_made _ _ _ _ K) c X), V.
  Qed.
End Coherent.

(** ** Writing times and types *)
Section Write.
  Variable timevalue : fp -> fp -> positive -> Z.
  Variables r s : fp.
  Lemma write_times_spec vs : forall H,
    h_next (write_times timevalue r s vs H) = h_next H /\
    h_cell (write_times timevalue r s vs H) = h_cell H /\
    (forall v, point (write_times timevalue r s vs H) v = point H v) /\
    (forall v, v ∉ vs -> h_vertex (write_times timevalue r s vs H) v = h_vertex H v) /\
    (forall v, v ∈ vs -> info (write_times timevalue r s vs H) v = timevalue r s (point H v)).
  Proof using.
    unfold write_times. induction vs as [|x vs IH]; intros H; cbn [fold_left].
    { repeat split; try reflexivity. intros v V. apply elem_of_nil in V. destruct V. }
    destruct (IH (set_info H x (timevalue r s (point H x)))) as (A & B & C & D & E).
    assert (P : forall v, point (set_info H x (timevalue r s (point H x))) v = point H v).
    { intros v. unfold point, set_info. cbn. destruct (Nat.eqb_spec v x); [subst|]; reflexivity. }
    split; [rewrite A; reflexivity|]. split; [rewrite B; reflexivity|]. split; [intros v; rewrite C; apply P|]. split.
    - intros v V. rewrite not_elem_of_cons in V. destruct V as [N V]. rewrite D by exact V. cbn.
      rewrite (proj2 (Nat.eqb_neq v x)) by congruence. reflexivity.
    - intros v V. destruct (decide (v ∈ vs)) as [I|I]; [rewrite E, P by exact I; reflexivity|].
      apply elem_of_cons in V as [->|V]; [|contradiction]. unfold info. rewrite D by exact I. cbn.
      rewrite Nat.eqb_refl. reflexivity.
  Qed.
  Lemma write_types_spec cs : forall H,
    h_next (write_types cs H) = h_next H /\
    h_vertex (write_types cs H) = h_vertex H /\
    (forall c, c_vertices (h_cell (write_types cs H) c) = c_vertices (h_cell H c)) /\
    (forall c, c ∉ cs -> h_cell (write_types cs H) c = h_cell H c) /\
    (forall c, c ∈ cs -> c_info (h_cell (write_types cs H) c) = expected_cell_type H c).
  Proof using.
    unfold write_types. induction cs as [|x cs IH]; intros H; cbn [fold_left].
    { repeat split; try reflexivity. intros v V. apply elem_of_nil in V. destruct V. }
    destruct (IH (set_cell_info H x (expected_cell_type H x))) as (A & B & C & D & E).
    assert (P : forall c, c_vertices (h_cell (set_cell_info H x (expected_cell_type H x)) c) = c_vertices (h_cell H c)).
    { intros v. unfold set_cell_info. cbn. destruct (Nat.eqb_spec v x); [subst|]; reflexivity. }
    split; [rewrite A; reflexivity|]. split; [rewrite B; reflexivity|]. split; [intros v; rewrite C; apply P|]. split.
    - intros v V. rewrite not_elem_of_cons in V. destruct V as [N V]. rewrite D by exact V. cbn.
      rewrite (proj2 (Nat.eqb_neq v x)) by congruence. reflexivity.
    - intros v V. destruct (decide (v ∈ cs)) as [I|I].
      + rewrite E by exact I. unfold expected_cell_type. rewrite P. reflexivity.
      + apply elem_of_cons in V as [->|V]; [|contradiction]. rewrite D by exact I. cbn.
        rewrite Nat.eqb_refl. reflexivity.
  Qed.
End Write.

(** Heaps that differ at most in info fields of the listed vertices and cells. *)
Definition relabels (vs cs : list nat) (H H' : heap) : Prop :=
  h_next H' = h_next H /\ (forall v, point H' v = point H v) /\
  (forall c, c_vertices (h_cell H' c) = c_vertices (h_cell H c)) /\
  (forall v, v ∉ vs -> h_vertex H' v = h_vertex H v) /\ (forall c, c ∉ cs -> h_cell H' c = h_cell H c).
Lemma relabels_writes vs cs H H' : relabels vs cs H H' -> writes_only vs cs H H'.
Proof. intros (A & B & C & D & E). split; [lia|]. split; auto. Qed.
Lemma relabels_vertex_of vs cs H H' c i : relabels vs cs H H' -> vertex_of H' c i = vertex_of H c i.
Proof. intros (A & B & C & D & E). unfold vertex_of. rewrite C. reflexivity. Qed.
Lemma relabels_facet vs cs H H' f : relabels vs cs H H' -> facet_vertices H' f = facet_vertices H f.
Proof. intros R. unfold facet_vertices. apply map_ext. intros i. apply (relabels_vertex_of _ _ _ _ _ _ R). Qed.
Lemma relabels_made vs cs H H' t : relabels vs cs H H' -> well_made H t -> well_made H' t.
Proof.
  intros R W. destruct R as (A & B & C & D & E) eqn:ER. constructor.
  - rewrite A. apply W.
  - apply W.
  - apply W.
  - intros c X. rewrite C. apply (wm_cell H t W c X).
  - intros c v X. rewrite C. apply (wm_hull H t W c v X).
  - intros f X. rewrite (relabels_facet _ _ _ _ f R), C. apply (wm_facet H t W f X).
  - intros c i j X. rewrite !(relabels_vertex_of _ _ _ _ _ _ R), C. apply (wm_edge H t W c i j X).
Qed.
Lemma relabels_trans vs cs vs' cs' vs0 cs0 H H' H'' : relabels vs cs H H' -> relabels vs' cs' H' H'' ->
  (forall v, v ∈ vs -> v ∈ vs0) -> (forall v, v ∈ vs' -> v ∈ vs0) ->
  (forall v, v ∈ cs -> v ∈ cs0) -> (forall v, v ∈ cs' -> v ∈ cs0) -> relabels vs0 cs0 H H''.
Proof.
  intros (A & B & C & D & E) (A' & B' & C' & D' & E') S1 S2 S3 S4. split; [congruence|].
  split; [intros v; rewrite B'; apply B|]. split; [intros c; rewrite C'; apply C|]. split.
  - intros v V. rewrite D', D by auto. reflexivity.
  - intros v V. rewrite E', E by auto. reflexivity.
Qed.
Lemma relabels_edits vs cs t H H' : relabels vs cs H H' -> well_made H t ->
  (forall v, v ∈ vs -> v ∈ vertex_handles t) -> (forall c, c ∈ cs -> c ∈ cell_handles t) -> edits t H H' t.
Proof.
  intros R W S1 S2. split.
  - eapply writes_weaken; [apply relabels_writes, R| |]; assumption.
  - split; [eapply relabels_made; eassumption|]. split; auto.
Qed.
Lemma write_times_relabels timevalue r s vs H : relabels vs [] H (write_times timevalue r s vs H).
Proof.
  destruct (write_times_spec timevalue r s vs H) as (A & B & C & D & E). split; [exact A|]. split; [exact C|].
  split; [rewrite B; reflexivity|]. split; [exact D|]. rewrite B. reflexivity.
Qed.
Lemma write_types_relabels cs H : relabels [] cs H (write_types cs H).
Proof.
  destruct (write_types_spec cs H) as (A & B & C & D & E). split; [exact A|]. split; [unfold point; rewrite B; reflexivity|].
  split; [exact C|]. split; [rewrite B; reflexivity|exact D].
Qed.

(** ** Making and editing *)
Lemma makes_edits H H' H'' t t' : makes H H' t -> edits t H' H'' t' -> makes H H'' t'.
Proof.
  intros (A & W & B & C) (A' & W' & B' & C'). split.
  - eapply writes_trans; [exact A|exact A'| |]; auto.
  - split; [exact W'|]. destruct A as (A & _). split.
    + intros v V. destruct (B' v V) as [X|X]; [apply B, X|lia].
    + intros c V. destruct (C' c V) as [X|X]; [apply C, X|lia].
Qed.
Lemma edits_trans t t' t'' H H' H'' : edits t H H' t' -> edits t' H' H'' t'' -> edits t H H'' t''.
Proof.
  intros (A & W & B & C) (A' & W' & B' & C'). split.
  - eapply writes_trans; [exact A|exact A'| |]; auto.
  - split; [exact W'|]. destruct A as (A & _). split.
    + intros v V. destruct (B' v V) as [X|X]; [apply B, X|right; lia].
    + intros c V. destruct (C' c V) as [X|X]; [apply C, X|right; lia].
Qed.
Lemma edits_refl t H : well_made H t -> edits t H H t.
Proof. intros W. split; [apply writes_refl|]. split; [exact W|]. split; auto. Qed.
Lemma makes_writes H H' H'' t : makes H H' t ->
  writes_only (vertex_handles t) (cell_handles t) H' H'' -> writes_only [] [] H H''.
Proof. intros (A & W & B & C) A'. eapply writes_trans; [exact A|exact A'| |]; auto. Qed.
Lemma edits_writes t t' H H' H'' : edits t H H' t' ->
  writes_only (vertex_handles t') (cell_handles t') H' H'' -> writes_only (vertex_handles t) (cell_handles t) H H''.
Proof. intros (A & W & B & C) A'. eapply writes_trans; [exact A|exact A'| |]; auto. Qed.
Lemma makes_apart H H' t u : makes H H' t -> below (h_next H) u -> apart t u /\ apart u t.
Proof.
  intros (A & W & B & C) [Bu Cu]. split; split; intros x X Y.
  - specialize (B x X). specialize (Bu x Y). lia.
  - specialize (C x X). specialize (Cu x Y). lia.
  - specialize (B x Y). specialize (Bu x X). lia.
  - specialize (C x Y). specialize (Cu x X). lia.
Qed.
Lemma edits_apart t H H' t' u : edits t H H' t' -> below (h_next H) u -> apart t u -> apart t' u /\ apart u t'.
Proof.
  intros (A & W & B & C) [Bu Cu] [Pv Pc]. split; split; intros x X Y.
  - destruct (B x X) as [Z|Z]; [exact (Pv x Z Y)|]. specialize (Bu x Y). lia.
  - destruct (C x X) as [Z|Z]; [exact (Pc x Z Y)|]. specialize (Cu x Y). lia.
  - destruct (B x Y) as [Z|Z]; [exact (Pv x Z X)|]. specialize (Bu x X). lia.
  - destruct (C x Y) as [Z|Z]; [exact (Pc x Z X)|]. specialize (Cu x X). lia.
Qed.
Lemma apart_sym t u : apart t u -> apart u t.
Proof. intros [A B]. split; intros x X Y; [exact (A x Y X)|exact (B x Y X)]. Qed.
