(** Reversibility: the inverse move at the created simplex restores the
    triangulation. *)
From Verif Require Import Base Tracker Command Geom Simplex Pachner Foliation Moves Links MoveCore MoveTools Move23 Move44 Move26 Move26Site Move62Site MoveSpec MoveSound Manifold ManifoldFacts ManifoldMoves.
From stdpp Require Import fin_sets gmap sorting.
From Verif Require Import Foliation.
Local Open Scope Z_scope.

(** ** The CGAL flips succeed where a Pachner move is legal *)
Lemma star_pachner T lU lV c : pachner_ok T lU lV ->
  c ∈ star (of_list lV) T <-> c ∈ map (omit (lU ++ lV)) lU.
Proof.
  intros ok. rewrite elem_of_star, elem_of_list_fmap. split.
  - intros [Hc Hs]. destruct (po_around _ _ _ ok c Hc Hs) as (x & Hx & ->). eauto.
  - intros (x & -> & Hx). split; [apply (po_present _ _ _ ok x Hx)|].
    intros y Hy. rewrite elem_of_of_list in Hy. apply elem_of_omit. split; [apply elem_of_app; auto|].
    intros ->. pose proof (po_nodup _ _ _ ok) as N. apply NoDup_app in N as (_ & N & _). exact (N x Hx Hy).
Qed.

Lemma star_pachner_set T lU lV : pachner_ok T lU lV ->
  elements (star (of_list lV) T) ≡ₚ map (omit (lU ++ lV)) lU.
Proof.
  intros ok. apply NoDup_Permutation.
  - apply NoDup_elements.
  - apply map_omit_NoDup.
    + pose proof (po_nodup _ _ _ ok) as N. apply NoDup_app in N. tauto.
    + intros x Hx. apply elem_of_app. auto.
  - intros c. rewrite elem_of_elements. apply star_pachner, ok.
Qed.

Lemma flip_edge_complete T a b x p q : pachner_ok T [a; b; x] [p; q] ->
  tds_flip_edge T (of_list [p; q]) = Flipped (pachner T [a; b; x] [p; q]).
Proof.
  intros ok. unfold tds_flip_edge. pose proof (po_nodup _ _ _ ok) as N. cbn [app] in N.
  assert (S3 : size (star (of_list [p; q]) T) = 3%nat).
  { unfold size, set_size. pose proof (Permutation_length (star_pachner_set _ _ _ ok)) as H. cbn in H. exact H. }
  rewrite S3. cbn [negb Nat.eqb].
  assert (EL : link_vertices (of_list [p; q]) T = of_list [a; b; x]).
  { unfold link_vertices. apply set_eq. intros y. rewrite elem_of_difference, elem_of_union_list, !elem_of_of_list.
    setoid_rewrite elem_of_elements. setoid_rewrite (star_pachner _ _ _ _ ok). split.
    - intros [(c & Hc & Hy) Hn]. apply elem_of_list_fmap in Hc as (z & -> & _). apply elem_of_omit in Hy as [Hy _].
      cbn [app] in Hy. rewrite !elem_of_cons in *. tauto.
    - intros Hy. split.
      + assert (Hz : exists z, z ∈ [a; b; x] /\ z <> y).
        { apply NoDup_5 in N. rewrite !elem_of_cons, elem_of_nil in Hy. destruct Hy as [->|[->|[->|[]]]].
          - exists b. split; [set_solver +|]. intros ->. tauto.
          - exists a. split; [set_solver +|]. tauto.
          - exists a. split; [set_solver +|]. tauto. }
        destruct Hz as (z & Hz & Hzy). exists (omit [a; b; x; p; q] z). split; [apply elem_of_list_fmap; exists z; auto|].
        apply elem_of_omit. split; [rewrite !elem_of_cons in *; tauto|congruence].
      + intros Hpq. apply (NoDup_app [a; b; x] [p; q]) in N as (_ & N & _). exact (N y Hy Hpq). }
  rewrite EL. rewrite bool_decide_eq_true_2.
  - f_equal. apply pachner_perm.
    + apply elements_of_list. apply (sublist_NoDup _ [a; b; x; p; q]); [repeat constructor|exact N].
    + apply elements_of_list. apply (sublist_NoDup _ [a; b; x; p; q]); [repeat constructor|exact N].
  - apply star_empty. exact (po_absent _ _ _ ok).
Qed.

Lemma flip_facet_complete T v w a b x : valid T -> pachner_ok T [v; w] [a; b; x] ->
  tds_flip_facet T (of_list [v; a; b; x]) v = Flipped (pachner T [v; w] [a; b; x]) /\
  neighbor T (of_list [v; a; b; x]) v = Some (of_list [w; a; b; x]) /\
  mirror_vertex (of_list [w; a; b; x]) (of_list [v; a; b; x]) = Some w.
Proof.
  intros V ok. pose proof (po_nodup _ _ _ ok) as N. cbn [app] in N.
  pose proof (omit_mid [] v [w; a; b; x] N) as Ov. pose proof (omit_mid [v] w [a; b; x] N) as Ow. cbn [app] in Ov, Ow.
  assert (Hc : of_list [v; a; b; x] ∈ T) by (rewrite <- Ow; apply (po_present _ _ _ ok w); set_solver +).
  assert (Hn : of_list [w; a; b; x] ∈ T) by (rewrite <- Ov; apply (po_present _ _ _ ok v); set_solver +).
  destruct V as [HP HC _].
  destruct (neighbor_spec T HP HC (of_list [v; a; b; x]) v Hc ltac:(set_solver +)) as (n & w' & En & Hn' & Hw' & Enw & Em & _ & Hall).
  assert (Ef : of_list [v; a; b; x] ∖ {[v]} = of_list [a; b; x]).
  { apply set_eq. intros y. rewrite elem_of_difference, elem_of_singleton, !elem_of_of_list. apply NoDup_cons in N as [N _].
    rewrite !elem_of_cons, !elem_of_nil in *. split; [tauto|]. intros H. split; [tauto|]. intros ->. tauto. }
  assert (Enn : n = of_list [w; a; b; x]).
  { destruct (Hall (of_list [w; a; b; x]) Hn) as [E|E].
    - rewrite Ef. intros y. rewrite !elem_of_of_list, !elem_of_cons. tauto.
    - exfalso. assert (w ∈ of_list [v; a; b; x]) by (rewrite <- E; set_solver +). rewrite elem_of_of_list in H.
      apply NoDup_5 in N. rewrite !elem_of_cons, elem_of_nil in H. intuition congruence.
    - symmetry. exact E. }
  rewrite Enn in Enw, Em, En.
  assert (Ew : w' = w).
  { assert (H : w' ∈ of_list [w; a; b; x]) by (rewrite Enw; set_solver +). rewrite elem_of_of_list in H, Hw'.
    rewrite !elem_of_cons, !elem_of_nil in *. tauto. }
  subst w'. split; [|split; [exact En|exact Em]].
  unfold tds_flip_facet. rewrite En, Em, Ef. rewrite bool_decide_eq_true_2.
  - f_equal. apply pachner_perm; [reflexivity|]. apply elements_of_list.
    apply (sublist_NoDup _ [v; w; a; b; x]); [repeat constructor|exact N].
  - apply star_empty. exact (po_absent _ _ _ ok).
Qed.

(** ** (2,3) then (3,2) *)
Lemma types_of_23 label v w a b x : NoDup [v; w; a; b; x] -> labels_23 label v w a b x ->
  count_type label TWO_TWO [of_list [v; w; b; x]; of_list [v; w; a; x]; of_list [v; w; a; b]] = 2 /\
  (count_type label THREE_ONE [of_list [v; w; b; x]; of_list [v; w; a; x]; of_list [v; w; a; b]] = 1 /\
   count_type label ONE_THREE [of_list [v; w; b; x]; of_list [v; w; a; x]; of_list [v; w; a; b]] = 0 \/
   count_type label THREE_ONE [of_list [v; w; b; x]; of_list [v; w; a; x]; of_list [v; w; a; b]] = 0 /\
   count_type label ONE_THREE [of_list [v; w; b; x]; of_list [v; w; a; x]; of_list [v; w; a; b]] = 1).
Proof.
  intros N (t & p & E & Hp). unfold count_type. cbn [List.filter].
  assert (S : forall l, sublist l [v; w; a; b; x] -> NoDup l) by (intros l Hl; eapply sublist_NoDup; eassumption).
  rewrite !cell_type_of_list by (apply S; repeat constructor). clear S N. cbn [map].
  unfold patterns_23 in Hp. cases_list Hp; subst p; injection E as Ev Ew Ea Eb Ex;
    rewrite ?Ev, ?Ew, ?Ea, ?Eb, ?Ex, ?classify4; vm_compute; auto.
Qed.

Lemma edge_class_tl label a b : a <> b -> label a <> label b -> timelike label (of_list [a; b]) = true.
Proof. intros H L. rewrite timelike_of_list by exact H. apply negb_true_iff, Z.eqb_neq. exact L. Qed.

Lemma reverse_23 label junk locates geo T v w a b x : valid T ->
  infinite ∉ [v; w; a; b; x] -> pachner_ok T [v; w] [a; b; x] -> labels_23 label v w a b x ->
  let T' := pachner T [v; w] [a; b; x] in let e := of_list [v; w] in
  e ∈ edge_sites label true T' /\ prepare_32 label junk T' e = Done tt /\
  (locates T' v = true -> locates T' w = true -> geo T' e = true ->
   move_32 label junk locates geo T' e = Done T).
Proof.
  intros V F ok L T' e. pose proof (po_nodup _ _ _ ok) as N. cbn [app] in N.
  pose proof (pachner_ok_reverse _ _ _ ok) as ok'. fold T' in ok'.
  destruct (cells_23 _ _ _ _ _ _ ok) as [E1 E2].
  pose proof (star_pachner_set _ _ _ ok') as P. fold e in P.
  assert (EQ : map (omit ([a; b; x] ++ [v; w])) [a; b; x] = [of_list [v; w; b; x]; of_list [v; w; a; x]; of_list [v; w; a; b]]).
  { rewrite <- E2. apply map_ext. intros y. apply (omit_swap [a; b; x] [v; w]). }
  rewrite EQ in P.
  assert (He2 : size e = 2%nat).
  { apply of_list_size. apply (sublist_NoDup _ [v; w; a; b; x]); [repeat constructor|exact N]. }
  assert (Hface : e ∈ faces 2 T').
  { apply elem_of_faces. split; [exact He2|]. exists (of_list [v; w; a; b]). split.
    - apply (elem_of_star e T'). rewrite <- elem_of_elements. rewrite P. set_solver +.
    - intros y. unfold e. rewrite !elem_of_of_list, !elem_of_cons. tauto. }
  assert (Hvw : v <> w) by (apply NoDup_5 in N; tauto).
  assert (Hl : Z.abs (label v - label w) = 1) by (eapply edge_23; eassumption).
  assert (Hfe : infinite ∉ e) by (unfold e; rewrite elem_of_of_list; set_solver + F).
  assert (PR : prepare_32 label junk T' e = Done tt).
  { unfold prepare_32. rewrite bool_decide_eq_true_2 by exact Hface. cbn [negb].
    assert (M : is_32_movable label junk T' e = true); [|rewrite M; reflexivity].
    assert (FC : forall c, c ∈ elements (star e T') -> infinite ∉ c).
    { intros c Hc. rewrite P in Hc. cases_list Hc; subst c; rewrite elem_of_of_list; set_solver + F. }
    assert (CC : forall c, c ∈ elements (star e T') -> correct label junk T' c = true).
    { intros c Hc. pose proof (FC c Hc) as Fc. apply finite_spec in Fc.
      apply correct_finite_causal; [exact Fc| |].
      - rewrite P in Hc. assert (S : forall l, sublist l [v; w; a; b; x] -> NoDup l) by (intros l Hl'; eapply sublist_NoDup; eassumption).
        cases_list Hc; subst c; rewrite of_list_size; try reflexivity; apply S; repeat constructor.
      - rewrite P in Hc. apply (new_cells_23 label T v w a b x ok L). clear - Hc. rewrite !elem_of_cons, !elem_of_nil in *. tauto. }
    unfold is_32_movable. rewrite !andb_true_iff. rewrite !forallb_forall.
    setoid_rewrite <- elem_of_list_In. split; [split; [split; [split; [split|]|]|]|].
    + intros c Hc. apply finite_spec, FC, Hc.
    + apply Nat.eqb_eq. rewrite (Permutation_length P). reflexivity.
    + pose proof (elements_of_list [v; w] ltac:(apply (sublist_NoDup _ [v; w; a; b; x]); [repeat constructor|exact N])) as PE.
      fold e in PE. symmetry in PE. apply Permutation_length_2_inv in PE as [-> | ->]; apply Z.eqb_eq; lia.
    + exact CC.
    + apply Z.eqb_eq. rewrite (count_type_perm _ _ _ _ P). apply (types_of_23 label v w a b x N L).
    + rewrite !(count_type_perm _ _ _ _ P). rewrite orb_true_iff, !andb_true_iff, !Z.eqb_eq. apply (types_of_23 label v w a b x N L). }
  split; [|split; [exact PR|]].
  - unfold edge_sites. apply elem_of_elements, elem_of_filter. split; [|exact Hface].
    apply andb_true_iff. split; [apply finite_spec; exact Hfe|]. apply edge_class_tl; [exact Hvw|]. lia.
  - intros L1 L2 G. unfold move_32, bind.
    rewrite PR. unfold execute_32.
    assert (LE : forallb (locates T') (elements e) = true).
    { apply forallb_forall. intros y Hy. apply elem_of_list_In, elem_of_elements in Hy. unfold e in Hy.
      rewrite elem_of_of_list, !elem_of_cons, elem_of_nil in Hy. destruct Hy as [->|[->|[]]]; assumption. }
    rewrite LE, G. rewrite bool_decide_eq_true_2 by exact Hface. cbn [negb andb].
    unfold e. rewrite (flip_edge_complete _ _ _ _ _ _ ok'). f_equal. unfold T'. apply pachner_inverse. exact ok.
Qed.

(** ** (2,6) then (6,2) *)
Lemma of_list_one x : of_list [x] = {[x]}.
Proof. unfold of_list. set_solver +. Qed.

Lemma remove_inserted T a b c x d : pachner_ok T [x] [a; b; c; d] ->
  degree (pachner T [x] [a; b; c; d]) x = 4%nat /\ remove_vertex (pachner T [x] [a; b; c; d]) x = T.
Proof.
  intros ok. pose proof (pachner_ok_reverse _ _ _ ok) as ok'. pose proof (po_nodup _ _ _ ok') as N. cbn [app] in N.
  set (M := pachner T [x] [a; b; c; d]) in *. pose proof (star_pachner M [a; b; c; d] [x]) as SP. rewrite of_list_one in SP.
  assert (EL : link_vertices {[x]} M = of_list [a; b; c; d]).
  { apply set_eq. intros y. rewrite elem_of_link, elem_of_of_list. apply NoDup_5 in N. split.
    - intros [Hy (s & Hs & Hxs & Hys)]. assert (H : s ∈ star {[x]} M) by (apply elem_of_star; set_solver + Hs Hxs).
      apply (SP _ ok'), elem_of_list_fmap in H as (z & -> & _). apply elem_of_omit in Hys as [H _]. cbn [app] in H.
      rewrite !elem_of_cons, elem_of_nil in *. tauto.
    - intros Hy. split; [rewrite !elem_of_cons, elem_of_nil in Hy; clear - Hy N; intuition congruence|].
      assert (Hz : exists z, z ∈ [a; b; c; d] /\ z <> y).
      { destruct (decide (a = y)) as [->|]; [exists b|exists a]; (split; [set_solver +|]); clear - N n || clear - N; intuition congruence. }
      destruct Hz as (z & Hz & Hzy). exists (omit [a; b; c; d; x] z).
      assert (H : omit [a; b; c; d; x] z ∈ star {[x]} M) by (apply (SP _ ok'), elem_of_list_fmap; exists z; auto).
      apply elem_of_star in H as [H1 H2]. split; [exact H1|]. split; [apply H2; set_solver +|].
      apply elem_of_omit. split; [rewrite !elem_of_cons in *; tauto|congruence]. }
  split.
  - unfold degree. rewrite EL. apply of_list_size. apply (sublist_NoDup _ [a; b; c; d; x]); [repeat constructor|exact N].
  - unfold remove_vertex. rewrite EL. etransitivity; [|exact (pachner_inverse _ _ _ ok)]. fold M. unfold pachner. cbn [app].
    assert (E1 : star {[x]} M = list_to_set (map (omit [a; b; c; d; x]) [a; b; c; d])).
    { apply set_eq. intros s. rewrite elem_of_list_to_set. apply (SP s ok'). }
    assert (E2 : omit [a; b; c; d; x] x = of_list [a; b; c; d]) by (apply (omit_mid [a; b; c; d] x []); exact N).
    rewrite E1. cbn [map list_to_set]. rewrite E2. set_solver +.
Qed.

Lemma replaces_det T o n T1 T2 : replaces T o n T1 -> replaces T o n T2 -> T1 = T2.
Proof. intros (_ & _ & _ & _ & A) (_ & _ & _ & _ & B). apply set_eq. intros s. rewrite A, B. reflexivity. Qed.

Lemma swap_26 T a b c x d e : valid T -> NoDup [a; b; c; x; d; e] ->
  pachner_ok T [x] [a; b; c; d] -> pachner_ok (pachner T [x] [a; b; c; d]) [x; e] [a; b; c] ->
  pachner_ok T [x] [a; b; c; e] /\ pachner_ok (pachner T [x] [a; b; c; e]) [x; d] [a; b; c] /\
  pachner (pachner T [x] [a; b; c; e]) [x; d] [a; b; c] = pachner (pachner T [x] [a; b; c; d]) [x; e] [a; b; c].
Proof.
  intros V N ok1 ok2. pose proof (replaces_26 _ _ _ _ _ _ _ N ok1 ok2) as R.
  pose proof (vertices_26 _ _ _ _ _ _ _ N ok1 ok2) as [_ Hx].
  assert (N' : NoDup [a; b; c; x; e; d]).
  { apply nodup6. apply nodup6 in N. clear - N. intuition congruence. }
  assert (Hd : of_list [a; b; c; d] ∈ T) by (apply R; unfold two_cells_of; set_solver +).
  assert (He : of_list [a; b; c; e] ∈ T) by (apply R; unfold two_cells_of; set_solver +).
  destruct (insert_ok T a b c x e d (va_pure _ V) (va_closed _ V) N' He Hd Hx) as [ok1' ok2'].
  split; [exact ok1'|]. split; [exact ok2'|].
  pose proof (replaces_26 _ _ _ _ _ _ _ N' ok1' ok2') as R'.
  refine (replaces_det _ _ _ _ _ R' _). refine (replaces_perm _ _ _ _ _ _ _ _ R).
  - unfold two_cells_of. apply perm_swap.
  - unfold six_cells_of. apply (Permutation_app_comm [_; _; _] [_; _; _]).
Qed.

Lemma flip_some_two label T edges M1 M2 :
  (forall e, e ∈ edges -> timelike label e = true -> tds_flip_edge T e = Flipped M1 \/ tds_flip_edge T e = Flipped M2) ->
  (exists e, e ∈ edges /\ timelike label e = true) ->
  flip_some_edge label T edges = Flipped M1 \/ flip_some_edge label T edges = Flipped M2.
Proof.
  induction edges as [|e r IH]; intros H [e0 [He0 Ht0]]; [apply elem_of_nil in He0; tauto|]. cbn [flip_some_edge].
  destruct (timelike label e) eqn:Et.
  - destruct (H e ltac:(constructor) Et) as [-> | ->]; auto.
  - apply IH; [intros e' He'; apply H; constructor; exact He'|]. apply elem_of_cons in He0 as [->|He0]; [congruence|]. eauto.
Qed.

Lemma reverse_26 label junk locates T a b c x d e : valid T -> causal label T ->
  NoDup [a; b; c; x; d; e] -> infinite ∉ [a; b; c; x; d; e] ->
  pachner_ok T [x] [a; b; c; d] -> pachner_ok (pachner T [x] [a; b; c; d]) [x; e] [a; b; c] ->
  labels_26 label a b c x d e ->
  let T' := pachner (pachner T [x] [a; b; c; d]) [x; e] [a; b; c] in
  x ∈ vertex_sites T' /\ prepare_62 label junk T' x = Done tt /\
  (locates T' x = true -> forall edges, edges ≡ₚ finite_incident_edges T' x ->
     move_62 label junk locates T' x edges = Done T).
Proof.
  intros V C N F ok1 ok2 L T'.
  pose proof (replaces_26 _ _ _ _ _ _ _ N ok1 ok2) as R. fold T' in R.
  pose proof (vertices_26 _ _ _ _ _ _ _ N ok1 ok2) as [HV Hx]. fold T' in HV.
  pose proof (proj1 (nodup6 _ _ _ _ _ _) N) as N'.
  assert (Hxi : x <> infinite) by (intros ->; apply F; set_solver +).
  assert (notx : forall s, s ∈ T -> x ∉ s) by (intros s Hs Hxs; apply Hx, elem_of_vertices; eauto).
  assert (Hst : forall s, s ∈ star {[x]} T' <-> s ∈ six_cells_of a b c x d e).
  { intros s. rewrite elem_of_star, singleton_subseteq_l. destruct R as (_ & _ & _ & _ & R). rewrite R. split.
    - intros [[[A _]|A] B]; [destruct (notx s A B)|exact A].
    - intros A. split; [auto|]. unfold six_cells_of in A. cases_list A; subst s; rewrite elem_of_of_list; constructor. }
  assert (P : elements (star {[x]} T') ≡ₚ six_cells_of a b c x d e).
  { apply NoDup_Permutation; [apply NoDup_elements|apply R|]. intros s. rewrite elem_of_elements. apply Hst. }
  assert (EL : link_vertices {[x]} T' = of_list [a; b; c; d; e]).
  { apply set_eq. intros y. rewrite elem_of_link, elem_of_of_list. split.
    - intros [Hy (s & Hs & Hxs & Hys)]. assert (H : s ∈ star {[x]} T') by (apply elem_of_star; set_solver + Hs Hxs).
      apply Hst in H. unfold six_cells_of in H. clear - H Hy Hys. cases_list H; subst s; rewrite elem_of_of_list in Hys; rewrite !elem_of_cons, !elem_of_nil in *; tauto.
    - intros Hy. split; [rewrite !elem_of_cons, !elem_of_nil in Hy; clear - Hy N'; intuition congruence|].
      assert (HS : exists s, s ∈ six_cells_of a b c x d e /\ y ∈ s).
      { unfold six_cells_of. clear - Hy. cases_list Hy; subst y;
          [exists (of_list [x; a; b; d])|exists (of_list [x; a; b; d])|exists (of_list [x; b; c; d])|exists (of_list [x; a; b; d])|exists (of_list [x; a; b; e])];
          (split; [rewrite !elem_of_cons; tauto|rewrite elem_of_of_list, !elem_of_cons; tauto]). }
      destruct HS as (s & Hs & Hys). exists s. apply Hst, elem_of_star in Hs as [A B]. split; [exact A|]. split; [apply B; set_solver +|exact Hys]. }
  assert (N5 : NoDup [a; b; c; d; e]) by (apply NoDup_5; clear - N'; intuition congruence).
  assert (FC : forall s, s ∈ elements (star {[x]} T') -> infinite ∉ s).
  { intros s Hs. rewrite P in Hs. unfold six_cells_of in Hs. clear - Hs F.
    cases_list Hs; subst s; rewrite elem_of_of_list; rewrite !elem_of_cons, !elem_of_nil in *; tauto. }
  assert (Hxv : x ∈ vertices T') by (rewrite HV; set_solver +).
  assert (PR : prepare_62 label junk T' x = Done tt).
  { unfold prepare_62. rewrite bool_decide_eq_true_2 by exact Hxv. rewrite bool_decide_eq_false_2 by exact Hxi. cbn [negb orb].
    assert (M : is_62_movable label junk T' x = true); [|rewrite M; reflexivity].
    assert (ND : forall l, l ∈ [[x; a; b; d]; [x; b; c; d]; [x; a; c; d]; [x; a; b; e]; [x; b; c; e]; [x; a; c; e]] -> NoDup l).
    { intros l Hl. clear - Hl N'. cases_list Hl; subst l; apply nodup4; intuition congruence. }
    assert (CT : count_type label THREE_ONE (six_cells_of a b c x d e) = 3 /\
                 count_type label TWO_TWO (six_cells_of a b c x d e) = 0 /\
                 count_type label ONE_THREE (six_cells_of a b c x d e) = 3 /\
                 forall s, s ∈ six_cells_of a b c x d e -> causal_type (cell_type label s) = true).
    { destruct L as (t & La & Lb & Lc & Lx & Ld). unfold count_type, six_cells_of. cbn [List.filter].
      rewrite !cell_type_of_list by (apply ND; clear; rewrite !elem_of_cons; tauto). cbn [map]. rewrite La, Lb, Lc, Lx.
      assert (CX : forall l s, l ∈ [[x; a; b; d]; [x; b; c; d]; [x; a; c; d]; [x; a; b; e]; [x; b; c; e]; [x; a; c; e]] -> s = of_list l -> cell_type label s = classify (map label l)).
      { intros l s Hl ->. apply cell_type_of_list, ND, Hl. }
      destruct Ld as [[Ld Le]|[Ld Le]]; rewrite Ld, Le.
      - pose proof (classify4 t 0 0 0 1) as Q1. pose proof (classify4 t 0 0 0 (-1)) as Q2.
        replace (t + 0) with t in Q1, Q2 by lia. change (t + -1) with (t - 1) in Q2. rewrite Q1, Q2.
        split; [reflexivity|]. split; [reflexivity|]. split; [reflexivity|].
        intros s Hs. cases_list Hs; subst s; (rewrite cell_type_of_list by (apply ND; clear; rewrite !elem_of_cons; tauto)); cbn [map];
          rewrite ?La, ?Lb, ?Lc, ?Lx, ?Ld, ?Le, ?Q1, ?Q2; reflexivity.
      - pose proof (classify4 t 0 0 0 1) as Q1. pose proof (classify4 t 0 0 0 (-1)) as Q2.
        replace (t + 0) with t in Q1, Q2 by lia. change (t + -1) with (t - 1) in Q2. rewrite Q1, Q2.
        split; [reflexivity|]. split; [reflexivity|]. split; [reflexivity|].
        intros s Hs. cases_list Hs; subst s; (rewrite cell_type_of_list by (apply ND; clear; rewrite !elem_of_cons; tauto)); cbn [map];
          rewrite ?La, ?Lb, ?Lc, ?Lx, ?Ld, ?Le, ?Q1, ?Q2; reflexivity. }
    destruct CT as (C31 & C22 & C13 & CC).
    unfold is_62_movable. rewrite !(count_type_perm _ _ _ _ P), C31, C22, C13.
    rewrite bool_decide_eq_true_2 by exact Hxv. unfold degree. rewrite EL, of_list_size by exact N5.
    rewrite (Permutation_length P). cbn [Nat.eqb length six_cells_of andb].
    rewrite !andb_true_iff. repeat (split; [|reflexivity]). rewrite !forallb_forall. setoid_rewrite <- elem_of_list_In.
    split; [split; [|reflexivity]|].
    - intros s Hs. apply finite_spec, FC, Hs.
    - intros s Hs. pose proof (FC s Hs) as Fs. apply finite_spec in Fs. apply correct_finite_causal; [exact Fs| |].
      + rewrite P in Hs. unfold six_cells_of in Hs. cases_list Hs; subst s; (rewrite of_list_size; [reflexivity|apply ND; clear; rewrite !elem_of_cons; tauto]).
      + apply CC. rewrite P in Hs. exact Hs. }
  split; [|split; [exact PR|]].
  { unfold vertex_sites. apply elem_of_elements. unfold finite_vertices. rewrite elem_of_difference, elem_of_singleton. auto. }
  intros HL edges HE. unfold move_62, bind. rewrite PR. unfold execute_62. rewrite HL. cbn [negb].
  destruct (swap_26 T a b c x d e V N ok1 ok2) as (ok1' & ok2' & ESW). fold T' in ESW.
  set (M1 := pachner T [x] [a; b; c; d]) in *. set (M2 := pachner T [x] [a; b; c; e]) in *.
  assert (Lt : label a = label x /\ label b = label x /\ label c = label x /\ label d <> label x /\ label e <> label x).
  { destruct L as (t & La & Lb & Lc & Lx & [[Ld Le]|[Ld Le]]); rewrite La, Lb, Lc, Lx, Ld, Le; clear; lia. }
  assert (FL1 : tds_flip_edge T' (of_list [x; e]) = Flipped M1).
  { unfold T'. rewrite (flip_edge_complete _ _ _ _ _ _ (pachner_ok_reverse _ _ _ ok2)). f_equal. apply pachner_inverse. exact ok2. }
  assert (FL2 : tds_flip_edge T' (of_list [x; d]) = Flipped M2).
  { rewrite <- ESW. rewrite (flip_edge_complete _ _ _ _ _ _ (pachner_ok_reverse _ _ _ ok2')). f_equal. apply pachner_inverse. exact ok2'. }
  assert (Hinc : forall y, y ∈ [a; b; c; d; e] -> of_list [x; y] ∈ edges).
  { intros y Hy. rewrite HE. unfold finite_incident_edges. apply elem_of_list_fmap. exists y. split; [reflexivity|].
    apply elem_of_elements, elem_of_difference. split; [rewrite EL, elem_of_of_list; exact Hy|].
    rewrite elem_of_singleton. intros ->. apply F. clear - Hy. rewrite !elem_of_cons, !elem_of_nil in *. tauto. }
  assert (FS : flip_some_edge label T' edges = Flipped M1 \/ flip_some_edge label T' edges = Flipped M2).
  { apply flip_some_two.
    - intros ed Hed Ht. rewrite HE in Hed. unfold finite_incident_edges in Hed. apply elem_of_list_fmap in Hed as (y & -> & Hy).
      apply elem_of_elements, elem_of_difference in Hy as [Hy _]. rewrite EL, elem_of_of_list in Hy.
      destruct Lt as (La & Lb & Lc & _).
      assert (Hxy : x <> y) by (clear - Hy N'; rewrite !elem_of_cons, elem_of_nil in Hy; intuition congruence).
      rewrite timelike_of_list in Ht by exact Hxy. apply negb_true_iff, Z.eqb_neq in Ht.
      rewrite !elem_of_cons, elem_of_nil in Hy. destruct Hy as [->|[->|[->|[->|[->|[]]]]]]; try congruence; auto.
    - exists (of_list [x; d]). split; [apply Hinc; set_solver +|]. rewrite timelike_of_list by (clear - N'; intuition congruence).
      apply negb_true_iff, Z.eqb_neq. destruct Lt as (_ & _ & _ & Ld & _). congruence. }
  pose proof (geometry_26 _ _ _ _ _ _ _ ok1 ok2 label F L V) as GEO. fold M1 in GEO. fold T' in GEO.
  assert (G3 : n3 T + 4 = n3 T') by (pose proof (f_equal gN3 GEO) as G; symmetry; exact G).
  assert (G0 : n0 T + 1 = n0 T') by (pose proof (f_equal gN0 GEO) as G; symmetry; exact G).
  assert (FA : forallb (fun c0 => negb (finite_simplex c0) || (negb (cell_type label c0 =? ACAUSAL) && negb (cell_type label c0 =? UNCLASSIFIED))) (elements T) = true).
  { apply forallb_forall. intros s Hs. apply elem_of_list_In, elem_of_elements in Hs. destruct (finite_simplex s) eqn:Fs; [|reflexivity].
    apply finite_spec in Fs. specialize (C s Hs Fs). unfold causal_type in C. cbn.
    destruct (cell_type label s =? ACAUSAL) eqn:E1; [apply Z.eqb_eq in E1; rewrite E1 in C; discriminate|].
    destruct (cell_type label s =? UNCLASSIFIED) eqn:E2; [apply Z.eqb_eq in E2; rewrite E2 in C; discriminate|]. reflexivity. }
  assert (VT : tds_valid T = true) by (apply tds_valid_spec; exact V).
  assert (E3 : n3 T + 4 =? n3 T' = true) by (apply Z.eqb_eq; exact G3).
  assert (E0 : n0 T + 1 =? n0 T' = true) by (apply Z.eqb_eq; exact G0).
  destruct FS as [-> | ->].
  - destruct (remove_inserted _ _ _ _ _ _ ok1) as [D RM]. fold M1 in D, RM. rewrite D, RM, VT, E3, E0, FA.
    assert (VM : tds_valid M1 = true) by (apply tds_valid_spec, pachner_valid; assumption). rewrite VM. reflexivity.
  - destruct (remove_inserted _ _ _ _ _ _ ok1') as [D RM]. fold M2 in D, RM. rewrite D, RM, VT, E3, E0, FA.
    assert (VM : tds_valid M2 = true) by (apply tds_valid_spec, pachner_valid; assumption). rewrite VM. reflexivity.
Qed.
