(** Preparation and execution of the (2,6) and (6,2) moves. *)
From Verif Require Import Base Tracker Geom Simplex Pachner Foliation Moves Links MoveCore MoveTools Move23 Move44 Move26.
From stdpp Require Import fin_sets gmap sorting.
Local Open Scope Z_scope.

(** ** (2,6) *)
(** No infinite cell passes for a (3,1) cell: its uninitialised info and the
    uninitialised label of the infinite vertex do not happen to agree on it.
    (find_adjacent_31_cell does not test is_infinite.) *)
Definition no_infinite_31 (label : vertex -> Z) (junk : tds -> simplex -> Z) (T : tds) : Prop :=
  forall n, n ∈ T -> infinite ∈ n -> cell_type label n = THREE_ONE -> junk T n <> THREE_ONE.

Lemma equal_facet_13 t d : classify [t; t; t; d] = ONE_THREE -> d = t - 1.
Proof.
  intros H. destruct (causal_bits t t t d) as (s & b1 & b2 & b3 & b4 & E1 & E2 & E3 & ->); [rewrite H; reflexivity|].
  rewrite E1 in H. rewrite classify4 in H. destruct b1, b4; try (vm_compute in H; discriminate H); cbn [b2z] in *; lia.
Qed.
Lemma equal_facet_31 t d : classify [t; t; t; d] = THREE_ONE -> d = t + 1.
Proof.
  intros H. destruct (causal_bits t t t d) as (s & b1 & b2 & b3 & b4 & E1 & E2 & E3 & ->); [rewrite H; reflexivity|].
  rewrite E1 in H. rewrite classify4 in H. destruct b1, b4; try (vm_compute in H; discriminate H); cbn [b2z] in *; lia.
Qed.

Lemma insert_ok T a b c x d e : pure T -> closed T -> NoDup [a; b; c; x; d; e] ->
  of_list [a; b; c; d] ∈ T -> of_list [a; b; c; e] ∈ T -> x ∉ vertices T ->
  pachner_ok T [x] [a; b; c; d] /\ pachner_ok (pachner T [x] [a; b; c; d]) [x; e] [a; b; c].
Proof.
  intros HP HC N Hd He Hx. pose proof (proj1 (nodup6 _ _ _ _ _ _) N) as N'.
  assert (notx : forall s, s ∈ T -> x ∉ s) by (intros s Hs Hxs; apply Hx, elem_of_vertices; eauto).
  assert (E1 : omit [x; a; b; c; d] x = of_list [a; b; c; d]) by omits N'.
  assert (E2 : omit [x; a; b; c; d] a = of_list [x; b; c; d]) by omits N'.
  assert (E3 : omit [x; a; b; c; d] b = of_list [x; a; c; d]) by omits N'.
  assert (E4 : omit [x; a; b; c; d] c = of_list [x; a; b; d]) by omits N'.
  assert (E5 : omit [x; a; b; c; d] d = of_list [x; a; b; c]) by omits N'.
  assert (F1 : omit [x; e; a; b; c] x = of_list [a; b; c; e]) by omits N'.
  assert (F2 : omit [x; e; a; b; c] e = of_list [x; a; b; c]) by omits N'.
  assert (ok1 : pachner_ok T [x] [a; b; c; d]).
  { constructor; cbn [app].
    - apply NoDup_5. clear - N'. intuition congruence.
    - reflexivity.
    - discriminate.
    - discriminate.
    - intros y Hy. apply elem_of_list_singleton in Hy as ->. rewrite E1. exact Hd.
    - intros s Hs Hsub. exists x. split; [constructor|]. rewrite E1. symmetry. apply subset_eq_size; [exact Hsub|].
      rewrite (HP s Hs), (HP _ Hd). reflexivity.
    - intros s Hs Hsub. apply (notx s Hs), Hsub. rewrite elem_of_of_list. constructor. }
  split; [exact ok1|].
  assert (M1 : forall s, s ∈ pachner T [x] [a; b; c; d] <-> (s ∈ T /\ s <> of_list [a; b; c; d]) \/ s ∈ [of_list [x; b; c; d]; of_list [x; a; c; d]; of_list [x; a; b; d]; of_list [x; a; b; c]]).
  { intros s. pose proof (pachner_replaces _ _ _ ok1) as (_ & _ & _ & _ & R). cbn [app map] in R. rewrite E1, E2, E3, E4, E5 in R. rewrite R.
    rewrite elem_of_list_singleton. reflexivity. }
  assert (Hde : of_list [a; b; c; e] <> of_list [a; b; c; d]) by cellneq N'.
  constructor; cbn [app].
  - apply NoDup_5. clear - N'. intuition congruence.
  - reflexivity.
  - discriminate.
  - discriminate.
  - intros y Hy. rewrite !elem_of_cons, elem_of_nil in Hy. destruct Hy as [->|[->|[]]].
    + rewrite F1. apply M1. left. auto.
    + rewrite F2. apply M1. right. rewrite !elem_of_cons. tauto.
  - intros s Hs Hsub. apply M1 in Hs as [[Hs Hne]|Hs].
    + exists x. split; [constructor|]. rewrite F1.
      destruct (two_cells T HC (of_list [a; b; c]) _ Hd) as (n & Hn & Hnc & _ & Hall).
      { intros k. rewrite !elem_of_of_list. set_solver +. }
      { apply of_list_size. apply (sublist_NoDup _ [a; b; c; x; d; e]); [repeat constructor|exact N]. }
      destruct (Hall s Hs Hsub) as [->| ->]; [contradiction|].
      destruct (Hall _ He) as [E|E]; [intros k; rewrite !elem_of_of_list; set_solver +|contradiction|congruence].
    + exists e. split; [rewrite !elem_of_cons; tauto|]. rewrite F2.
      assert (A : a ∈ s /\ b ∈ s /\ c ∈ s) by (repeat split; apply Hsub; rewrite elem_of_of_list; set_solver +).
      rewrite !elem_of_cons, elem_of_nil in Hs. destruct Hs as [->|[->|[->|[->|[]]]]]; [exfalso| exfalso|exfalso|reflexivity];
        rewrite !elem_of_of_list, !elem_of_cons, !elem_of_nil in A; clear - A N'; intuition congruence.
  - intros s Hs Hsub.
    assert (A : x ∈ s /\ e ∈ s) by (split; apply Hsub; rewrite elem_of_of_list; set_solver +). destruct A as [A B].
    apply M1 in Hs as [[Hs _]|Hs]; [exact (notx s Hs A)|].
    rewrite !elem_of_cons, elem_of_nil in Hs. destruct Hs as [->|[->|[->|[->|[]]]]];
      rewrite elem_of_of_list, !elem_of_cons, elem_of_nil in B; clear - B N'; intuition congruence.
Qed.

Lemma insert_in_facet_pachner T a b c x d e : pure T -> closed T -> NoDup [a; b; c; x; d; e] ->
  of_list [a; b; c; d] ∈ T -> of_list [a; b; c; e] ∈ T -> x ∉ vertices T ->
  insert_in_facet T (of_list [a; b; c; d]) (of_list [a; b; c; e]) d x =
  pachner (pachner T [x] [a; b; c; d]) [x; e] [a; b; c].
Proof.
  intros HP HC N Hd He Hx. pose proof (proj1 (nodup6 _ _ _ _ _ _) N) as N'.
  destruct (insert_ok T a b c x d e HP HC N Hd He Hx) as [ok1 ok2].
  pose proof (replaces_26 T a b c x d e N ok1 ok2) as (_ & _ & _ & _ & R).
  apply set_eq. intros s. rewrite R. unfold insert_in_facet, two_cells_of, six_cells_of.
  assert (Ef : of_list [a; b; c; d] ∖ {[d]} = of_list [a; b; c]).
  { apply (omit_is [a; b; c; d] d [a; b; c]). clear - N'. intros k. rewrite !elem_of_cons, !elem_of_nil. split; [|tauto].
    intros [->|[->|[->|[]]]]; (split; [tauto|]); intuition congruence. }
  rewrite Ef.
  assert (Nf : NoDup [a; b; c]) by (apply (sublist_NoDup _ [a; b; c; x; d; e]); [repeat constructor|exact N]).
  assert (G : forall y m, (y = a \/ y = b \/ y = c) -> (m = d \/ m = e) ->
     {[x]} ∪ of_list [a; b; c; m] ∖ {[y]} = of_list (x :: List.filter (fun k => negb (Pos.eqb k y)) [a; b; c] ++ [m])).
  { intros y m Hy Hm. apply set_eq. intros k. rewrite elem_of_union, elem_of_difference, !elem_of_singleton, !elem_of_of_list.
    assert (RH : k ∈ x :: List.filter (fun k => negb (Pos.eqb k y)) [a; b; c] ++ [m] <-> k = x \/ (k ∈ [a; b; c] /\ k <> y) \/ k = m).
    { rewrite elem_of_cons, elem_of_app, elem_of_list_singleton, (elem_of_list_In (List.filter _ _) k), filter_In, negb_true_iff, Pos.eqb_neq, <- elem_of_list_In. reflexivity. }
    rewrite RH.
    rewrite !elem_of_cons, !elem_of_nil. destruct (decide (k = y)) as [->|Hk]; [|tauto].
    assert (y <> m) by (clear - N' Hy Hm; intuition congruence). tauto. }
  assert (neqs : Pos.eqb a b = false /\ Pos.eqb a c = false /\ Pos.eqb b a = false /\ Pos.eqb b c = false /\ Pos.eqb c a = false /\ Pos.eqb c b = false).
  { rewrite !Pos.eqb_neq. clear - N'. intuition congruence. }
  destruct neqs as (Q1 & Q2 & Q3 & Q4 & Q5 & Q6).
  assert (Gm : forall m, m = d \/ m = e -> forall s, s ∈ map (fun y => {[x]} ∪ of_list [a; b; c; m] ∖ {[y]}) (elements (of_list [a; b; c])) <->
     s ∈ [of_list [x; a; b; m]; of_list [x; b; c; m]; of_list [x; a; c; m]]).
  { intros m Hm s'. rewrite elem_of_list_fmap. setoid_rewrite elem_of_elements. setoid_rewrite elem_of_of_list.
    pose proof (G a m (or_introl eq_refl) Hm) as G1. pose proof (G b m (or_intror (or_introl eq_refl)) Hm) as G2. pose proof (G c m (or_intror (or_intror eq_refl)) Hm) as G3.
    cbn [List.filter] in G1, G2, G3. rewrite Pos.eqb_refl, Q3, Q5 in G1. rewrite Pos.eqb_refl, Q1, Q6 in G2. rewrite Pos.eqb_refl, Q2, Q4 in G3. cbn [negb app] in G1, G2, G3.
    split.
    - intros (y & -> & Hy). rewrite !elem_of_cons, elem_of_nil in Hy. destruct Hy as [->|[->|[->|[]]]]; [rewrite G1|rewrite G2|rewrite G3]; rewrite !elem_of_cons; tauto.
    - intros Hs. rewrite !elem_of_cons, elem_of_nil in Hs. destruct Hs as [->|[->|[->|[]]]].
      + exists c. split; [symmetry; exact G3|set_solver +].
      + exists a. split; [symmetry; exact G1|set_solver +].
      + exists b. split; [symmetry; exact G2|set_solver +]. }
  rewrite !elem_of_union, elem_of_difference, !elem_of_list_to_set, (Gm d (or_introl eq_refl)), (Gm e (or_intror eq_refl)).
  rewrite elem_of_union, !elem_of_singleton, !elem_of_cons, !elem_of_nil. tauto.
Qed.

Lemma move_26_raw label junk locates centroid T c0 T' :
  valid T -> infinite ∉ c0 ->
  move_26 label junk locates centroid T c0 = Done T' ->
  exists a b c d e, let x := centroid (of_list [a; b; c]) in
    NoDup [a; b; c; x; d; e] /\ infinite ∉ [a; b; c; x; d] /\ c0 = of_list [a; b; c; d] /\
    pachner_ok T [x] [a; b; c; d] /\ pachner_ok (pachner T [x] [a; b; c; d]) [x; e] [a; b; c] /\
    T' = pachner (pachner T [x] [a; b; c; d]) [x; e] [a; b; c] /\
    exists t, label a = t /\ label b = t /\ label c = t /\ label d = t - 1 /\ label e = t + 1 /\
      (no_infinite_31 label junk T -> infinite <> e).
Proof.
  intros VT Fc. unfold move_26, bind.
  destruct (prepare_26 label junk T c0) as [[n0 v0]|?|] eqn:Hp; try discriminate. cbn [snd].
  unfold prepare_26 in Hp. destruct (bool_decide (c0 ∈ T)) eqn:Hc; cbn [negb] in Hp; [|discriminate]. apply bool_decide_eq_true in Hc.
  destruct (find_adjacent_31_cell label junk T c0) as [n|] eqn:Ef; [|discriminate].
  destruct (mirror_vertex c0 n) as [v|] eqn:Em; [|discriminate].
  destruct (map label (elements (c0 ∖ {[v]}))) as [|t1 [|t2 [|t3 [|? ?]]]] eqn:El; try discriminate.
  destruct ((t1 =? t2) && (t2 =? t3)) eqn:Et; [|discriminate]. injection Hp as <- <-.
  apply andb_true_iff in Et as [Et1 Et2]. apply Z.eqb_eq in Et1, Et2. subst t2 t3.
  unfold find_adjacent_31_cell in Ef.
  destruct (correct label junk T c0) eqn:Cc; cbn [negb orb] in Ef; [|discriminate].
  destruct (cell_type label c0 =? ONE_THREE) eqn:Ct; cbn [negb orb] in Ef; [|discriminate]. apply Z.eqb_eq in Ct.
  assert (Hn : n ∈ candidates_31 label junk T c0).
  { destruct (candidates_31 label junk T c0) as [|n1 l]; [discriminate|]. injection Ef as ->. constructor. }
  unfold candidates_31, canonicalize in Hn. rewrite (elem_of_Permutation_proper n _ _ (merge_sort_Permutation _ _)) in Hn.
  apply elem_of_list_omap in Hn as (v1 & Hv1 & Hn). apply elem_of_elements in Hv1. unfold neighbor_31 in Hn.
  destruct (neighbor_spec T (va_pure _ VT) (va_closed _ VT) c0 v1 Hc Hv1) as (n1 & w & En & HnT & Hw & Enw & _ & Em2 & _).
  rewrite En in Hn. destruct (correct label junk T n1) eqn:Cn; cbn [andb] in Hn; [|discriminate].
  destruct (cell_type label n1 =? THREE_ONE) eqn:Tn; [|discriminate]. injection Hn as ->. apply Z.eqb_eq in Tn.
  rewrite Em2 in Em. injection Em as ->.
  unfold execute_26. destruct (negb _) eqn:Hneg; [discriminate|]. clear Hneg. rewrite En.
  set (x := centroid (c0 ∖ {[v]})).
  destruct (bool_decide (x ∈ vertices T)) eqn:Hx; cbn [orb]; [discriminate|]. apply bool_decide_eq_false in Hx.
  destruct (bool_decide (x = infinite)) eqn:Hxi; [discriminate|]. apply bool_decide_eq_false in Hxi. intros [= <-].
  assert (Hs3 : size (c0 ∖ {[v]}) = 3%nat).
  { rewrite size_difference by (set_solver + Hv1). rewrite (va_pure _ VT _ Hc), size_singleton. reflexivity. }
  destruct (elements_three _ Hs3) as (a & b & c & Ee & Nf & Efs).
  rewrite Ee in El. cbn [map] in El. injection El as La Lb Lc.
  assert (Ec0 : c0 = of_list [a; b; c; v]).
  { apply set_eq. intros k. rewrite elem_of_of_list. destruct (decide (k = v)) as [->|Hk].
    - split; [intros _; rewrite !elem_of_cons; tauto|intros _; exact Hv1].
    - assert (k ∈ c0 <-> k ∈ c0 ∖ {[v]}) as -> by (rewrite elem_of_difference, elem_of_singleton; tauto).
      rewrite Efs, elem_of_of_list, !elem_of_cons, !elem_of_nil. tauto. }
  assert (En0 : n = of_list [a; b; c; w]).
  { rewrite Enw, Efs. apply set_eq. intros k. rewrite elem_of_union, elem_of_singleton, !elem_of_of_list, !elem_of_cons, !elem_of_nil. tauto. }
  assert (Hvf : v ∉ [a; b; c]) by (rewrite <- elem_of_of_list, <- Efs; set_solver +).
  rewrite Ec0, elem_of_of_list in Hw.
  assert (Hx' : x ∉ [a; b; c; v] /\ x <> w).
  { split.
    - rewrite <- elem_of_of_list, <- Ec0. intros H. apply Hx, elem_of_vertices. eauto.
    - intros ->. apply Hx, elem_of_vertices. exists n. split; [exact HnT|]. rewrite En0, elem_of_of_list. set_solver +. }
  destruct Hx' as [Hx1 Hx2].
  assert (N : NoDup [a; b; c; x; v; w]).
  { clear - Nf Hvf Hw Hx1 Hx2. rewrite !NoDup_cons, !elem_of_cons, !elem_of_nil in *.
    repeat split; try apply NoDup_nil_2; intros HH; intuition congruence. }
  pose proof (proj1 (nodup6 _ _ _ _ _ _) N) as N'.
  assert (N4c : NoDup [a; b; c; v]) by (apply nodup4; clear - N'; intuition congruence).
  assert (N4n : NoDup [a; b; c; w]) by (apply nodup4; clear - N'; intuition congruence).
  pose proof Ct as Ct'. pose proof Tn as Tn'.
  rewrite Ec0, cell_type_of_list in Ct' by exact N4c. rewrite En0, cell_type_of_list in Tn' by exact N4n.
  cbn [map] in Ct', Tn'. rewrite La, Lb, Lc in Ct', Tn'.
  apply equal_facet_13 in Ct'. apply equal_facet_31 in Tn'.
  exists a, b, c, v, w. rewrite <- Efs. fold x. cbn zeta.
  pose proof Hc as HcT. rewrite Ec0 in HcT. rewrite En0 in HnT.
  assert (Fn : no_infinite_31 label junk T -> infinite ∉ n).
  { intros Hinf Hi. unfold correct in Cn. rewrite !andb_true_iff, Z.eqb_eq in Cn. destruct Cn as [_ Cn].
    unfold cell_info in Cn. replace (finite_simplex n) with false in Cn.
    - apply (Hinf n); [rewrite En0; exact HnT|exact Hi|exact Tn|congruence].
    - symmetry. unfold finite_simplex. apply negb_false_iff, bool_decide_eq_true. exact Hi. }
  destruct (insert_ok T a b c x v w (va_pure _ VT) (va_closed _ VT) N HcT HnT Hx) as [ok1 ok2].
  split; [exact N|]. split.
  { rewrite Ec0, elem_of_of_list in Fc. clear - Fc Hxi.
    rewrite !elem_of_cons, !elem_of_nil in *. intuition congruence. }
  split; [exact Ec0|]. split; [exact ok1|]. split; [exact ok2|]. split.
  { rewrite Ec0, En0. apply insert_in_facet_pachner; try assumption; [exact (va_pure _ VT)|exact (va_closed _ VT)]. }
  exists t1. repeat (split; [assumption|]). intros Hinf Hi. apply (Fn Hinf). rewrite En0, elem_of_of_list, Hi.
  rewrite !elem_of_cons. tauto.
Qed.

Lemma move_26_effect label junk locates centroid T c0 T' :
  valid T -> no_infinite_31 label junk T -> infinite ∉ c0 ->
  move_26 label junk locates centroid T c0 = Done T' ->
  exists a b c d e, let x := centroid (of_list [a; b; c]) in
    NoDup [a; b; c; x; d; e] /\ infinite ∉ [a; b; c; x; d; e] /\ c0 = of_list [a; b; c; d] /\
    pachner_ok T [x] [a; b; c; d] /\ pachner_ok (pachner T [x] [a; b; c; d]) [x; e] [a; b; c] /\
    T' = pachner (pachner T [x] [a; b; c; d]) [x; e] [a; b; c] /\
    exists t, label a = t /\ label b = t /\ label c = t /\ label d = t - 1 /\ label e = t + 1.
Proof.
  intros VT Hinf Fc HM.
  destruct (move_26_raw _ _ _ _ _ _ _ VT Fc HM) as (a & b & c & d & e & N & F & E & ok1 & ok2 & ET & t & La & Lb & Lc & Ld & Le & Hi).
  specialize (Hi Hinf). exists a, b, c, d, e. split; [exact N|]. split.
  { clear - F Hi. rewrite !elem_of_cons, !elem_of_nil in *. intuition congruence. }
  repeat (split; [assumption|]). exists t. auto.
Qed.
