(** (4,4) is its own inverse. *)
From Verif Require Import Base Tracker Command Geom Simplex Pachner Foliation Moves Links MoveCore MoveTools Move23 Move44 Move26 Move26Site Move62Site MoveSpec MoveSound Manifold ManifoldFacts ManifoldMoves Reverse.
From stdpp Require Import fin_sets gmap sorting.
From Verif Require Import Foliation.
Local Open Scope Z_scope.

Lemma top_some label l r : r ∈ l -> (forall y, y ∈ l -> y <> r -> label y < label r) -> top_vertex label l = Some r.
Proof.
  intros Hr H. destruct (top_vertex label l) as [r'|] eqn:E.
  - apply top_spec in E as [A B]. specialize (B r Hr). destruct (decide (r' = r)) as [->|D]; [reflexivity|].
    specialize (H r' A D). unfold vle in B. lia.
  - exfalso. unfold top_vertex in E. destruct l as [|y l]; [apply elem_of_nil in Hr; exact Hr|]. cbn [fold_left] in E.
    clear - E. revert y E. induction l as [|z l IH]; intros y E; [discriminate|]. cbn [fold_left] in E.
    destruct (vertex_precedes label y z); eapply IH; exact E.
Qed.

Lemma bottom_some label l r : r ∈ l -> (forall y, y ∈ l -> y <> r -> label r < label y) -> bottom_vertex label l = Some r.
Proof.
  intros Hr H. destruct (bottom_vertex label l) as [r'|] eqn:E.
  - apply bottom_spec in E as [A B]. specialize (B r Hr). destruct (decide (r' = r)) as [->|D]; [reflexivity|].
    specialize (H r' A D). unfold vle in B. lia.
  - exfalso. unfold bottom_vertex in E. destruct l as [|y l]; [apply elem_of_nil in Hr; exact Hr|]. cbn [fold_left] in E.
    clear - E. revert y E. induction l as [|z l IH]; intros y E; [discriminate|]. cbn [fold_left] in E.
    destruct (vertex_precedes label z y); eapply IH; exact E.
Qed.

Section Inverse44.
  Variables (T : tds) (p q a b top bot : vertex).
  Hypothesis V : valid T.
  Hypothesis N : NoDup [p; q; a; b; top; bot].
  Hypothesis ok1 : pachner_ok T [a; b] [p; q; bot].
  Let T1 := pachner T [a; b] [p; q; bot].
  Hypothesis ok2 : pachner_ok T1 [a; b; top] [p; q].
  Let T' := pachner T1 [a; b; top] [p; q].

  Let R : replaces T [of_list [p; q; a; top]; of_list [p; q; b; top]; of_list [p; q; a; bot]; of_list [p; q; b; bot]]
               [of_list [p; a; b; top]; of_list [q; a; b; top]; of_list [p; a; b; bot]; of_list [q; a; b; bot]] T'
    := replaces_44 T p q a b top bot N ok1 ok2.
  Let N' := proj1 (nodup6 _ _ _ _ _ _) N.

  Lemma no_ab s : s ∈ T -> ~ (a ∈ s /\ b ∈ s).
  Proof using ok1.
    intros Hs [A B]. apply (po_absent _ _ _ ok1 s Hs). intros y. rewrite elem_of_of_list, !elem_of_cons, elem_of_nil.
    intros [->|[->|[]]]; assumption.
  Qed.
  Lemma no_pq s : s ∈ T' -> ~ (p ∈ s /\ q ∈ s).
  Proof using ok2.
    intros Hs [A B]. apply (po_absent _ _ _ (pachner_ok_reverse _ _ _ ok2) s Hs).
    intros y. rewrite elem_of_of_list, !elem_of_cons, elem_of_nil.
    intros [->|[->|[]]]; assumption.
  Qed.
  Lemma star_ab s : s ∈ star (of_list [a; b]) T' <->
    s ∈ [of_list [p; a; b; top]; of_list [q; a; b; top]; of_list [p; a; b; bot]; of_list [q; a; b; bot]].
  Proof using N ok1 ok2.
    rewrite elem_of_star. destruct R as (_ & _ & _ & _ & RT). rewrite RT. split.
    - intros [[[A _]|A] B]; [|exact A]. exfalso. apply (no_ab s A). split; apply B, elem_of_of_list; set_solver +.
    - intros A. split; [auto|]. cases_list A; subst s; intros y; rewrite !elem_of_of_list, !elem_of_cons; tauto.
  Qed.

  Lemma back_ok1 : pachner_ok T' [p; q] [a; b; bot].
  Proof using N ok1 ok2.
    assert (O1 : omit [p; q; a; b; bot] p = of_list [q; a; b; bot]) by omits N'.
    assert (O2 : omit [p; q; a; b; bot] q = of_list [p; a; b; bot]) by omits N'.
    constructor.
    - cbn [app]. apply NoDup_5. clear - N'. intuition congruence.
    - reflexivity.
    - discriminate.
    - discriminate.
    - intros y Hy. cbn [app]. rewrite !elem_of_cons, elem_of_nil in Hy. destruct R as (_ & _ & _ & _ & RT).
      destruct Hy as [->|[->|[]]]; rewrite ?O1, ?O2; apply RT; right; clear; rewrite !elem_of_cons; tauto.
    - intros s Hs Hsub. cbn [app].
      assert (S : s ∈ star (of_list [a; b]) T').
      { apply elem_of_star. split; [exact Hs|]. intros y Hy. apply Hsub. rewrite elem_of_of_list, !elem_of_cons in *. tauto. }
      apply star_ab in S. assert (Hb : bot ∈ s) by (apply Hsub, elem_of_of_list; set_solver +).
      cases_list S; subst s.
      + exfalso. rewrite elem_of_of_list, !elem_of_cons, elem_of_nil in Hb. clear - Hb N'. intuition congruence.
      + exfalso. rewrite elem_of_of_list, !elem_of_cons, elem_of_nil in Hb. clear - Hb N'. intuition congruence.
      + exists q. rewrite O2. split; [set_solver +|reflexivity].
      + exists p. rewrite O1. split; [set_solver +|reflexivity].
    - intros s Hs Hsub. apply (no_pq s Hs). split; apply Hsub, elem_of_of_list; set_solver +.
  Qed.

  Let T1' := pachner T' [p; q] [a; b; bot].
  Lemma back_ok2 : pachner_ok T1' [p; q; top] [a; b].
  Proof using N ok1 ok2.
    pose proof back_ok1 as bo1.
    assert (O1 : omit [p; q; a; b; bot] p = of_list [q; a; b; bot]) by omits N'.
    assert (O2 : omit [p; q; a; b; bot] q = of_list [p; a; b; bot]) by omits N'.
    assert (O3 : omit [p; q; a; b; bot] a = of_list [p; q; b; bot]) by omits N'.
    assert (O4 : omit [p; q; a; b; bot] b = of_list [p; q; a; bot]) by omits N'.
    assert (O5 : omit [p; q; a; b; bot] bot = of_list [p; q; a; b]) by omits N'.
    pose proof (pachner_replaces _ _ _ bo1) as R1. cbn [app map] in R1. rewrite O1, O2, O3, O4, O5 in R1. fold T1' in R1.
    destruct R1 as (_ & _ & _ & _ & RT1). destruct R as (_ & _ & _ & _ & RT).
    assert (Q1 : omit [p; q; top; a; b] p = of_list [q; a; b; top]) by omits N'.
    assert (Q2 : omit [p; q; top; a; b] q = of_list [p; a; b; top]) by omits N'.
    assert (Q3 : omit [p; q; top; a; b] top = of_list [p; q; a; b]) by omits N'.
    constructor.
    - cbn [app]. apply NoDup_5. clear - N'. intuition congruence.
    - reflexivity.
    - discriminate.
    - discriminate.
    - intros y Hy. cbn [app]. rewrite !elem_of_cons, elem_of_nil in Hy. apply RT1.
      destruct Hy as [->|[->|[->|[]]]]; rewrite ?Q1, ?Q2, ?Q3.
      + left. split; [apply RT; right; clear; rewrite !elem_of_cons; tauto|].
        rewrite !elem_of_cons, elem_of_nil. intros [E|[E|[]]]; cellabsurd E N'.
      + left. split; [apply RT; right; clear; rewrite !elem_of_cons; tauto|].
        rewrite !elem_of_cons, elem_of_nil. intros [E|[E|[]]]; cellabsurd E N'.
      + right. clear; rewrite !elem_of_cons; tauto.
    - intros s Hs Hsub. cbn [app]. assert (Ha : a ∈ s) by (apply Hsub, elem_of_of_list; set_solver +).
      assert (Hb : b ∈ s) by (apply Hsub, elem_of_of_list; set_solver +).
      apply RT1 in Hs as [[Hs Hn]|Hs].
      + assert (S : s ∈ star (of_list [a; b]) T') by (apply elem_of_star; auto).
        apply star_ab in S. rewrite !elem_of_cons, elem_of_nil in Hn. cases_list S.
        * exists q. rewrite Q2. split; [set_solver +|exact S].
        * exists p. rewrite Q1. split; [set_solver +|exact S].
        * exfalso. tauto.
        * exfalso. tauto.
      + cases_list Hs; subst s; rewrite elem_of_of_list, !elem_of_cons, elem_of_nil in Ha, Hb.
        * exfalso. clear - Ha N'. intuition congruence.
        * exfalso. clear - Hb N'. intuition congruence.
        * exists top. rewrite Q3. split; [set_solver +|reflexivity].
    - intros s Hs Hsub. assert (Hp : p ∈ s) by (apply Hsub, elem_of_of_list; set_solver +).
      assert (Hq : q ∈ s) by (apply Hsub, elem_of_of_list; set_solver +).
      assert (Ht : top ∈ s) by (apply Hsub, elem_of_of_list; set_solver +).
      apply RT1 in Hs as [[Hs _]|Hs]; [apply (no_pq s Hs); auto|].
      cases_list Hs; subst s; rewrite elem_of_of_list, !elem_of_cons, elem_of_nil in Ht; clear - Ht N'; intuition congruence.
  Qed.

  Lemma back_eq : pachner T1' [p; q; top] [a; b] = T.
  Proof using N ok1 ok2.
    assert (M : NoDup [a; b; p; q; top; bot]) by (apply nodup6; clear - N'; intuition congruence).
    pose proof (replaces_44 T' a b p q top bot M back_ok1 back_ok2) as R2. fold T1' in R2.
    pose proof (replaces_sym _ _ _ _ R) as R3.
    refine (replaces_det _ _ _ _ _ R2 _).
    assert (E : forall l l', l ≡ₚ l' -> of_list l = of_list l') by exact of_list_perm.
    replace (of_list [a; b; p; top]) with (of_list [p; a; b; top]) by (apply E; apply (Permutation_app_comm [p] [a; b]) || (change ([p] ++ [a; b] ++ [top] ≡ₚ [a; b] ++ [p] ++ [top]); rewrite !app_assoc; apply Permutation_app_tail, Permutation_app_comm)).
    replace (of_list [a; b; q; top]) with (of_list [q; a; b; top]) by (apply E; change ([q] ++ [a; b] ++ [top] ≡ₚ [a; b] ++ [q] ++ [top]); rewrite !app_assoc; apply Permutation_app_tail, Permutation_app_comm).
    replace (of_list [a; b; p; bot]) with (of_list [p; a; b; bot]) by (apply E; change ([p] ++ [a; b] ++ [bot] ≡ₚ [a; b] ++ [p] ++ [bot]); rewrite !app_assoc; apply Permutation_app_tail, Permutation_app_comm).
    replace (of_list [a; b; q; bot]) with (of_list [q; a; b; bot]) by (apply E; change ([q] ++ [a; b] ++ [bot] ≡ₚ [a; b] ++ [q] ++ [bot]); rewrite !app_assoc; apply Permutation_app_tail, Permutation_app_comm).
    replace (of_list [a; p; q; top]) with (of_list [p; q; a; top]) by (apply E; change ([p; q] ++ [a] ++ [top] ≡ₚ [a] ++ [p; q] ++ [top]); rewrite !app_assoc; apply Permutation_app_tail, Permutation_app_comm).
    replace (of_list [b; p; q; top]) with (of_list [p; q; b; top]) by (apply E; change ([p; q] ++ [b] ++ [top] ≡ₚ [b] ++ [p; q] ++ [top]); rewrite !app_assoc; apply Permutation_app_tail, Permutation_app_comm).
    replace (of_list [a; p; q; bot]) with (of_list [p; q; a; bot]) by (apply E; change ([p; q] ++ [a] ++ [bot] ≡ₚ [a] ++ [p; q] ++ [bot]); rewrite !app_assoc; apply Permutation_app_tail, Permutation_app_comm).
    replace (of_list [b; p; q; bot]) with (of_list [p; q; b; bot]) by (apply E; change ([p; q] ++ [b] ++ [bot] ≡ₚ [b] ++ [p; q] ++ [bot]); rewrite !app_assoc; apply Permutation_app_tail, Permutation_app_comm).
    exact R3.
  Qed.
End Inverse44.


Lemma filter_all {A} (f : A -> bool) l : (forall y, y ∈ l -> f y = true) -> List.filter f l = l.
Proof.
  induction l as [|y l IH]; intros H; [reflexivity|]. cbn [List.filter]. rewrite H by constructor.
  f_equal. apply IH. intros z Hz. apply H. constructor. exact Hz.
Qed.

Lemma reverse_44 label junk locates T p q a b top bot : valid T ->
  NoDup [p; q; a; b; top; bot] -> infinite ∉ [p; q; a; b; top; bot] -> labels_44 label p q a b top bot ->
  pachner_ok T [a; b] [p; q; bot] -> pachner_ok (pachner T [a; b] [p; q; bot]) [a; b; top] [p; q] ->
  let T' := pachner (pachner T [a; b] [p; q; bot]) [a; b; top] [p; q] in let e := of_list [a; b] in
  e ∈ edge_sites label false T' /\ prepare_44 label junk T' e = Done (top, bot) /\
  ((forall y, y ∈ [a; b; top; bot] -> locates T' y = true) -> move_44 label junk locates T' e = Done T).
Proof.
  intros V N F L ok1 ok2 T' e. pose proof (proj1 (nodup6 _ _ _ _ _ _) N) as N'.
  assert (V' : valid T') by (apply pachner_valid; [exact ok2|apply pachner_valid; assumption]).
  pose proof (star_ab T p q a b top bot N ok1 ok2) as ST. fold T' in ST. fold e in ST.
  set (C4 := [of_list [p; a; b; top]; of_list [q; a; b; top]; of_list [p; a; b; bot]; of_list [q; a; b; bot]]) in *.
  assert (P : elements (star e T') ≡ₚ C4).
  { apply NoDup_Permutation; [apply NoDup_elements| |intros s; rewrite elem_of_elements; apply ST].
    unfold C4. pose proof (old_new_44 p q a b top bot N) as D.
    do 5 (apply NoDup_cons in D as [_ D]). exact D. }
  assert (Hab : a <> b) by tauto.
  assert (ND4 : forall l, l ∈ [[p; a; b; top]; [q; a; b; top]; [p; a; b; bot]; [q; a; b; bot]] -> NoDup l).
  { intros l Hl. clear - Hl N'. cases_list Hl; subst l; apply nodup4; intuition congruence. }
  assert (Nab : NoDup [a; b]) by (apply (sublist_NoDup _ [p; q; a; b; top; bot]); [repeat constructor|exact N]).
  assert (He2 : size e = 2%nat) by (apply of_list_size; exact Nab).
  assert (Hface : e ∈ faces 2 T').
  { apply elem_of_faces. split; [exact He2|]. exists (of_list [p; a; b; top]).
    assert (H : of_list [p; a; b; top] ∈ star e T') by (apply ST; unfold C4; constructor). apply elem_of_star in H. exact H. }
  assert (Hfe : infinite ∉ e) by (unfold e; rewrite elem_of_of_list; clear - F; rewrite !elem_of_cons, !elem_of_nil in *; tauto).
  assert (SL : spacelike label e = true).
  { unfold e. rewrite spacelike_of_list by exact Hab. apply Z.eqb_eq. destruct L as (t & L). intuition congruence. }
  assert (FC : forall c, c ∈ elements (star e T') -> infinite ∉ c).
  { intros c Hc. rewrite P in Hc. unfold C4 in Hc. clear - Hc F.
    cases_list Hc; subst c; rewrite elem_of_of_list; rewrite !elem_of_cons, !elem_of_nil in *; tauto. }
  assert (CC : forall c, c ∈ elements (star e T') -> correct label junk T' c = true).
  { intros c Hc. pose proof (FC c Hc) as Fc. apply finite_spec in Fc. apply correct_finite_causal; [exact Fc| |].
    - rewrite P in Hc. unfold C4 in Hc. cases_list Hc; subst c; rewrite of_list_size; try reflexivity; apply ND4; set_solver +.
    - rewrite P in Hc. exact (new_cells_44 label p q a b top bot N L c Hc). }
  assert (T31 : count_type label THREE_ONE C4 = 2 /\ count_type label ONE_THREE C4 = 2).
  { unfold count_type, C4. cbn [List.filter]. rewrite !cell_type_of_list by (apply ND4; set_solver +). cbn [map].
    destruct L as (t & Lp & Lq & La & Lb & Lt & Lo).
    replace (t - 1) with (t + (-1)) in Lo by lia. replace t with (t + 0) in Lp, Lq, La, Lb by lia.
    rewrite Lp, Lq, La, Lb, Lt, Lo, !classify4. split; vm_compute; reflexivity. }
  assert (LOC : flip_location_44 label junk T' e = Some (elements (star e T'))).
  { unfold flip_location_44. rewrite (filter_all (correct label junk T')) by exact CC.
    rewrite SL, !(count_type_perm _ _ _ _ P), (Permutation_length P). destruct T31 as [-> ->].
    assert (FF : forallb finite_simplex (elements (star e T')) = true).
    { apply forallb_forall. intros c Hc. apply elem_of_list_In in Hc. apply finite_spec, FC, Hc. }
    rewrite FF. reflexivity. }
  set (others := flat_map (fun c => elements (c ∖ e)) (elements (star e T'))).
  assert (OT : forall y, y ∈ others <-> y ∈ [p; q; top; bot]).
  { intros y. unfold others. rewrite elem_of_list_In, in_flat_map. setoid_rewrite <- elem_of_list_In. setoid_rewrite elem_of_elements.
    setoid_rewrite ST. setoid_rewrite elem_of_difference. unfold e. split.
    - intros (c & Hc & Hy & Hn). unfold C4 in Hc. clear - Hc Hy Hn. cases_list Hc; subst c; rewrite elem_of_of_list in Hy, Hn; rewrite !elem_of_cons, !elem_of_nil in *; tauto.
    - intros Hy. assert (Hn : y ∉ of_list [a; b]).
      { rewrite elem_of_of_list. clear - Hy N'. rewrite !elem_of_cons, !elem_of_nil in *. intuition congruence. }
      cases_list Hy; subst y; [exists (of_list [p; a; b; top])|exists (of_list [q; a; b; top])|exists (of_list [p; a; b; top])|exists (of_list [p; a; b; bot])];
        (split; [unfold C4; rewrite !elem_of_cons; tauto|]); (split; [rewrite elem_of_of_list, !elem_of_cons; tauto|exact Hn]). }
  destruct L as (t & Lp & Lq & La & Lb & Lt & Lo).
  assert (TOP : top_vertex label others = Some top).
  { apply top_some; [apply OT; set_solver +|]. intros y Hy Hd. apply OT in Hy.
    clear - Hy Hd Lp Lq Lt Lo. cases_list Hy; subst y; try congruence; lia. }
  assert (BOT : bottom_vertex label others = Some bot).
  { apply bottom_some; [apply OT; set_solver +|]. intros y Hy Hd. apply OT in Hy.
    clear - Hy Hd Lp Lq Lt Lo. cases_list Hy; subst y; try congruence; lia. }
  assert (CT : forall z : vertex, (z = top \/ z = bot) -> length (List.filter (fun c : simplex => bool_decide (z ∈ c)) (elements (star e T'))) = 2%nat).
  { intros z Hz. rewrite (filter_length_perm _ _ _ P).
    set (f := fun c : simplex => bool_decide (z ∈ c)).
    assert (B : forall l r, (z ∈ l <-> r = true) -> f (of_list l) = r).
    { intros l r H. unfold f. destruct r; [apply bool_decide_eq_true_2, elem_of_of_list; tauto|apply bool_decide_eq_false_2]. intros K. apply elem_of_of_list, H in K. discriminate. }
    clearbody f. unfold C4. cbn [List.filter].
    destruct Hz as [-> | ->].
    - rewrite (B [p; a; b; top] true), (B [q; a; b; top] true), (B [p; a; b; bot] false), (B [q; a; b; bot] false); [reflexivity|..];
        rewrite !elem_of_cons, !elem_of_nil; clear - N'; intuition congruence.
    - rewrite (B [p; a; b; top] false), (B [q; a; b; top] false), (B [p; a; b; bot] true), (B [q; a; b; bot] true); [reflexivity|..];
        rewrite !elem_of_cons, !elem_of_nil; clear - N'; intuition congruence. }
  assert (PR : prepare_44 label junk T' e = Done (top, bot)).
  { unfold prepare_44. rewrite bool_decide_eq_true_2 by exact Hface. cbn [negb]. rewrite LOC. fold others. rewrite TOP, BOT.
    rewrite (CT top), (CT bot) by tauto.
    rewrite !bool_decide_eq_false_2; [reflexivity|..].
    - unfold e. rewrite elem_of_of_list, !elem_of_cons, elem_of_nil. clear - N'. intuition congruence.
    - unfold e. rewrite elem_of_of_list, !elem_of_cons, elem_of_nil. clear - N'. intuition congruence.
    - clear - N'. intuition congruence. }
  split; [|split; [exact PR|]].
  - unfold edge_sites. apply elem_of_elements, elem_of_filter. split; [|exact Hface].
    apply andb_true_iff. split; [apply finite_spec; exact Hfe|exact SL].
  - intros LC. unfold move_44, bind. rewrite PR. cbn [fst snd]. unfold execute_44.
    assert (LE : forallb (locates T') (elements e) = true).
    { apply forallb_forall. intros y Hy. apply elem_of_list_In, elem_of_elements in Hy. unfold e in Hy.
      apply LC. rewrite elem_of_of_list in Hy. rewrite !elem_of_cons, elem_of_nil in *. tauto. }
    rewrite LE, (LC top), (LC bot) by set_solver +. rewrite bool_decide_eq_true_2 by exact Hface. cbn [negb andb].
    assert (SB : forall s, s ∈ star ({[bot]} ∪ e) T' <-> s = of_list [p; a; b; bot] \/ s = of_list [q; a; b; bot]).
    { intros s. split.
      - intros H. apply elem_of_star in H as [H1 H2]. assert (H : s ∈ star e T') by (apply elem_of_star; split; [exact H1|set_solver + H2]).
        assert (Hb : bot ∈ s) by (apply H2; set_solver +). apply ST in H. unfold C4 in H. cases_list H; [| |auto|auto];
          exfalso; subst s; rewrite elem_of_of_list, !elem_of_cons, elem_of_nil in Hb; clear - Hb N'; intuition congruence.
      - intros H. assert (K : s ∈ star e T') by (apply ST; unfold C4; rewrite !elem_of_cons; tauto). apply elem_of_star in K as [K1 K2].
        apply elem_of_star. split; [exact K1|]. apply union_subseteq. split; [|exact K2]. apply singleton_subseteq_l.
        destruct H as [-> | ->]; rewrite elem_of_of_list, !elem_of_cons; tauto. }
    assert (bo1 := back_ok1 T p q a b top bot N ok1 ok2). fold T' in bo1.
    assert (bo2 := back_ok2 T p q a b top bot N ok1 ok2). fold T' in bo2.
    assert (beq := back_eq T p q a b top bot N ok1 ok2). fold T' in beq.
    assert (VT : tds_valid T = true) by (apply tds_valid_spec; exact V).
    destruct (elements (star ({[bot]} ∪ e) T')) as [|c rest] eqn:Es.
    { exfalso. assert (H : of_list [p; a; b; bot] ∈ elements (star ({[bot]} ∪ e) T')) by (apply elem_of_elements, SB; auto).
      rewrite Es in H. apply elem_of_nil in H. exact H. }
    assert (Hc : c ∈ star ({[bot]} ∪ e) T') by (apply elem_of_elements; rewrite Es; constructor). clear Es.
    apply SB in Hc.
    assert (MV : forall z, z = p \/ z = q -> mirror_vertex (of_list [z; a; b; bot]) ({[bot]} ∪ e) = Some z).
    { intros z Hz. unfold mirror_vertex. assert (E : of_list [z; a; b; bot] ∖ ({[bot]} ∪ e) = {[z]}).
      { unfold e. apply set_eq. intros k. rewrite elem_of_difference, elem_of_union, !elem_of_singleton, !elem_of_of_list, !elem_of_cons, !elem_of_nil.
        split; [tauto|]. intros ->. split; [tauto|]. clear - Hz N'. intuition congruence. }
      rewrite E, elements_singleton. reflexivity. }
    assert (FIN : tds_flip_edge (pachner T' [p; q] [a; b; bot]) e = Flipped T).
    { unfold e. rewrite (flip_edge_complete _ _ _ _ _ _ bo2). f_equal. exact beq. }
    destruct Hc as [-> | ->].
    + rewrite (MV p) by tauto. destruct (flip_facet_complete _ _ _ _ _ _ V' bo1) as (-> & _).
      rewrite FIN, VT. reflexivity.
    + rewrite (MV q) by tauto.
      assert (bo1' : pachner_ok T' [q; p] [a; b; bot]) by (refine (pachner_ok_perm _ _ _ _ _ _ _ bo1); [apply perm_swap|reflexivity]).
      destruct (flip_facet_complete _ _ _ _ _ _ V' bo1') as (-> & _).
      rewrite (pachner_perm _ [q; p] [a; b; bot] [p; q] [a; b; bot]) by (apply perm_swap || reflexivity).
      rewrite FIN, VT. reflexivity.
Qed.
