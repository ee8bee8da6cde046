(** Effect of the (2,6) and (6,2) moves. *)
From Verif Require Import Base Tracker Geom Simplex Pachner Foliation Moves Links MoveCore MoveTools Move23 Move44.
From stdpp Require Import fin_sets gmap sorting.
Local Open Scope Z_scope.

Definition delta_26 : Geometry := mkGeometry 4 2 2 4 0 8 5 2 3 1.
Definition delta_62 : Geometry := mkGeometry (-4) (-2) (-2) (-4) 0 (-8) (-5) (-2) (-3) (-1).

(** A spacelike triangle a b c with the vertex x on its slice, and apexes d, e on
    the two adjacent slices. *)
Definition labels_26 (label : vertex -> Z) (a b c x d e : vertex) : Prop :=
  exists t, label a = t /\ label b = t /\ label c = t /\ label x = t /\
    ((label d = t + 1 /\ label e = t - 1) \/ (label d = t - 1 /\ label e = t + 1)).

Section Effect26.
  Variables (T : tds) (a b c x d e : vertex).
  Hypothesis N : NoDup [a; b; c; x; d; e].
  Hypothesis ok1 : pachner_ok T [x] [a; b; c; d].
  Let T1 := pachner T [x] [a; b; c; d].
  Hypothesis ok2 : pachner_ok T1 [x; e] [a; b; c].
  Let T' := pachner T1 [x; e] [a; b; c].

  Lemma geometry_26 label : infinite ∉ [a; b; c; x; d; e] -> labels_26 label a b c x d e -> valid T ->
    geometry_of label T' = geometry_plus (geometry_of label T) delta_26.
  Proof using ok1 ok2.
    intros fin L [HP _ _]. assert (HP1 : pure T1) by (apply pachner_pure; assumption).
    assert (F1 : infinite ∉ [x] ++ [a; b; c; d]) by (clear - fin; cbn [app]; rewrite !elem_of_cons, !elem_of_nil in *; tauto).
    assert (F2 : infinite ∉ [x; e] ++ [a; b; c]) by (clear - fin; cbn [app]; rewrite !elem_of_cons, !elem_of_nil in *; tauto).
    destruct L as (t & La & Lb & Lc & Lx & Lde).
    unfold geometry_of, geometry_plus, delta_26, T'.
    rewrite n3_pachner, !n3_of_pachner, n2_pachner, n1_pachner, n1_tl_pachner, n1_sl_pachner, n0_pachner by assumption.
    unfold T1.
    rewrite n3_pachner, !n3_of_pachner, n2_pachner, n1_pachner, n1_tl_pachner, n1_sl_pachner, n0_pachner by assumption.
    destruct Lde as [[Ld Le]|[Ld Le]].
    - replace (t - 1) with (t + (-1)) in Le by lia. replace t with (t + 0) in La, Lb, Lc, Lx by lia.
      unfold lsum, qtype, qtl, qsl, qall; cbn -[classify Z.add Z.sub Z.eqb];
      rewrite ?La, ?Lb, ?Lc, ?Lx, ?Ld, ?Le; offsets;
      apply geometry_eq; cbn -[classify Z.add Z.sub Z.eqb n3_of n3 n2 n1 n0 n1_tl n1_sl];
      repeat match goal with |- context [classify ?l] => let y := eval vm_compute in (classify l) in change (classify l) with y end;
      cbn; lia.
    - replace (t - 1) with (t + (-1)) in Ld by lia. replace t with (t + 0) in La, Lb, Lc, Lx by lia.
      unfold lsum, qtype, qtl, qsl, qall; cbn -[classify Z.add Z.sub Z.eqb];
      rewrite ?La, ?Lb, ?Lc, ?Lx, ?Ld, ?Le; offsets;
      apply geometry_eq; cbn -[classify Z.add Z.sub Z.eqb n3_of n3 n2 n1 n0 n1_tl n1_sl];
      repeat match goal with |- context [classify ?l] => let y := eval vm_compute in (classify l) in change (classify l) with y end;
      cbn; lia.
  Qed.

  Definition two_cells_of : list simplex := [of_list [a; b; c; d]; of_list [a; b; c; e]].
  Definition six_cells_of : list simplex :=
    [of_list [x; a; b; d]; of_list [x; b; c; d]; of_list [x; a; c; d];
     of_list [x; a; b; e]; of_list [x; b; c; e]; of_list [x; a; c; e]].

  Lemma old_new_26 : NoDup (of_list [x; a; b; c] :: two_cells_of ++ six_cells_of).
  Proof using N.
    pose proof (proj1 (nodup6 _ _ _ _ _ _) N) as N'. unfold two_cells_of, six_cells_of. cbn [app].
    repeat (apply NoDup_cons; split); try apply NoDup_nil_2;
      rewrite ?elem_of_cons, ?elem_of_nil; intros H;
      repeat (destruct H as [H|H]; [cellabsurd H N'|]); exact H.
  Qed.

  Lemma replaces_26 : replaces T two_cells_of six_cells_of T'.
  Proof using N ok1 ok2.
    pose proof old_new_26 as D.
    pose proof (pachner_replaces _ _ _ ok1) as R1. pose proof (pachner_replaces _ _ _ ok2) as R2.
    cbn [app map] in R1, R2.
    pose proof (proj1 (nodup6 _ _ _ _ _ _) N) as N'.
    assert (E1 : omit [x; a; b; c; d] x = of_list [a; b; c; d]) by omits N'.
    assert (E2 : omit [x; a; b; c; d] a = of_list [x; b; c; d]) by omits N'.
    assert (E3 : omit [x; a; b; c; d] b = of_list [x; a; c; d]) by omits N'.
    assert (E4 : omit [x; a; b; c; d] c = of_list [x; a; b; d]) by omits N'.
    assert (E5 : omit [x; a; b; c; d] d = of_list [x; a; b; c]) by omits N'.
    assert (F1 : omit [x; e; a; b; c] x = of_list [a; b; c; e]) by omits N'.
    assert (F2 : omit [x; e; a; b; c] e = of_list [x; a; b; c]) by omits N'.
    assert (F3 : omit [x; e; a; b; c] a = of_list [x; b; c; e]) by omits N'.
    assert (F4 : omit [x; e; a; b; c] b = of_list [x; a; c; e]) by omits N'.
    assert (F5 : omit [x; e; a; b; c] c = of_list [x; a; b; e]) by omits N'.
    rewrite E1, E2, E3, E4, E5 in R1. rewrite F1, F2, F3, F4, F5 in R2. clear E1 E2 E3 E4 E5 F1 F2 F3 F4 F5.
    fold T1 in R1. fold T' in R2. unfold two_cells_of, six_cells_of in *. cbn [app] in D.
    revert D R1 R2.
    generalize (of_list [a; b; c; d]), (of_list [a; b; c; e]), (of_list [x; a; b; c]), (of_list [x; a; b; d]),
      (of_list [x; b; c; d]), (of_list [x; a; c; d]), (of_list [x; a; b; e]), (of_list [x; b; c; e]), (of_list [x; a; c; e]).
    clear. intros O1 O2 M A1 A2 A3 B1 B2 B3 D R1 R2.
    refine (replaces_trans _ _ _ _ _ _ _ _ _ R1 R2 _ _ _ _ _); clear R1 R2.
    - apply (NoDup_app [M] [O1; O2; A1; A2; A3; B1; B2; B3]) in D as (_ & _ & D). apply (NoDup_app [O1; O2] [A1; A2; A3; B1; B2; B3]) in D. tauto.
    - apply (NoDup_app [M; O1; O2] [A1; A2; A3; B1; B2; B3]) in D. tauto.
    - rewrite !NoDup_cons, !elem_of_cons, !elem_of_nil in D. intros s. rewrite !elem_of_cons, !elem_of_nil. split.
      + intros [->|[->|[]]]; [tauto|]. right. split; [tauto|]. intuition congruence.
      + intros [[->|[]]|[[->|[->|[]]] H]]; tauto.
    - rewrite !NoDup_cons, !elem_of_cons, !elem_of_nil in D. intros s. rewrite !elem_of_cons, !elem_of_nil. split.
      + intros [->|[->|[->|[->|[->|[->|[]]]]]]]; try tauto; left; (split; [tauto|]); intuition congruence.
      + intros [[[->|[->|[->|[->|[]]]]] H]|[->|[->|[->|[]]]]]; tauto.
    - rewrite !NoDup_cons, !elem_of_cons, !elem_of_nil in D. intros s. rewrite !elem_of_cons, !elem_of_nil.
      intros [->|[->|[->|[]]]]; intuition congruence.
  Qed.

  Lemma cells_causal_26 label : labels_26 label a b c x d e ->
    forall s, s ∈ two_cells_of ++ six_cells_of -> causal_type (cell_type label s) = true.
  Proof using N.
    pose proof (proj1 (nodup6 _ _ _ _ _ _) N) as N'.
    intros (t & La & Lb & Lc & Lx & Lde) s Hs. unfold two_cells_of, six_cells_of in Hs. cbn [app] in Hs.
    destruct Lde as [[Ld Le]|[Ld Le]].
    - replace (t - 1) with (t + (-1)) in Le by lia. replace t with (t + 0) in La, Lb, Lc, Lx by lia.
      cases_list Hs; subst s; (rewrite cell_type_of_list; [|rewrite nodup4; clear - N'; intuition congruence]); cbn [map];
      rewrite ?La, ?Lb, ?Lc, ?Lx, ?Ld, ?Le, classify4; reflexivity.
    - replace (t - 1) with (t + (-1)) in Ld by lia. replace t with (t + 0) in La, Lb, Lc, Lx by lia.
      cases_list Hs; subst s; (rewrite cell_type_of_list; [|rewrite nodup4; clear - N'; intuition congruence]); cbn [map];
      rewrite ?La, ?Lb, ?Lc, ?Lx, ?Ld, ?Le, classify4; reflexivity.
  Qed.

  Lemma vertices_26 : vertices T' = {[x]} ∪ vertices T /\ x ∉ vertices T.
  Proof using N ok1 ok2.
    pose proof replaces_26 as (_ & _ & HO & _ & HT).
    assert (A : of_list [a; b; c; d] ∈ T) by (apply HO; unfold two_cells_of; set_solver +).
    assert (B : of_list [a; b; c; e] ∈ T) by (apply HO; unfold two_cells_of; set_solver +).
    split.
    - apply set_eq. intros k. rewrite elem_of_union, elem_of_singleton, !elem_of_vertices. setoid_rewrite HT. split.
      + intros (s & [[Hs _]|Hs] & Hk); [right; eauto|].
        assert (Hk' : k = x \/ k ∈ [a; b; c; d] \/ k ∈ [a; b; c; e]).
        { unfold six_cells_of in Hs. rewrite !elem_of_cons, elem_of_nil in Hs.
          destruct Hs as [->|[->|[->|[->|[->|[->|[]]]]]]]; rewrite elem_of_of_list in Hk; rewrite !elem_of_cons, !elem_of_nil in *; tauto. }
        destruct Hk' as [->|[Hk'|Hk']]; [auto|right|right].
        * exists (of_list [a; b; c; d]). rewrite elem_of_of_list. auto.
        * exists (of_list [a; b; c; e]). rewrite elem_of_of_list. auto.
      + intros [->|(s & Hs & Hk)].
        * exists (of_list [x; a; b; d]). split; [right; unfold six_cells_of; set_solver +|]. rewrite elem_of_of_list. constructor.
        * destruct (decide (s ∈ two_cells_of)) as [Ho|Ho]; [|exists s; auto].
          assert (exists s', s' ∈ six_cells_of /\ k ∈ s') as (s' & H1 & H2); [|exists s'; auto].
          unfold two_cells_of in Ho. rewrite !elem_of_cons, elem_of_nil in Ho. unfold six_cells_of.
          destruct Ho as [->|[->|[]]]; rewrite elem_of_of_list in Hk; rewrite !elem_of_cons, elem_of_nil in Hk.
          { destruct Hk as [->|[->|[->|[->|[]]]]].
            - exists (of_list [x; a; b; d]). split; [set_solver +|]. rewrite elem_of_of_list. set_solver +.
            - exists (of_list [x; a; b; d]). split; [set_solver +|]. rewrite elem_of_of_list. set_solver +.
            - exists (of_list [x; b; c; d]). split; [set_solver +|]. rewrite elem_of_of_list. set_solver +.
            - exists (of_list [x; a; b; d]). split; [set_solver +|]. rewrite elem_of_of_list. set_solver +. }
          { destruct Hk as [->|[->|[->|[->|[]]]]].
            - exists (of_list [x; a; b; e]). split; [set_solver +|]. rewrite elem_of_of_list. set_solver +.
            - exists (of_list [x; a; b; e]). split; [set_solver +|]. rewrite elem_of_of_list. set_solver +.
            - exists (of_list [x; b; c; e]). split; [set_solver +|]. rewrite elem_of_of_list. set_solver +.
            - exists (of_list [x; a; b; e]). split; [set_solver +|]. rewrite elem_of_of_list. set_solver +. }
    - rewrite elem_of_vertices. intros (s & Hs & Hx). apply (po_absent _ _ _ ok1 s Hs). intros k.
      rewrite elem_of_of_list, elem_of_list_singleton. intros ->. exact Hx.
  Qed.
End Effect26.

