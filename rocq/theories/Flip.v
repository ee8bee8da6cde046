(** The generic (4,4) flip on four cells around an edge. *)
From Verif Require Import Base Tracker Command Geom Simplex Pachner Foliation Moves Links MoveCore MoveTools Manifold StarSpec StarFacts Seams Circulator.
From stdpp Require Import fin_sets gmap sorting.
From Verif Require Import Foliation Move44 Incident SeamSpec Reverse.
Local Open Scope Z_scope.

Lemma four_around_swap T p q bot a far b : four_around T p q bot a far b -> four_around T p q bot b far a.
Proof.
  intros (N & F & H). split; [|split].
  - apply nodup6 in N. apply nodup6. intuition congruence.
  - set_solver + F.
  - intros c. rewrite H.
    assert (E : forall x y, of_list [p; q; x; y] = of_list [p; q; y; x]) by (intros; apply of_list_perm; do 2 constructor; apply perm_swap).
    rewrite (E bot a), (E a far), (E far b), (E b bot). rewrite !elem_of_cons, !elem_of_nil. tauto.
Qed.

Section Flip.
  Variable T : tds.
  Hypothesis V : valid T.
  Variables p q bot a far b : vertex.
  Hypothesis A : four_around T p q bot a far b.
  Let e := of_list [p; q].
  Let c0 := of_list [p; q; bot; a].
  Let T1 := pachner T [a; b] [p; q; bot].
  Let T2 := pachner T1 [a; b; far] [p; q].

  Lemma fa_nodup : NoDup [p; q; a; b; far; bot].
  Proof using A. destruct A as (N & _ & _). apply nodup6 in N. apply nodup6. intuition congruence. Qed.
  Lemma fa_fin : infinite ∉ [p; q; a; b; far; bot].
  Proof using A. destruct A as (_ & F & _). set_solver + F. Qed.
  Lemma fa_star c : c ∈ star e T <-> c ∈ [of_list [p; q; a; far]; of_list [p; q; b; far]; of_list [p; q; a; bot]; of_list [p; q; b; bot]].
  Proof using A.
    destruct A as (_ & _ & H). rewrite elem_of_star. transitivity (c ∈ T /\ p ∈ c /\ q ∈ c).
    - unfold e. split; [intros [? S]; split; [assumption|]; split; apply S; rewrite elem_of_of_list; set_solver +|].
      intros (? & P & Q). split; [assumption|]. intros k. rewrite elem_of_of_list, !elem_of_cons, elem_of_nil. intros [->|[->|[]]]; assumption.
    - rewrite H. assert (E : forall x y, of_list [p; q; x; y] = of_list [p; q; y; x]) by (intros; apply of_list_perm; do 2 constructor; apply perm_swap).
      rewrite (E bot a), (E far b). rewrite !elem_of_cons, !elem_of_nil. tauto.
  Qed.
  Lemma fa_in c : c ∈ [of_list [p; q; a; far]; of_list [p; q; b; far]; of_list [p; q; a; bot]; of_list [p; q; b; bot]] -> c ∈ T.
  Proof using A. rewrite <- fa_star, elem_of_star. tauto. Qed.

  Lemma fa_mirror : mirror_vertex (of_list [p; q; a; bot]) ({[bot]} ∪ e) = Some a.
  Proof using A.
    pose proof (proj1 (nodup6 _ _ _ _ _ _) fa_nodup) as N'.
    unfold mirror_vertex. assert (E1 : of_list [p; q; a; bot] ∖ ({[bot]} ∪ e) = {[a]}).
    { unfold e. apply set_eq. intros k. rewrite elem_of_difference, elem_of_union, !elem_of_singleton, !elem_of_of_list, !elem_of_cons, !elem_of_nil.
      split; [tauto|]. intros ->. split; [tauto|]. clear - N'. intuition congruence. }
    rewrite E1, elements_singleton. reflexivity.
  Qed.

  Lemma fa_facet : of_list [p; q; a; bot] ∖ {[a]} = of_list [p; q; bot].
  Proof using A.
    pose proof (proj1 (nodup6 _ _ _ _ _ _) fa_nodup) as N'.
    apply set_eq. intros k. rewrite elem_of_difference, elem_of_singleton, !elem_of_of_list, !elem_of_cons, !elem_of_nil.
    split; [tauto|]. intros H. split; [tauto|]. clear - N' H. intuition congruence.
  Qed.

  (** The first flip: refused exactly when some cell has both [a] and [b]. *)
  Lemma flip_first : tds_flip_facet T (of_list [p; q; a; bot]) a =
    if bool_decide (star (of_list [a; b]) T = ∅) then Flipped T1 else NotFlippable.
  Proof using V A.
    pose proof (proj1 (nodup6 _ _ _ _ _ _) fa_nodup) as N'. destruct V as [HP HC _].
    assert (Hc : of_list [p; q; a; bot] ∈ T) by (apply fa_in; set_solver +).
    assert (Ha : a ∈ of_list [p; q; a; bot]) by (rewrite elem_of_of_list; set_solver +).
    destruct (neighbor_spec T HP HC _ a Hc Ha) as (n & w & En & Hn & Hw & Enw & Em & _ & _).
    unfold tds_flip_facet. rewrite En, Em.
    assert (Hwb : w = b).
    { assert (Hs : n ∈ star e T).
      { apply elem_of_star. split; [exact Hn|]. rewrite Enw, fa_facet. unfold e. intros k. rewrite elem_of_union, !elem_of_of_list. set_solver +. }
      assert (Hwn : w ∈ n) by (rewrite Enw; set_solver +).
      assert (Hbn : bot ∈ n) by (rewrite Enw, fa_facet, elem_of_union, elem_of_of_list; set_solver +).
      rewrite elem_of_of_list, !elem_of_cons, elem_of_nil in Hw.
      apply fa_star in Hs. rewrite !elem_of_cons, elem_of_nil in Hs.
      destruct Hs as [E|[E|[E|[E|[]]]]]; rewrite E, elem_of_of_list, !elem_of_cons, elem_of_nil in Hwn, Hbn;
        clear - Hwn Hbn Hw N'; intuition congruence. }
    subst w. rewrite fa_facet. case_bool_decide; [|reflexivity]. f_equal. unfold T1. apply pachner_perm; [reflexivity|].
    unfold of_list. apply elements_list_to_set. apply (sublist_NoDup _ [p; q; a; b; far; bot]); [repeat constructor|exact fa_nodup].
  Qed.

  Hypothesis Hab : star (of_list [a; b]) T = ∅.
  Lemma ok_first : pachner_ok T [a; b] [p; q; bot].
  Proof using V A Hab.
    pose proof (proj1 (nodup6 _ _ _ _ _ _) fa_nodup) as N'.
    assert (O1 : omit [a; b; p; q; bot] a = of_list [p; q; b; bot]) by omits N'.
    assert (O2 : omit [a; b; p; q; bot] b = of_list [p; q; a; bot]) by omits N'.
    constructor.
    - cbn [app]. apply NoDup_5. clear - N'. intuition congruence.
    - reflexivity.
    - discriminate.
    - discriminate.
    - intros y Hy. cbn [app]. rewrite !elem_of_cons, elem_of_nil in Hy. destruct Hy as [->|[->|[]]]; [rewrite O1|rewrite O2]; apply fa_in; set_solver +.
    - intros c Hc Hs. cbn [app].
      assert (Hcs : c ∈ star e T) by (apply elem_of_star; split; [exact Hc|]; intros k Hk; apply Hs; unfold e in Hk; rewrite elem_of_of_list in *; set_solver + Hk).
      assert (Hb : bot ∈ c) by (apply Hs; rewrite elem_of_of_list; set_solver +).
      apply fa_star in Hcs. rewrite !elem_of_cons, elem_of_nil in Hcs. destruct Hcs as [->|[->|[->|[->|[]]]]].
      + exfalso. rewrite elem_of_of_list, !elem_of_cons, elem_of_nil in Hb. clear - Hb N'. intuition congruence.
      + exfalso. rewrite elem_of_of_list, !elem_of_cons, elem_of_nil in Hb. clear - Hb N'. intuition congruence.
      + exists b. rewrite O2. split; [set_solver +|reflexivity].
      + exists a. rewrite O1. split; [set_solver +|reflexivity].
    - intros c Hc. apply star_empty with (c := c) in Hab; assumption.
  Qed.
  Lemma valid_first : valid T1.
  Proof using V A Hab. apply pachner_valid; [exact ok_first|exact V]. Qed.

  Lemma star_first c : c ∈ star e T1 <-> c ∈ [of_list [p; q; a; far]; of_list [p; q; b; far]; of_list [p; q; a; b]].
  Proof using V A Hab.
    pose proof (proj1 (nodup6 _ _ _ _ _ _) fa_nodup) as N'.
    assert (O3 : omit [a; b; p; q; bot] p = of_list [q; a; b; bot]) by omits N'.
    assert (O4 : omit [a; b; p; q; bot] q = of_list [p; a; b; bot]) by omits N'.
    assert (O5 : omit [a; b; p; q; bot] bot = of_list [p; q; a; b]) by omits N'.
    rewrite elem_of_star. unfold T1. rewrite (elem_of_pachner _ _ _ ok_first). cbn [app]. split.
    - intros [[[Hc Hn]|(y & Hy & ->)] Hs].
      + assert (Hcs : c ∈ star e T) by (apply elem_of_star; auto).
        apply fa_star in Hcs. rewrite !elem_of_cons, elem_of_nil in Hcs. rewrite !elem_of_cons, elem_of_nil.
        destruct Hcs as [->|[->|[->|[->|[]]]]]; [tauto|tauto|exfalso; apply Hn..];
          intros k; rewrite !elem_of_of_list, !elem_of_cons, !elem_of_nil; tauto.
      + rewrite !elem_of_cons, elem_of_nil in Hy. destruct Hy as [->|[->|[->|[]]]].
        * exfalso. assert (X : p ∈ omit [a; b; p; q; bot] p) by (apply Hs; unfold e; rewrite elem_of_of_list; set_solver +).
          rewrite elem_of_omit in X. tauto.
        * exfalso. assert (X : q ∈ omit [a; b; p; q; bot] q) by (apply Hs; unfold e; rewrite elem_of_of_list; set_solver +).
          rewrite elem_of_omit in X. tauto.
        * rewrite O5. set_solver +.
    - intros Hc. rewrite !elem_of_cons, elem_of_nil in Hc.
      assert (Hsub : forall x y, e ⊆ of_list [p; q; x; y]) by (intros x y k; unfold e; rewrite !elem_of_of_list; set_solver +).
      destruct Hc as [->|[->|[->|[]]]]; (split; [|apply Hsub]).
      + left. split; [apply fa_in; set_solver +|]. intros S. assert (X : bot ∈ of_list [p; q; a; far]) by (apply S; rewrite elem_of_of_list; set_solver +).
        rewrite elem_of_of_list, !elem_of_cons, elem_of_nil in X. clear - X N'. intuition congruence.
      + left. split; [apply fa_in; set_solver +|]. intros S. assert (X : bot ∈ of_list [p; q; b; far]) by (apply S; rewrite elem_of_of_list; set_solver +).
        rewrite elem_of_of_list, !elem_of_cons, elem_of_nil in X. clear - X N'. intuition congruence.
      + right. exists bot. split; [set_solver +|]. rewrite O5. reflexivity.
  Qed.
  Lemma new_facet : star (of_list [a; b; far]) T1 = ∅.
  Proof using V A Hab.
    pose proof (proj1 (nodup6 _ _ _ _ _ _) fa_nodup) as N'.
    apply star_empty. intros c. unfold T1. rewrite (elem_of_pachner _ _ _ ok_first). cbn [app]. intros [[Hc _]|(y & Hy & ->)] S.
    - apply (proj1 (star_empty _ _) Hab c Hc). intros k Hk. apply S. rewrite elem_of_of_list in *. set_solver + Hk.
    - assert (X : far ∈ omit [a; b; p; q; bot] y) by (apply S; rewrite elem_of_of_list; set_solver +).
      rewrite elem_of_omit, !elem_of_cons, elem_of_nil in X. clear - X N'. intuition congruence.
  Qed.
  Lemma ok_second : pachner_ok T1 [a; b; far] [p; q].
  Proof using V A Hab.
    pose proof (proj1 (nodup6 _ _ _ _ _ _) fa_nodup) as N'.
    assert (O1 : omit [a; b; far; p; q] a = of_list [p; q; b; far]) by omits N'.
    assert (O2 : omit [a; b; far; p; q] b = of_list [p; q; a; far]) by omits N'.
    assert (O3 : omit [a; b; far; p; q] far = of_list [p; q; a; b]) by omits N'.
    assert (I : forall c, c ∈ [of_list [p; q; a; far]; of_list [p; q; b; far]; of_list [p; q; a; b]] -> c ∈ T1).
    { intros c Hc. apply star_first, elem_of_star in Hc. tauto. }
    constructor.
    - cbn [app]. apply NoDup_5. clear - N'. intuition congruence.
    - reflexivity.
    - discriminate.
    - discriminate.
    - intros y Hy. cbn [app]. rewrite !elem_of_cons, elem_of_nil in Hy. destruct Hy as [->|[->|[->|[]]]]; [rewrite O1|rewrite O2|rewrite O3]; apply I; set_solver +.
    - intros c Hc Hs. cbn [app]. assert (Hcs : c ∈ star e T1) by (apply elem_of_star; auto).
      apply star_first in Hcs. rewrite !elem_of_cons, elem_of_nil in Hcs. destruct Hcs as [->|[->|[->|[]]]].
      + exists b. rewrite O2. split; [set_solver +|reflexivity].
      + exists a. rewrite O1. split; [set_solver +|reflexivity].
      + exists far. rewrite O3. split; [set_solver +|reflexivity].
    - intros c Hc. exact (proj1 (star_empty _ _) new_facet c Hc).
  Qed.
  Lemma valid_second : valid T2.
  Proof using V A Hab. apply pachner_valid; [exact ok_second|exact valid_first]. Qed.
  Lemma flip_second : tds_flip_edge T1 e = Flipped T2.
  Proof using V A Hab.
    pose proof (proj1 (nodup6 _ _ _ _ _ _) fa_nodup) as N'.
    assert (EL : link_vertices e T1 = of_list [a; b; far]).
    { apply set_eq. intros k. unfold link_vertices. rewrite elem_of_difference, elem_of_union_list. setoid_rewrite elem_of_elements.
      setoid_rewrite star_first. unfold e. rewrite !elem_of_of_list. split.
      - intros [(c & Hc & Hk) Hn]. rewrite !elem_of_cons, elem_of_nil in Hc.
        destruct Hc as [->|[->|[->|[]]]]; rewrite elem_of_of_list in Hk; rewrite !elem_of_cons, !elem_of_nil in *; tauto.
      - intros Hk. rewrite !elem_of_cons, elem_of_nil in Hk. split; [|rewrite !elem_of_cons, elem_of_nil; clear - Hk N'; intuition congruence].
        destruct Hk as [->|[->|[->|[]]]].
        + exists (of_list [p; q; a; far]). rewrite elem_of_of_list. split; set_solver +.
        + exists (of_list [p; q; b; far]). rewrite elem_of_of_list. split; set_solver +.
        + exists (of_list [p; q; a; far]). rewrite elem_of_of_list. split; set_solver +. }
    unfold tds_flip_edge.
    assert (ES : size (star e T1) = 3%nat).
    { assert (EQ : star e T1 = list_to_set [of_list [p; q; a; far]; of_list [p; q; b; far]; of_list [p; q; a; b]]).
      { apply set_eq. intros c. rewrite star_first, elem_of_list_to_set. reflexivity. }
      rewrite EQ. rewrite (size_list_to_set (C := gset simplex)); [reflexivity|].
      repeat (apply NoDup_cons; split); try apply NoDup_nil_2; rewrite ?elem_of_cons, ?elem_of_nil; intros H;
        repeat (destruct H as [H|H]; [cellabsurd H N'|]); exact H. }
    rewrite ES. cbn [Nat.eqb negb]. rewrite EL, new_facet. rewrite bool_decide_eq_true_2 by reflexivity.
    f_equal. unfold T2. apply pachner_perm; unfold e, of_list; apply elements_list_to_set;
      (apply (sublist_NoDup _ [p; q; a; b; far; bot]); [repeat constructor|exact fa_nodup]).
  Qed.
End Flip.
