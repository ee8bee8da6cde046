(** From the effect lemmas to the specification of MoveSpec.v. *)
From Verif Require Import Base Tracker Geom Simplex Pachner Foliation Moves Links MoveCore MoveTools Move23 Move44 Move26 Move26Site Move62Site MoveSpec.
From stdpp Require Import fin_sets gmap sorting.
From stdpp Require Import fin_sets gmap sorting.
From Verif Require Import Foliation.

(** The time bounds depend only on the set of labels in use. *)
Lemma list_max_set l l' : (forall x, x ∈ l <-> x ∈ l') -> list_max l = list_max l'.
Proof.
  intros H. destruct l as [|y l].
  - destruct l' as [|z l']; [reflexivity|]. exfalso. assert (z ∈ (@nil Z)) by (apply H; constructor). set_solver.
  - assert (N : l' <> []) by (intros ->; assert (y ∈ (@nil Z)) by (apply H; constructor); set_solver).
    destruct (list_max_In (y :: l) ltac:(discriminate)) as [A B]. destruct (list_max_In l' N) as [C D].
    apply H, D in A. apply H, B in C. lia.
Qed.
Lemma list_min_set l l' : (forall x, x ∈ l <-> x ∈ l') -> list_min l = list_min l'.
Proof.
  intros H. destruct l as [|y l].
  - destruct l' as [|z l']; [reflexivity|]. exfalso. assert (z ∈ (@nil Z)) by (apply H; constructor). set_solver.
  - assert (N : l' <> []) by (intros ->; assert (y ∈ (@nil Z)) by (apply H; constructor); set_solver).
    destruct (list_min_In (y :: l) ltac:(discriminate)) as [A B]. destruct (list_min_In l' N) as [C D].
    apply H, D in A. apply H, B in C. lia.
Qed.

Definition same_labels (label : vertex -> Z) (T T' : tds) : Prop :=
  forall t, (exists v, v ∈ finite_vertices T /\ label v = t) <-> (exists v, v ∈ finite_vertices T' /\ label v = t).

Lemma same_labels_list label T T' : same_labels label T T' ->
  forall x, x ∈ map label (elements (finite_vertices T)) <-> x ∈ map label (elements (finite_vertices T')).
Proof.
  intros H x. rewrite !elem_of_list_fmap. setoid_rewrite elem_of_elements. specialize (H x).
  split; intros (v & -> & Hv).
  - destruct H as [H _]. destruct H as (v' & Hv' & E); [eauto|]. exists v'. auto.
  - destruct H as [_ H]. destruct H as (v' & Hv' & E); [eauto|]. exists v'. auto.
Qed.

Lemma same_labels_bounds label T T' : same_labels label T T' ->
  max_time label T' = max_time label T /\ min_time label T' = min_time label T.
Proof.
  intros H. pose proof (same_labels_list label T T' H) as E. unfold max_time, min_time.
  split; symmetry; [apply list_max_set|apply list_min_set]; exact E.
Qed.

Lemma same_vertices_labels label T T' : vertices T' = vertices T -> same_labels label T T'.
Proof. intros E t. rewrite (finite_vertices_eq T T' E). reflexivity. Qed.

(** One more vertex on a slice that is already in use. *)
Lemma extra_vertex_labels label T T' x a : vertices T' = {[x]} ∪ vertices T -> a ∈ finite_vertices T ->
  label x = label a -> same_labels label T T'.
Proof.
  intros E Ha L t. unfold finite_vertices in *. rewrite E. setoid_rewrite elem_of_difference. setoid_rewrite elem_of_union.
  setoid_rewrite elem_of_singleton. split.
  - intros (v & [Hv Hi] & Ht). exists v. auto.
  - intros (v & [[->|Hv] Hi] & Ht); [|exists v; auto]. exists a. rewrite elem_of_difference, elem_of_singleton in Ha. split; [exact Ha|congruence].
Qed.

Lemma same_labels_sym label T T' : same_labels label T T' -> same_labels label T' T.
Proof. intros H t. symmetry. apply H. Qed.

(** ** (2,3) and (3,2) *)
Lemma xor_23 label v w a b x : NoDup [v; w; a; b; x] -> labels_23 label v w a b x ->
  cell_type label (of_list [v; a; b; x]) = TWO_TWO <-> cell_type label (of_list [w; a; b; x]) <> TWO_TWO.
Proof.
  intros N (t & p & E & Hp). apply NoDup_5 in N.
  rewrite !cell_type_of_list by (rewrite nodup4; clear - N; intuition congruence).
  cbn [map]. unfold patterns_23 in Hp. cases_list Hp; subst p; injection E as Ev Ew Ea Eb Ex;
    rewrite ?Ev, ?Ew, ?Ea, ?Eb, ?Ex, !classify4;
    repeat match goal with |- context [classify ?l] => let y := eval vm_compute in (classify l) in change (classify l) with y end;
    unfold TWO_TWO; lia.
Qed.

Lemma pachner_23_spec label T v w a b x : pachner_ok T [v; w] [a; b; x] -> valid T ->
  infinite ∉ [v; w; a; b; x] -> labels_23 label v w a b x ->
  two_three label T (pachner T [v; w] [a; b; x]) v w a b x.
Proof.
  intros ok V F L. split; [exact (po_nodup _ _ _ ok)|]. split; [exact F|].
  split; [exact (replaces_23 T v w a b x ok)|]. split; [eapply edge_23; eassumption|].
  split; [apply xor_23; [exact (po_nodup _ _ _ ok)|exact L]|]. intros c Hc.
  rewrite !elem_of_cons, elem_of_nil in Hc.
  assert (c ∈ [of_list [v; a; b; x]; of_list [w; a; b; x]] \/
          c ∈ [of_list [v; w; a; b]; of_list [v; w; b; x]; of_list [v; w; a; x]]) as [H|H]
    by (rewrite !elem_of_cons, elem_of_nil; tauto).
  - eapply old_cells_23; eassumption.
  - eapply new_cells_23; eassumption.
Qed.

Lemma two_three_sound label T v w a b x : pachner_ok T [v; w] [a; b; x] -> valid T ->
  infinite ∉ [v; w; a; b; x] -> labels_23 label v w a b x ->
  sound_move label TWO_THREE T (pachner T [v; w] [a; b; x]).
Proof.
  intros ok V F L. assert (E : vertices (pachner T [v; w] [a; b; x]) = vertices T)
    by (apply vertices_pachner; [exact ok|cbn; lia|cbn; lia]).
  destruct (same_labels_bounds label T _ (same_vertices_labels label _ _ E)) as [B1 B2].
  split; try assumption.
  - eexists. split; [reflexivity|]. eapply geometry_23; eassumption.
  - apply pachner_valid; assumption.
  - eapply replaces_causal; [exact (replaces_23 T v w a b x ok)|]. intros c Hc. eapply new_cells_23; eassumption.
Qed.

Lemma geometry_plus_cancel g g' d d' : g' = geometry_plus g d ->
  geometry_plus d d' = geometry_zero -> g = geometry_plus g' d'.
Proof.
  intros -> H. destruct g, d, d'. unfold geometry_plus, geometry_zero in *. cbn in *. injection H as H1 H2 H3 H4 H5 H6 H7 H8 H9 H10.
  f_equal; lia.
Qed.

Lemma three_two_sound label T v w a b x : pachner_ok T [a; b; x] [v; w] -> valid T ->
  infinite ∉ [v; w; a; b; x] -> labels_23 label v w a b x ->
  sound_move label THREE_TWO T (pachner T [a; b; x] [v; w]) /\
  two_three label (pachner T [a; b; x] [v; w]) T v w a b x.
Proof.
  intros ok V F L. set (T' := pachner T [a; b; x] [v; w]).
  pose proof (pachner_ok_reverse _ _ _ ok) as ok'. pose proof (pachner_inverse _ _ _ ok) as inv. fold T' in ok', inv.
  assert (V' : valid T') by (apply pachner_valid; assumption).
  pose proof (pachner_23_spec label T' v w a b x ok' V' F L) as S. rewrite inv in S.
  pose proof (two_three_sound label T' v w a b x ok' V' F L) as SM. rewrite inv in SM.
  split; [|exact S]. destruct SM as [(d & Ed & C) _ _ M1 M2].
  split; [| exact V' | |congruence|congruence].
  - injection Ed as <-. eexists. split; [reflexivity|]. apply (geometry_plus_cancel _ _ _ _ C). reflexivity.
  - destruct S as (_ & _ & R & _ & _ & Hc). apply replaces_sym in R. eapply replaces_causal; [exact R|].
    intros c Hin. apply Hc. rewrite !elem_of_cons, elem_of_nil in *. tauto.
Qed.

(** ** (4,4) *)
Lemma four_four_sound label T p q a b top bot : valid T ->
  NoDup [p; q; a; b; top; bot] -> infinite ∉ [p; q; a; b; top; bot] -> labels_44 label p q a b top bot ->
  pachner_ok T [a; b] [p; q; bot] -> pachner_ok (pachner T [a; b] [p; q; bot]) [a; b; top] [p; q] ->
  let T' := pachner (pachner T [a; b] [p; q; bot]) [a; b; top] [p; q] in
  sound_move label FOUR_FOUR T T' /\ four_four label T T' p q a b top bot.
Proof.
  intros V N F L ok1 ok2 T'.
  pose proof (replaces_44 T p q a b top bot N ok1 ok2) as R. fold T' in R.
  pose proof (vertices_44 T p q a b top bot ok1 ok2) as E. fold T' in E.
  destruct (same_labels_bounds label T _ (same_vertices_labels label _ _ E)) as [B1 B2].
  split.
  - split; try assumption.
    + eexists. split; [reflexivity|]. unfold T'.
      erewrite geometry_44 by eassumption. unfold geometry_plus, geometry_of. cbn.
      f_equal; lia.
    + apply pachner_valid; [exact ok2|]. apply pachner_valid; assumption.
    + eapply replaces_causal; [exact R|]. intros c Hc. eapply new_cells_44; eassumption.
  - split; [exact N|]. split; [exact F|]. split; [exact R|]. exact L.
Qed.

(** ** (2,6) and (6,2) *)
Lemma two_six_sound label T a b c x d e : valid T -> NoDup [a; b; c; x; d; e] -> infinite ∉ [a; b; c; x; d; e] ->
  labels_26 label a b c x d e -> pachner_ok T [x] [a; b; c; d] ->
  pachner_ok (pachner T [x] [a; b; c; d]) [x; e] [a; b; c] ->
  let T' := pachner (pachner T [x] [a; b; c; d]) [x; e] [a; b; c] in
  sound_move label TWO_SIX T T' /\ (vertices T' = {[x]} ∪ vertices T /\ x ∉ vertices T) /\
  (two_six label T T' a b c x d e \/ two_six label T T' a b c x e d).
Proof.
  intros V N F L ok1 ok2 T'.
  pose proof (replaces_26 T a b c x d e N ok1 ok2) as R. fold T' in R.
  pose proof (vertices_26 T a b c x d e N ok1 ok2) as E. fold T' in E.
  pose proof (cells_causal_26 a b c x d e N label L) as Hc.
  assert (Ha : a ∈ finite_vertices T).
  { apply (proj2 (elem_of_finite_vertices label a T)). split; [intros ->; apply F; constructor|].
    exists (of_list [a; b; c; d]). split; [|rewrite elem_of_of_list; constructor].
    destruct R as (_ & _ & R & _). apply R. unfold two_cells_of. constructor. }
  assert (Lxa : label x = label a) by (destruct L as (t & La & _ & _ & Lx & _); congruence).
  destruct (same_labels_bounds label T T' (extra_vertex_labels label T T' x a (proj1 E) Ha Lxa)) as [B1 B2].
  split; [|split; [exact E|]].
  - split; try assumption.
    + eexists. split; [reflexivity|]. eapply geometry_26; eassumption.
    + apply pachner_valid; [exact ok2|]. apply pachner_valid; assumption.
    + eapply replaces_causal; [exact R|]. intros s Hs. apply Hc, elem_of_app. right. exact Hs.
  - destruct L as (t & La & Lb & Lc & Lx & [[Ld Le]|[Ld Le]]).
    + right. split; [|split; [|split]].
      * clear - N. apply nodup6. apply (proj1 (nodup6 _ _ _ _ _ _)) in N. intuition congruence.
      * clear - F. rewrite !elem_of_cons, elem_of_nil in *. tauto.
      * revert R. apply replaces_perm; unfold two_cells_of, six_cells_of.
        { apply Permutation_swap. }
        { match goal with |- ?l ≡ₚ ?r => change (firstn 3 l ++ skipn 3 l ≡ₚ r) end. cbn [firstn skipn]. apply Permutation_app_comm. }
      * exists t. auto 10.
    + left. split; [exact N|]. split; [exact F|]. split; [exact R|]. exists t. auto 10.
Qed.

Lemma six_two_sound label T T' a b c v d e : NoDup [a; b; c; v; d; e] -> infinite ∉ [a; b; c; v; d; e] ->
  labels_26 label a b c v d e -> pachner_ok T' [v] [a; b; c; d] ->
  pachner_ok (pachner T' [v] [a; b; c; d]) [v; e] [a; b; c] ->
  T = pachner (pachner T' [v] [a; b; c; d]) [v; e] [a; b; c] -> valid T' ->
  sound_move label SIX_TWO T T' /\ (vertices T = {[v]} ∪ vertices T' /\ v ∉ vertices T') /\
  (two_six label T' T a b c v d e \/ two_six label T' T a b c v e d).
Proof.
  intros N F L ok1 ok2 -> V'.
  destruct (two_six_sound label T' a b c v d e V' N F L ok1 ok2) as (S & E & Q).
  split; [|split; [exact E|exact Q]]. destruct S as [(g & Eg & C) _ _ M1 M2].
  split; [|exact V'| |congruence|congruence].
  - injection Eg as <-. eexists. split; [reflexivity|]. apply (geometry_plus_cancel _ _ _ _ C). reflexivity.
  - pose proof (replaces_26 T' a b c v d e N ok1 ok2) as R. apply replaces_sym in R.
    eapply replaces_causal; [exact R|]. intros s Hs. eapply cells_causal_26; [exact N|exact L|]. apply elem_of_app. left. exact Hs.
Qed.
