(** Classification of cells and edges in terms of vertex sets and slices. *)
From Verif Require Import Base Tracker Command Geom Simplex Pachner Foliation Moves Links MoveCore MoveTools Manifold ManifoldFacts.
From stdpp Require Import fin_sets gmap sorting.
From Verif Require Import Foliation.
Local Open Scope Z_scope.

(** Specification: [c] has vertices on slices t and t+1 only, [k] of them on t. *)
Definition spans (label : vertex -> Z) (c : simplex) (t : Z) (k : nat) : Prop :=
  (forall v, v ∈ c -> label v = t \/ label v = t + 1) /\ size (filter (fun v => label v = t) c) = k.

Lemma filter_map_length (label : vertex -> Z) (t : Z) (l : list vertex) : NoDup l ->
  length (List.filter (Z.eqb t) (map label l)) = size (filter (fun v => label v = t) (of_list l)).
Proof.
  induction l as [|x l IH]; intros H; [reflexivity|]. apply NoDup_cons in H as [Hx Hl].
  cbn [map List.filter]. specialize (IH Hl).
  assert (E : filter (fun v => label v = t) (of_list (x :: l)) =
              (if t =? label x then {[x]} else ∅) ∪ filter (fun v => label v = t) (of_list l)).
  { apply set_eq. intros y. rewrite elem_of_union, !elem_of_filter, !elem_of_of_list, elem_of_cons.
    destruct (Z.eqb_spec t (label x)) as [E|E].
    - rewrite elem_of_singleton. split; [tauto|]. intros [->|[A B]]; auto.
    - rewrite elem_of_empty. split; [|tauto]. intros [A [->|B]]; [congruence|auto]. }
  rewrite E. destruct (Z.eqb_spec t (label x)) as [E1|E1].
  - rewrite size_union, size_singleton.
    + cbn. lia.
    + intros y. rewrite elem_of_singleton, elem_of_filter, elem_of_of_list. intros -> [_ Hy]. contradiction.
  - rewrite (left_id_L ∅ (∪)). exact IH.
Qed.

Lemma cell_type_spec label c lo up k : size c = 4%nat ->
  (lo, up, k) ∈ [(3%nat, 1%nat, THREE_ONE); (2%nat, 2%nat, TWO_TWO); (1%nat, 3%nat, ONE_THREE)] ->
  cell_type label c = k <-> exists t, spans label c t lo.
Proof.
  intros Hs Hk. unfold cell_type. rewrite (classify_spec _ lo up k); [|rewrite map_length; exact Hs|exact Hk].
  assert (Hlu : (lo + up = 4)%nat).
  { rewrite !elem_of_cons, elem_of_nil in Hk. destruct Hk as [E|[E|[E|[]]]]; injection E as -> -> ->; reflexivity. }
  assert (Q : forall t, (forall x, x ∈ map label (elements c) -> x = t \/ x = t + 1) <-> (forall v, v ∈ c -> label v = t \/ label v = t + 1)).
  { intros t. split.
    - intros H v Hv. apply H, elem_of_list_fmap. exists v. split; [reflexivity|]. apply elem_of_elements. exact Hv.
    - intros H x Hx. apply elem_of_list_fmap in Hx as (v & -> & Hv). apply H. apply elem_of_elements. exact Hv. }
  split; intros (t & H).
  - destruct H as (A & B & _). exists t. split; [apply Q; exact A|].
    rewrite filter_map_length in B by apply NoDup_elements. rewrite of_list_elements in B. exact B.
  - destruct H as [A B]. exists t. pose proof (proj2 (Q t) A) as A'. split; [exact A'|].
    assert (E : length (List.filter (Z.eqb t) (map label (elements c))) = lo).
    { rewrite filter_map_length by apply NoDup_elements. rewrite of_list_elements. exact B. }
    split; [exact E|]. pose proof (count_two t _ A') as S. rewrite map_length in S. change (length (elements c)) with (size c) in S. lia.
Qed.

Lemma cell_type_exact label c : size c = 4%nat ->
  (cell_type label c = THREE_ONE <-> exists t, spans label c t 3) /\
  (cell_type label c = TWO_TWO <-> exists t, spans label c t 2) /\
  (cell_type label c = ONE_THREE <-> exists t, spans label c t 1) /\
  (cell_type label c = ACAUSAL <-> ~ exists t k, (1 <= k <= 3)%nat /\ spans label c t k).
Proof.
  intros Hs.
  assert (A1 : cell_type label c = THREE_ONE <-> exists t, spans label c t 3) by (apply (cell_type_spec label c 3 1); [exact Hs|set_solver +]).
  assert (A2 : cell_type label c = TWO_TWO <-> exists t, spans label c t 2) by (apply (cell_type_spec label c 2 2); [exact Hs|set_solver +]).
  assert (A3 : cell_type label c = ONE_THREE <-> exists t, spans label c t 1) by (apply (cell_type_spec label c 1 3); [exact Hs|set_solver +]).
  split; [exact A1|]. split; [exact A2|]. split; [exact A3|].
  destruct (classify_total (map label (elements c))) as [E|E]; [rewrite map_length; exact Hs| |]; fold (cell_type label c) in E.
  - split; [|auto]. intros _ (t & k & Hk & H).
    assert (Hk' : (k = 1 \/ k = 2 \/ k = 3)%nat) by lia.
    destruct Hk' as [->|[->| ->]];
      [pose proof (proj2 A3 (ex_intro _ t H)) as B|pose proof (proj2 A2 (ex_intro _ t H)) as B|pose proof (proj2 A1 (ex_intro _ t H)) as B];
      rewrite E in B; discriminate.
  - split; [intros B; rewrite B in E; discriminate|]. intros H. exfalso. apply H.
    unfold causal_type in E. rewrite !orb_true_iff, !Z.eqb_eq in E.
    destruct E as [[E|E]|E]; [apply A1 in E|apply A2 in E|apply A3 in E]; destruct E as [t E]; exists t; eexists; (split; [|exact E]); lia.
Qed.

Lemma counts_partition_iff label T : pure T ->
  (n3_of label THREE_ONE T + n3_of label TWO_TWO T + n3_of label ONE_THREE T = n3 T <->
   forall c, c ∈ T -> infinite ∉ c -> exists t k, (1 <= k <= 3)%nat /\ spans label c t k).
Proof.
  intros P. rewrite cells_partition_causal. unfold causal. split; intros H c Hc Hf; specialize (H c Hc Hf);
    destruct (cell_type_exact label c (P c Hc)) as (A1 & A2 & A3 & _).
  - unfold causal_type in H. rewrite !orb_true_iff, !Z.eqb_eq in H.
    destruct H as [[E|E]|E]; [apply A1 in E|apply A2 in E|apply A3 in E]; destruct E as [t E]; exists t; eexists; (split; [|exact E]); lia.
  - destruct H as (t & k & Hk & H). assert (Hk' : (k = 1 \/ k = 2 \/ k = 3)%nat) by lia.
    destruct Hk' as [->|[->| ->]];
      [pose proof (proj2 A3 (ex_intro _ t H)) as B|pose proof (proj2 A2 (ex_intro _ t H)) as B|pose proof (proj2 A1 (ex_intro _ t H)) as B];
      rewrite B; reflexivity.
Qed.

(** ** Edges *)
Lemma edge_class label e a b : a <> b -> e = of_list [a; b] ->
  (timelike label e = true <-> label a <> label b) /\ (spacelike label e = true <-> label a = label b).
Proof.
  intros H ->. rewrite timelike_of_list, spacelike_of_list by exact H.
  rewrite negb_true_iff, Z.eqb_neq, Z.eqb_eq. tauto.
Qed.

(** Every finite edge of a closed complex lies in a finite cell. *)
Lemma finite_edge_cell T e : valid T -> e ∈ faces 2 T -> infinite ∉ e ->
  exists c, c ∈ T /\ infinite ∉ c /\ e ⊆ c.
Proof.
  intros [HP HC _] He Hi. apply elem_of_faces in He as (Hs & c & Hc & Hec).
  destruct (decide (infinite ∈ c)) as [Hic|Hic]; [|exists c; auto].
  assert (Hf : size (c ∖ {[infinite]}) = 3%nat).
  { rewrite size_difference by (set_solver + Hic). rewrite (HP c Hc), size_singleton. reflexivity. }
  destruct (neighbor_spec T HP HC c infinite Hc Hic) as (n & w & _ & Hn & Hw & En & _).
  exists n. split; [exact Hn|]. rewrite En. split.
  - rewrite elem_of_union, elem_of_singleton, elem_of_difference, elem_of_singleton. intros [E|E]; [|tauto].
    subst w. contradiction.
  - intros y Hy. apply elem_of_union. right. apply elem_of_difference. split; [apply Hec; exact Hy|].
    rewrite elem_of_singleton. intros ->. contradiction.
Qed.

Lemma timelike_adjacent label T a b : valid T -> causal label T -> a <> b ->
  of_list [a; b] ∈ faces 2 T -> infinite ∉ [a; b] -> label a <> label b -> Z.abs (label a - label b) = 1.
Proof.
  intros V C Hab He Hi HL. destruct (finite_edge_cell T _ V He) as (c & Hc & Hf & Hsub); [rewrite elem_of_of_list; exact Hi|].
  specialize (C c Hc Hf). destruct (cell_type_exact label c (va_pure _ V c Hc)) as (A1 & A2 & A3 & _).
  assert (S : exists t k, spans label c t k).
  { unfold causal_type in C. rewrite !orb_true_iff, !Z.eqb_eq in C.
    destruct C as [[E|E]|E]; [apply A1 in E|apply A2 in E|apply A3 in E]; destruct E as [t E]; exists t; eexists; exact E. }
  destruct S as (t & k & S & _).
  assert (Ha : a ∈ c) by (apply Hsub, elem_of_of_list; set_solver +).
  assert (Hb : b ∈ c) by (apply Hsub, elem_of_of_list; set_solver +).
  apply S in Ha, Hb. lia.
Qed.
