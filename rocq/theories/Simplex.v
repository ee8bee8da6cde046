(** Finite simplicial complexes: the combinatorial content of CGAL's
    Triangulation_data_structure_3 that the code of include/Ergodic_moves_3.hpp
    and include/Foliated_triangulation.hpp uses. A cell is the set of its four
    vertices, a triangulation the set of its cells; edges and facets are the 2-
    and 3-element subsets of cells. *)
From Verif Require Import Base.
From stdpp Require Import fin_sets gmap.
Local Open Scope Z_scope.

Notation vertex := positive (only parsing).
Notation simplex := (gset positive) (only parsing).
Notation tds := (gset (gset positive)) (only parsing).

Definition of_list (l : list vertex) : simplex := list_to_set l.

(** ** Sub-lists of given length *)
Fixpoint ksub (k : nat) (l : list vertex) : list (list vertex) :=
  match k, l with
  | O, _ => [[]]
  | S _, [] => []
  | S k', x :: r => map (cons x) (ksub k' r) ++ ksub k r
  end.

Lemma ksub_0 l : ksub 0 l = [[]].
Proof. destruct l; reflexivity. Qed.

Lemma ksub_sublist k l s : s ∈ ksub k l -> sublist s l /\ length s = k.
Proof.
  revert k s. induction l as [|x l IH]; intros k s H.
  - destruct k; cbn in H; [|apply elem_of_nil in H; tauto].
    apply elem_of_list_singleton in H as ->. split; constructor.
  - destruct k as [|k]; cbn [ksub] in H.
    + apply elem_of_list_singleton in H as ->. split; [apply sublist_nil_l|reflexivity].
    + apply elem_of_app in H as [H|H].
      * apply elem_of_list_fmap in H as (r & -> & Hr). destruct (IH _ _ Hr) as [A B].
        split; [apply sublist_skip; exact A|cbn; congruence].
      * destruct (IH _ _ H) as [A B]. split; [apply sublist_cons; exact A|exact B].
Qed.

Lemma sublist_NoDup (s l : list vertex) : sublist s l -> NoDup l -> NoDup s.
Proof.
  induction 1 as [|x s l Hs IH|x s l Hs IH]; intros Hn; [constructor| |].
  - apply NoDup_cons in Hn as [Hx Hn]. apply NoDup_cons. split; [|apply IH; exact Hn].
    intros Hx'. apply Hx. apply (elem_of_submseteq s); [exact Hx'|apply sublist_submseteq; exact Hs].
  - apply NoDup_cons in Hn as [_ Hn]. apply IH. exact Hn.
Qed.

Lemma of_list_size l : NoDup l -> size (of_list l) = length l.
Proof. apply size_list_to_set. Qed.

Lemma of_list_cons x l : of_list (x :: l) = {[x]} ∪ of_list l.
Proof. reflexivity. Qed.

Lemma of_list_app l l' : of_list (l ++ l') = of_list l ∪ of_list l'.
Proof. unfold of_list. set_solver. Qed.

Lemma elem_of_of_list x l : x ∈ of_list l <-> x ∈ l.
Proof. unfold of_list. set_solver. Qed.

(** Every k-element subset is one of them. *)
Lemma ksub_complete k l (s : simplex) : s ⊆ of_list l -> size s = k ->
  exists r, r ∈ ksub k l /\ s = of_list r.
Proof.
  revert k s. induction l as [|x l IH]; intros k s Hs Hk.
  - assert (s = ∅) by (unfold of_list in Hs; set_solver). subst s. rewrite size_empty in Hk. subst k.
    exists []. split; [constructor|reflexivity].
  - destruct k as [|k].
    + apply size_empty_inv in Hk. exists []. split; [constructor|].
      apply set_eq. intros y. unfold of_list. set_solver.
    + cbn [ksub]. destruct (decide (x ∈ s)) as [Hx|Hx].
      * destruct (IH k (s ∖ {[x]})) as (r & Hr & E).
        { rewrite of_list_cons in Hs. set_solver. }
        { rewrite size_difference by set_solver. rewrite size_singleton. lia. }
        exists (x :: r). split.
        { apply elem_of_app. left. apply elem_of_list_fmap. eauto. }
        rewrite of_list_cons, <- E. apply set_eq. intros y. destruct (decide (y = x)); set_solver.
      * destruct (IH (S k) s) as (r & Hr & E); [rewrite of_list_cons in Hs; set_solver|exact Hk|].
        exists r. split; [|exact E]. apply elem_of_app. right. exact Hr.
Qed.

Definition ksubsets (k : nat) (l : list vertex) : list simplex := map of_list (ksub k l).

Lemma elem_of_ksubsets k l s : NoDup l ->
  s ∈ ksubsets k l <-> s ⊆ of_list l /\ size s = k.
Proof.
  intros Hl. unfold ksubsets. rewrite elem_of_list_fmap. split.
  - intros (r & -> & Hr). apply ksub_sublist in Hr as [A B]. split.
    + intros y. rewrite !elem_of_of_list. intros Hy.
      apply (elem_of_submseteq r); [exact Hy|apply sublist_submseteq; exact A].
    + rewrite of_list_size; [exact B|]. eapply sublist_NoDup; eassumption.
  - intros [A B]. destruct (ksub_complete k l s A B) as (r & Hr & ->). eauto.
Qed.

Lemma ksubsets_NoDup k l : NoDup l -> NoDup (ksubsets k l).
Proof.
  revert k. induction l as [|x l IH]; intros k Hl.
  - destruct k; cbn; repeat constructor. set_solver.
  - destruct k as [|k]; [cbn; repeat constructor; set_solver|].
    apply NoDup_cons in Hl as [Hx Hl]. unfold ksubsets. cbn [ksub].
    rewrite map_app, map_map. apply NoDup_app. split; [|split].
    + change (map (fun r => of_list (x :: r)) (ksub k l)) with (map (fun r => {[x]} ∪ of_list r) (ksub k l)).
      rewrite <- (map_map of_list (fun s : simplex => {[x]} ∪ s)).
      change (map of_list (ksub k l)) with (ksubsets k l).
      assert (Hin : forall s, s ∈ ksubsets k l -> x ∉ s).
      { intros s Hs. apply elem_of_ksubsets in Hs as [Hs _]; [|exact Hl]. rewrite <- elem_of_of_list in Hx. set_solver. }
      pose proof (IH k Hl) as HN. revert Hin HN. generalize (ksubsets k l) as L. clear.
      induction L as [|s L IHL]; intros Hin HN; cbn; [constructor|].
      apply NoDup_cons in HN as [Hs HN]. apply NoDup_cons. split.
      * intros Hm. apply elem_of_list_fmap in Hm as (s' & E & Hs'). apply Hs.
        replace s with s'; [exact Hs'|].
        pose proof (Hin s ltac:(constructor)). pose proof (Hin s' ltac:(constructor; assumption)).
        apply set_eq. intros y. destruct (decide (y = x)); set_solver.
      * apply IHL; [|exact HN]. intros s' Hs'. apply Hin. constructor. exact Hs'.
    + intros s Hs Hs'. change (map of_list (ksub (S k) l)) with (ksubsets (S k) l) in Hs'.
      apply elem_of_ksubsets in Hs' as [Hs' _]; [|exact Hl].
      apply elem_of_list_fmap in Hs as (r & -> & _). rewrite <- elem_of_of_list in Hx.
      rewrite of_list_cons in Hs'. set_solver.
    + apply (IH (S k) Hl).
Qed.

(** ** Faces of a complex *)
(** The k-vertex faces (k = 1 vertices, 2 edges, 3 facets, 4 cells). *)
Definition faces (k : nat) (T : tds) : gset simplex :=
  list_to_set (flat_map (fun c => ksubsets k (elements c)) (elements T)).

Lemma of_list_elements (c : simplex) : of_list (elements c) = c.
Proof. unfold of_list. set_solver. Qed.

Lemma elem_of_faces k T s : s ∈ faces k T <-> size s = k /\ exists c, c ∈ T /\ s ⊆ c.
Proof.
  unfold faces. rewrite elem_of_list_to_set, elem_of_list_In, in_flat_map.
  setoid_rewrite <- elem_of_list_In. setoid_rewrite elem_of_elements. split.
  - intros (c & Hc & Hs). apply elem_of_ksubsets in Hs as [A B]; [|apply NoDup_elements].
    rewrite of_list_elements in A. eauto.
  - intros (Hk & c & Hc & Hs). exists c. split; [exact Hc|].
    apply elem_of_ksubsets; [apply NoDup_elements|]. rewrite of_list_elements. auto.
Qed.

Lemma faces_cells T : (forall c, c ∈ T -> size c = 4%nat) -> faces 4 T = T.
Proof.
  intros H. apply set_eq. intros s. rewrite elem_of_faces. split.
  - intros (Hk & c & Hc & Hs). assert (s = c); [|subst; exact Hc].
    apply set_eq. intros y. split; [apply Hs|]. intros Hy.
    destruct (decide (y ∈ s)) as [|Hn]; [assumption|]. exfalso.
    assert (size s < size c)%nat; [|rewrite (H c Hc) in *; lia].
    apply subset_size. split; [exact Hs|]. intros Hcs. apply Hn, Hcs, Hy.
  - intros Hs. split; [apply H; exact Hs|]. exists s. auto.
Qed.

(** ** Counting faces with a property *)
Definition count (P : simplex -> bool) (S : gset simplex) : Z :=
  Z.of_nat (size (filter (fun s => P s = true) S)).
Definition sum_of (P : simplex -> bool) (l : list simplex) : Z :=
  fold_right (fun s acc => (if P s then 1 else 0) + acc) 0 l.

Lemma count_nonneg P S : 0 <= count P S.
Proof. unfold count. lia. Qed.

Lemma count_empty P : count P ∅ = 0.
Proof. reflexivity. Qed.

Lemma filter_union_eq P (S S' : gset simplex) :
  filter (fun s => P s = true) (S ∪ S') = filter (fun s => P s = true) S ∪ filter (fun s => P s = true) S'.
Proof. apply set_eq. intros s. rewrite elem_of_union, !elem_of_filter, elem_of_union. tauto. Qed.

Lemma filter_one P (s : simplex) :
  filter (fun s => P s = true) ({[s]} : gset simplex) = if P s then {[s]} else ∅.
Proof.
  apply set_eq. intros y. rewrite elem_of_filter, elem_of_singleton.
  destruct (P s) eqn:E; [rewrite elem_of_singleton|rewrite elem_of_empty]; split.
  - intros [_ H]. exact H.
  - intros ->. auto.
  - intros [H ->]. congruence.
  - intros [].
Qed.

Lemma count_union P S S' : S ## S' -> count P (S ∪ S') = count P S + count P S'.
Proof.
  intros H. unfold count. rewrite filter_union_eq, size_union; [lia|].
  intros s. rewrite !elem_of_filter. intros [_ A] [_ B]. exact (H s A B).
Qed.

Lemma count_one P s : count P {[s]} = if P s then 1 else 0.
Proof. unfold count. rewrite filter_one. destruct (P s); [rewrite size_singleton|]; reflexivity. Qed.

Lemma count_insert P S s : s ∉ S -> count P ({[s]} ∪ S) = (if P s then 1 else 0) + count P S.
Proof. intros H. rewrite count_union by set_solver. rewrite count_one. reflexivity. Qed.

Lemma count_list P l : NoDup l -> count P (list_to_set l) = sum_of P l.
Proof.
  induction l as [|s l IH]; intros H; [apply count_empty|].
  apply NoDup_cons in H as [Hs Hl]. cbn [list_to_set sum_of fold_right].
  change (count P ({[s]} ∪ list_to_set l) = (if P s then 1 else 0) + sum_of P l).
  rewrite count_insert by set_solver. rewrite IH by exact Hl. reflexivity.
Qed.

Lemma count_difference P S R : R ⊆ S -> count P (S ∖ R) = count P S - count P R.
Proof.
  intros H. assert (E : S = (S ∖ R) ∪ R).
  { apply set_eq. intros y. destruct (decide (y ∈ R)); set_solver. }
  rewrite E at 2. rewrite count_union by set_solver. lia.
Qed.

Lemma count_change P S R A : NoDup R -> NoDup A -> (forall s, s ∈ R -> s ∈ S) ->
  (forall s, s ∈ A -> s ∉ S) ->
  count P ((S ∖ list_to_set R) ∪ list_to_set A) = count P S - sum_of P R + sum_of P A.
Proof.
  intros HR HA HRS HAS. rewrite count_union by set_solver.
  rewrite count_difference by set_solver. rewrite !count_list by assumption. reflexivity.
Qed.

Lemma count_ext P Q S : (forall s, s ∈ S -> P s = Q s) -> count P S = count Q S.
Proof.
  intros H. unfold count. do 2 f_equal. apply set_eq. intros s. rewrite !elem_of_filter.
  split; intros [A B]; (split; [|exact B]); specialize (H s B); congruence.
Qed.

Lemma count_split P Q R S : (forall s, s ∈ S -> P s = xorb (Q s) (R s) /\ (Q s && R s = false)) ->
  count P S = count Q S + count R S.
Proof.
  intros H.
  assert (E : filter (fun s => P s = true) S = filter (fun s => Q s = true) S ∪ filter (fun s => R s = true) S).
  { apply set_eq. intros s. rewrite elem_of_union, !elem_of_filter. split.
    - intros [A B]. destruct (H s B) as [E1 E2]. rewrite A in E1. destruct (Q s), (R s); cbn in *; try discriminate; auto.
    - intros [[A B]|[A B]]; destruct (H s B) as [E1 E2]; (split; [|exact B]); rewrite E1; destruct (Q s), (R s); cbn in *; congruence. }
  unfold count. rewrite E, size_union; [lia|].
  intros s. rewrite !elem_of_filter. intros [A B] [C _]. destruct (H s B) as [_ E2]. rewrite A, C in E2. discriminate.
Qed.

Lemma count_pos P S s : s ∈ S -> P s = true -> 1 <= count P S.
Proof.
  intros H1 H2. unfold count.
  assert (size (filter (fun s => P s = true) S) <> 0)%nat; [|lia].
  intros E. apply size_empty_inv in E. assert (s ∈ filter (fun s => P s = true) S) by (apply elem_of_filter; auto).
  set_solver.
Qed.

Lemma count_sub P S l : NoDup l -> (forall s, s ∈ l -> s ∈ S) -> sum_of P l <= count P S.
Proof.
  intros Hl Hs. rewrite <- (count_list P l Hl).
  assert (list_to_set l ⊆ S) by set_solver.
  pose proof (count_difference P S (list_to_set l) H) as E. pose proof (count_nonneg P (S ∖ list_to_set l)). lia.
Qed.
