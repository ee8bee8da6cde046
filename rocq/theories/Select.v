(** Site selection: std::ranges::nth_element and std::ranges::sort determine the
    chosen site from the set of candidates (include/Ergodic_moves_3.hpp:248-413). *)
From Verif Require Import Base Tracker Command Geom Simplex Pachner Foliation Moves Links MoveCore MoveTools MoveSound Manifold ManifoldFacts ManifoldMoves.
From stdpp Require Import fin_sets gmap sorting.
From Verif Require Import Foliation.
Local Open Scope Z_scope.

(** What the C++ standard promises for std::ranges::nth_element(l, l.begin() + n,
    precedes), as a relation between the range before and after: a permutation,
    nothing before position [n] that the element at [n] precedes, and nothing after
    that precedes it. *)
Definition nth_element_post {A} (precedes : A -> A -> bool) (n : nat) (l l' : list A) : Prop :=
  l' ≡ₚ l /\
  forall x, l' !! n = Some x ->
    (forall i y, (i < n)%nat -> l' !! i = Some y -> precedes x y = false) /\
    (forall j y, (n < j)%nat -> l' !! j = Some y -> precedes y x = false).
(** ... and for std::ranges::sort. *)
Definition sort_post {A} (precedes : A -> A -> bool) (l l' : list A) : Prop :=
  l' ≡ₚ l /\ forall i j x y, (i < j)%nat -> l' !! i = Some x -> l' !! j = Some y -> precedes y x = false.

(** include/Ergodic_moves_3.hpp:377-391 [canonical_random_element] on a container
    in storage order, for any implementation of nth_element. *)
Definition canonical_random_element_cpp {G A} (R : choices G) (nth : nat -> list A -> list A)
    (candidates : list A) (g : G) : option A * G :=
  match candidates with
  | [] => (None, g)
  | _ => let '(index, g') := draw_index R (length candidates) g in (nth index candidates !! index, g')
  end.
(** include/Ergodic_moves_3.hpp:248-250 [point_less] on vertices: ranks of points. *)
Definition point_precedes (a b : vertex) : bool := Pos.ltb a b.
(** std::ranges::lexicographical_compare(_, _, point_less). *)
Fixpoint lexicographical_compare (l l' : list vertex) : bool :=
  match l, l' with
  | _, [] => false
  | [], _ :: _ => true
  | x :: r, y :: r' => if Pos.ltb x y then true else if Pos.ltb y x then false else lexicographical_compare r r'
  end.
(** include/Ergodic_moves_3.hpp:319-335 [cell_precedes], [edge_precedes]. *)
Definition simplex_precedes (s s' : simplex) : bool :=
  lexicographical_compare (sorted_elements s) (sorted_elements s').

Section Order.
  Context {A : Type}.
  Variable le : A -> A -> Prop.
  Context `{RelDecision _ _ le, !Total le, !Transitive le, !AntiSymm (=) le}.
  Variable precedes : A -> A -> bool.
  Hypothesis precedes_le : forall x y, precedes x y = false <-> le y x.

  Lemma sort_unique l l' : sort_post precedes l l' -> l' = merge_sort le l.
  Proof using Type*.
    intros [P S]. apply (StronglySorted_unique le).
    - assert (Q : forall i j x y, (i < j)%nat -> l' !! i = Some x -> l' !! j = Some y -> le x y) by (intros; apply precedes_le; eauto).
      clear P S. induction l' as [|a r IH]; constructor.
      + apply IH. intros i j x y Hij Hi Hj. apply (Q (S i) (S j)); [lia|assumption..].
      + apply Forall_forall. intros x Hx. apply elem_of_list_lookup in Hx as [i Hi]. apply (Q 0%nat (S i)); [lia|reflexivity|exact Hi].
    - apply Sorted_StronglySorted; [apply _|]. apply Sorted_merge_sort. apply _.
    - rewrite P. symmetry. apply merge_sort_Permutation.
  Qed.

  Lemma strongly_sorted_mid l x l' : StronglySorted le l -> StronglySorted le l' ->
    (forall y, y ∈ l -> le y x) -> (forall y, y ∈ l' -> le x y) -> StronglySorted le (l ++ x :: l').
  Proof using Type*.
    intros S S' L L'. induction S as [|a r Sr IH F]; cbn.
    - constructor; [exact S'|]. apply Forall_forall. exact L'.
    - constructor; [apply IH; intros y Hy; apply L; constructor; exact Hy|].
      apply Forall_forall. intros y. rewrite elem_of_app, elem_of_cons. intros [Hy|[->|Hy]].
      + rewrite Forall_forall in F. auto.
      + apply L. constructor.
      + transitivity x; [apply L; constructor|auto].
  Qed.

  Lemma nth_element_sorted n l l' : nth_element_post precedes n l l' -> l' !! n = merge_sort le l !! n.
  Proof using Type*.
    intros [P N]. destruct (l' !! n) as [x|] eqn:E.
    - destruct (N x eq_refl) as [B C].
      rewrite <- (take_drop_middle l' n x E) in P.
      assert (S : merge_sort le l = merge_sort le (take n l') ++ x :: merge_sort le (drop (Datatypes.S n) l')).
      { apply (StronglySorted_unique le).
        - apply Sorted_StronglySorted; [apply _|]. apply Sorted_merge_sort. apply _.
        - apply strongly_sorted_mid; try (apply Sorted_StronglySorted; [apply _|]; apply Sorted_merge_sort; apply _).
          + intros y Hy. rewrite merge_sort_Permutation in Hy. apply elem_of_list_lookup in Hy as [i Hi].
            apply precedes_le. assert (i < n)%nat by (apply lookup_lt_Some in Hi; rewrite take_length in Hi; lia).
            apply (B i); [assumption|]. rewrite lookup_take in Hi by assumption. exact Hi.
          + intros y Hy. rewrite merge_sort_Permutation in Hy. apply elem_of_list_lookup in Hy as [i Hi].
            apply precedes_le. rewrite lookup_drop in Hi. apply (C (Datatypes.S n + i)%nat); [lia|exact Hi].
        - rewrite merge_sort_Permutation, <- P. rewrite !merge_sort_Permutation. reflexivity. }
      rewrite S. symmetry. apply list_lookup_middle. rewrite merge_sort_Permutation, take_length.
      apply lookup_lt_Some in E. lia.
    - symmetry. apply lookup_ge_None in E. apply lookup_ge_None. rewrite merge_sort_Permutation, <- P. exact E.
  Qed.

  Lemma canonical_random_element_sorted {G} (R : choices G) nth l g :
    (forall n l, nth_element_post precedes n l (nth n l)) ->
    canonical_random_element_cpp R nth l g = canonical_random_element R (merge_sort le l) g.
  Proof using Type*.
    intros N. unfold canonical_random_element_cpp, canonical_random_element.
    assert (L : length (merge_sort le l) = length l) by (rewrite merge_sort_Permutation; reflexivity).
    destruct l as [|a r]; [reflexivity|]. destruct (merge_sort le (a :: r)) as [|b s] eqn:E; [discriminate|].
    rewrite L. destruct (draw_index R (length (a :: r)) g) as [i g']. f_equal.
    rewrite (nth_element_sorted i (a :: r) _ (N i (a :: r))), E. generalize (b :: s) as q. intros q. clear.
    revert i. induction q as [|c q IH]; intros [|i]; cbn; auto.
  Qed.

  (** The same draw on two storage orders of the same candidates selects the same
      site, with any two implementations of nth_element. *)
  Lemma selection_order_free {G} (R : choices G) nth nth' l l' g :
    (forall n l, nth_element_post precedes n l (nth n l)) ->
    (forall n l, nth_element_post precedes n l (nth' n l)) -> l ≡ₚ l' ->
    canonical_random_element_cpp R nth l g = canonical_random_element_cpp R nth' l' g.
  Proof using Type*.
    intros N N' P. rewrite !canonical_random_element_sorted by assumption. f_equal.
    apply (StronglySorted_unique le); try (apply Sorted_StronglySorted; [apply _|]; apply Sorted_merge_sort; apply _).
    rewrite !merge_sort_Permutation. exact P.
  Qed.

  (** Each candidate is selected by exactly one index. *)
  Lemma selection_bijective l s nth : NoDup l -> s ∈ l ->
    (forall n l, nth_element_post precedes n l (nth n l)) ->
    exists i, (i < length l)%nat /\ nth i l !! i = Some s /\ forall j, nth j l !! j = Some s -> j = i.
  Proof using Type*.
    intros ND Hs N. rewrite <- (merge_sort_Permutation le l) in Hs. apply elem_of_list_lookup in Hs as [i Hi].
    exists i. split; [apply lookup_lt_Some in Hi; rewrite merge_sort_Permutation in Hi; exact Hi|].
    split; [rewrite (nth_element_sorted _ _ _ (N i l)); exact Hi|].
    intros j Hj. rewrite (nth_element_sorted _ _ _ (N j l)) in Hj.
    eapply NoDup_lookup; [|exact Hj|exact Hi]. rewrite merge_sort_Permutation. exact ND.
  Qed.
End Order.

(** ** The orders used by the program *)
Lemma lex_le_refl l : lex_le l l = true.
Proof. induction l as [|x l IH]; cbn; [reflexivity|]. rewrite Pos.ltb_irrefl. exact IH. Qed.
Ltac ltb_cases := repeat match goal with
  | |- context [Pos.ltb ?x ?y] => let E := fresh "E" in destruct (Pos.ltb x y) eqn:E; [apply Pos.ltb_lt in E|apply Pos.ltb_ge in E]
  | H : context [Pos.ltb ?x ?y] |- _ => let E := fresh "E" in destruct (Pos.ltb x y) eqn:E; [apply Pos.ltb_lt in E|apply Pos.ltb_ge in E]
  end.
Lemma lex_le_total l l' : lex_le l l' = true \/ lex_le l' l = true.
Proof. revert l'. induction l as [|x l IH]; intros [|y l']; cbn; auto. ltb_cases; auto; lia. Qed.
Lemma lex_le_trans l1 l2 l3 : lex_le l1 l2 = true -> lex_le l2 l3 = true -> lex_le l1 l3 = true.
Proof.
  revert l2 l3. induction l1 as [|x l1 IH]; intros [|y l2] [|z l3]; cbn; auto; try discriminate.
  intros H1 H2. ltb_cases; try discriminate; try lia; auto; try (eapply IH; eassumption).
Qed.
Lemma lex_le_antisym l l' : lex_le l l' = true -> lex_le l' l = true -> l = l'.
Proof.
  revert l'. induction l as [|x l IH]; intros [|y l']; cbn; auto; try discriminate.
  intros H1 H2. ltb_cases; try discriminate; try lia. assert (x = y) by lia. subst. f_equal. auto.
Qed.
Lemma lexicographical_compare_le l l' : lexicographical_compare l l' = false <-> lex_le l' l = true.
Proof.
  revert l'. induction l as [|x l IH]; intros [|y l']; cbn; try (split; congruence).
  ltb_cases; try lia; try apply IH; split; congruence.
Qed.

Lemma sorted_elements_inj s s' : sorted_elements s = sorted_elements s' -> s = s'.
Proof.
  intros E. apply set_eq. intros x. rewrite <- (elem_of_elements s), <- (elem_of_elements s').
  rewrite <- (merge_sort_Permutation Pos.le (elements s)), <- (merge_sort_Permutation Pos.le (elements s')).
  unfold sorted_elements in E. rewrite E. reflexivity.
Qed.
Global Instance simplex_le_total : Total simplex_le.
Proof. intros x y. apply lex_le_total. Qed.
Global Instance simplex_le_trans : Transitive simplex_le.
Proof. intros x y z. apply lex_le_trans. Qed.
Global Instance simplex_le_antisym : AntiSymm (=) simplex_le.
Proof. intros x y H H'. apply sorted_elements_inj, lex_le_antisym; assumption. Qed.
Lemma simplex_precedes_le x y : simplex_precedes x y = false <-> simplex_le y x.
Proof. apply lexicographical_compare_le. Qed.
Global Instance pos_le_total : Total Pos.le.
Proof. intros x y. lia. Qed.
Global Instance pos_le_trans : Transitive Pos.le.
Proof. intros x y z. apply Pos.le_trans. Qed.
Global Instance pos_le_antisym : AntiSymm (=) Pos.le.
Proof. intros x y. apply Pos.le_antisym. Qed.
Lemma point_precedes_le x y : point_precedes x y = false <-> (y <= x)%positive.
Proof. apply Pos.ltb_ge. Qed.

(** ** The sites of the five proposals *)
(** A proposal reads its sites from a container in an unspecified order. *)
Definition stored_cells (W : world) (m : manifold) (k : Z) (l : list simplex) : Prop :=
  NoDup l /\ forall c, c ∈ l <-> c ∈ m_cells m /\ infinite ∉ c /\ cell_type (label_of W m) c = k.
Definition stored_edges (W : world) (m : manifold) (timelike_edges : bool) (l : list simplex) : Prop :=
  NoDup l /\ forall e, e ∈ l <-> e ∈ faces 2 (m_cells m) /\ infinite ∉ e /\ timelike (label_of W m) e = timelike_edges.
Definition stored_vertices (m : manifold) (l : list vertex) : Prop :=
  NoDup l /\ forall v, v ∈ l <-> v ∈ vertices (m_cells m) /\ v <> infinite.

Lemma NoDup_same {A} (l l' : list A) : NoDup l -> NoDup l' -> (forall x, x ∈ l <-> x ∈ l') -> l ≡ₚ l'.
Proof. intros. apply NoDup_Permutation; assumption. Qed.

Lemma stored_cells_sites W m k l : stored_cells W m k l -> l ≡ₚ cell_sites (label_of W m) (w_junk W) k (m_cells m).
Proof.
  intros [ND H]. apply NoDup_same; [exact ND|apply NoDup_elements|]. intros c. rewrite H. unfold cell_sites.
  rewrite elem_of_elements, elem_of_filter, andb_true_iff, Z.eqb_eq. unfold cell_info.
  split.
  - intros (A & B & C). apply finite_spec in B. rewrite B. auto.
  - intros [[A B] C]. rewrite A in B. split; [exact C|]. split; [apply finite_spec; exact A|exact B].
Qed.
Lemma stored_edges_sites W m b l : stored_edges W m b l -> l ≡ₚ edge_sites (label_of W m) b (m_cells m).
Proof.
  intros [ND H]. apply NoDup_same; [exact ND|apply NoDup_elements|]. intros c. rewrite H. unfold edge_sites.
  rewrite elem_of_elements, elem_of_filter, andb_true_iff, finite_spec.
  assert (Q : c ∈ faces 2 (m_cells m) -> spacelike (label_of W m) c = negb (timelike (label_of W m) c)).
  { intros Hc. apply elem_of_faces in Hc as [Hc _]. destruct (elements_two c Hc) as (x & y & E & _ & _).
    unfold timelike, spacelike. rewrite E. destruct (_ =? _); reflexivity. }
  split.
  - intros (A & B & C). split; [split; [exact B|]|exact A]. destruct b; [exact C|]. rewrite (Q A), C. reflexivity.
  - intros [[A B] C]. split; [exact C|]. split; [exact A|]. destruct b; [exact B|]. rewrite (Q C) in B.
    apply negb_true_iff. exact B.
Qed.
Lemma stored_vertices_sites m l : stored_vertices m l -> l ≡ₚ vertex_sites (m_cells m).
Proof.
  intros [ND H]. unfold vertex_sites. apply NoDup_same; [exact ND|apply NoDup_elements|]. intros v. rewrite H.
  rewrite elem_of_elements. unfold finite_vertices. rewrite elem_of_difference, elem_of_singleton. tauto.
Qed.

Lemma simplex_sites_cpp {G} (R : choices G) nth l l' g :
  (forall n l, nth_element_post simplex_precedes n l (nth n l)) -> l ≡ₚ l' ->
  canonical_random_element_cpp R nth l g = canonical_random_element R (canonicalize l') g.
Proof.
  intros N P. rewrite (canonical_random_element_sorted simplex_le simplex_precedes simplex_precedes_le) by exact N.
  f_equal. unfold canonicalize. apply (StronglySorted_unique simplex_le);
    try (apply Sorted_StronglySorted; [apply _|]; apply Sorted_merge_sort; apply _).
  rewrite !merge_sort_Permutation. exact P.
Qed.
Lemma vertex_sites_cpp {G} (R : choices G) nth l l' g :
  (forall n l, nth_element_post point_precedes n l (nth n l)) -> l ≡ₚ l' ->
  canonical_random_element_cpp R nth l g = canonical_random_element R (merge_sort Pos.le l') g.
Proof.
  intros N P. rewrite (canonical_random_element_sorted Pos.le point_precedes point_precedes_le) by exact N.
  f_equal. apply (StronglySorted_unique Pos.le);
    try (apply Sorted_StronglySorted; [apply _|]; apply Sorted_merge_sort; apply _).
  rewrite !merge_sort_Permutation. exact P.
Qed.
Lemma sorted_sites_cpp l l' sorted : sort_post simplex_precedes l sorted -> l ≡ₚ l' -> sorted = canonicalize l'.
Proof.
  intros S P. rewrite (sort_unique simplex_le simplex_precedes simplex_precedes_le l sorted S).
  apply (StronglySorted_unique simplex_le);
    try (apply Sorted_StronglySorted; [apply _|]; apply Sorted_merge_sort; apply _).
  unfold canonicalize. rewrite !merge_sort_Permutation. exact P.
Qed.

(** The five proposals with their sites read in any storage order and selected
    with any nth_element: the site is a function of the set of candidates. *)
Lemma site_choice {G} (W : world) (R : choices G) m g nth vnth :
  (forall n l, nth_element_post simplex_precedes n l (nth n l)) ->
  (forall n l, nth_element_post point_precedes n l (vnth n l)) ->
  (forall l, stored_cells W m TWO_TWO l -> canonical_random_element_cpp R nth l g = canonical_random_element R (sites_23 W m) g) /\
  (forall l, stored_edges W m true l -> canonical_random_element_cpp R nth l g = canonical_random_element R (sites_32 W m) g) /\
  (forall l, stored_cells W m ONE_THREE l -> canonical_random_element_cpp R nth l g = canonical_random_element R (sites_26 W m) g) /\
  (forall l, stored_vertices m l -> canonical_random_element_cpp R vnth l g = canonical_random_element R (sites_62 m) g) /\
  (forall l, stored_edges W m false l -> canonical_random_element_cpp R nth l g = canonical_random_element R (sites_44 W m) g).
Proof.
  intros N VN. repeat split; intros l H.
  - apply simplex_sites_cpp; [exact N|]. apply stored_cells_sites, H.
  - apply simplex_sites_cpp; [exact N|]. apply stored_edges_sites, H.
  - apply simplex_sites_cpp; [exact N|]. apply stored_cells_sites, H.
  - apply vertex_sites_cpp; [exact VN|]. apply stored_vertices_sites, H.
  - apply simplex_sites_cpp; [exact N|]. apply stored_edges_sites, H.
Qed.

(** An implementation of nth_element exists: a full sort. *)
Lemma sorting_is_nth_element {A} (le : A -> A -> Prop) `{RelDecision _ _ le, !Total le, !Transitive le} precedes :
  (forall x y, precedes x y = false <-> le y x) ->
  forall n l, nth_element_post precedes n l (merge_sort le l).
Proof.
  intros P n l. split; [apply merge_sort_Permutation|].
  assert (S : StronglySorted le (merge_sort le l)) by (apply Sorted_StronglySorted; [apply _|]; apply Sorted_merge_sort; apply _).
  assert (Q : forall i j x y, (i < j)%nat -> merge_sort le l !! i = Some x -> merge_sort le l !! j = Some y -> le x y).
  { revert S. generalize (merge_sort le l). intros q S. induction S as [|a r Sr IH F]; [intros i j x y _ Hi; discriminate|].
    intros [|i] [|j] x y Hij Hi Hj; try lia; cbn in *.
    - injection Hi as <-. rewrite Forall_forall in F. apply F. apply elem_of_list_lookup. eauto.
    - apply (IH i j); [lia|assumption..]. }
  intros x Hx. split; intros i y Hi Hy; apply P; eauto.
Qed.
