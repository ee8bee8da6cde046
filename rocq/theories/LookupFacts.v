(** Proofs about look-ups (C105). *)
From Verif Require Import Base Tracker Command Run Simplex Foliation Moves Links MoveTools Move62Site MoveSpec Manifold ManifoldMoves ManifoldFacts MoveProps Lookup LookupSpec Pachner.
From stdpp Require Import fin_sets gmap relations.
From Verif Require Import Foliation.
Local Open Scope Z_scope.

Lemma of_list_perm (l l' : list vertex) : l ≡ₚ l' -> of_list l = of_list l'.
Proof. intros P. apply set_eq. intros y. rewrite !elem_of_of_list, P. reflexivity. Qed.
Lemma NoDup_of_size (l : list vertex) : size (of_list l) = length l -> NoDup l.
Proof.
  induction l as [|x l IH]; intros E; [constructor|].
  assert (L : (size (of_list l) <= length l)%nat).
  { clear. induction l as [|y l IH]; [unfold of_list; cbn; rewrite size_empty; lia|].
    rewrite of_list_cons. destruct (decide (y ∈ of_list l)) as [I|I].
    - replace ({[y]} ∪ of_list l) with (of_list l) by set_solver. cbn; lia.
    - rewrite size_union by set_solver. rewrite size_singleton. cbn; lia. }
  rewrite of_list_cons in E. destruct (decide (x ∈ of_list l)) as [I|I].
  - replace ({[x]} ∪ of_list l) with (of_list l) in E by set_solver. cbn in E. lia.
  - rewrite size_union in E by set_solver. rewrite size_singleton in E. cbn in E.
    constructor; [rewrite <- elem_of_of_list; exact I|apply IH; lia].
Qed.

Lemma find_cell_is T a b c d : find_cell T a b c d =
  if bool_decide (NoDup [a; b; c; d] /\ of_list [a; b; c; d] ∈ T) then Some (of_list [a; b; c; d]) else None.
Proof.
  unfold find_cell, is_cell. repeat case_bool_decide; try reflexivity; tauto.
Qed.
Lemma find_cell_some T a b c d s : pure T ->
  find_cell T a b c d = Some s <-> s ∈ T /\ s = of_list [a; b; c; d].
Proof.
  intros P. rewrite find_cell_is. case_bool_decide as H.
  - split; [intros [= <-]; tauto|intros [_ ->]; reflexivity].
  - split; [discriminate|]. intros [I ->]. exfalso. apply H. split; [|exact I].
    apply NoDup_of_size. apply P, I.
Qed.
Lemma find_cell_none T a b c d : pure T -> find_cell T a b c d = None <-> of_list [a; b; c; d] ∉ T.
Proof.
  intros P. destruct (find_cell T a b c d) as [s|] eqn:E.
  - apply (find_cell_some _ _ _ _ _ _ P) in E as [I ->]. split; [discriminate|tauto].
  - split; [|reflexivity]. intros _ I. enough (find_cell T a b c d = Some (of_list [a; b; c; d])) by congruence.
    apply find_cell_some; [exact P|]. split; [exact I|reflexivity].
Qed.
Lemma find_cell_order T a b c d a' b' c' d' : [a; b; c; d] ≡ₚ [a'; b'; c'; d'] ->
  find_cell T a b c d = find_cell T a' b' c' d'.
Proof.
  intros P. rewrite !find_cell_is. rewrite (of_list_perm _ _ P).
  rewrite (bool_decide_ext _ (NoDup [a'; b'; c'; d'] /\ of_list [a'; b'; c'; d'] ∈ T)); [reflexivity|].
  rewrite P. reflexivity.
Qed.
Lemma find_cell_all T s : pure T -> s ∈ T ->
  exists a b c d, elements s = [a; b; c; d] /\ find_cell T a b c d = Some s.
Proof.
  intros P I. pose proof (P s I) as L. unfold size, set_size in L. cbn in L.
  destruct (elements s) as [|a [|b [|c [|d [|e r]]]]] eqn:E; try discriminate L.
  exists a, b, c, d. split; [reflexivity|]. apply find_cell_some; [exact P|]. split; [exact I|].
  rewrite <- E. symmetry. apply of_list_elements.
Qed.

Lemma find_vertex_is L T p : find_vertex L T p =
  if bool_decide (L T p = true /\ p ∈ finite_vertices T) then Some p else None.
Proof.
  unfold find_vertex, is_vertex. destruct (L T p); cbn [andb]; repeat case_bool_decide; try reflexivity; naive_solver.
Qed.
Lemma elem_of_vertices T p : p ∈ vertices T <-> exists c, c ∈ T /\ p ∈ c.
Proof.
  unfold vertices. rewrite elem_of_union_list. split; intros (c & A & B); exists c; split; try exact B;
    [apply elem_of_elements, A|apply elem_of_elements, A].
Qed.
Lemma find_vertex_some L T p q :
  find_vertex L T p = Some q -> q = p /\ p <> infinite /\ exists c, c ∈ T /\ p ∈ c.
Proof.
  rewrite find_vertex_is. case_bool_decide as H; [|discriminate]. intros [= <-]. split; [reflexivity|].
  destruct H as [_ H]. unfold finite_vertices in H. apply elem_of_difference in H as [A B].
  split; [set_solver|]. apply elem_of_vertices, A.
Qed.
Lemma find_vertex_present L T p : L T p = true ->
  find_vertex L T p = Some p <-> p <> infinite /\ exists c, c ∈ T /\ p ∈ c.
Proof.
  intros E. split; [intros H; apply find_vertex_some in H; tauto|]. intros [A B].
  rewrite find_vertex_is. rewrite bool_decide_eq_true_2; [reflexivity|]. split; [exact E|].
  unfold finite_vertices. apply elem_of_difference. split; [apply elem_of_vertices, B|set_solver].
Qed.

Lemma filter_length_count P (S : gset simplex) :
  Z.of_nat (length (List.filter P (elements S))) = count P S.
Proof.
  unfold count. f_equal. rewrite <- (size_list_to_set (C := gset simplex)).
  - f_equal. apply set_eq. intros y. rewrite elem_of_list_to_set, elem_of_filter, elem_of_list_In, filter_In, <- elem_of_list_In, elem_of_elements. tauto.
  - apply base.NoDup_ListNoDup. apply List.NoDup_filter. apply base.NoDup_ListNoDup, NoDup_elements.
Qed.
Lemma filter_NoDup P (S : gset simplex) : NoDup (List.filter P (elements S)).
Proof. apply base.NoDup_ListNoDup. apply List.NoDup_filter. apply base.NoDup_ListNoDup, NoDup_elements. Qed.
Lemma size_2 (e : simplex) : size e = 2%nat -> exists a b, a <> b /\ e = of_list [a; b].
Proof.
  intros L. pose proof (of_list_elements e) as E. pose proof (NoDup_elements e) as N.
  unfold size, set_size in L. cbn in L.
  destruct (elements e) as [|a [|b [|c r]]]; try discriminate L.
  exists a, b. split; [|symmetry; exact E]. apply NoDup_cons in N as [N _]. intros ->. apply N. constructor.
Qed.
Lemma edges_listed T : NoDup (collect_edges T) /\ Z.of_nat (length (collect_edges T)) = n1 T /\
  forall e, e ∈ collect_edges T <-> exists a b, e = of_list [a; b] /\ joined T a b.
Proof.
  split; [apply filter_NoDup|]. split; [apply filter_length_count|]. intros e.
  unfold collect_edges. rewrite elem_of_list_In, filter_In, <- elem_of_list_In, elem_of_elements, elem_of_faces.
  unfold finite_simplex. rewrite negb_true_iff, bool_decide_eq_false. split.
  - intros [[L (c & I & S)] F]. destruct (size_2 e L) as (a & b & N & ->). exists a, b. split; [reflexivity|].
    assert (A : a ∈ of_list [a; b]) by (apply elem_of_of_list; set_solver).
    assert (B : b ∈ of_list [a; b]) by (apply elem_of_of_list; set_solver).
    split; [exact N|]. split; [intros ->; exact (F A)|]. split; [intros ->; exact (F B)|].
    exists c. split; [exact I|]. split; apply S; assumption.
  - intros (a & b & -> & N & Fa & Fb & c & I & A & B). split; [split|].
    + rewrite of_list_size; [reflexivity|]. repeat constructor; set_solver.
    + exists c. split; [exact I|]. intros y. rewrite elem_of_of_list. set_solver.
    + rewrite elem_of_of_list. set_solver.
Qed.
Lemma cells_listed T : NoDup (collect_cells T) /\ Z.of_nat (length (collect_cells T)) = n3 T /\
  forall c, c ∈ collect_cells T <-> c ∈ T /\ infinite ∉ c.
Proof.
  split; [apply filter_NoDup|]. split; [apply filter_length_count|]. intros c.
  unfold collect_cells. rewrite elem_of_list_In, filter_In, <- elem_of_list_In, elem_of_elements.
  unfold finite_simplex. rewrite negb_true_iff, bool_decide_eq_false. tauto.
Qed.

(** ** Local changes *)
Definition local (S : simplex) (T T' : tds) : Prop := forall c : simplex, ~ c ⊆ S -> c ∈ T' <-> c ∈ T.
Lemma local_sym S T T' : local S T T' -> local S T' T.
Proof. intros L c N. symmetry. apply L, N. Qed.
Lemma local_grow S S' T T' : S ⊆ S' -> local S T T' -> local S' T T'.
Proof. intros I L c N. apply L. set_solver. Qed.
Lemma local_trans S T T' T'' : local S T T' -> local S T' T'' -> local S T T''.
Proof. intros L L' c N. rewrite (L' c N). apply L, N. Qed.
Lemma local_replaces S T old new T' : replaces T old new T' ->
  (forall s, s ∈ old -> s ⊆ S) -> (forall s, s ∈ new -> s ⊆ S) -> local S T T'.
Proof. intros (_ & _ & _ & _ & E) A B c N. rewrite E. specialize (A c). specialize (B c). tauto. Qed.
Lemma local_cell S T T' a b c d : local S T T' -> ~ of_list [a; b; c; d] ⊆ S ->
  find_cell T' a b c d = find_cell T a b c d.
Proof.
  intros L N. rewrite !find_cell_is.
  rewrite (bool_decide_ext _ (NoDup [a; b; c; d] /\ of_list [a; b; c; d] ∈ T)); [reflexivity|].
  rewrite (L _ N). reflexivity.
Qed.
Lemma local_vertices S T T' p : local S T T' -> p ∉ S -> p ∈ vertices T' <-> p ∈ vertices T.
Proof.
  intros L N. rewrite !elem_of_vertices. split; intros (c & I & A); exists c; (split; [|exact A]); apply L; set_solver.
Qed.
Lemma local_vertex S loc T T' p : local S T T' -> p ∉ S -> loc T' p = loc T p ->
  find_vertex loc T' p = find_vertex loc T p.
Proof.
  intros L N E. rewrite !find_vertex_is.
  rewrite (bool_decide_ext _ (loc T p = true /\ p ∈ finite_vertices T)); [reflexivity|].
  rewrite E. unfold finite_vertices. rewrite !elem_of_difference, (local_vertices _ _ _ _ L N). reflexivity.
Qed.
Lemma local_edge1 S T T' e : local S T T' -> ~ e ⊆ S -> e ∈ collect_edges T' -> e ∈ collect_edges T.
Proof.
  intros L N. destruct (edges_listed T) as (_ & _ & H). destruct (edges_listed T') as (_ & _ & H').
  rewrite H, H'. intros (a & b & -> & A & B & C & c & I & Ia & Ib). exists a, b. split; [reflexivity|].
  repeat (split; [assumption|]). exists c. split; [|split; assumption]. apply L; [|exact I].
  intros Q. apply N. intros y. rewrite elem_of_of_list. set_solver.
Qed.
Lemma local_edge S T T' e : local S T T' -> ~ e ⊆ S -> e ∈ collect_edges T' <-> e ∈ collect_edges T.
Proof. intros L N. split; apply local_edge1 with S; try exact N; [exact L|apply local_sym, L]. Qed.

Ltac in_site := intros s Hs; repeat (apply elem_of_cons in Hs as [->|Hs]);
  [..|apply elem_of_nil in Hs; destruct Hs];
  intros y; rewrite !elem_of_of_list; set_solver.

Section Moved.
  Context {G : Type}.
  Variable W : world.
  Variable R : choices G.
  Hypothesis RO : choices_ok R.
  Variable escape : manifold -> G -> move_result manifold * G.
  Hypothesis ES : stays_modelled escape.

  Lemma moved_local k m m' : valid (m_cells m) -> checked W R escape k m m' ->
    exists S, size S = site_points k /\ infinite ∉ S /\ local S (m_cells m) (m_cells m') /\ valid (m_cells m').
  Proof using RO ES.
    intros V [M C]. pose proof C as C0. apply check_move_spec in C0 as (V' & _ & _ & _ & _ & _ & d & D & _).
    unfold move_delta in D.
    destruct (k =? TWO_THREE) eqn:E1; [apply Z.eqb_eq in E1; subst k|].
    { apply (moved_23 W R RO escape ES) in M as (_ & _ & v & w & a & b & x & N & F & Q & _); [|exact V].
      exists (of_list [v; w; a; b; x]). split; [apply of_list_size, N|]. split; [rewrite elem_of_of_list; exact F|].
      split; [|exact V']. apply (local_replaces _ _ _ _ _ Q); in_site. }
    destruct (k =? THREE_TWO) eqn:E2; [apply Z.eqb_eq in E2; subst k|].
    { apply (moved_32 W R RO escape ES) in M as (_ & _ & v & w & a & b & x & N & F & Q & _); [|exact V].
      exists (of_list [v; w; a; b; x]). split; [apply of_list_size, N|]. split; [rewrite elem_of_of_list; exact F|].
      split; [|exact V']. apply local_sym. apply (local_replaces _ _ _ _ _ Q); in_site. }
    destruct (k =? TWO_SIX) eqn:E3; [apply Z.eqb_eq in E3; subst k|].
    { apply (moved_26_checked W R RO escape ES) in M as (_ & a & b & c & x & d0 & e & (N & F & Q & _) & _); [|exact V|exact C].
      exists (of_list [a; b; c; x; d0; e]). split; [apply of_list_size, N|]. split; [rewrite elem_of_of_list; exact F|].
      split; [|exact V']. apply (local_replaces _ _ _ _ _ Q); in_site. }
    destruct (k =? SIX_TWO) eqn:E4; [apply Z.eqb_eq in E4; subst k|].
    { apply (moved_62 W R RO escape ES) in M as (_ & a & b & c & x & d0 & e & (N & F & Q & _) & _); [|exact V].
      exists (of_list [a; b; c; x; d0; e]). split; [apply of_list_size, N|]. split; [rewrite elem_of_of_list; exact F|].
      split; [|exact V']. apply local_sym. apply (local_replaces _ _ _ _ _ Q); in_site. }
    destruct (k =? FOUR_FOUR) eqn:E5; [apply Z.eqb_eq in E5; subst k|discriminate D].
    apply (moved_44 W R RO escape ES) in M as (_ & _ & p & q & a & b & t & u & N & F & Q & _); [|exact V].
    exists (of_list [p; q; a; b; t; u]). split; [apply of_list_size, N|]. split; [rewrite elem_of_of_list; exact F|].
    split; [|exact V']. apply (local_replaces _ _ _ _ _ Q); in_site.
  Qed.

  Lemma replaced k old new m m' : valid (m_cells m) -> valid (m_cells m') ->
    length old = cells_taken k -> length new = cells_brought k -> replaces (m_cells m) old new (m_cells m') ->
    exists old new, length old = cells_taken k /\ length new = cells_brought k /\ NoDup (old ++ new) /\
      forall a b c d, let s := of_list [a; b; c; d] in
        (s ∈ old <-> find_cell (m_cells m) a b c d = Some s /\ find_cell (m_cells m') a b c d = None) /\
        (s ∈ new <-> find_cell (m_cells m) a b c d = None /\ find_cell (m_cells m') a b c d = Some s).
  Proof using Type.
    intros V V' A B (N1 & N2 & H1 & H2 & H3). exists old, new. split; [exact A|]. split; [exact B|]. split.
    { apply NoDup_app. split; [exact N1|]. split; [|exact N2]. intros s I J. exact (H2 s J (H1 s I)). }
    intros a b c d s. pose proof (va_pure _ V) as P. pose proof (va_pure _ V') as P'.
    pose proof (find_cell_some _ a b c d s P) as F. pose proof (find_cell_some _ a b c d s P') as F'.
    pose proof (find_cell_none _ a b c d P) as E. pose proof (find_cell_none _ a b c d P') as E'.
    fold s in E, E'. specialize (H1 s). specialize (H2 s). specialize (H3 s).
    rewrite F, F', E, E'. destruct (decide (s ∈ old)), (decide (s ∈ new)), (decide (s ∈ m_cells m)); tauto.
  Qed.
  Lemma moved_changes k m m' : valid (m_cells m) -> checked W R escape k m m' ->
    exists old new, length old = cells_taken k /\ length new = cells_brought k /\ NoDup (old ++ new) /\
      forall a b c d, let s := of_list [a; b; c; d] in
        (s ∈ old <-> find_cell (m_cells m) a b c d = Some s /\ find_cell (m_cells m') a b c d = None) /\
        (s ∈ new <-> find_cell (m_cells m) a b c d = None /\ find_cell (m_cells m') a b c d = Some s).
  Proof using RO ES.
    intros V [M C]. pose proof C as C0. apply check_move_spec in C0 as (V' & _ & _ & _ & _ & _ & d & D & _).
    unfold move_delta in D.
    destruct (k =? TWO_THREE) eqn:E1; [apply Z.eqb_eq in E1; subst k|].
    { apply (moved_23 W R RO escape ES) in M as (_ & _ & v & w & a & b & x & N & F & Q & _); [|exact V].
      eapply replaced; [exact V|exact V'| | |exact Q]; reflexivity. }
    destruct (k =? THREE_TWO) eqn:E2; [apply Z.eqb_eq in E2; subst k|].
    { apply (moved_32 W R RO escape ES) in M as (_ & _ & v & w & a & b & x & N & F & Q & _); [|exact V].
      eapply replaced; [exact V|exact V'| | |exact (replaces_sym _ _ _ _ Q)]; reflexivity. }
    destruct (k =? TWO_SIX) eqn:E3; [apply Z.eqb_eq in E3; subst k|].
    { apply (moved_26_checked W R RO escape ES) in M as (_ & a & b & c & x & d0 & e & (N & F & Q & _) & _); [|exact V|exact C].
      eapply replaced; [exact V|exact V'| | |exact Q]; reflexivity. }
    destruct (k =? SIX_TWO) eqn:E4; [apply Z.eqb_eq in E4; subst k|].
    { apply (moved_62 W R RO escape ES) in M as (_ & a & b & c & x & d0 & e & (N & F & Q & _) & _); [|exact V].
      eapply replaced; [exact V|exact V'| | |exact (replaces_sym _ _ _ _ Q)]; reflexivity. }
    destruct (k =? FOUR_FOUR) eqn:E5; [apply Z.eqb_eq in E5; subst k|discriminate D].
    apply (moved_44 W R RO escape ES) in M as (_ & _ & p & q & a & b & t & u & N & F & Q & _); [|exact V].
    eapply replaced; [exact V|exact V'| | |exact Q]; reflexivity.
  Qed.

  Lemma run_local n m m' : valid (m_cells m) -> nsteps (some_move W R escape) n m m' ->
    exists S, (size S <= 6 * n)%nat /\ infinite ∉ S /\ local S (m_cells m) (m_cells m') /\ valid (m_cells m').
  Proof using RO ES.
    intros V H. induction H as [m|n m m1 m' (k & Q) H IH].
    - exists ∅. split; [rewrite size_empty; lia|]. split; [set_solver|]. split; [intros c _; reflexivity|exact V].
    - destruct (moved_local k m m1 V Q) as (S1 & L1 & F1 & A1 & V1).
      destruct (IH V1) as (S2 & L2 & F2 & A2 & V2). exists (S1 ∪ S2). split; [|split; [|split; [|exact V2]]].
      + assert (site_points k <= 6)%nat by (unfold site_points; destruct (_ || _); lia).
        pose proof (size_union_alt S1 S2) as U. rewrite U.
        assert (size (S2 ∖ S1) <= size S2)%nat by (apply subseteq_size; set_solver). lia.
      + set_solver.
      + apply local_trans with (m_cells m1); [apply local_grow with S1; [set_solver|exact A1]|apply local_grow with S2; [set_solver|exact A2]].
  Qed.

  Lemma same_local S m m' : local S (m_cells m) (m_cells m') -> same_outside W S m m'.
  Proof using Type.
    intros L. split; [|split].
    - intros a b c d. apply local_cell, L.
    - intros e. apply local_edge, L.
    - intros p. apply local_vertex, L.
  Qed.
  Lemma moved_same k m m' : valid (m_cells m) -> checked W R escape k m m' ->
    exists S, size S = site_points k /\ infinite ∉ S /\ same_outside W S m m'.
  Proof using RO ES.
    intros V Q. destruct (moved_local k m m' V Q) as (S & A & B & C & _). exists S. split; [exact A|].
    split; [exact B|]. apply same_local, C.
  Qed.
  Lemma run_same n m m' : valid (m_cells m) -> nsteps (some_move W R escape) n m m' ->
    exists S, (size S <= 6 * n)%nat /\ infinite ∉ S /\ same_outside W S m m'.
  Proof using RO ES.
    intros V Q. destruct (run_local n m m' V Q) as (S & A & B & C & _). exists S. split; [exact A|].
    split; [exact B|]. apply same_local, C.
  Qed.
End Moved.
