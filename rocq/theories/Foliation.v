(** Time labels, causal classification of cells and edges, and the derived
    counts of a foliated triangulation (include/Foliated_triangulation.hpp). *)
From Verif Require Import Base Geom Simplex Pachner.
From stdpp Require Import fin_sets gmap sorting.
Local Open Scope Z_scope.

(** ** Cell types, include/Foliated_triangulation.hpp:352-360 [enum class CellType]. *)
Definition THREE_ONE : Z := 31.
Definition TWO_TWO : Z := 22.
Definition ONE_THREE : Z := 13.
Definition ACAUSAL : Z := 99.
Definition UNCLASSIFIED : Z := 0.

Definition list_max (l : list Z) : Z := match l with [] => 0 | x :: r => fold_right Z.max x r end.
Definition list_min (l : list Z) : Z := match l with [] => 0 | x :: r => fold_right Z.min x r end.
Definition count_eq (x : Z) (l : list Z) : Z := Z.of_nat (length (List.filter (Z.eqb x) l)).

(** include/Foliated_triangulation.hpp:815-866 [expected_cell_type]: the argument
    is the list of the four vertex time values. The int subtraction
    [maxtime - mintime] is computed exactly here; [cell_type_defined] says when
    the C++ expression has no signed overflow. *)
Definition classify (ts : list Z) : Z :=
  let maxtime := list_max ts in let mintime := list_min ts in
  if negb (maxtime - mintime =? 1) || (maxtime =? mintime) then ACAUSAL
  else
    let max_vertices := count_eq maxtime ts in
    let min_vertices := count_eq mintime ts in
    if (max_vertices =? 3) && (min_vertices =? 1) then ONE_THREE
    else if (max_vertices =? 2) && (min_vertices =? 2) then TWO_TWO
    else if (max_vertices =? 1) && (min_vertices =? 3) then THREE_ONE
    else UNCLASSIFIED.
Definition cell_type_defined (ts : list Z) : bool := in_int32b (list_max ts - list_min ts).

Lemma fold_max_perm x l l' : l ≡ₚ l' -> fold_right Z.max x l = fold_right Z.max x l'.
Proof. induction 1; cbn; lia. Qed.
Lemma fold_min_perm x l l' : l ≡ₚ l' -> fold_right Z.min x l = fold_right Z.min x l'.
Proof. induction 1; cbn; lia. Qed.

Lemma list_max_In l : l <> [] -> list_max l ∈ l /\ forall x, x ∈ l -> x <= list_max l.
Proof.
  destruct l as [|y l]; [congruence|]. intros _. cbn [list_max]. induction l as [|z l [IH1 IH2]].
  - cbn. split; [constructor|]. intros x Hx. apply elem_of_list_singleton in Hx. lia.
  - cbn [fold_right]. split.
    + destruct (Z.max_spec z (fold_right Z.max y l)) as [[_ ->]|[_ ->]]; set_solver.
    + intros x Hx. rewrite !elem_of_cons in Hx. destruct Hx as [->|[->|Hx]].
      * pose proof (IH2 y ltac:(constructor)). lia.
      * lia.
      * pose proof (IH2 x ltac:(constructor; assumption)). lia.
Qed.

Lemma list_min_In l : l <> [] -> list_min l ∈ l /\ forall x, x ∈ l -> list_min l <= x.
Proof.
  destruct l as [|y l]; [congruence|]. intros _. cbn [list_min]. induction l as [|z l [IH1 IH2]].
  - cbn. split; [constructor|]. intros x Hx. apply elem_of_list_singleton in Hx. lia.
  - cbn [fold_right]. split.
    + destruct (Z.min_spec z (fold_right Z.min y l)) as [[_ ->]|[_ ->]]; set_solver.
    + intros x Hx. rewrite !elem_of_cons in Hx. destruct Hx as [->|[->|Hx]].
      * pose proof (IH2 y ltac:(constructor)). lia.
      * lia.
      * pose proof (IH2 x ltac:(constructor; assumption)). lia.
Qed.

Lemma list_max_perm l l' : l ≡ₚ l' -> list_max l = list_max l'.
Proof.
  intros H. destruct l as [|x l]; [apply Permutation_nil in H; subst; reflexivity|].
  assert (l' <> []) by (intros ->; symmetry in H; apply Permutation_nil in H; discriminate).
  destruct (list_max_In (x :: l) ltac:(congruence)) as [A B]. destruct (list_max_In l' H0) as [C D].
  apply (elem_of_Permutation_proper _ _ _ H) in A. apply D in A.
  apply (elem_of_Permutation_proper _ _ _ H) in C. apply B in C. lia.
Qed.

Lemma list_min_perm l l' : l ≡ₚ l' -> list_min l = list_min l'.
Proof.
  intros H. destruct l as [|x l]; [apply Permutation_nil in H; subst; reflexivity|].
  assert (l' <> []) by (intros ->; symmetry in H; apply Permutation_nil in H; discriminate).
  destruct (list_min_In (x :: l) ltac:(congruence)) as [A B]. destruct (list_min_In l' H0) as [C D].
  apply (elem_of_Permutation_proper _ _ _ H) in A. apply D in A.
  apply (elem_of_Permutation_proper _ _ _ H) in C. apply B in C. lia.
Qed.

Lemma count_eq_perm x l l' : l ≡ₚ l' -> count_eq x l = count_eq x l'.
Proof.
  intros H. unfold count_eq. f_equal. induction H as [|y l l' H IH|y z l|]; cbn; try congruence.
  - destruct (x =? y); cbn; congruence.
  - destruct (x =? y), (x =? z); reflexivity.
Qed.

Lemma classify_perm l l' : l ≡ₚ l' -> classify l = classify l'.
Proof.
  intros H. unfold classify.
  rewrite (list_max_perm l l' H), (list_min_perm l l' H), (count_eq_perm _ l l' H), (count_eq_perm _ l l' H).
  reflexivity.
Qed.

Lemma list_max_shift t l : l <> [] -> list_max (map (Z.add t) l) = t + list_max l.
Proof.
  intros H. destruct (list_max_In l H) as [A B].
  assert (H' : map (Z.add t) l <> []) by (destruct l; [congruence|discriminate]).
  destruct (list_max_In _ H') as [C D]. apply elem_of_list_fmap in C as (x & E & Hx). apply B in Hx.
  assert (t + list_max l ∈ map (Z.add t) l) by (apply elem_of_list_fmap; eauto).
  apply D in H0. lia.
Qed.
Lemma list_min_shift t l : l <> [] -> list_min (map (Z.add t) l) = t + list_min l.
Proof.
  intros H. destruct (list_min_In l H) as [A B].
  assert (H' : map (Z.add t) l <> []) by (destruct l; [congruence|discriminate]).
  destruct (list_min_In _ H') as [C D]. apply elem_of_list_fmap in C as (x & E & Hx). apply B in Hx.
  assert (t + list_min l ∈ map (Z.add t) l) by (apply elem_of_list_fmap; eauto).
  apply D in H0. lia.
Qed.
Lemma count_eq_shift t x l : count_eq (t + x) (map (Z.add t) l) = count_eq x l.
Proof.
  unfold count_eq. f_equal. induction l as [|y l IH]; [reflexivity|]. cbn.
  replace (t + x =? t + y) with (x =? y); [destruct (x =? y); cbn; congruence|].
  apply eq_true_iff_eq. rewrite !Z.eqb_eq. lia.
Qed.

Lemma classify_shift t l : l <> [] -> classify (map (Z.add t) l) = classify l.
Proof.
  intros H. unfold classify. rewrite list_max_shift, list_min_shift, !count_eq_shift by exact H.
  replace (t + list_max l - (t + list_min l)) with (list_max l - list_min l) by lia.
  replace (t + list_max l =? t + list_min l) with (list_max l =? list_min l); [reflexivity|].
  apply eq_true_iff_eq. rewrite !Z.eqb_eq. lia.
Qed.

(** A cell is causal when its vertices occupy two adjacent slices. *)
Definition causal_type (k : Z) : bool := (k =? THREE_ONE) || (k =? TWO_TWO) || (k =? ONE_THREE).

(** What each classification says about four labels: [n] on slice t, 4-n on t+1. *)
Definition on_slices (t : Z) (lower upper : nat) (ts : list Z) : Prop :=
  (forall x, x ∈ ts -> x = t \/ x = t + 1) /\
  length (List.filter (Z.eqb t) ts) = lower /\ length (List.filter (Z.eqb (t + 1)) ts) = upper.

Lemma count_two t l : (forall x, x ∈ l -> x = t \/ x = t + 1) ->
  (length (List.filter (Z.eqb t) l) + length (List.filter (Z.eqb (t + 1)) l) = length l)%nat.
Proof.
  induction l as [|x l IH]; intros H; [reflexivity|]. cbn.
  specialize (IH ltac:(intros y Hy; apply H; constructor; exact Hy)).
  destruct (H x ltac:(constructor)) as [->| ->].
  - rewrite Z.eqb_refl. replace (t + 1 =? t) with false by (symmetry; apply Z.eqb_neq; lia). cbn. lia.
  - rewrite Z.eqb_refl. replace (t =? t + 1) with false by (symmetry; apply Z.eqb_neq; lia). cbn. lia.
Qed.

Lemma classify_spec ts lo up k : length ts = 4%nat ->
  (lo, up, k) ∈ [(3%nat, 1%nat, THREE_ONE); (2%nat, 2%nat, TWO_TWO); (1%nat, 3%nat, ONE_THREE)] ->
  classify ts = k <-> exists t, on_slices t lo up ts.
Proof.
  intros Hl Hk. assert (Hne : ts <> []) by (intros ->; discriminate).
  destruct (list_max_In ts Hne) as [M1 M2]. destruct (list_min_In ts Hne) as [m1 m2].
  assert (Hk' : (lo = 3%nat /\ up = 1%nat /\ k = THREE_ONE) \/ (lo = 2%nat /\ up = 2%nat /\ k = TWO_TWO) \/ (lo = 1%nat /\ up = 3%nat /\ k = ONE_THREE)).
  { rewrite !elem_of_cons in Hk. destruct Hk as [E|[E|[E|E]]]; [injection E as -> -> -> ..|apply elem_of_nil in E; tauto]; auto. }
  clear Hk. split.
  - unfold classify. set (M := list_max ts) in *. set (m := list_min ts) in *.
    destruct (M - m =? 1) eqn:E1; cbn [negb orb]; [|unfold ACAUSAL; intros <-; unfold THREE_ONE, TWO_TWO, ONE_THREE in Hk'; lia].
    apply Z.eqb_eq in E1. replace (M =? m) with false by (symmetry; apply Z.eqb_neq; lia).
    assert (H2 : forall x, x ∈ ts -> x = m \/ x = m + 1).
    { intros x Hx. apply M2 in Hx as A. apply m2 in Hx. lia. }
    intros Hc. exists m. split; [exact H2|].
    assert (EM : M = m + 1) by lia. rewrite EM in Hc. unfold count_eq in Hc.
    pose proof (count_two m ts H2) as S. rewrite Hl in S.
    set (p := length (List.filter (Z.eqb m) ts)) in *. set (q := length (List.filter (Z.eqb (m + 1)) ts)) in *.
    assert (p <> 0%nat /\ q <> 0%nat) as [].
    { split; intros E.
      - apply nil_length_inv in E. assert (I : m ∈ List.filter (Z.eqb m) ts).
        { apply elem_of_list_In, filter_In. split; [apply elem_of_list_In; exact m1|apply Z.eqb_refl]. }
        rewrite E in I. apply elem_of_nil in I. exact I.
      - apply nil_length_inv in E. assert (I : m + 1 ∈ List.filter (Z.eqb (m + 1)) ts).
        { apply elem_of_list_In, filter_In. split; [apply elem_of_list_In; rewrite <- EM; exact M1|apply Z.eqb_refl]. }
        rewrite E in I. apply elem_of_nil in I. exact I. }
    clearbody p q. assert (Q : (q = 1 /\ p = 3 \/ q = 2 /\ p = 2 \/ q = 3 /\ p = 1)%nat) by lia.
    destruct Q as [[-> ->]|[[-> ->]|[-> ->]]]; vm_compute in Hc;
      unfold THREE_ONE, TWO_TWO, ONE_THREE in *; lia.
  - intros (t & H2 & HL & HU).
    assert (A : In t ts).
    { assert (In t (List.filter (Z.eqb t) ts)); [|apply filter_In in H; tauto].
      destruct (List.filter (Z.eqb t) ts) as [|y r] eqn:E; [cbn in HL; lia|].
      assert (In y (List.filter (Z.eqb t) ts)) by (rewrite E; left; reflexivity).
      apply filter_In in H as [_ H]. apply Z.eqb_eq in H. subst y. left. reflexivity. }
    assert (B : In (t + 1) ts).
    { assert (In (t + 1) (List.filter (Z.eqb (t + 1)) ts)); [|apply filter_In in H; tauto].
      destruct (List.filter (Z.eqb (t + 1)) ts) as [|y r] eqn:E; [cbn in HU; lia|].
      assert (In y (List.filter (Z.eqb (t + 1)) ts)) by (rewrite E; left; reflexivity).
      apply filter_In in H as [_ H]. apply Z.eqb_eq in H. subst y. left. reflexivity. }
    apply elem_of_list_In in A, B.
    assert (EM : list_max ts = t + 1) by (apply M2 in B; apply H2 in M1; lia).
    assert (Em : list_min ts = t) by (apply m2 in A; apply H2 in m1; lia).
    unfold classify. rewrite EM, Em. replace (t + 1 - t =? 1) with true by (symmetry; apply Z.eqb_eq; lia).
    replace (t + 1 =? t) with false by (symmetry; apply Z.eqb_neq; lia). cbn [negb orb].
    unfold count_eq. rewrite HL, HU. destruct Hk' as [(-> & -> & ->)|[(-> & -> & ->)|(-> & -> & ->)]]; reflexivity.
Qed.

(** With four vertices the error branch is never taken. *)
Lemma classify_total ts : length ts = 4%nat -> classify ts = ACAUSAL \/ causal_type (classify ts) = true.
Proof.
  intros Hl. assert (Hne : ts <> []) by (intros ->; discriminate).
  destruct (list_max_In ts Hne) as [M1 M2]. destruct (list_min_In ts Hne) as [m1 m2].
  unfold classify. set (M := list_max ts) in *. set (m := list_min ts) in *.
  destruct (M - m =? 1) eqn:E1; cbn [negb orb]; [|auto]. apply Z.eqb_eq in E1.
  replace (M =? m) with false by (symmetry; apply Z.eqb_neq; lia).
  assert (H2 : forall x, x ∈ ts -> x = m \/ x = m + 1).
  { intros x Hx. apply M2 in Hx as A. apply m2 in Hx. lia. }
  assert (EM : M = m + 1) by lia. rewrite EM. unfold count_eq.
  pose proof (count_two m ts H2) as S. rewrite Hl in S.
  set (p := length (List.filter (Z.eqb m) ts)) in *. set (q := length (List.filter (Z.eqb (m + 1)) ts)) in *.
  assert (p <> 0%nat /\ q <> 0%nat) as [].
  { split; intros E.
    - apply nil_length_inv in E. assert (I : m ∈ List.filter (Z.eqb m) ts).
      { apply elem_of_list_In, filter_In. split; [apply elem_of_list_In; exact m1|apply Z.eqb_refl]. }
      rewrite E in I. apply elem_of_nil in I. exact I.
    - apply nil_length_inv in E. assert (I : m + 1 ∈ List.filter (Z.eqb (m + 1)) ts).
      { apply elem_of_list_In, filter_In. split; [apply elem_of_list_In; rewrite <- EM; exact M1|apply Z.eqb_refl]. }
      rewrite E in I. apply elem_of_nil in I. exact I. }
  clearbody p q. assert (Q : (q = 1 /\ p = 3 \/ q = 2 /\ p = 2 \/ q = 3 /\ p = 1)%nat) by lia.
  destruct Q as [[-> ->]|[[-> ->]|[-> ->]]]; vm_compute; auto.
Qed.

(** ** Labelled complexes *)
(** CGAL's infinite vertex. The other vertices are identified with the rank of
    their point in the lexicographic order (CGAL::lexicographically_xyz_smaller)
    of all finite double triples, so that the order of positives is [point_less]
    (include/Ergodic_moves_3.hpp:248-250) and equal vertices have equal points. *)
Definition infinite : vertex := 1%positive.
(** A simplex is finite when it does not contain the infinite vertex. *)
Definition finite_simplex (s : simplex) : bool := negb (bool_decide (infinite ∈ s)).

Section Labels.
  (** Time value of the vertex at a point: [expected_timevalue],
      include/Foliated_triangulation.hpp:616-625, for fixed radius and spacing;
      arbitrary on the infinite vertex. *)
  Variable label : vertex -> Z.

  (** include/Foliated_triangulation.hpp:815-866 [expected_cell_type]. *)
  Definition cell_type (c : simplex) : Z := classify (map label (elements c)).
  (** include/Foliated_triangulation.hpp:533-550 [classify_edge] = TIMELIKE. *)
  Definition timelike (e : simplex) : bool :=
    match elements e with [a; b] => negb (label a =? label b) | _ => false end.
  Definition spacelike (e : simplex) : bool :=
    match elements e with [a; b] => label a =? label b | _ => false end.
  (** include/Foliated_triangulation.hpp:1026-1080 [collect_spacelike_facets]:
      the facets whose set of time values has one element, with that value. *)
  Definition facet_slice (f : simplex) : option Z :=
    match elements f with
    | [a; b; c] => if (label a =? label b) && (label b =? label c) then Some (label a) else None
    | _ => None
    end.

  Definition finite_of_type (k : Z) (c : simplex) : bool := finite_simplex c && (cell_type c =? k).

  (** Counts, include/Foliated_triangulation.hpp:1647-1665 (constructor filling
      m_cells, m_three_one, ... m_spacelike_edges). *)
  Definition n3 (T : tds) : Z := count finite_simplex T.
  Definition n3_of (k : Z) (T : tds) : Z := count (finite_of_type k) T.
  Definition n2 (T : tds) : Z := count finite_simplex (faces 3 T).
  Definition n1 (T : tds) : Z := count finite_simplex (faces 2 T).
  Definition n1_tl (T : tds) : Z := count (fun e => finite_simplex e && timelike e) (faces 2 T).
  Definition n1_sl (T : tds) : Z := count (fun e => finite_simplex e && spacelike e) (faces 2 T).
  Definition n0 (T : tds) : Z := count finite_simplex (faces 1 T).
  (** include/Foliated_triangulation.hpp:1829-1836 [spacelike_face_count]. *)
  Definition slice_volume (t : Z) (T : tds) : Z :=
    count (fun f => finite_simplex f && bool_decide (facet_slice f = Some t)) (faces 3 T).
  Definition spacelike_facets (T : tds) : Z :=
    count (fun f => finite_simplex f && bool_decide (is_Some (facet_slice f))) (faces 3 T).

  (** include/Geometry.hpp:30-110. *)
  Definition geometry_of (T : tds) : Geometry :=
    mkGeometry (n3 T) (n3_of THREE_ONE T) (n3_of ONE_THREE T)
      (n3_of THREE_ONE T + n3_of ONE_THREE T) (n3_of TWO_TWO T)
      (n2 T) (n1 T) (n1_tl T) (n1_sl T) (n0 T).

  (** Finite vertices, include/Foliated_triangulation.hpp:654-666 [collect_vertices]. *)
  Definition vertices (T : tds) : gset vertex := ⋃ elements T.
  Definition finite_vertices (T : tds) : gset vertex := vertices T ∖ {[infinite]}.
  (** include/Foliated_triangulation.hpp:499-527. *)
  Definition max_time (T : tds) : Z := list_max (map label (elements (finite_vertices T))).
  Definition min_time (T : tds) : Z := list_min (map label (elements (finite_vertices T))).

  (** No finite cell is acausal. *)
  Definition causal (T : tds) : Prop :=
    forall c, c ∈ T -> infinite ∉ c -> causal_type (cell_type c) = true.

  Lemma elements_of_list l : NoDup l -> elements (of_list l) ≡ₚ l.
  Proof. apply elements_list_to_set. Qed.

  Lemma cell_type_of_list l : NoDup l -> cell_type (of_list l) = classify (map label l).
  Proof. intros H. apply classify_perm, Permutation_map, elements_of_list, H. Qed.

  Lemma timelike_of_list a b : a <> b -> timelike (of_list [a; b]) = negb (label a =? label b).
  Proof.
    intros H. assert (Hn : NoDup [a; b]) by (repeat constructor; set_solver).
    pose proof (elements_of_list _ Hn) as P. unfold timelike.
    symmetry in P; apply Permutation_length_2_inv in P as [-> | ->]; [reflexivity|]. f_equal. apply Z.eqb_sym.
  Qed.

  Lemma spacelike_of_list a b : a <> b -> spacelike (of_list [a; b]) = (label a =? label b).
  Proof.
    intros H. assert (Hn : NoDup [a; b]) by (repeat constructor; set_solver).
    pose proof (elements_of_list _ Hn) as P. unfold spacelike.
    symmetry in P; apply Permutation_length_2_inv in P as [-> | ->]; [reflexivity|]. apply Z.eqb_sym.
  Qed.

  Lemma finite_of_list l : finite_simplex (of_list l) = forallb (fun v => negb (Pos.eqb infinite v)) l.
  Proof.
    unfold finite_simplex. apply eq_true_iff_eq. rewrite negb_true_iff, bool_decide_eq_false, forallb_forall.
    rewrite elem_of_of_list, elem_of_list_In. split.
    - intros H x Hx. apply negb_true_iff, Pos.eqb_neq. intros <-. contradiction.
    - intros H Hx. specialize (H _ Hx). rewrite Pos.eqb_refl in H. discriminate.
  Qed.

  Lemma finite_spec s : finite_simplex s = true <-> infinite ∉ s.
  Proof. unfold finite_simplex. rewrite negb_true_iff, bool_decide_eq_false. tauto. Qed.

  Lemma elem_of_vertices v T : v ∈ vertices T <-> exists c, c ∈ T /\ v ∈ c.
  Proof.
    unfold vertices. rewrite elem_of_union_list. setoid_rewrite elem_of_elements. reflexivity.
  Qed.

  Lemma elem_of_finite_vertices v T : v ∈ finite_vertices T <-> v <> infinite /\ exists c, c ∈ T /\ v ∈ c.
  Proof. unfold finite_vertices. rewrite elem_of_difference, elem_of_singleton, elem_of_vertices. tauto. Qed.
End Labels.
