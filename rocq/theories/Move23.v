(** Effect of the (2,3) and (3,2) moves. *)
From Verif Require Import Base Tracker Geom Simplex Pachner Foliation Moves Links MoveCore MoveTools.
From stdpp Require Import fin_sets gmap sorting.
Local Open Scope Z_scope.

Definition delta_23 : Geometry := mkGeometry 1 0 0 0 1 2 1 1 0 0.
Definition delta_32 : Geometry := mkGeometry (-1) 0 0 0 (-1) (-2) (-1) (-1) 0 0.

(** Label patterns (v, w, a, b, x) of a causal 2-3 flip: the new edge vw joins
    adjacent slices and the triangle abx has vertices on both. *)
Definition patterns_23 : list (list Z) :=
  [[0;1;0;1;1]; [0;1;1;0;1]; [0;1;1;1;0]; [0;1;0;0;1]; [0;1;0;1;0]; [0;1;1;0;0];
   [1;0;0;1;1]; [1;0;1;0;1]; [1;0;1;1;0]; [1;0;0;0;1]; [1;0;0;1;0]; [1;0;1;0;0]].
Definition labels_23 (label : vertex -> Z) (v w a b x : vertex) : Prop :=
  exists t p, map label [v; w; a; b; x] = map (Z.add t) p /\ p ∈ patterns_23.

Lemma geometry_eq g g' : gN3 g = gN3 g' -> gN3_31 g = gN3_31 g' -> gN3_13 g = gN3_13 g' ->
  gN3_31_13 g = gN3_31_13 g' -> gN3_22 g = gN3_22 g' -> gN2 g = gN2 g' -> gN1 g = gN1 g' ->
  gN1_TL g = gN1_TL g' -> gN1_SL g = gN1_SL g' -> gN0 g = gN0 g' -> g = g'.
Proof. destruct g, g'. cbn. congruence. Qed.

Ltac cases_list H :=
  repeat match type of H with
         | _ ∈ [] => apply elem_of_nil in H; destruct H
         | _ ∈ _ :: _ => apply elem_of_cons in H as [H|H]
         end.

Section Effect.
  Variable label : vertex -> Z.
  Variables (T : tds) (v w a b x : vertex).
  Hypothesis ok : pachner_ok T [v; w] [a; b; x].
  Hypothesis V : valid T.
  Hypothesis fin : infinite ∉ [v; w; a; b; x].
  Hypothesis L : labels_23 label v w a b x.

  Let T' := pachner T [v; w] [a; b; x].

  Lemma geometry_23 : geometry_of label T' = geometry_plus (geometry_of label T) delta_23.
  Proof using ok V fin L.
    destruct V as [HP _ _]. destruct L as (t & p & E & Hp).
    unfold T', geometry_of, geometry_plus, delta_23.
    rewrite n3_pachner, !n3_of_pachner, n2_pachner, n1_pachner, n1_tl_pachner, n1_sl_pachner, n0_pachner by assumption.
    unfold patterns_23 in Hp. cases_list Hp; subst p; injection E as Ev Ew Ea Eb Ex;
      unfold lsum, qtype, qtl, qsl, qall; cbn -[classify Z.add Z.sub Z.eqb];
      rewrite ?Ev, ?Ew, ?Ea, ?Eb, ?Ex; offsets;
      apply geometry_eq; cbn -[classify Z.add Z.sub Z.eqb n3_of n3 n2 n1 n0 n1_tl n1_sl];
      repeat match goal with |- context [classify ?l] => let y := eval vm_compute in (classify l) in change (classify l) with y end;
      cbn; lia.
  Qed.

  Lemma nodup5 : NoDup [v; w; a; b; x].
  Proof using ok. exact (po_nodup _ _ _ ok). Qed.

  Lemma cells_23 :
    map (omit [v; w; a; b; x]) [v; w] = [of_list [w; a; b; x]; of_list [v; a; b; x]] /\
    map (omit [v; w; a; b; x]) [a; b; x] = [of_list [v; w; b; x]; of_list [v; w; a; x]; of_list [v; w; a; b]].
  Proof using ok.
    pose proof nodup5 as Hn. cbn [map]. split; repeat f_equal.
    - apply (omit_mid [] v [w; a; b; x]). exact Hn.
    - apply (omit_mid [v] w [a; b; x]). exact Hn.
    - apply (omit_mid [v; w] a [b; x]). exact Hn.
    - apply (omit_mid [v; w; a] b [x]). exact Hn.
    - apply (omit_mid [v; w; a; b] x []). exact Hn.
  Qed.

  Lemma replaces_23 :
    replaces T [of_list [v; a; b; x]; of_list [w; a; b; x]]
               [of_list [v; w; a; b]; of_list [v; w; b; x]; of_list [v; w; a; x]] T'.
  Proof using ok.
    pose proof (pachner_replaces _ _ _ ok) as R. cbn [app] in R. destruct cells_23 as [E1 E2].
    rewrite E1, E2 in R. refine (replaces_perm _ _ _ _ _ _ _ _ R); [apply perm_swap|].
    symmetry. apply (Permutation_cons_append [of_list [v; w; b; x]; of_list [v; w; a; x]]).
  Qed.

  (** The three new cells are causal, two of them (2,2), and the new edge is
      timelike between adjacent slices. *)
  Lemma new_cells_23 : forall c, c ∈ [of_list [v; w; a; b]; of_list [v; w; b; x]; of_list [v; w; a; x]] ->
    causal_type (cell_type label c) = true.
  Proof using ok L.
    destruct L as (t & p & E & Hp). pose proof nodup5 as Hn. apply NoDup_5 in Hn.
    intros c Hc. assert (Hc' : exists l, c = of_list l /\ NoDup l /\ l ∈ [[v; w; a; b]; [v; w; b; x]; [v; w; a; x]]).
    { cases_list Hc; subst c.
      - exists [v; w; a; b]. split; [reflexivity|]. split; [|set_solver +].
        apply (sublist_NoDup _ [v; w; a; b; x]); [|exact nodup5]. repeat constructor.
      - exists [v; w; b; x]. split; [reflexivity|]. split; [|set_solver +].
        apply (sublist_NoDup _ [v; w; a; b; x]); [|exact nodup5]. repeat constructor.
      - exists [v; w; a; x]. split; [reflexivity|]. split; [|set_solver +].
        apply (sublist_NoDup _ [v; w; a; b; x]); [|exact nodup5]. repeat constructor. }
    destruct Hc' as (l & -> & Hl & Hl'). rewrite cell_type_of_list by exact Hl. clear Hc Hn Hl.
    unfold patterns_23 in Hp. cases_list Hp; subst p; injection E as Ev Ew Ea Eb Ex;
      cases_list Hl'; subst l; cbn [map]; rewrite ?Ev, ?Ew, ?Ea, ?Eb, ?Ex, classify4; reflexivity.
  Qed.

  Lemma edge_23 : Z.abs (label v - label w) = 1.
  Proof using L.
    destruct L as (t & p & E & Hp). unfold patterns_23 in Hp.
    cases_list Hp; subst p; injection E as Ev Ew Ea Eb Ex; lia.
  Qed.

  Lemma old_cells_23 : forall c, c ∈ [of_list [v; a; b; x]; of_list [w; a; b; x]] ->
    causal_type (cell_type label c) = true.
  Proof using ok L.
    destruct L as (t & p & E & Hp).
    intros c Hc. assert (Hc' : exists l, c = of_list l /\ NoDup l /\ l ∈ [[v; a; b; x]; [w; a; b; x]]).
    { cases_list Hc; subst c.
      - exists [v; a; b; x]. split; [reflexivity|]. split; [|set_solver +].
        apply (sublist_NoDup _ [v; w; a; b; x]); [|exact nodup5]. repeat constructor.
      - exists [w; a; b; x]. split; [reflexivity|]. split; [|set_solver +].
        apply (sublist_NoDup _ [v; w; a; b; x]); [|exact nodup5]. repeat constructor. }
    destruct Hc' as (l & -> & Hl & Hl'). rewrite cell_type_of_list by exact Hl. clear Hc Hl.
    unfold patterns_23 in Hp. cases_list Hp; subst p; injection E as Ev Ew Ea Eb Ex;
      cases_list Hl'; subst l; cbn [map]; rewrite ?Ev, ?Ew, ?Ea, ?Eb, ?Ex, classify4; reflexivity.
  Qed.
End Effect.

Lemma replaces_causal label T old new T' : replaces T old new T' ->
  (forall c, c ∈ new -> causal_type (cell_type label c) = true) -> causal label T -> causal label T'.
Proof.
  intros (_ & _ & _ & _ & H) Hn Hc c Hin Hi. apply H in Hin as [[Hin _]|Hin]; [apply Hc; assumption|apply Hn; exact Hin].
Qed.

Lemma finite_vertices_eq T T' : vertices T' = vertices T -> finite_vertices T' = finite_vertices T.
Proof. unfold finite_vertices. congruence. Qed.

(** ** (2,3) *)
Lemma find_spec (f : vertex -> bool) l v : find f l = Some v -> v ∈ l /\ f v = true.
Proof. intros H. apply List.find_some in H. rewrite elem_of_list_In. exact H. Qed.

Lemma elem_of_sorted v s : v ∈ sorted_elements s <-> v ∈ s.
Proof.
  unfold sorted_elements. rewrite (elem_of_Permutation_proper v _ _ (merge_sort_Permutation _ _)), elem_of_elements. reflexivity.
Qed.

Lemma correct_causal label junk T c : correct label junk T c = true -> causal_type (cell_type label c) = true \/ size c <> 4%nat.
Proof.
  unfold correct. rewrite !andb_true_iff, !negb_true_iff, !Z.eqb_neq. intros [[A B] _].
  destruct (decide (size c = 4%nat)) as [E|E]; [left|auto].
  destruct (classify_total (map label (elements c))) as [H|H]; [|contradiction|exact H].
  rewrite map_length. exact E.
Qed.

Lemma move_23_effect label junk locates geo T c T' :
  valid T -> move_23 label junk locates geo T c = Done T' ->
  exists v w a b x,
    NoDup [v; w; a; b; x] /\ infinite ∉ [v; w; a; b; x] /\ c = of_list [v; a; b; x] /\
    pachner_ok T [v; w] [a; b; x] /\ T' = pachner T [v; w] [a; b; x] /\ labels_23 label v w a b x.
Proof.
  intros VT. unfold move_23, bind, prepare_23.
  destruct (bool_decide (c ∈ T)) eqn:Hc; cbn [negb]; [|discriminate]. apply bool_decide_eq_true in Hc.
  destruct (correct label junk T c) eqn:Cc; cbn [negb orb]; [|discriminate].
  destruct (cell_type label c =? TWO_TWO) eqn:Ct; cbn [negb orb]; [|discriminate]. apply Z.eqb_eq in Ct.
  destruct (find _ _) as [v|] eqn:Ef; [|discriminate].
  apply find_spec in Ef as [Hv Hok]. apply elem_of_sorted in Hv.
  unfold execute_23. destruct (negb _); [discriminate|].
  destruct (neighbor T c v) as [n'|] eqn:En; [|discriminate].
  destruct (finite_simplex c) eqn:Fc; cbn [andb negb]; [|discriminate].
  destruct (finite_simplex n') eqn:Fn; cbn [andb negb]; [|discriminate].
  destruct (geo T c v); cbn [negb]; [|discriminate].
  destruct (tds_flip_facet T c v) as [T1| |] eqn:Efl; [|discriminate..]. intros [= ->].
  destruct (flip_facet_pachner T c v T' VT Hc Hv Efl) as (n & w & a & b & x & En2 & Hn & Em & _ & Ec & Enn & ok & ET).
  rewrite En in En2. injection En2 as ->.
  unfold facet_23_ok in Hok. rewrite En, Fn, Em in Hok. cbn [andb] in Hok.
  rewrite !andb_true_iff, orb_true_iff, !Z.eqb_eq in Hok. destruct Hok as [[Cn Tn] Habs].
  pose proof (po_nodup _ _ _ ok) as Hnd. cbn [app] in Hnd.
  assert (N1 : NoDup [v; a; b; x]) by (apply (sublist_NoDup _ [v; w; a; b; x]); [repeat constructor|exact Hnd]).
  assert (N2 : NoDup [w; a; b; x]) by (apply (sublist_NoDup _ [v; w; a; b; x]); [repeat constructor|exact Hnd]).
  rewrite Ec, cell_type_of_list in Ct by exact N1. rewrite Enn, cell_type_of_list in Tn by exact N2.
  exists v, w, a, b, x. split; [exact Hnd|]. split.
  { apply finite_spec in Fc, Fn. rewrite Ec, elem_of_of_list in Fc. rewrite Enn, elem_of_of_list in Fn. set_solver + Fc Fn. }
  split; [exact Ec|]. split; [exact ok|]. split; [exact ET|].
  destruct (facet_23_labels _ _ _ _ _ Ct Tn) as (t & pv & pw & pa & pb & px & E & Hp).
  exists t, [pv; pw; pa; pb; px]. split; [exact E|]. unfold patterns_23. set_solver + Hp.
Qed.

(** ** (3,2) *)
Lemma count_type_perm label k l l' : l ≡ₚ l' -> count_type label k l = count_type label k l'.
Proof.
  intros H. unfold count_type. f_equal. induction H as [|y l l' H IH|y z l|]; cbn; try congruence.
  - destruct (_ =? _); cbn; congruence.
  - destruct (cell_type label y =? k), (cell_type label z =? k); reflexivity.
Qed.

Lemma elements_set3 (A B C : simplex) : A <> B -> A <> C -> B <> C ->
  elements ({[A; B; C]} : gset simplex) ≡ₚ [A; B; C].
Proof.
  intros H1 H2 H3. apply NoDup_Permutation.
  - apply NoDup_elements.
  - repeat constructor; set_solver + H1 H2 H3.
  - intros s. rewrite elem_of_elements. set_solver +.
Qed.

Lemma labels_32 p q a b x :
  Z.abs (p - q) = 1 ->
  causal_type (classify [p; q; a; b]) = true ->
  causal_type (classify [p; q; b; x]) = true ->
  causal_type (classify [p; q; a; x]) = true ->
  ~ (a = b /\ b = x) ->
  exists t d, [p; q; a; b; x] = map (Z.add t) d /\ d ∈ patterns_23.
Proof.
  intros Hpq H1 H2 H3 Hn.
  destruct (causal_bits _ _ _ _ H1) as (t1 & p1 & q1 & a1 & b1 & -> & -> & -> & ->).
  destruct (causal_bits _ _ _ _ H2) as (t2 & p2 & q2 & b2 & x2 & E1 & E2 & E3 & ->).
  assert (t2 = t1) as ->.
  { destruct p1, q1, p2, q2; cbn [b2z] in *; lia. }
  exists t1, [b2z p1; b2z q1; b2z a1; b2z b1; b2z x2]. split; [reflexivity|].
  destruct p1, q1; try (exfalso; cbn [b2z] in Hpq; lia); destruct a1, b1, x2;
    try (exfalso; apply Hn; split; reflexivity); unfold patterns_23, b2z; rewrite !elem_of_cons; tauto.
Qed.

Lemma move_32_effect label junk locates geo T e T' :
  valid T -> move_32 label junk locates geo T e = Done T' ->
  exists v w a b x,
    NoDup [v; w; a; b; x] /\ infinite ∉ [v; w; a; b; x] /\ e = of_list [v; w] /\
    pachner_ok T [a; b; x] [v; w] /\ T' = pachner T [a; b; x] [v; w] /\ labels_23 label v w a b x.
Proof.
  intros VT. unfold move_32, bind, prepare_32.
  destruct (bool_decide (e ∈ faces 2 T)) eqn:He; cbn [negb]; [|discriminate]. apply bool_decide_eq_true in He.
  apply elem_of_faces in He as [He _].
  destruct (is_32_movable label junk T e) eqn:Hm; cbn [negb]; [|discriminate].
  unfold execute_32. destruct (negb _); [discriminate|]. destruct (geo T e); cbn [negb]; [|discriminate].
  destruct (tds_flip_edge T e) as [T1| |] eqn:Efl; [|discriminate..]. intros [= ->].
  destruct (flip_edge_pachner T e T' VT He Efl) as (v & w & a & b & x & Ee & EL & ok & ET & ES).
  pose proof (po_nodup _ _ _ ok) as Hnd. cbn [app] in Hnd.
  assert (Hnd' : NoDup [v; w; a; b; x]) by (apply (NoDup_Permutation_proper _ _ (Permutation_app_comm [v; w] [a; b; x])); exact Hnd).
  assert (S : forall l, sublist l [v; w; a; b; x] -> NoDup l) by (intros l Hl; eapply sublist_NoDup; eassumption).
  pose proof (S [v; w; a; b] ltac:(repeat constructor)) as N1.
  pose proof (S [v; w; b; x] ltac:(repeat constructor)) as N2.
  pose proof (S [v; w; a; x] ltac:(repeat constructor)) as N3. clear S.
  assert (D : of_list [v; w; a; b] <> of_list [v; w; b; x] /\ of_list [v; w; a; b] <> of_list [v; w; a; x] /\ of_list [v; w; b; x] <> of_list [v; w; a; x]).
  { apply NoDup_5 in Hnd'. repeat split; intros E.
    - assert (a ∈ of_list [v; w; b; x]) by (rewrite <- E, elem_of_of_list; set_solver +). rewrite elem_of_of_list in H. set_solver + H Hnd'.
    - assert (b ∈ of_list [v; w; a; x]) by (rewrite <- E, elem_of_of_list; set_solver +). rewrite elem_of_of_list in H. set_solver + H Hnd'.
    - assert (b ∈ of_list [v; w; a; x]) by (rewrite <- E, elem_of_of_list; set_solver +). rewrite elem_of_of_list in H. set_solver + H Hnd'. }
  destruct D as (D1 & D2 & D3).
  pose proof (elements_set3 _ _ _ D1 D2 D3) as P. rewrite <- ES in P.
  unfold is_32_movable in Hm. rewrite !andb_true_iff in Hm.
  destruct Hm as [[[[[Hf _] Hab] Hcor] H22] H31].
  rewrite (count_type_perm _ _ _ _ P) in H22. clear H31.
  rewrite forallb_forall in Hf, Hcor. setoid_rewrite <- elem_of_list_In in Hf. setoid_rewrite <- elem_of_list_In in Hcor.
  assert (I : forall s, s ∈ [of_list [v; w; a; b]; of_list [v; w; b; x]; of_list [v; w; a; x]] -> s ∈ elements (star e T)).
  { intros s Hs. apply (elem_of_Permutation_proper s _ _ P). exact Hs. }
  assert (Hf' : forall s, s ∈ [of_list [v; w; a; b]; of_list [v; w; b; x]; of_list [v; w; a; x]] -> infinite ∉ s).
  { intros s Hs. apply finite_spec, Hf, I, Hs. }
  assert (Hc' : forall l, NoDup l -> length l = 4%nat -> of_list l ∈ [of_list [v; w; a; b]; of_list [v; w; b; x]; of_list [v; w; a; x]] -> causal_type (classify (map label l)) = true).
  { intros l Hl H4 Hs. apply I, Hcor, correct_causal in Hs as [Hs|Hs].
    - rewrite cell_type_of_list in Hs by exact Hl. exact Hs.
    - rewrite of_list_size in Hs by exact Hl. contradiction. }
  exists v, w, a, b, x. split; [exact Hnd'|]. split.
  { pose proof (Hf' (of_list [v; w; a; b]) ltac:(set_solver +)) as A. pose proof (Hf' (of_list [v; w; b; x]) ltac:(set_solver +)) as B.
    rewrite elem_of_of_list in A, B. set_solver + A B. }
  split; [exact Ee|]. split; [exact ok|]. split; [exact ET|].
  assert (Hvw : Z.abs (label v - label w) = 1).
  { destruct (elements_two e He) as (v' & w' & Ee' & Hne & Ee''). rewrite Ee' in Hab. apply Z.eqb_eq in Hab.
    pose proof (elements_of_list _ (sublist_NoDup [v; w] [v; w; a; b; x] ltac:(repeat constructor) Hnd')) as P2. rewrite <- Ee, Ee' in P2.
    symmetry in P2. apply Permutation_length_2 in P2 as [[-> ->]|[-> ->]]; lia. }
  unfold labels_23. cbn [map]. apply labels_32.
  - exact Hvw.
  - apply (Hc' [v; w; a; b] N1 eq_refl). set_solver +.
  - apply (Hc' [v; w; b; x] N2 eq_refl). set_solver +.
  - apply (Hc' [v; w; a; x] N3 eq_refl). set_solver +.
  - intros [E1 E2]. apply Z.eqb_eq in H22. unfold count_type in H22. cbn [List.filter] in H22.
    rewrite !cell_type_of_list in H22 by assumption. cbn [map] in H22. rewrite E1, E2 in H22.
    destruct (_ =? TWO_TWO); cbn in H22; lia.
Qed.
