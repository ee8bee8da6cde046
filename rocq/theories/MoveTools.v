(** Small specification vocabulary for the effect of a move, and tools used by
    the move proofs. *)
From Verif Require Import Base Tracker Geom Simplex Pachner Foliation Moves Links MoveCore.
From stdpp Require Import fin_sets gmap sorting.
Local Open Scope Z_scope.

(** [T'] is [T] with the cells [old] taken out and the cells [new] put in. *)
Definition replaces (T : tds) (old new : list simplex) (T' : tds) : Prop :=
  NoDup old /\ NoDup new /\ (forall s, s ∈ old -> s ∈ T) /\ (forall s, s ∈ new -> s ∉ T) /\
  forall s, s ∈ T' <-> (s ∈ T /\ s ∉ old) \/ s ∈ new.

Definition geometry_plus (g d : Geometry) : Geometry :=
  mkGeometry (gN3 g + gN3 d) (gN3_31 g + gN3_31 d) (gN3_13 g + gN3_13 d) (gN3_31_13 g + gN3_31_13 d)
    (gN3_22 g + gN3_22 d) (gN2 g + gN2 d) (gN1 g + gN1 d) (gN1_TL g + gN1_TL d) (gN1_SL g + gN1_SL d)
    (gN0 g + gN0 d).

Lemma of_list_perm l l' : l ≡ₚ l' -> of_list l = of_list l'.
Proof. intros H. apply set_eq. intros y. rewrite !elem_of_of_list. apply elem_of_Permutation_proper, H. Qed.

Lemma omit_mid l1 x l2 : NoDup (l1 ++ x :: l2) -> omit (l1 ++ x :: l2) x = of_list (l1 ++ l2).
Proof.
  intros H. apply NoDup_app in H as (H1 & H2 & H3). apply NoDup_cons in H3 as [H3 H4].
  apply set_eq. intros y. rewrite elem_of_omit, elem_of_of_list, !elem_of_app, elem_of_cons. split; [tauto|].
  intros [A|A]; (split; [tauto|]); intros ->; [|contradiction].
  apply (H2 x A). constructor.
Qed.

Lemma pachner_replaces T lU lV : pachner_ok T lU lV ->
  replaces T (map (omit (lU ++ lV)) lU) (map (omit (lU ++ lV)) lV) (pachner T lU lV).
Proof.
  intros ok. pose proof (po_nodup _ _ _ ok) as Hn. apply NoDup_app in Hn as (HU & _ & HV).
  repeat split.
  - apply map_omit_NoDup; [exact HU|]. intros x Hx. apply elem_of_app. auto.
  - apply map_omit_NoDup; [exact HV|]. intros x Hx. apply elem_of_app. auto.
  - intros s Hs. apply elem_of_list_fmap in Hs as (x & -> & Hx). apply (po_present _ _ _ ok x Hx).
  - intros s Hs. apply elem_of_list_fmap in Hs as (x & -> & Hx). apply (added_absent _ _ _ ok x Hx).
  - unfold pachner. rewrite elem_of_union, elem_of_difference, !elem_of_list_to_set. tauto.
  - unfold pachner. rewrite elem_of_union, elem_of_difference, !elem_of_list_to_set. tauto.
Qed.

Lemma replaces_perm T o n o' n' T' : o ≡ₚ o' -> n ≡ₚ n' -> replaces T o n T' -> replaces T o' n' T'.
Proof.
  intros Ho Hn (A & B & C & D & E).
  assert (Eo : forall s, s ∈ o <-> s ∈ o') by (intros s; apply elem_of_Permutation_proper, Ho).
  assert (En : forall s, s ∈ n <-> s ∈ n') by (intros s; apply elem_of_Permutation_proper, Hn).
  unfold replaces. setoid_rewrite <- Eo. setoid_rewrite <- En. rewrite <- Ho, <- Hn. auto.
Qed.

(** Vertices of a move with at least two vertices on both sides. *)
Lemma vertices_faces T v : v ∈ vertices T <-> {[v]} ∈ faces 1 T.
Proof.
  rewrite elem_of_vertices, elem_of_faces, size_singleton. split.
  - intros (c & Hc & Hv). split; [reflexivity|]. exists c. split; [exact Hc|]. set_solver + Hv.
  - intros (_ & c & Hc & Hv). exists c. split; [exact Hc|]. set_solver + Hv.
Qed.

Lemma subset_singleton_length l v : NoDup l -> of_list l ⊆ {[v]} -> (length l <= 1)%nat.
Proof.
  intros Hn Hs. rewrite <- (of_list_size l Hn). apply subseteq_size in Hs. rewrite size_singleton in Hs. exact Hs.
Qed.

Lemma vertices_pachner T lU lV : pachner_ok T lU lV -> (2 <= length lU)%nat -> (2 <= length lV)%nat ->
  vertices (pachner T lU lV) = vertices T.
Proof.
  intros ok HU HV. pose proof (po_nodup _ _ _ ok) as Hn. apply NoDup_app in Hn as (NU & _ & NV).
  apply set_eq. intros v. rewrite !vertices_faces, faces_pachner by (assumption || lia). split.
  - intros [[A _]|(_ & A & _)]; [exact A|]. apply subset_singleton_length in A; [lia|exact NU].
  - intros A. left. split; [exact A|]. intros H. apply subset_singleton_length in H; [lia|exact NV].
Qed.

(** ** Labels *)
Lemma classify4 t p q r s : classify [t + p; t + q; t + r; t + s] = classify [p; q; r; s].
Proof. apply (classify_shift t [p; q; r; s]). discriminate. Qed.
Lemma eqb_shift t p q : (t + p =? t + q) = (p =? q).
Proof. apply eq_true_iff_eq. rewrite !Z.eqb_eq. lia. Qed.

Lemma causal_bits p q r s : causal_type (classify [p; q; r; s]) = true ->
  exists t b1 b2 b3 b4, p = t + b2z b1 /\ q = t + b2z b2 /\ r = t + b2z b3 /\ s = t + b2z b4.
Proof.
  intros H. set (ts := [p; q; r; s]) in *.
  assert (E : exists lo up, (lo, up, classify ts) ∈ [(3%nat, 1%nat, THREE_ONE); (2%nat, 2%nat, TWO_TWO); (1%nat, 3%nat, ONE_THREE)]).
  { unfold causal_type in H. rewrite !orb_true_iff, !Z.eqb_eq in H. destruct H as [[->| ->]| ->].
    - exists 3%nat, 1%nat. set_solver +.
    - exists 2%nat, 2%nat. set_solver +.
    - exists 1%nat, 3%nat. set_solver +. }
  destruct E as (lo & up & E). destruct (proj1 (classify_spec ts lo up (classify ts) eq_refl E) eq_refl) as (t & H2 & _).
  assert (B : forall x, x ∈ ts -> exists b, x = t + b2z b).
  { intros x Hx. destruct (H2 x Hx) as [->| ->]; [exists false|exists true]; cbn; lia. }
  destruct (B p) as [b1 ->]; [unfold ts; set_solver +|]. destruct (B q) as [b2 ->]; [unfold ts; set_solver +|].
  destruct (B r) as [b3 ->]; [unfold ts; set_solver +|]. destruct (B s) as [b4 ->]; [unfold ts; set_solver +|].
  exists t, b1, b2, b3, b4. auto.
Qed.

(** Evaluate the classification of concrete offsets from a common slice. *)
Ltac offsets := repeat rewrite ?classify4, ?eqb_shift.

(** Two cells on a common triangle a,b,x: apexes v (a (2,2) cell) and w (a (3,1)
    or (1,3) cell). *)
Lemma facet_23_labels v w a b x :
  classify [v; a; b; x] = TWO_TWO ->
  classify [w; a; b; x] = THREE_ONE \/ classify [w; a; b; x] = ONE_THREE ->
  exists t pv pw pa pb px,
    [v; w; a; b; x] = map (Z.add t) [pv; pw; pa; pb; px] /\
    [pv; pw; pa; pb; px] ∈
      [[0;1;0;1;1]; [0;1;1;0;1]; [0;1;1;1;0];
       [1;0;0;0;1]; [1;0;0;1;0]; [1;0;1;0;0]].
Proof.
  intros H22 H31.
  destruct (causal_bits v a b x) as (t & b1 & b2 & b3 & b4 & -> & -> & -> & ->); [rewrite H22; reflexivity|].
  destruct (causal_bits w (t + b2z b2) (t + b2z b3) (t + b2z b4)) as (t' & c1 & c2 & c3 & c4 & -> & E2 & E3 & E4).
  { destruct H31 as [->| ->]; reflexivity. }
  rewrite E2, E3, E4 in H31. rewrite classify4 in H22, H31.
  exists t, (b2z b1), (t' - t + b2z c1), (b2z b2), (b2z b3), (b2z b4).
  split; [cbn [map]; replace (t + (t' - t + b2z c1)) with (t' + b2z c1) by lia; reflexivity|].
  destruct b1, b2, b3, b4; try (vm_compute in H22; discriminate H22);
  destruct c2, c3, c4; cbn [b2z] in E2, E3, E4; try (exfalso; lia);
  (replace t' with t by lia); destruct c1; try (vm_compute in H31; destruct H31; discriminate);
  replace (t - t) with 0 by lia; rewrite !elem_of_cons; cbn; tauto.
Qed.

(** Two replacements in a row. *)
Lemma replaces_trans T o1 n1 T1 o2 n2 T2 o n :
  replaces T o1 n1 T1 -> replaces T1 o2 n2 T2 -> NoDup o -> NoDup n ->
  (forall s, s ∈ o <-> s ∈ o1 \/ (s ∈ o2 /\ s ∉ n1)) ->
  (forall s, s ∈ n <-> (s ∈ n1 /\ s ∉ o2) \/ s ∈ n2) ->
  (forall s, s ∈ n2 -> s ∉ o1) -> replaces T o n T2.
Proof.
  intros (A1 & B1 & C1 & D1 & E1) (A2 & B2 & C2 & D2 & E2) Ho Hn Mo Mn Hd.
  split; [exact Ho|]. split; [exact Hn|]. split; [|split].
  - intros s Hs. apply Mo in Hs as [Hs|[Hs Hs']]; [apply C1; exact Hs|].
    apply C2, E1 in Hs as [[Hs _]|Hs]; [exact Hs|contradiction].
  - intros s Hs Ht. apply Mn in Hs as [[Hs _]|Hs]; [exact (D1 s Hs Ht)|].
    apply (D2 s Hs), E1. left. split; [exact Ht|apply Hd; exact Hs].
  - intros s. rewrite E2, E1, Mo, Mn. specialize (D1 s).
    destruct (decide (s ∈ o1)), (decide (s ∈ n1)), (decide (s ∈ o2)); tauto.
Qed.

Lemma of_list_neq l l' (y : vertex) : y ∈ l -> y ∉ l' -> of_list l <> of_list l'.
Proof. intros A B E. apply B. rewrite <- elem_of_of_list, <- E. apply elem_of_of_list. exact A. Qed.

Ltac inlist x l := match l with x :: _ => idtac | _ :: ?r => inlist x r end.
Ltac pick l l' tac := match l with ?x :: ?r => tryif inlist x l' then pick r l' tac else tac x end.
(** Distinct cells, by a vertex of the first missing from the second; the
    hypothesis [H] gives the distinctness of the vertices. *)
Ltac cellneq H :=
  match goal with |- of_list ?l <> of_list ?l' =>
    pick l l' ltac:(fun y => apply (of_list_neq l l' y);
      [rewrite !elem_of_cons; tauto|clear - H; rewrite !elem_of_cons, elem_of_nil; intuition congruence])
  end.
Ltac cellabsurd E H :=
  match type of E with ?x = ?y => let F := fresh in assert (F : x <> y) by cellneq H; destruct (F E) end.

Lemma omit_is l y l' : (forall k, k ∈ l' <-> k ∈ l /\ k <> y) -> omit l y = of_list l'.
Proof. intros H. apply set_eq. intros k. rewrite elem_of_omit, elem_of_of_list, H. reflexivity. Qed.
(** [omit l y = of_list l'] for concrete lists, from the distinctness fact [H]. *)
Ltac omits H :=
  apply omit_is; clear - H; intros ?k; rewrite !elem_of_cons, !elem_of_nil; split;
  [let X := fresh in intros X; repeat (destruct X as [X|X]); try contradiction X; subst; (split; [tauto|]); intuition congruence|tauto].
