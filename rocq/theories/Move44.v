(** Effect of the (4,4) move. *)
From Verif Require Import Base Tracker Geom Simplex Pachner Foliation Moves Links MoveCore MoveTools Move23.
From stdpp Require Import fin_sets gmap sorting.
Local Open Scope Z_scope.

Lemma of_list_eq_perm l l' : NoDup l -> NoDup l' -> of_list l = of_list l' -> l ≡ₚ l'.
Proof.
  intros H H' E. apply NoDup_Permutation; [exact H|exact H'|]. intros y. rewrite <- !elem_of_of_list, E. reflexivity.
Qed.

Lemma omit_perm l l' y : l ≡ₚ l' -> omit l y = omit l' y.
Proof. intros H. unfold omit. rewrite (of_list_perm l l' H). reflexivity. Qed.

Lemma map_omit_set l l' m m' : l ≡ₚ l' -> m ≡ₚ m' ->
  (list_to_set (map (omit l) m) : gset simplex) = list_to_set (map (omit l') m').
Proof.
  intros H H'. apply set_eq. intros s. rewrite !elem_of_list_to_set, !elem_of_list_fmap.
  setoid_rewrite (omit_perm l l' _ H). setoid_rewrite (fun y => elem_of_Permutation_proper y _ _ H'). reflexivity.
Qed.

Lemma pachner_perm T lU lV lU' lV' : lU ≡ₚ lU' -> lV ≡ₚ lV' -> pachner T lU lV = pachner T lU' lV'.
Proof.
  intros HU HV. unfold pachner. assert (H : lU ++ lV ≡ₚ lU' ++ lV') by (rewrite HU, HV; reflexivity).
  rewrite (map_omit_set _ _ _ _ H HU), (map_omit_set _ _ _ _ H HV). reflexivity.
Qed.

Lemma pachner_ok_perm T lU lV lU' lV' : lU ≡ₚ lU' -> lV ≡ₚ lV' -> pachner_ok T lU lV -> pachner_ok T lU' lV'.
Proof.
  intros HU HV [A B C D E F G]. assert (H : lU ++ lV ≡ₚ lU' ++ lV') by (rewrite HU, HV; reflexivity).
  constructor.
  - rewrite <- H. exact A.
  - rewrite <- H. exact B.
  - intros ->. symmetry in HU. apply Permutation_nil_r in HU || apply Permutation_nil in HU. contradiction.
  - intros ->. symmetry in HV. apply Permutation_nil_r in HV || apply Permutation_nil in HV. contradiction.
  - intros y Hy. rewrite <- (omit_perm _ _ y H). apply E. apply (elem_of_Permutation_proper y _ _ HU). exact Hy.
  - intros c Hc Hs. rewrite <- (of_list_perm _ _ HV) in Hs. destruct (F c Hc Hs) as (y & Hy & ->).
    exists y. split; [apply (elem_of_Permutation_proper y _ _ HU); exact Hy|]. apply omit_perm, H.
  - intros c Hc. rewrite <- (of_list_perm _ _ HU). apply G. exact Hc.
Qed.

(** ** Extreme vertices *)
Section Extremes.
  Variable label : vertex -> Z.
  Definition vle (a b : vertex) : Prop := label a < label b \/ (label a = label b /\ (a <= b)%positive).
  Lemma precedes_spec a b : vertex_precedes label a b = true <-> label a < label b \/ (label a = label b /\ (a < b)%positive).
  Proof.
    unfold vertex_precedes. destruct (label a =? label b) eqn:E; cbn [negb].
    - apply Z.eqb_eq in E. rewrite Pos.ltb_lt. lia.
    - apply Z.eqb_neq in E. rewrite Z.ltb_lt. lia.
  Qed.
  Lemma top_fold l acc r :
    fold_left (fun top v => match top with None => Some v | Some t => if vertex_precedes label t v then Some v else top end) l (Some acc) = Some r ->
    (r = acc \/ r ∈ l) /\ vle acc r /\ forall y, y ∈ l -> vle y r.
  Proof.
    revert acc. induction l as [|y l IH]; intros acc; cbn [fold_left].
    - intros [= <-]. split; [auto|]. split; [right; lia|]. intros y Hy. apply elem_of_nil in Hy. tauto.
    - destruct (vertex_precedes label acc y) eqn:E.
      + intros H. apply IH in H as (A & B & C). apply precedes_spec in E. split; [right; set_solver + A|]. split.
        * unfold vle in *. lia.
        * intros z Hz. apply elem_of_cons in Hz as [->|Hz]; [exact B|exact (C z Hz)].
      + intros H. apply IH in H as (A & B & C). split; [set_solver + A|]. split; [exact B|].
        intros z Hz. apply elem_of_cons in Hz as [->|Hz]; [|exact (C z Hz)].
        assert (~ (label acc < label y \/ (label acc = label y /\ (acc < y)%positive))) by (rewrite <- precedes_spec, E; discriminate).
        unfold vle in *. lia.
  Qed.
  Lemma top_spec l r : top_vertex label l = Some r -> r ∈ l /\ forall y, y ∈ l -> vle y r.
  Proof.
    unfold top_vertex. destruct l as [|y l]; cbn [fold_left]; [discriminate|]. intros H. apply top_fold in H as (A & B & C).
    split; [set_solver + A|]. intros z Hz. apply elem_of_cons in Hz as [->|Hz]; [exact B|exact (C z Hz)].
  Qed.
  Lemma bottom_fold l acc r :
    fold_left (fun bot v => match bot with None => Some v | Some t => if vertex_precedes label v t then Some v else bot end) l (Some acc) = Some r ->
    (r = acc \/ r ∈ l) /\ vle r acc /\ forall y, y ∈ l -> vle r y.
  Proof.
    revert acc. induction l as [|y l IH]; intros acc; cbn [fold_left].
    - intros [= <-]. split; [auto|]. split; [right; lia|]. intros y Hy. apply elem_of_nil in Hy. tauto.
    - destruct (vertex_precedes label y acc) eqn:E.
      + intros H. apply IH in H as (A & B & C). apply precedes_spec in E. split; [right; set_solver + A|]. split.
        * unfold vle in *. lia.
        * intros z Hz. apply elem_of_cons in Hz as [->|Hz]; [exact B|exact (C z Hz)].
      + intros H. apply IH in H as (A & B & C). split; [set_solver + A|]. split; [exact B|].
        intros z Hz. apply elem_of_cons in Hz as [->|Hz]; [|exact (C z Hz)].
        assert (~ (label y < label acc \/ (label y = label acc /\ (y < acc)%positive))) by (rewrite <- precedes_spec, E; discriminate).
        unfold vle in *. lia.
  Qed.
  Lemma bottom_spec l r : bottom_vertex label l = Some r -> r ∈ l /\ forall y, y ∈ l -> vle r y.
  Proof.
    unfold bottom_vertex. destruct l as [|y l]; cbn [fold_left]; [discriminate|]. intros H. apply bottom_fold in H as (A & B & C).
    split; [set_solver + A|]. intros z Hz. apply elem_of_cons in Hz as [->|Hz]; [exact B|exact (C z Hz)].
  Qed.
End Extremes.

(** A cell containing both ends of a spacelike edge (on slice s), with a
    (3,1) or (1,3) type. *)
Lemma edge_cell_31 s y z : classify [s; s; y; z] = THREE_ONE ->
  (y = s /\ z = s + 1) \/ (y = s + 1 /\ z = s).
Proof.
  intros H. destruct (causal_bits s s y z) as (t & b1 & b2 & b3 & b4 & E1 & E2 & -> & ->); [rewrite H; reflexivity|].
  rewrite E1 in H. rewrite classify4 in H. 
  destruct b1, b3, b4; try (vm_compute in H; discriminate H); cbn [b2z] in *; lia.
Qed.
Lemma edge_cell_13 s y z : classify [s; s; y; z] = ONE_THREE ->
  (y = s /\ z = s - 1) \/ (y = s - 1 /\ z = s).
Proof.
  intros H. destruct (causal_bits s s y z) as (t & b1 & b2 & b3 & b4 & E1 & E2 & -> & ->); [rewrite H; reflexivity|].
  rewrite E1 in H. rewrite classify4 in H.
  destruct b1, b3, b4; try (vm_compute in H; discriminate H); cbn [b2z] in *; lia.
Qed.

Lemma filter_length_perm {A} (f : A -> bool) l l' : l ≡ₚ l' -> length (List.filter f l) = length (List.filter f l').
Proof.
  induction 1 as [|y l l' H IH|y z l|]; cbn; try congruence.
  - destruct (f y); cbn; congruence.
  - destruct (f y), (f z); reflexivity.
Qed.

Lemma filter_two {A} (f : A -> bool) l : NoDup l -> length (List.filter f l) = 2%nat ->
  exists u v, u <> v /\ u ∈ l /\ v ∈ l /\ f u = true /\ f v = true.
Proof.
  intros Hn H. destruct (List.filter f l) as [|u [|v [|? ?]]] eqn:E; try discriminate.
  assert (N : NoDup (List.filter f l)). { apply NoDup_ListNoDup. apply List.NoDup_filter. apply NoDup_ListNoDup. exact Hn. }
  rewrite E in N. exists u, v.
  assert (Hu : In u (List.filter f l)) by (rewrite E; cbn; auto). assert (Hv : In v (List.filter f l)) by (rewrite E; cbn; auto).
  apply filter_In in Hu as [A1 A2], Hv as [B1 B2]. rewrite <- elem_of_list_In in A1, B1.
  split; [|auto]. apply NoDup_cons in N as [N _]. intros ->. apply N. constructor.
Qed.

Lemma filter_filter_and {A} (f g : A -> bool) l : List.filter f (List.filter g l) = List.filter (fun x => g x && f x) l.
Proof. induction l as [|x l IH]; [reflexivity|]. cbn. destruct (g x); cbn; [destruct (f x)|]; rewrite IH; reflexivity. Qed.

  Lemma edge_cell T e p q c : pure T -> e = of_list [p; q] -> p <> q -> c ∈ star e T ->
    exists y z, NoDup [p; q; y; z] /\ c = of_list [p; q; y; z].
  Proof.
    intros HP -> Hpq Hc. apply elem_of_star in Hc as [Hc Hec].
    assert (He : size (of_list [p; q]) = 2%nat) by (apply of_list_size; repeat constructor; set_solver + Hpq).
    destruct (elements_two (c ∖ of_list [p; q])) as (y & z & _ & Hyz & E).
    { rewrite size_difference by exact Hec. rewrite (HP c Hc), He. reflexivity. }
    assert (A : y ∈ c ∖ of_list [p; q]) by (rewrite E, elem_of_of_list; set_solver +).
    assert (B : z ∈ c ∖ of_list [p; q]) by (rewrite E, elem_of_of_list; set_solver +).
    rewrite elem_of_difference, elem_of_of_list in A, B.
    exists y, z. split.
    - repeat constructor; set_solver + A B Hyz Hpq.
    - change [p; q; y; z] with ([p; q] ++ [y; z]). rewrite of_list_app, <- E. apply set_eq. intros k.
      rewrite elem_of_union, elem_of_difference. destruct (decide (k ∈ of_list [p; q])); [|tauto]. split; [tauto|]. intros _. apply Hec. assumption.
  Qed.

  Lemma nodup4 (p q y z : vertex) : NoDup [p; q; y; z] <-> (p <> q /\ p <> y /\ p <> z) /\ (q <> y /\ q <> z) /\ y <> z.
  Proof.
    rewrite !NoDup_cons, !elem_of_cons, !elem_of_nil. split.
    - intros (A & B & C & _). repeat split; intros E; tauto.
    - intros (A & B & C). repeat split; try (intros E; intuition congruence). apply NoDup_nil_2.
  Qed.

(** The labels around a spacelike edge between slices t-1, t, t+1. *)
Definition labels_44 (label : vertex -> Z) (p q a b top bot : vertex) : Prop :=
  exists t, label p = t /\ label q = t /\ label a = t /\ label b = t /\ label top = t + 1 /\ label bot = t - 1.

Section Around.
  Variable label : vertex -> Z.
  Variable T : tds.
  Hypothesis HP : pure T.
  Hypothesis HC : closed T.

  (** A (3,1) or (1,3) cell on a spacelike edge, its apex named last. *)
  Lemma edge_cell_typed e p q c k : e = of_list [p; q] -> p <> q -> label p = label q -> c ∈ star e T ->
    cell_type label c = k -> k = THREE_ONE \/ k = ONE_THREE ->
    exists y z, NoDup [p; q; y; z] /\ c = of_list [p; q; y; z] /\ label y = label p /\
      label z = if k =? THREE_ONE then label p + 1 else label p - 1.
  Proof using HP.
    intros He Hpq Hl Hc Hk Hk'. destruct (edge_cell T e p q c HP He Hpq Hc) as (y & z & N & ->).
    assert (N' : NoDup [p; q; z; y]) by (rewrite nodup4 in *; intuition congruence).
    assert (E : of_list [p; q; y; z] = of_list [p; q; z; y]) by (apply of_list_perm; do 2 constructor; apply perm_swap).
    rewrite cell_type_of_list in Hk by exact N. cbn [map] in Hk. rewrite <- Hl in Hk. destruct Hk' as [->| ->]; cbn [Z.eqb].
    - apply edge_cell_31 in Hk as [[? ?]|[? ?]]; [exists y, z; auto|exists z, y; auto].
    - apply edge_cell_13 in Hk as [[? ?]|[? ?]]; [exists y, z; auto|exists z, y; auto].
  Qed.

  Lemma location_44 junk e top bot :
    size e = 2%nat -> prepare_44 label junk T e = Done (top, bot) ->
    exists p q a b, NoDup [p; q; a; b; top; bot] /\ infinite ∉ [p; q; a; b; top; bot] /\ e = of_list [p; q] /\
      labels_44 label p q a b top bot /\
      forall c, c ∈ star e T <-> c ∈ [of_list [p; q; a; top]; of_list [p; q; b; top]; of_list [p; q; a; bot]; of_list [p; q; b; bot]].
  Proof using HP HC.
    intros He. unfold prepare_44. destruct (negb _); [discriminate|].
    unfold flip_location_44. set (cells := elements (star e T)).
    destruct (forallb finite_simplex cells && _ && _ && _ && _) eqn:E; [|discriminate].
    rewrite !andb_true_iff, Nat.eqb_eq, !Z.eqb_eq in E. destruct E as [[[[Hf Hl] Hs] H31] H13].
    set (others := flat_map _ cells).
    destruct (top_vertex label others) as [top'|] eqn:Et; [|discriminate].
    destruct (bottom_vertex label others) as [bot'|] eqn:Eb; [|discriminate].
    destruct (bool_decide (top' = bot') || _ || _); [discriminate|].
    destruct (Nat.eqb (length (List.filter (fun c => bool_decide (top' ∈ c)) cells)) 2) eqn:E1; cbn [negb orb]; [|discriminate].
    destruct (Nat.eqb (length (List.filter (fun c => bool_decide (bot' ∈ c)) cells)) 2) eqn:E2; cbn [negb orb]; [|discriminate].
    intros [= -> ->]. apply Nat.eqb_eq in E1, E2.
    assert (Nc : NoDup cells) by apply NoDup_elements.
    assert (In_cells : forall c, c ∈ cells <-> c ∈ star e T) by (intros c; unfold cells; apply elem_of_elements).
    unfold count_type in H31, H13. rewrite filter_filter_and in H31, H13.
    destruct (filter_two _ cells Nc ltac:(apply (Nat2Z.inj _ 2); exact H31)) as (u1 & u2 & Hu & Hu1 & Hu2 & Tu1 & Tu2).
    destruct (filter_two _ cells Nc ltac:(apply (Nat2Z.inj _ 2); exact H13)) as (w1 & w2 & Hw & Hw1 & Hw2 & Tw1 & Tw2).
    rewrite andb_true_iff, Z.eqb_eq in Tu1, Tu2, Tw1, Tw2.
    destruct Tu1 as [_ Tu1], Tu2 as [_ Tu2], Tw1 as [_ Tw1], Tw2 as [_ Tw2].
    destruct (elements_two e He) as (p & q & Ee' & Hpq & Ee).
    unfold spacelike in Hs. rewrite Ee' in Hs. apply Z.eqb_eq in Hs.
    destruct (edge_cell_typed e p q u1 _ Ee Hpq Hs (proj1 (In_cells u1) Hu1) Tu1 (or_introl eq_refl)) as (y1 & z1 & N1 & U1 & Ly1 & Lz1).
    destruct (edge_cell_typed e p q u2 _ Ee Hpq Hs (proj1 (In_cells u2) Hu2) Tu2 (or_introl eq_refl)) as (y2 & z2 & N2 & U2 & Ly2 & Lz2).
    destruct (edge_cell_typed e p q w1 _ Ee Hpq Hs (proj1 (In_cells w1) Hw1) Tw1 (or_intror eq_refl)) as (y3 & z3 & N3 & W1 & Ly3 & Lz3).
    destruct (edge_cell_typed e p q w2 _ Ee Hpq Hs (proj1 (In_cells w2) Hw2) Tw2 (or_intror eq_refl)) as (y4 & z4 & N4 & W2 & Ly4 & Lz4).
    cbn [Z.eqb] in Lz1, Lz2. change (ONE_THREE =? THREE_ONE) with false in Lz3, Lz4. change (THREE_ONE =? THREE_ONE) with true in Lz1, Lz2.
    cbn beta iota in Lz1, Lz2, Lz3, Lz4.
    assert (P : cells ≡ₚ [u1; u2; w1; w2]).
    { symmetry. apply submseteq_Permutation_length_eq; [rewrite Hl; reflexivity|].
      assert (X1 : u1 <> w1) by (intros ->; rewrite Tu1 in Tw1; discriminate).
      assert (X2 : u1 <> w2) by (intros ->; rewrite Tu1 in Tw2; discriminate).
      assert (X3 : u2 <> w1) by (intros ->; rewrite Tu2 in Tw1; discriminate).
      assert (X4 : u2 <> w2) by (intros ->; rewrite Tu2 in Tw2; discriminate).
      apply NoDup_submseteq.
      - clear - Hu Hw X1 X2 X3 X4. rewrite !NoDup_cons, !elem_of_cons, !elem_of_nil.
        repeat split; try apply NoDup_nil_2; intros HH; intuition congruence.
      - intros c Hc. rewrite !elem_of_cons, elem_of_nil in Hc. destruct Hc as [->|[->|[->|[->|[]]]]]; assumption. }
    assert (Oth : forall k, k ∈ others <-> exists c, c ∈ cells /\ k ∈ c /\ k ∉ e).
    { intros k. unfold others. rewrite elem_of_list_In, in_flat_map. setoid_rewrite <- elem_of_list_In.
      setoid_rewrite elem_of_elements. setoid_rewrite elem_of_difference. reflexivity. }
    assert (Hz1 : z1 ∈ others).
    { apply Oth. exists u1. split; [exact Hu1|]. rewrite U1, Ee, !elem_of_of_list. apply nodup4 in N1. clear - N1. rewrite !elem_of_cons, !elem_of_nil. intuition congruence. }
    assert (Hz3 : z3 ∈ others).
    { apply Oth. exists w1. split; [exact Hw1|]. rewrite W1, Ee, !elem_of_of_list. apply nodup4 in N3. clear - N3. rewrite !elem_of_cons, !elem_of_nil. intuition congruence. }
    apply top_spec in Et as [Ht Htop]. apply bottom_spec in Eb as [Hb Hbot].
    pose proof (Htop _ Hz1) as Lt. pose proof (Hbot _ Hz3) as Lb. unfold vle in Lt, Lb.
    assert (Lt' : label p + 1 <= label top) by lia. assert (Lb' : label bot <= label p - 1) by lia.
    clear Lt Lb Htop Hbot Hz1 Hz3.
    assert (memU1 : forall k, k ∈ u1 -> label p < label k -> k = z1).
    { intros k. rewrite U1, elem_of_of_list. intros Hk HL. rewrite !elem_of_cons, elem_of_nil in Hk. destruct Hk as [->|[->|[->|[->|[]]]]]; lia || reflexivity. }
    assert (memU2 : forall k, k ∈ u2 -> label p < label k -> k = z2).
    { intros k. rewrite U2, elem_of_of_list. intros Hk HL. rewrite !elem_of_cons, elem_of_nil in Hk. destruct Hk as [->|[->|[->|[->|[]]]]]; lia || reflexivity. }
    assert (memW1 : forall k, k ∈ w1 -> label k < label p -> k = z3).
    { intros k. rewrite W1, elem_of_of_list. intros Hk HL. rewrite !elem_of_cons, elem_of_nil in Hk. destruct Hk as [->|[->|[->|[->|[]]]]]; lia || reflexivity. }
    assert (memW2 : forall k, k ∈ w2 -> label k < label p -> k = z4).
    { intros k. rewrite W2, elem_of_of_list. intros Hk HL. rewrite !elem_of_cons, elem_of_nil in Hk. destruct Hk as [->|[->|[->|[->|[]]]]]; lia || reflexivity. }
    assert (notW : top ∉ w1 /\ top ∉ w2).
    { split; [rewrite W1|rewrite W2]; rewrite elem_of_of_list; intros Hk; rewrite !elem_of_cons, elem_of_nil in Hk; destruct Hk as [E|[E|[E|[E|[]]]]]; subst top; lia. }
    assert (notU : bot ∉ u1 /\ bot ∉ u2).
    { split; [rewrite U1|rewrite U2]; rewrite elem_of_of_list; intros Hk; rewrite !elem_of_cons, elem_of_nil in Hk; destruct Hk as [E|[E|[E|[E|[]]]]]; subst bot; lia. }
    rewrite (filter_length_perm _ _ _ P) in E1. rewrite (filter_length_perm _ _ _ P) in E2. cbn [List.filter] in E1, E2.
    rewrite (bool_decide_eq_false_2 _ (proj1 notW)), (bool_decide_eq_false_2 _ (proj2 notW)) in E1.
    rewrite (bool_decide_eq_false_2 _ (proj1 notU)), (bool_decide_eq_false_2 _ (proj2 notU)) in E2.
    assert (top ∈ u1 /\ top ∈ u2) as [T1 T2].
    { destruct (bool_decide (top ∈ u1)) eqn:B1, (bool_decide (top ∈ u2)) eqn:B2; try discriminate.
      apply bool_decide_eq_true in B1, B2. auto. }
    assert (bot ∈ w1 /\ bot ∈ w2) as [B1 B2].
    { destruct (bool_decide (bot ∈ w1)) eqn:B1, (bool_decide (bot ∈ w2)) eqn:B2; try discriminate.
      apply bool_decide_eq_true in B1, B2. auto. }
    pose proof (memU1 _ T1 ltac:(lia)) as <-. pose proof (memU2 _ T2 ltac:(lia)) as E3. subst z2.
    pose proof (memW1 _ B1 ltac:(lia)) as <-. pose proof (memW2 _ B2 ltac:(lia)) as E3. subst z4.
    clear memU1 memU2 memW1 memW2 notW notU T1 T2 B1 B2 E1 E2 Ht Hb Oth.
    assert (Hy12 : y1 <> y2) by (intros ->; congruence).
    assert (Hy34 : y3 <> y4) by (intros ->; congruence).
    (* the facets p q y1 and p q y2 each have a second cell, which is w1 or w2 *)
    assert (Hbot2 : forall c, c ∈ cells -> c = u1 \/ c = u2 -> bot ∉ c).
    { intros c _ [->| ->]; [rewrite U1|rewrite U2]; rewrite elem_of_of_list, !elem_of_cons, elem_of_nil;
        intros [E|[E|[E|[E|[]]]]]; subst bot; lia. }
    assert (second : forall y y' c c', c = of_list [p; q; y; top] -> c' = of_list [p; q; y'; top] -> y <> y' -> c ∈ cells -> c = u1 \/ c = u2 ->
       (forall k, k ∈ cells -> k = c \/ k = c' \/ k = w1 \/ k = w2) -> NoDup [p; q; y; top] -> y = y3 \/ y = y4).
    { intros y y' c c' Ec Ec' Hyy Hc Hcu Hall N.
      assert (Hs3 : size (of_list [p; q; y]) = 3%nat).
      { apply of_list_size. apply (sublist_NoDup _ [p; q; y; top]); [repeat constructor|exact N]. }
      pose proof (proj1 (nodup4 _ _ _ _) N) as N'.
      pose proof (proj1 (In_cells c) Hc) as Hc2. apply elem_of_star in Hc2 as [HcT _].
      destruct (two_cells T HC (of_list [p; q; y]) c HcT) as (n & Hn & Hnc & Hfn & _); [|exact Hs3|].
      { rewrite Ec. intros k. rewrite !elem_of_of_list. set_solver +. }
      assert (Hns : n ∈ cells).
      { apply In_cells, elem_of_star. split; [exact Hn|]. intros k Hk. apply Hfn. rewrite Ee, elem_of_of_list in Hk. rewrite elem_of_of_list. set_solver + Hk. }
      assert (Hyn : y ∈ n) by (apply Hfn; rewrite elem_of_of_list; set_solver +).
      destruct (Hall n Hns) as [->|[->|[->| ->]]]; [contradiction| | |].
      - rewrite Ec', elem_of_of_list in Hyn. exfalso. clear - Hyn N' Hyy. rewrite !elem_of_cons, !elem_of_nil in Hyn. intuition congruence.
      - rewrite W1, elem_of_of_list in Hyn. left. rewrite !elem_of_cons, elem_of_nil in Hyn.
        destruct Hyn as [E|[E|[E|[E|[]]]]]; [clear - E N'; intuition congruence|clear - E N'; intuition congruence|exact E|].
        exfalso. subst y. apply (Hbot2 c); [exact Hc|exact Hcu|]. rewrite Ec, elem_of_of_list. set_solver +.
      - rewrite W2, elem_of_of_list in Hyn. right. rewrite !elem_of_cons, elem_of_nil in Hyn.
        destruct Hyn as [E|[E|[E|[E|[]]]]]; [clear - E N'; intuition congruence|clear - E N'; intuition congruence|exact E|].
        exfalso. subst y. apply (Hbot2 c); [exact Hc|exact Hcu|]. rewrite Ec, elem_of_of_list. set_solver +. }
    assert (memc : forall k, k ∈ cells <-> k = u1 \/ k = u2 \/ k = w1 \/ k = w2).
    { intros k. rewrite (elem_of_Permutation_proper k _ _ P), !elem_of_cons, elem_of_nil. tauto. }
    assert (S1 : y1 = y3 \/ y1 = y4).
    { apply (second y1 y2 u1 u2); try assumption; [auto|]. intros k Hk. apply memc in Hk. clear - Hk. tauto. }
    assert (S2 : y2 = y3 \/ y2 = y4).
    { apply (second y2 y1 u2 u1); try assumption; [congruence|auto|]. intros k Hk. apply memc in Hk. clear - Hk. tauto. }
    exists p, q, y1, y2.
    assert (Hall : forall c, c ∈ star e T <-> c ∈ [of_list [p; q; y1; top]; of_list [p; q; y2; top]; of_list [p; q; y1; bot]; of_list [p; q; y2; bot]]).
    { intros c. rewrite <- In_cells, memc, U1, U2, W1, W2, !elem_of_cons, elem_of_nil.
      destruct S1 as [S1|S1], S2 as [S2|S2]; try congruence; rewrite S1, S2; tauto. }
    assert (D : y1 <> top /\ y1 <> bot /\ y2 <> top /\ y2 <> bot /\ top <> bot /\ p <> bot /\ q <> bot).
    { repeat split; intros E; subst; lia. }
    split.
    { apply nodup4 in N1, N2. clear - N1 N2 D Hy12. rewrite !NoDup_cons, !elem_of_cons, !elem_of_nil.
      repeat split; try apply NoDup_nil_2; intros HH; intuition congruence. }
    split.
    { rewrite forallb_forall in Hf. setoid_rewrite <- elem_of_list_In in Hf.
      pose proof (Hf _ Hu1) as F1. pose proof (Hf _ Hu2) as F2. pose proof (Hf _ Hw1) as F3.
      apply finite_spec in F1, F2, F3. rewrite U1, elem_of_of_list in F1. rewrite U2, elem_of_of_list in F2. rewrite W1, elem_of_of_list in F3.
      clear - F1 F2 F3. rewrite !elem_of_cons, !elem_of_nil in *. tauto. }
    split; [exact Ee|]. split; [|exact Hall]. exists (label p). repeat split; congruence || lia.
  Qed.
End Around.

Lemma nodup6 (p q a b t u : vertex) : NoDup [p; q; a; b; t; u] <->
  (p <> q /\ p <> a /\ p <> b /\ p <> t /\ p <> u) /\ (q <> a /\ q <> b /\ q <> t /\ q <> u) /\
  (a <> b /\ a <> t /\ a <> u) /\ (b <> t /\ b <> u) /\ t <> u.
Proof.
  rewrite !NoDup_cons, !elem_of_cons, !elem_of_nil. split.
  - intros (A & B & C & D & E & _). repeat split; intros X; tauto.
  - intros (A & B & C & D & E). repeat split; try apply NoDup_nil_2; intros X; intuition congruence.
Qed.

Ltac mem := rewrite ?elem_of_cons, ?elem_of_nil in *; tauto.
Ltac nomem := rewrite ?elem_of_cons, ?elem_of_nil; intuition congruence.

Lemma move_44_effect label junk locates T e T' :
  valid T -> move_44 label junk locates T e = Done T' ->
  exists p q a b top bot,
    NoDup [p; q; a; b; top; bot] /\ infinite ∉ [p; q; a; b; top; bot] /\ e = of_list [p; q] /\
    labels_44 label p q a b top bot /\
    pachner_ok T [a; b] [p; q; bot] /\
    pachner_ok (pachner T [a; b] [p; q; bot]) [a; b; top] [p; q] /\
    T' = pachner (pachner T [a; b] [p; q; bot]) [a; b; top] [p; q] /\ valid T'.
Proof.
  intros VT. unfold move_44, bind.
  destruct (prepare_44 label junk T e) as [[top bot]|?|] eqn:Hp; try discriminate. cbn [fst snd].
  assert (He : size e = 2%nat).
  { unfold prepare_44 in Hp. destruct (bool_decide (e ∈ faces 2 T)) eqn:E; [|discriminate].
    apply bool_decide_eq_true, elem_of_faces in E. tauto. }
  destruct (location_44 label T (va_pure _ VT) (va_closed _ VT) junk e top bot He Hp) as (p & q & a0 & b0 & N & Fin & Ee & Lab & St).
  unfold execute_44. destruct (negb _); [discriminate|].
  destruct (elements (star ({[bot]} ∪ e) T)) as [|c rest] eqn:Es; [discriminate|].
  assert (Hc : c ∈ star ({[bot]} ∪ e) T) by (apply elem_of_elements; rewrite Es; constructor).
  apply elem_of_star in Hc as [HcT Hce].
  assert (Hc4 : exists a b, NoDup [p; q; a; b; top; bot] /\ infinite ∉ [p; q; a; b; top; bot] /\ labels_44 label p q a b top bot /\ c = of_list [p; q; a; bot] /\
     forall c, c ∈ star e T <-> c ∈ [of_list [p; q; a; top]; of_list [p; q; b; top]; of_list [p; q; a; bot]; of_list [p; q; b; bot]]).
  { assert (Hcs : c ∈ star e T) by (apply elem_of_star; split; [exact HcT|set_solver + Hce]).
    apply St in Hcs. assert (Hb : bot ∈ c) by (apply Hce; set_solver +).
    pose proof (proj1 (nodup6 _ _ _ _ _ _) N) as N'.
    rewrite !elem_of_cons, elem_of_nil in Hcs. destruct Hcs as [->|[->|[->|[->|[]]]]].
    - exfalso. rewrite elem_of_of_list, !elem_of_cons, elem_of_nil in Hb. intuition congruence.
    - exfalso. rewrite elem_of_of_list, !elem_of_cons, elem_of_nil in Hb. intuition congruence.
    - exists a0, b0. auto.
    - exists b0, a0. split; [apply nodup6; intuition congruence|]. split; [set_solver + Fin|]. split; [destruct Lab as (t & L); exists t; tauto|].
      split; [reflexivity|]. intros c'. rewrite St, !elem_of_cons, !elem_of_nil. tauto. }
  clear a0 b0 N Fin Lab St.
  destruct Hc4 as (a & b & N & Fin & Lab & Ec & St).
  pose proof (proj1 (nodup6 _ _ _ _ _ _) N) as N'.
  assert (Emir : mirror_vertex c ({[bot]} ∪ e) = Some a).
  { unfold mirror_vertex. assert (E1 : c ∖ ({[bot]} ∪ e) = {[a]}).
    { rewrite Ec, Ee. apply set_eq. intros k. rewrite elem_of_difference, elem_of_union, !elem_of_singleton, !elem_of_of_list, !elem_of_cons, !elem_of_nil.
      split; [tauto|]. intros ->. split; [tauto|]. intuition congruence. }
    rewrite E1, elements_singleton. reflexivity. }
  rewrite Emir.
  destruct (tds_flip_facet T c a) as [T1| |] eqn:F1; try discriminate.
  destruct (tds_flip_edge T1 e) as [T2| |] eqn:F2; try discriminate.
  destruct (tds_valid T2) eqn:V2; cbn [negb]; [|discriminate]. intros [= ->].
  assert (Hac : a ∈ c) by (rewrite Ec, elem_of_of_list; set_solver +).
  destruct (flip_facet_pachner T c a T1 VT HcT Hac F1) as (n & w & x1 & x2 & x3 & En & Hn & Em & Ex & Ec' & Enn & ok1 & ET1).
  (* the facet flipped is p q bot *)
  assert (Efacet : c ∖ {[a]} = of_list [p; q; bot]).
  { rewrite Ec. apply set_eq. intros k. rewrite elem_of_difference, elem_of_singleton, !elem_of_of_list, !elem_of_cons, !elem_of_nil.
    split; [tauto|]. intros H. split; [tauto|]. intuition congruence. }
  pose proof (po_nodup _ _ _ ok1) as Nd1. cbn [app] in Nd1.
  assert (Px : [x1; x2; x3] ≡ₚ [p; q; bot]).
  { apply of_list_eq_perm; [apply (sublist_NoDup _ [a; w; x1; x2; x3]); [repeat constructor|exact Nd1]| |congruence].
    apply (sublist_NoDup _ [p; q; a; b; top; bot]); [repeat constructor|exact N]. }
  assert (Hwn : w = b).
  { assert (Hns : n ∈ star e T).
    { apply elem_of_star. split; [exact Hn|]. rewrite Enn, Ee. rewrite (of_list_cons w), <- Ex, Efacet. intros k. rewrite elem_of_union, !elem_of_of_list. set_solver +. }
    assert (Hbn : bot ∈ n) by (rewrite Enn, (of_list_cons w), <- Ex, Efacet, elem_of_union, elem_of_of_list; set_solver +).
    assert (Han : a ∉ n). { rewrite Enn, elem_of_of_list. clear - Nd1. apply NoDup_cons in Nd1. tauto. }
    assert (Hwn : w ∈ n) by (rewrite Enn, elem_of_of_list; constructor).
    assert (Hwp : w ∉ [p; q; bot]). { rewrite <- (elem_of_Permutation_proper w _ _ Px). apply NoDup_cons in Nd1 as [_ Nd1]. apply NoDup_cons in Nd1. tauto. }
    apply St in Hns. rewrite !elem_of_cons, elem_of_nil in Hns. destruct Hns as [E|[E|[E|[E|[]]]]]; rewrite E, elem_of_of_list in *.
    - exfalso. apply Han. set_solver +.
    - exfalso. clear - Hbn N'. rewrite !elem_of_cons, elem_of_nil in Hbn. intuition congruence.
    - exfalso. apply Han. set_solver +.
    - clear - Hwn Hwp. rewrite !elem_of_cons, elem_of_nil in *. tauto. }
  subst w.
  assert (ok1' : pachner_ok T [a; b] [p; q; bot]) by (refine (pachner_ok_perm _ _ _ _ _ _ Px ok1); reflexivity).
  assert (ET1' : T1 = pachner T [a; b] [p; q; bot]) by (rewrite ET1; apply pachner_perm; [reflexivity|exact Px]).
  clear ok1 ET1 Nd1 Ex Px x1 x2 x3 Enn Ec'.
  assert (V1 : valid T1) by (rewrite ET1'; apply pachner_valid; assumption).
  destruct (flip_edge_pachner T1 e T' V1 He F2) as (p' & q' & a' & b' & x' & Ee' & EL & ok2 & ET2 & ES2).
  pose proof (po_nodup _ _ _ ok2) as Nd2. cbn [app] in Nd2.
  assert (Pe : [p'; q'] ≡ₚ [p; q]).
  { apply of_list_eq_perm; [apply (sublist_NoDup _ [a'; b'; x'; p'; q']); [repeat constructor|exact Nd2]| |congruence].
    apply (sublist_NoDup _ [p; q; a; b; top; bot]); [repeat constructor|exact N]. }
  assert (NB : NoDup [a; b; top]) by (apply (sublist_NoDup _ [p; q; a; b; top; bot]); [repeat constructor|exact N]).
  assert (Na : NoDup [a'; b'; x']) by (apply (sublist_NoDup _ [a'; b'; x'; p'; q']); [repeat constructor|exact Nd2]).
  assert (Pl : [a'; b'; x'] ≡ₚ [a; b; top]).
  { symmetry. apply submseteq_Permutation_length_eq; [reflexivity|]. apply NoDup_submseteq; [exact NB|].
    intros k Hk. rewrite <- elem_of_of_list, <- EL. unfold link_vertices. rewrite elem_of_difference, elem_of_union_list. split.
    - setoid_rewrite elem_of_elements. assert (HK : exists m, (m = a \/ m = b) /\ k ∈ of_list [p; q; m; top]).
      { rewrite !elem_of_cons, elem_of_nil in Hk. destruct Hk as [->|[->|[->|[]]]]; [exists a|exists b|exists a]; rewrite elem_of_of_list; split; auto; set_solver +. }
      destruct HK as (m & Hm & HK). exists (of_list [p; q; m; top]). split; [|exact HK].
      apply elem_of_star. split.
      + rewrite ET1'. apply (elem_of_pachner _ _ _ ok1'). left. split.
        * assert (HS : of_list [p; q; m; top] ∈ star e T) by (apply St; destruct Hm as [->| ->]; set_solver +). apply elem_of_star in HS. tauto.
        * intros Hsub. assert (Hb : bot ∈ of_list [p; q; m; top]) by (apply Hsub; rewrite elem_of_of_list; set_solver +).
          clear - Hb N' Hm. rewrite elem_of_of_list, !elem_of_cons, elem_of_nil in Hb. destruct Hm as [->| ->]; intuition congruence.
      + rewrite Ee. intros y. rewrite !elem_of_of_list. set_solver +.
    - rewrite Ee, elem_of_of_list. clear - Hk N'. rewrite !elem_of_cons, !elem_of_nil in *. intuition congruence. }
  exists p, q, a, b, top, bot. split; [exact N|]. split; [exact Fin|]. split; [exact Ee|]. split; [exact Lab|]. split; [exact ok1'|].
  rewrite <- ET1'. split; [exact (pachner_ok_perm _ _ _ _ _ Pl Pe ok2)|]. split; [rewrite ET2; apply pachner_perm; assumption|].
  apply tds_valid_spec. exact V2.
Qed.

(** ** Consequences *)
Section Effect44.
  Variable label : vertex -> Z.
  Variables (T : tds) (p q a b top bot : vertex).
  Hypothesis N : NoDup [p; q; a; b; top; bot].
  Hypothesis fin : infinite ∉ [p; q; a; b; top; bot].
  Hypothesis L : labels_44 label p q a b top bot.
  Hypothesis ok1 : pachner_ok T [a; b] [p; q; bot].
  Let T1 := pachner T [a; b] [p; q; bot].
  Hypothesis ok2 : pachner_ok T1 [a; b; top] [p; q].
  Let T' := pachner T1 [a; b; top] [p; q].
  Hypothesis V : valid T.

  Lemma geometry_44 : geometry_of label T' = geometry_of label T.
  Proof using fin L ok1 ok2 V.
    destruct V as [HP _ _]. assert (HP1 : pure T1) by (apply pachner_pure; assumption).
    assert (F1 : infinite ∉ [a; b] ++ [p; q; bot]) by (clear - fin; cbn [app]; rewrite !elem_of_cons, !elem_of_nil in *; tauto).
    assert (F2 : infinite ∉ [a; b; top] ++ [p; q]) by (clear - fin; cbn [app]; rewrite !elem_of_cons, !elem_of_nil in *; tauto).
    destruct L as (t & Lp & Lq & La & Lb & Lt & Lo).
    replace t with (t + 0) in Lp, Lq, La, Lb by lia. replace (t - 1) with (t + (-1)) in Lo by lia.
    unfold geometry_of, T'.
    rewrite n3_pachner, !n3_of_pachner, n2_pachner, n1_pachner, n1_tl_pachner, n1_sl_pachner, n0_pachner by assumption.
    unfold T1.
    rewrite n3_pachner, !n3_of_pachner, n2_pachner, n1_pachner, n1_tl_pachner, n1_sl_pachner, n0_pachner by assumption.
    unfold lsum, qtype, qtl, qsl, qall; cbn -[classify Z.add Z.sub Z.eqb];
      rewrite ?Lp, ?Lq, ?La, ?Lb, ?Lt, ?Lo; offsets;
      apply geometry_eq; cbn -[classify Z.add Z.sub Z.eqb n3_of n3 n2 n1 n0 n1_tl n1_sl];
      repeat match goal with |- context [classify ?l] => let y := eval vm_compute in (classify l) in change (classify l) with y end;
      cbn; lia.
  Qed.

  Lemma old_new_44 : NoDup [of_list [p; q; a; top]; of_list [p; q; b; top]; of_list [p; q; a; bot]; of_list [p; q; b; bot];
     of_list [a; b; p; q]; of_list [p; a; b; top]; of_list [q; a; b; top]; of_list [p; a; b; bot]; of_list [q; a; b; bot]].
  Proof using N.
    pose proof (proj1 (nodup6 _ _ _ _ _ _) N) as N'.
    repeat (apply NoDup_cons; split); try apply NoDup_nil_2;
      rewrite ?elem_of_cons, ?elem_of_nil; intros H;
      repeat (destruct H as [H|H]; [cellabsurd H N'|]); exact H.
  Qed.

  Lemma replaces_44 :
    replaces T [of_list [p; q; a; top]; of_list [p; q; b; top]; of_list [p; q; a; bot]; of_list [p; q; b; bot]]
               [of_list [p; a; b; top]; of_list [q; a; b; top]; of_list [p; a; b; bot]; of_list [q; a; b; bot]] T'.
  Proof using N ok1 ok2.
    pose proof old_new_44 as D.
    pose proof (po_nodup _ _ _ ok1) as M1. pose proof (po_nodup _ _ _ ok2) as M2. cbn [app] in M1, M2.
    pose proof (pachner_replaces _ _ _ ok1) as R1. pose proof (pachner_replaces _ _ _ ok2) as R2.
    cbn [app map] in R1, R2.
    pose proof (proj1 (nodup6 _ _ _ _ _ _) N) as N'.
    assert (E1 : omit [a; b; p; q; bot] a = of_list [p; q; b; bot]) by omits N'.
    assert (E2 : omit [a; b; p; q; bot] b = of_list [p; q; a; bot]) by omits N'.
    assert (E3 : omit [a; b; p; q; bot] p = of_list [q; a; b; bot]) by omits N'.
    assert (E4 : omit [a; b; p; q; bot] q = of_list [p; a; b; bot]) by omits N'.
    assert (E5 : omit [a; b; p; q; bot] bot = of_list [a; b; p; q]) by omits N'.
    assert (F1 : omit [a; b; top; p; q] a = of_list [p; q; b; top]) by omits N'.
    assert (F2 : omit [a; b; top; p; q] b = of_list [p; q; a; top]) by omits N'.
    assert (F3 : omit [a; b; top; p; q] top = of_list [a; b; p; q]) by omits N'.
    assert (F4 : omit [a; b; top; p; q] p = of_list [q; a; b; top]) by omits N'.
    assert (F5 : omit [a; b; top; p; q] q = of_list [p; a; b; top]) by omits N'.
    rewrite E1, E2, E3, E4, E5 in R1. rewrite F1, F2, F3, F4, F5 in R2. clear E1 E2 E3 E4 E5 F1 F2 F3 F4 F5 M1 M2.
    fold T1 in R1. fold T' in R2.
    revert D R1 R2.
    generalize (of_list [p; q; a; top]), (of_list [p; q; b; top]), (of_list [p; q; a; bot]), (of_list [p; q; b; bot]),
      (of_list [a; b; p; q]), (of_list [p; a; b; top]), (of_list [q; a; b; top]), (of_list [p; a; b; bot]), (of_list [q; a; b; bot]).
    clear. intros A1 A2 A3 A4 M B1 B2 B3 B4 D R1 R2.
    refine (replaces_trans _ _ _ _ _ _ _ _ _ R1 R2 _ _ _ _ _); clear R1 R2.
    - apply (NoDup_app [A1; A2; A3; A4] [M; B1; B2; B3; B4]) in D. tauto.
    - apply (NoDup_app [A1; A2; A3; A4; M] [B1; B2; B3; B4]) in D. tauto.
    - rewrite !NoDup_cons, !elem_of_cons, !elem_of_nil in D. intros s. rewrite !elem_of_cons, !elem_of_nil. split.
      + intros [->|[->|[->|[->|[]]]]]; tauto.
      + intros [[->|[->|[]]]|[[->|[->|[->|[]]]] H]]; tauto.
    - rewrite !NoDup_cons, !elem_of_cons, !elem_of_nil in D. intros s. rewrite !elem_of_cons, !elem_of_nil. split.
      + intros [->|[->|[->|[->|[]]]]]; try tauto; left; (split; [tauto|]); intuition congruence.
      + intros [[[->|[->|[->|[]]]] H]|[->|[->|[]]]]; tauto.
    - rewrite !NoDup_cons, !elem_of_cons, !elem_of_nil in D. intros s. rewrite !elem_of_cons, !elem_of_nil.
      intros [->|[->|[]]]; intuition congruence.
  Qed.

  Lemma new_cells_44 : forall c, c ∈ [of_list [p; a; b; top]; of_list [q; a; b; top]; of_list [p; a; b; bot]; of_list [q; a; b; bot]] ->
    causal_type (cell_type label c) = true.
  Proof using N L.
    pose proof (proj1 (nodup6 _ _ _ _ _ _) N) as N'.
    destruct L as (t & Lp & Lq & La & Lb & Lt & Lo).
    replace (t - 1) with (t + (-1)) in Lo by lia. replace t with (t + 0) in Lp, Lq, La, Lb by lia.
    intros c Hc. cases_list Hc; subst c; (rewrite cell_type_of_list; [|rewrite nodup4; clear - N'; intuition congruence]); cbn [map];
      rewrite ?Lp, ?Lq, ?La, ?Lb, ?Lt, ?Lo, classify4; reflexivity.
  Qed.

  Lemma vertices_44 : vertices T' = vertices T.
  Proof using ok1 ok2.
    unfold T'. rewrite vertices_pachner by (exact ok2 || cbn; lia). apply vertices_pachner; [exact ok1|cbn; lia..].
  Qed.
End Effect44.
