(** Preparation and execution of the (6,2) move. *)
From Verif Require Import Base Tracker Geom Simplex Pachner Foliation Moves Links MoveCore MoveTools Move23 Move44 Move26.
From stdpp Require Import fin_sets gmap sorting.
Local Open Scope Z_scope.

Lemma replaces_sym T o n T' : replaces T o n T' -> replaces T' n o T.
Proof.
  intros (A & B & C & D & E). split; [exact B|]. split; [exact A|]. split; [|split].
  - intros s Hs. apply E. auto.
  - intros s Hs Ht. apply E in Ht as [[_ Ht]|Ht]; [contradiction|]. exact (D s Ht (C s Hs)).
  - intros s. rewrite E. specialize (C s). specialize (D s).
    destruct (decide (s ∈ o)), (decide (s ∈ n)); tauto.
Qed.

(** ** Labels of the six cells *)
Definition six_types (v d e a b c : Z) : list Z :=
  [classify [v; d; a; b]; classify [v; d; b; c]; classify [v; d; a; c];
   classify [v; a; b; e]; classify [v; b; c; e]; classify [v; a; c; e]].
Definition types_62 (l : list Z) : bool :=
  (Nat.eqb (length (List.filter (fun k => k =? THREE_ONE) l)) 3) && (Nat.eqb (length (List.filter (fun k => k =? ONE_THREE) l)) 3).
Definition near : list Z := [-1; 0; 1].
Definition check_62 : bool :=
  forallb (fun d => forallb (fun e => forallb (fun a => forallb (fun b => forallb (fun c =>
    negb (types_62 (six_types 0 d e a b c)) || (d =? 0) ||
    ((a =? 0) && (b =? 0) && (c =? 0) && (d + e =? 0) && negb (d =? 0))) near) near) near) near) near.

Lemma near_bits t x : (exists s b1 b2, t = s + b2z b1 /\ x = s + b2z b2) -> exists r, r ∈ near /\ x = t + r.
Proof.
  intros (s & b1 & b2 & -> & ->). exists (b2z b2 - b2z b1). split; [|lia].
  unfold near. destruct b1, b2; cbn; rewrite !elem_of_cons; tauto.
Qed.

Lemma labels_62 v d e a b c :
  (forall k, k ∈ six_types v d e a b c -> causal_type k = true) ->
  types_62 (six_types v d e a b c) = true -> v <> d ->
  a = v /\ b = v /\ c = v /\ ((d = v + 1 /\ e = v - 1) \/ (d = v - 1 /\ e = v + 1)).
Proof.
  intros Hc Ht Hd. unfold six_types in Hc.
  assert (N : forall x y z, causal_type (classify [v; x; y; z]) = true ->
     (exists r, r ∈ near /\ x = v + r) /\ (exists r, r ∈ near /\ y = v + r) /\ (exists r, r ∈ near /\ z = v + r)).
  { intros x y z H. destruct (causal_bits _ _ _ _ H) as (s & b1 & b2 & b3 & b4 & A & B & C & D).
    split; [|split]; apply near_bits; eauto. }
  destruct (N d a b) as ((rd & Hd' & ->) & (ra & Ha & ->) & (rb & Hb & ->)); [apply Hc; rewrite !elem_of_cons; tauto|].
  destruct (N (v + rb) c e) as (_ & (rc & Hc' & ->) & (re & He & ->)).
  { assert (E : classify [v; v + rb; c; e] ∈ [classify [v; v + rd; v + ra; v + rb]; classify [v; v + rd; v + rb; c]; classify [v; v + rd; v + ra; c]; classify [v; v + ra; v + rb; e]; classify [v; v + rb; c; e]; classify [v; v + ra; c; e]]) by (rewrite !elem_of_cons; tauto).
    apply Hc. exact E. }
  clear N Hc.
  assert (Hsix : six_types v (v + rd) (v + re) (v + ra) (v + rb) (v + rc) = six_types 0 rd re ra rb rc).
  { unfold six_types. pose proof (fun x y z => classify4 v 0 x y z) as C4. rewrite Z.add_0_r in C4. rewrite !C4. reflexivity. }
  rewrite Hsix in Ht.
  assert (CK : check_62 = true) by (vm_compute; reflexivity).
  unfold check_62 in CK. rewrite forallb_forall in CK. setoid_rewrite <- elem_of_list_In in CK.
  pose proof (CK rd Hd') as C1. cbn beta in C1. rewrite forallb_forall in C1. setoid_rewrite <- elem_of_list_In in C1.
  pose proof (C1 re He) as C2. cbn beta in C2. rewrite forallb_forall in C2. setoid_rewrite <- elem_of_list_In in C2.
  pose proof (C2 ra Ha) as C3. cbn beta in C3. rewrite forallb_forall in C3. setoid_rewrite <- elem_of_list_In in C3.
  pose proof (C3 rb Hb) as C4. cbn beta in C4. rewrite forallb_forall in C4. setoid_rewrite <- elem_of_list_In in C4.
  pose proof (C4 rc Hc') as C5. cbn beta in C5. clear CK C1 C2 C3 C4.
  rewrite Ht in C5. cbn [negb orb] in C5. apply orb_true_iff in C5 as [C5|C5]; [apply Z.eqb_eq in C5; lia|].
  rewrite !andb_true_iff, negb_true_iff, !Z.eqb_eq, Z.eqb_neq in C5.
  unfold near in Hd'. rewrite !elem_of_cons, elem_of_nil in Hd'. destruct C5 as ((((A & B) & C) & D) & E).
  assert (rd = -1 \/ rd = 1) as [->| ->] by (destruct Hd' as [->|[->|[->|[]]]]; tauto); lia.
Qed.

Lemma flip_some_spec label T edges T1 : flip_some_edge label T edges = Flipped T1 ->
  exists e, e ∈ edges /\ timelike label e = true /\ tds_flip_edge T e = Flipped T1.
Proof.
  induction edges as [|e r IH]; cbn [flip_some_edge]; [discriminate|].
  destruct (timelike label e) eqn:Et.
  - destruct (tds_flip_edge T e) as [T2| |] eqn:Ef; intros H.
    + injection H as ->. exists e. split; [constructor|]. auto.
    + destruct (IH H) as (e' & A & B & C). exists e'. split; [constructor; exact A|]. auto.
    + discriminate.
  - intros H. destruct (IH H) as (e' & A & B & C). exists e'. split; [constructor; exact A|]. auto.
Qed.

Lemma elem_of_link v T k : k ∈ link_vertices {[v]} T <-> k <> v /\ exists s, s ∈ T /\ v ∈ s /\ k ∈ s.
Proof.
  unfold link_vertices. rewrite elem_of_difference, elem_of_singleton, elem_of_union_list. setoid_rewrite elem_of_elements.
  setoid_rewrite elem_of_star. setoid_rewrite singleton_subseteq_l. split.
  - intros [(s & [A B] & C) D]. split; [exact D|]. eauto.
  - intros [D (s & A & B & C)]. split; [|exact D]. eauto.
Qed.

(** Four cells at [v] on four link vertices: they are all four. *)
Lemma four_cells T v a b c e : pure T -> size (star {[v]} T) = 4%nat ->
  NoDup [a; b; c; e; v] -> link_vertices {[v]} T = of_list [a; b; c; e] ->
  forall s, s ∈ star {[v]} T <-> s ∈ map (omit [a; b; c; e; v]) [a; b; c; e].
Proof.
  intros HP H4 N EL.
  set (X := list_to_set (map (omit [a; b; c; e; v]) [a; b; c; e]) : gset simplex).
  assert (EX : forall s, s ∈ X <-> s ∈ map (omit [a; b; c; e; v]) [a; b; c; e]) by (intros s; unfold X; apply elem_of_list_to_set).
  assert (SX : size X = 4%nat).
  { unfold X. rewrite size_list_to_set; [reflexivity|]. apply map_omit_NoDup.
    - apply (sublist_NoDup _ [a; b; c; e; v]); [repeat constructor|exact N].
    - intros y Hy. rewrite !elem_of_cons in *. tauto. }
  assert (Hsub : star {[v]} T ⊆ X).
  { intros s Hs. apply EX. pose proof Hs as Hs'. apply elem_of_star in Hs' as [HsT Hvs]. rewrite singleton_subseteq_l in Hvs.
    assert (Hin : forall k, k ∈ s -> k = v \/ k ∈ [a; b; c; e]).
    { intros k Hk. destruct (decide (k = v)) as [->|Hkv]; [auto|right]. rewrite <- elem_of_of_list, <- EL. apply elem_of_link. eauto. }
    assert (Hsl : s ⊆ of_list [a; b; c; e; v]).
    { intros k Hk. rewrite elem_of_of_list. destruct (Hin k Hk) as [->|H]; rewrite !elem_of_cons in *; tauto. }
    assert (Hd : size (of_list [a; b; c; e; v] ∖ s) = 1%nat).
    { rewrite size_difference by exact Hsl. rewrite of_list_size by exact N. rewrite (HP s HsT). reflexivity. }
    destruct (size_one_inv _ Hd) as (y & Ey & _). apply elem_of_list_fmap. exists y.
    assert (Hy : y ∈ of_list [a; b; c; e; v] ∖ s) by (rewrite Ey; set_solver +).
    rewrite elem_of_difference, elem_of_of_list in Hy. destruct Hy as [Hy1 Hy2]. split.
    - apply set_eq. intros k. rewrite elem_of_omit. split.
      + intros Hk. split; [rewrite <- elem_of_of_list; apply Hsl; exact Hk|]. intros ->. contradiction.
      + intros [Hk Hky]. destruct (decide (k ∈ s)) as [|Hks]; [assumption|]. exfalso. apply Hky.
        assert (k ∈ of_list [a; b; c; e; v] ∖ s) by (rewrite elem_of_difference, elem_of_of_list; auto).
        rewrite Ey in H. apply elem_of_singleton in H. exact H.
    - rewrite !elem_of_cons in *. destruct Hy1 as [->|[->|[->|[->|[->|Hn]]]]]; try tauto; contradiction. }
  assert (EQ : star {[v]} T = X).
  { apply set_eq. intros s. split; [apply Hsub|]. intros Hs. destruct (decide (s ∈ star {[v]} T)) as [|Hn]; [assumption|].
    exfalso. assert (size (star {[v]} T) < size X)%nat; [|lia]. apply subset_size. split; [exact Hsub|]. intros H. apply Hn, H, Hs. }
  intros s. rewrite EQ. apply EX.
Qed.

Lemma move_62_effect label junk locates T v edges T' :
  valid T -> (forall e, e ∈ edges -> exists w, w <> v /\ e = of_list [v; w]) ->
  move_62 label junk locates T v edges = Done T' ->
  exists a b c d e,
    NoDup [a; b; c; v; d; e] /\ infinite ∉ [a; b; c; v; d; e] /\ labels_26 label a b c v d e /\
    pachner_ok T' [v] [a; b; c; d] /\ pachner_ok (pachner T' [v] [a; b; c; d]) [v; e] [a; b; c] /\
    T = pachner (pachner T' [v] [a; b; c; d]) [v; e] [a; b; c] /\ valid T'.
Proof.
  intros VT Hedges. unfold move_62, bind.
  destruct (prepare_62 label junk T v) as [[]|?|] eqn:Hp; try discriminate.
  unfold prepare_62 in Hp. destruct (_ || _) eqn:Hv; [discriminate|].
  destruct (is_62_movable label junk T v) eqn:Hm; cbn [negb] in Hp; [|discriminate]. clear Hp Hv.
  unfold execute_62. destruct (negb (locates T v)); [discriminate|].
  destruct (flip_some_edge label T edges) as [T1| |] eqn:Ef; try discriminate.
  destruct (Nat.eqb (degree T1 v) 4) eqn:Hdeg; cbn [negb orb]; [|discriminate]. apply Nat.eqb_eq in Hdeg.
  destruct (tds_valid T1) eqn:V1; cbn [negb orb]; [|discriminate]. apply tds_valid_spec in V1.
  destruct (negb (tds_valid (remove_vertex T1 v)) || _ || _) eqn:V2; [discriminate|].
  destruct (forallb _ _); [|discriminate]. intros [= ET'].
  apply orb_false_iff in V2 as [V2 _]. apply orb_false_iff in V2 as [V2 _]. apply negb_false_iff, tds_valid_spec in V2.
  rewrite ET' in V2.
  apply flip_some_spec in Ef as (ed & Hed & Htl & Hfl).
  destruct (Hedges ed Hed) as (e & Hev & Eed).
  assert (Hs2 : size ed = 2%nat).
  { rewrite Eed. apply of_list_size. repeat constructor; rewrite ?elem_of_cons, ?elem_of_nil; intuition congruence. }
  destruct (flip_edge_pachner T ed T1 VT Hs2 Hfl) as (p & q & a & b & c & Epq & EL & ok0 & ET1 & ES).
  pose proof (po_nodup _ _ _ ok0) as Nd0. cbn [app] in Nd0.
  assert (Pe : [p; q] ≡ₚ [v; e]).
  { apply of_list_eq_perm; [apply (sublist_NoDup _ [a; b; c; p; q]); [repeat constructor|exact Nd0]| |congruence].
    repeat constructor; rewrite ?elem_of_cons, ?elem_of_nil; intuition congruence. }
  assert (ok1 : pachner_ok T [a; b; c] [v; e]) by (refine (pachner_ok_perm _ _ _ _ _ _ Pe ok0); reflexivity).
  assert (ET1' : T1 = pachner T [a; b; c] [v; e]) by (rewrite ET1; apply pachner_perm; [reflexivity|exact Pe]).
  assert (Pq : forall y z, of_list [p; q; y; z] = of_list [v; e; y; z]).
  { intros y z. apply of_list_perm. change [p; q; y; z] with ([p; q] ++ [y; z]). rewrite Pe. reflexivity. }
  rewrite !Pq in ES. clear Pq ok0 ET1 Nd0 Pe Epq p q.
  pose proof (po_nodup _ _ _ ok1) as Nd. cbn [app] in Nd. pose proof (proj1 (NoDup_5 _ _ _ _ _) Nd) as Nd'.
  (* cells of T1 *)
  assert (Oa : omit [a; b; c; v; e] a = of_list [v; e; b; c]) by omits Nd'.
  assert (Ob : omit [a; b; c; v; e] b = of_list [v; e; a; c]) by omits Nd'.
  assert (Oc : omit [a; b; c; v; e] c = of_list [v; e; a; b]) by omits Nd'.
  assert (Ov : omit [a; b; c; v; e] v = of_list [a; b; c; e]) by omits Nd'.
  assert (Oe : omit [a; b; c; v; e] e = of_list [a; b; c; v]) by omits Nd'.
  pose proof (pachner_replaces _ _ _ ok1) as R1. cbn [app map] in R1. rewrite Oa, Ob, Oc, Ov, Oe, <- ET1' in R1.
  destruct R1 as (NO & NN & RO & RN & RT).
  (* the star of v in T1 *)
  unfold is_62_movable in Hm. rewrite !andb_true_iff in Hm.
  destruct Hm as [[[[[[[[_ Hd5] H6] Hfin] _] Hcor] H31] H22] H13].
  apply Nat.eqb_eq in H6. change (size (star {[v]} T) = 6%nat) in H6.
  assert (star_v : forall X s, s ∈ star {[v]} X <-> s ∈ X /\ v ∈ s).
  { intros X s. rewrite elem_of_star, singleton_subseteq_l. reflexivity. }
  assert (Hin : forall y z, v ∈ of_list [v; y; z; y]) by (intros; rewrite elem_of_of_list; constructor).
  set (three := [of_list [v; e; b; c]; of_list [v; e; a; c]; of_list [v; e; a; b]]) in *.
  assert (Hthree : forall s, s ∈ three -> s ∈ star {[v]} T).
  { intros s Hs. apply star_v. split; [apply RO; exact Hs|]. unfold three in Hs. rewrite !elem_of_cons, elem_of_nil in Hs.
    destruct Hs as [->|[->|[->|[]]]]; rewrite elem_of_of_list; constructor. }
  assert (Hst1 : star {[v]} T1 = (star {[v]} T ∖ list_to_set three) ∪ {[of_list [a; b; c; v]]}).
  { apply set_eq. intros s. rewrite star_v, RT, elem_of_union, elem_of_difference, star_v, elem_of_list_to_set, elem_of_singleton.
    split.
    - intros [[[A B]|A] C]; [auto|]. right. rewrite !elem_of_cons, elem_of_nil in A. destruct A as [->|[->|[]]]; [|reflexivity].
      exfalso. rewrite elem_of_of_list, !elem_of_cons, elem_of_nil in C. clear - C Nd'. intuition congruence.
    - intros [[[A B] C]| ->]; [auto|]. split; [right; rewrite !elem_of_cons; tauto|]. rewrite elem_of_of_list, !elem_of_cons. tauto. }
  assert (Hnew : of_list [a; b; c; v] ∉ T) by (apply RN; rewrite !elem_of_cons; tauto).
  assert (H4 : size (star {[v]} T1) = 4%nat).
  { rewrite Hst1, size_union, size_singleton.
    - rewrite size_difference.
      + rewrite H6, size_list_to_set by exact NO. reflexivity.
      + intros s Hs. apply elem_of_list_to_set in Hs. apply Hthree. exact Hs.
    - apply disjoint_singleton_r. rewrite elem_of_difference, star_v. tauto. }
  (* link of v in T1 *)
  assert (Hlk : forall y, y ∈ [a; b; c] -> y ∈ link_vertices {[v]} T1).
  { intros y Hy. apply elem_of_link. split.
    - rewrite !elem_of_cons, elem_of_nil in Hy. clear - Hy Nd'. intuition congruence.
    - exists (of_list [a; b; c; v]). split; [apply RT; right; rewrite !elem_of_cons; tauto|].
      rewrite !elem_of_of_list, !elem_of_cons in *. tauto. }
  assert (Nabc : NoDup [a; b; c]) by (apply (sublist_NoDup _ [a; b; c; v; e]); [repeat constructor|exact Nd]).
  assert (Hd1 : size (link_vertices {[v]} T1 ∖ of_list [a; b; c]) = 1%nat).
  { rewrite size_difference; [|intros y; rewrite elem_of_of_list; apply Hlk].
    unfold degree in Hdeg. rewrite Hdeg, of_list_size by exact Nabc. reflexivity. }
  destruct (size_one_inv _ Hd1) as (d & Ed & _).
  assert (Hd : d ∈ link_vertices {[v]} T1 ∖ of_list [a; b; c]) by (rewrite Ed; set_solver +).
  apply elem_of_difference in Hd as [Hdl Hdn]. rewrite elem_of_of_list in Hdn.
  assert (ELk : link_vertices {[v]} T1 = of_list [a; b; c; d]).
  { apply set_eq. intros k. rewrite elem_of_of_list. split.
    - intros Hk. destruct (decide (k ∈ [a; b; c])) as [Hy|Hy]; [rewrite !elem_of_cons in *; tauto|].
      assert (k ∈ link_vertices {[v]} T1 ∖ of_list [a; b; c]) by (rewrite elem_of_difference, elem_of_of_list; auto).
      rewrite Ed in H. apply elem_of_singleton in H as ->. rewrite !elem_of_cons. tauto.
    - intros Hk. rewrite !elem_of_cons, elem_of_nil in Hk. destruct Hk as [->|[->|[->|[->|[]]]]]; [apply Hlk..|exact Hdl]; rewrite !elem_of_cons; tauto. }
  assert (Hdv : d <> v) by (apply elem_of_link in Hdl; tauto).
  assert (Hde : d <> e).
  { intros ->. apply elem_of_link in Hdl as [_ (s & Hs & Hvs & Hes)].
    apply (po_absent _ _ _ (pachner_ok_reverse _ _ _ ok1) s); [rewrite <- ET1'; exact Hs|].
    intros k. rewrite elem_of_of_list, !elem_of_cons, elem_of_nil. intros [->|[->|[]]]; assumption. }
  assert (N6 : NoDup [a; b; c; v; d; e]).
  { apply nodup6. clear - Nd' Hdn Hdv Hde. rewrite !elem_of_cons, elem_of_nil in Hdn. intuition congruence. }
  pose proof (proj1 (nodup6 _ _ _ _ _ _) N6) as N'.
  assert (N5 : NoDup [a; b; c; d; v]) by (apply NoDup_5; clear - N'; intuition congruence).
  pose proof (four_cells T1 v a b c d (va_pure _ V1) H4 N5 ELk) as F4.
  assert (Pa : omit [a; b; c; d; v] a = of_list [v; b; c; d]) by omits N'.
  assert (Pb : omit [a; b; c; d; v] b = of_list [v; a; c; d]) by omits N'.
  assert (Pc : omit [a; b; c; d; v] c = of_list [v; a; b; d]) by omits N'.
  assert (Pd : omit [a; b; c; d; v] d = of_list [a; b; c; v]) by omits N'.
  assert (Pv : omit [a; b; c; d; v] v = of_list [a; b; c; d]) by omits N'.
  cbn [map] in F4. rewrite Pa, Pb, Pc, Pd in F4.
  assert (ok2 : pachner_ok T1 [a; b; c; d] [v]).
  { constructor; cbn [app].
    - exact N5.
    - reflexivity.
    - discriminate.
    - discriminate.
    - intros y Hy. assert (Hy' : omit [a; b; c; d; v] y ∈ star {[v]} T1).
      { apply F4. rewrite !elem_of_cons, elem_of_nil in Hy. destruct Hy as [->|[->|[->|[->|[]]]]]; rewrite ?Pa, ?Pb, ?Pc, ?Pd, !elem_of_cons; tauto. }
      apply star_v in Hy'. tauto.
    - intros s Hs Hsub. assert (Hss : s ∈ star {[v]} T1).
      { apply star_v. split; [exact Hs|]. apply Hsub. rewrite elem_of_of_list. constructor. }
      apply F4 in Hss. rewrite !elem_of_cons, elem_of_nil in Hss. destruct Hss as [->|[->|[->|[->|[]]]]].
      + exists a. rewrite Pa. split; [rewrite !elem_of_cons; tauto|reflexivity].
      + exists b. rewrite Pb. split; [rewrite !elem_of_cons; tauto|reflexivity].
      + exists c. rewrite Pc. split; [rewrite !elem_of_cons; tauto|reflexivity].
      + exists d. rewrite Pd. split; [rewrite !elem_of_cons; tauto|reflexivity].
    - intros s Hs Hsub.
      assert (HA : of_list [a; b; c; v] ∈ T1) by (apply RT; right; rewrite !elem_of_cons; tauto).
      assert (HB : of_list [a; b; c; e] ∈ T1) by (apply RT; right; rewrite !elem_of_cons; tauto).
      destruct (two_cells T1 (va_closed _ V1) (of_list [a; b; c]) _ HA) as (n & Hn & Hnc & _ & Hall).
      { intros k. rewrite !elem_of_of_list, !elem_of_cons. tauto. }
      { apply of_list_size. exact Nabc. }
      assert (En : n = of_list [a; b; c; e]).
      { destruct (Hall _ HB) as [E|E]; [intros k; rewrite !elem_of_of_list, !elem_of_cons; tauto| |congruence].
        exfalso. cellabsurd E N'. }
      assert (Hds : d ∈ s) by (apply Hsub; rewrite elem_of_of_list, !elem_of_cons; tauto).
      destruct (Hall s Hs) as [->| ->].
      { intros k Hk. apply Hsub. rewrite !elem_of_of_list, !elem_of_cons in *. tauto. }
      + rewrite elem_of_of_list, !elem_of_cons, elem_of_nil in Hds. clear - Hds N'. intuition congruence.
      + rewrite En, elem_of_of_list, !elem_of_cons, elem_of_nil in Hds. clear - Hds N'. intuition congruence. }
  assert (ET2 : T' = pachner T1 [a; b; c; d] [v]).
  { rewrite <- ET'. apply set_eq. intros s. unfold remove_vertex. rewrite elem_of_union, elem_of_difference, elem_of_singleton, ELk.
    pose proof (pachner_replaces _ _ _ ok2) as (_ & _ & _ & _ & R). cbn [app map] in R. rewrite Pa, Pb, Pc, Pd, Pv in R.
    rewrite R, F4, elem_of_list_singleton. reflexivity. }
  (* labels *)
  assert (Mem : forall s, s ∈ [of_list [v; a; b; d]; of_list [v; b; c; d]; of_list [v; a; c; d]] -> s ∈ star {[v]} T).
  { intros s Hs. assert (Hs1 : s ∈ star {[v]} T1) by (apply F4; rewrite !elem_of_cons in *; tauto).
    rewrite Hst1, elem_of_union, elem_of_difference, elem_of_singleton in Hs1. destruct Hs1 as [[Hs1 _]|Hs1]; [exact Hs1|].
    exfalso. rewrite !elem_of_cons, elem_of_nil in Hs. destruct Hs as [->|[->|[->|[]]]]; cellabsurd Hs1 N'. }
  assert (Hl6 : NoDup [of_list [v; e; a; b]; of_list [v; e; b; c]; of_list [v; e; a; c]; of_list [v; a; b; d]; of_list [v; b; c; d]; of_list [v; a; c; d]]).
  { repeat (apply NoDup_cons; split); try apply NoDup_nil_2; rewrite ?elem_of_cons, ?elem_of_nil; intros H;
      repeat (destruct H as [H|H]; [cellabsurd H N'|]); exact H. }
  assert (P6 : elements (star {[v]} T) ≡ₚ [of_list [v; e; a; b]; of_list [v; e; b; c]; of_list [v; e; a; c]; of_list [v; a; b; d]; of_list [v; b; c; d]; of_list [v; a; c; d]]).
  { symmetry. apply submseteq_Permutation_length_eq; [exact H6|]. apply NoDup_submseteq; [exact Hl6|].
    intros s Hs. apply elem_of_elements. rewrite !elem_of_cons, elem_of_nil in Hs.
    destruct Hs as [->|[->|[->|[->|[->|[->|[]]]]]]]; try (apply Hthree; unfold three; rewrite !elem_of_cons; tauto);
      apply Mem; rewrite !elem_of_cons; tauto. }
  rewrite (count_type_perm _ _ _ _ P6) in H31. rewrite (count_type_perm _ _ _ _ P6) in H13.
  rewrite forallb_forall in Hfin, Hcor. setoid_rewrite <- elem_of_list_In in Hfin. setoid_rewrite <- elem_of_list_In in Hcor.
  assert (T4 : forall y z w, NoDup [v; y; z; w] -> cell_type label (of_list [v; y; z; w]) = classify [label v; label y; label z; label w]).
  { intros y z w H. rewrite cell_type_of_list by exact H. reflexivity. }
  assert (D4 : NoDup [v; e; a; b] /\ NoDup [v; e; b; c] /\ NoDup [v; e; a; c] /\ NoDup [v; a; b; d] /\ NoDup [v; b; c; d] /\ NoDup [v; a; c; d]).
  { rewrite !nodup4. clear - N'. intuition congruence. }
  destruct D4 as (D1 & D2 & D3 & D4 & D5 & D6).
  assert (Types : map (cell_type label) [of_list [v; e; a; b]; of_list [v; e; b; c]; of_list [v; e; a; c]; of_list [v; a; b; d]; of_list [v; b; c; d]; of_list [v; a; c; d]]
     = six_types (label v) (label e) (label d) (label a) (label b) (label c)).
  { cbn [map]. rewrite !T4 by assumption. reflexivity. }
  assert (Hve : label v <> label e).
  { rewrite Eed, timelike_of_list in Htl by congruence. apply negb_true_iff, Z.eqb_neq in Htl. exact Htl. }
  destruct (labels_62 (label v) (label e) (label d) (label a) (label b) (label c)) as (La & Lb & Lc & Lde).
  { rewrite <- Types. intros k Hk. apply elem_of_list_fmap in Hk as (s & -> & Hs).
    assert (Hs' : s ∈ elements (star {[v]} T)) by (apply (elem_of_Permutation_proper s _ _ P6); exact Hs).
    destruct (correct_causal label junk T s (Hcor s Hs')) as [H|H]; [exact H|].
    exfalso. apply H. apply elem_of_elements, star_v in Hs' as [Hs' _]. apply (va_pure _ VT). exact Hs'. }
  { rewrite <- Types. unfold types_62. unfold count_type in H31, H13. apply Z.eqb_eq in H31, H13.
    assert (FM : forall k l, length (List.filter (fun y => y =? k) (map (cell_type label) l)) = length (List.filter (fun s => cell_type label s =? k) l)).
    { intros k l. induction l as [|s l IH]; [reflexivity|]. cbn [map List.filter]. destruct (cell_type label s =? k); cbn; congruence. }
    rewrite !FM. apply andb_true_iff. rewrite !Nat.eqb_eq. split; [apply (Nat2Z.inj _ 3); exact H31|apply (Nat2Z.inj _ 3); exact H13]. }
  { exact Hve. }
  exists a, b, c, d, e. split; [exact N6|]. split.
  { pose proof (Hfin (of_list [v; e; a; b])) as F1. pose proof (Hfin (of_list [v; b; c; d])) as F2.
    rewrite (elem_of_Permutation_proper _ _ _ P6) in F1. rewrite (elem_of_Permutation_proper _ _ _ P6) in F2.
    specialize (F1 ltac:(rewrite !elem_of_cons; tauto)). specialize (F2 ltac:(rewrite !elem_of_cons; tauto)).
    apply finite_spec in F1, F2. rewrite elem_of_of_list in F1, F2. clear - F1 F2. rewrite !elem_of_cons, !elem_of_nil in *. tauto. }
  split; [exists (label v); clear - La Lb Lc Lde; repeat split; try assumption; lia|].
  assert (B2 : pachner T' [v] [a; b; c; d] = T1) by (rewrite ET2; apply pachner_inverse; exact ok2).
  split; [rewrite ET2; apply pachner_ok_reverse; exact ok2|]. rewrite B2, ET1'.
  split; [apply pachner_ok_reverse; exact ok1|]. split; [symmetry; apply pachner_inverse; exact ok1|exact V2].
Qed.
