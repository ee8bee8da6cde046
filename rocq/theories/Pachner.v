(** Pachner (bistellar) moves on finite simplicial complexes: five vertices
    U ⊎ V; the cells B∖x (x in U) are replaced by the cells B∖x (x in V).
    This is the combinatorial content of CGAL's Triangulation_data_structure_3
    flips (2-3, 3-2), vertex insertion in a cell (1-4) and
    remove_from_maximal_dimension_simplex (4-1), which
    include/Ergodic_moves_3.hpp composes into the CDT moves. *)
From Verif Require Import Base Simplex.
From stdpp Require Import fin_sets gmap.
Local Open Scope Z_scope.

(** The cells of the five-vertex ball [of_list l] that omit one vertex of [xs]. *)
Definition omit (l : list vertex) (x : vertex) : simplex := of_list l ∖ {[x]}.
Definition pachner (T : tds) (lU lV : list vertex) : tds :=
  (T ∖ list_to_set (map (omit (lU ++ lV)) lU)) ∪ list_to_set (map (omit (lU ++ lV)) lV).

(** The move is legal: five distinct vertices, the old cells are present and are
    all the cells around V, and U is not yet a face. *)
Record pachner_ok (T : tds) (lU lV : list vertex) : Prop := {
  po_nodup : NoDup (lU ++ lV);
  po_five : length (lU ++ lV) = 5%nat;
  po_U : lU <> [];
  po_V : lV <> [];
  po_present : forall x, x ∈ lU -> omit (lU ++ lV) x ∈ T;
  po_around : forall c, c ∈ T -> of_list lV ⊆ c -> exists x, x ∈ lU /\ c = omit (lU ++ lV) x;
  po_absent : forall c, c ∈ T -> ~ of_list lU ⊆ c }.

(** Every cell has four vertices. *)
Definition pure (T : tds) : Prop := forall c, c ∈ T -> size c = 4%nat.
(** Every facet lies in exactly two cells (a closed 3-dimensional complex, as a
    CGAL triangulation with its infinite vertex is). *)
Definition cofaces (f : simplex) (T : tds) : Z := count (fun c => bool_decide (f ⊆ c)) T.
Definition closed (T : tds) : Prop := forall f, f ∈ faces 3 T -> cofaces f T = 2.

Lemma elem_of_omit l x y : y ∈ omit l x <-> y ∈ l /\ y <> x.
Proof. unfold omit. rewrite elem_of_difference, elem_of_of_list, elem_of_singleton. tauto. Qed.

Lemma omit_size l x : NoDup l -> x ∈ l -> size (omit l x) = pred (length l).
Proof.
  intros Hn Hx. unfold omit. rewrite size_difference.
  - rewrite size_singleton, of_list_size by exact Hn. lia.
  - intros y Hy. apply elem_of_singleton in Hy as ->. apply elem_of_of_list. exact Hx.
Qed.

Lemma omit_inj l x y : x ∈ l -> omit l x = omit l y -> x = y.
Proof.
  intros Hx E. destruct (decide (x = y)) as [|Hn]; [assumption|].
  assert (x ∈ omit l y) by (apply elem_of_omit; auto). rewrite <- E in H.
  apply elem_of_omit in H. tauto.
Qed.

Lemma map_omit_NoDup l xs : NoDup xs -> (forall x, x ∈ xs -> x ∈ l) -> NoDup (map (omit l) xs).
Proof.
  induction xs as [|x xs IH]; intros Hn Hl; [constructor|].
  apply NoDup_cons in Hn as [Hx Hn]. cbn. apply NoDup_cons. split.
  - intros H. apply elem_of_list_fmap in H as (y & E & Hy). apply Hx.
    replace x with y; [exact Hy|]. symmetry. apply (omit_inj l); [apply Hl; constructor|exact E].
  - apply IH; [exact Hn|]. intros y Hy. apply Hl. constructor. exact Hy.
Qed.

Lemma not_subseteq (A B : simplex) : ~ A ⊆ B -> exists x, x ∈ A /\ x ∉ B.
Proof.
  intros H. destruct (decide (A ∖ B = ∅)) as [E|E].
  - exfalso. apply H. intros x Hx. destruct (decide (x ∈ B)); [assumption|].
    assert (x ∈ A ∖ B) by set_solver. rewrite E in H0. set_solver.
  - apply set_choose_L in E as [x Hx]. exists x. set_solver.
Qed.

Lemma subset_omit_gen l (s : simplex) x : s ⊆ of_list l -> x ∉ s -> s ⊆ omit l x.
Proof. intros Hs Hx y Hy. apply elem_of_omit. split; [apply elem_of_of_list, Hs, Hy|]. intros ->. contradiction. Qed.

Section Move.
  Variable T : tds.
  Variables lU lV : list vertex.
  Hypothesis ok : pachner_ok T lU lV.
  Let B := lU ++ lV.
  Let U := of_list lU.
  Let V := of_list lV.

  Lemma B_split : of_list B = U ∪ V.
  Proof using. apply of_list_app. Qed.

  Lemma UV_disjoint : U ## V.
  Proof using ok.
    intros x HU HV. apply elem_of_of_list in HU, HV.
    destruct ok as [Hn _ _ _ _ _ _]. apply NoDup_app in Hn as (_ & H & _). exact (H x HU HV).
  Qed.

  Lemma elem_of_pachner c : c ∈ pachner T lU lV <->
    (c ∈ T /\ ~ V ⊆ c) \/ exists x, x ∈ lV /\ c = omit B x.
  Proof using ok.
    unfold pachner. rewrite elem_of_union, elem_of_difference, !elem_of_list_to_set, !elem_of_list_fmap.
    fold B. split.
    - intros [[HT HR]|(x & -> & Hx)]; [left|right; eauto].
      split; [exact HT|]. intros HV. destruct (po_around _ _ _ ok c HT HV) as (x & Hx & E). apply HR. eauto.
    - intros [[HT HV]|(x & Hx & ->)]; [left|right; eauto].
      split; [exact HT|]. intros (x & -> & Hx). apply HV. intros y Hy.
      apply elem_of_omit. apply elem_of_of_list in Hy. split; [apply elem_of_app; auto|].
      intros ->. apply (UV_disjoint x); apply elem_of_of_list; assumption.
  Qed.

  Lemma omit_V x : x ∈ lU -> V ⊆ omit B x.
  Proof using ok.
    intros Hx y Hy. apply elem_of_omit. pose proof Hy as Hy'. apply elem_of_of_list in Hy'. split; [apply elem_of_app; auto|].
    intros ->. apply (UV_disjoint x); [apply elem_of_of_list; exact Hx|exact Hy].
  Qed.

  Lemma omit_U x : x ∈ lV -> U ⊆ omit B x.
  Proof using ok.
    intros Hx y Hy. apply elem_of_omit. pose proof Hy as Hy'. apply elem_of_of_list in Hy'. split; [apply elem_of_app; auto|].
    intros ->. apply (UV_disjoint x); [exact Hy|apply elem_of_of_list; exact Hx].
  Qed.

  Lemma added_absent x : x ∈ lV -> omit B x ∉ T.
  Proof using ok. intros Hx HT. apply (po_absent _ _ _ ok _ HT). apply omit_U. exact Hx. Qed.

  Lemma subset_omit (s : simplex) x : s ⊆ of_list B -> x ∉ s -> s ⊆ omit B x.
  Proof using. intros Hs Hx y Hy. apply elem_of_omit. split; [apply elem_of_of_list, Hs, Hy|]. intros ->. contradiction. Qed.

  Lemma omit_B x : omit B x ⊆ of_list B.
  Proof using. intros y Hy. apply elem_of_omit in Hy as [Hy _]. apply elem_of_of_list. exact Hy. Qed.

  Lemma pachner_pure : pure T -> pure (pachner T lU lV).
  Proof using ok.
    intros HT c Hc. apply elem_of_pachner in Hc as [[Hc _]|(x & Hx & ->)]; [apply HT; exact Hc|].
    rewrite omit_size; [|exact (po_nodup _ _ _ ok)|apply elem_of_app; auto].
    unfold B. rewrite (po_five _ _ _ ok). reflexivity.
  Qed.

  (** The faces that disappear and those that appear. *)
  Lemma faces_pachner k s : (k <= 4)%nat ->
    s ∈ faces k (pachner T lU lV) <->
    (s ∈ faces k T /\ ~ V ⊆ s) \/ (size s = k /\ U ⊆ s /\ s ⊆ of_list B).
  Proof using ok.
    intros Hk4. rewrite !elem_of_faces. split.
    - intros (Hk & c & Hc & Hs). apply elem_of_pachner in Hc as [[HT HV]|(x & Hx & ->)].
      + left. split; [eauto|]. intros HVs. apply HV. set_solver.
      + destruct (decide (U ⊆ s)) as [HU|HU].
        * right. split; [exact Hk|]. split; [exact HU|]. etransitivity; [exact Hs|apply omit_B].
        * left. apply not_subseteq in HU as (u & Hu & Hus). split.
          { split; [exact Hk|]. exists (omit B u). split; [apply (po_present _ _ _ ok); apply elem_of_of_list; exact Hu|].
            apply subset_omit; [etransitivity; [exact Hs|apply omit_B]|exact Hus]. }
          intros HV. assert (Hxs : x ∈ s) by (apply HV, elem_of_of_list, Hx). apply Hs, elem_of_omit in Hxs. tauto.
    - intros [[(Hk & c & Hc & Hs) HV]|(Hk & HU & Hs)].
      + split; [exact Hk|]. destruct (decide (V ⊆ c)) as [HVc|HVc].
        * destruct (po_around _ _ _ ok c Hc HVc) as (u & Hu & ->).
          apply not_subseteq in HV as (v & Hv & Hvs). exists (omit B v). split.
          { apply elem_of_pachner. right. exists v. split; [apply elem_of_of_list; exact Hv|reflexivity]. }
          apply subset_omit; [etransitivity; [exact Hs|apply omit_B]|exact Hvs].
        * exists c. split; [|exact Hs]. apply elem_of_pachner. auto.
      + split; [exact Hk|].
        assert (HV : ~ V ⊆ s).
        { intros HV. assert (s = of_list B) by (apply set_eq; intros y; rewrite B_split in *; set_solver).
          assert (size s = 5%nat); [|lia]. rewrite H, of_list_size; [exact (po_five _ _ _ ok)|exact (po_nodup _ _ _ ok)]. }
        apply not_subseteq in HV as (v & Hv & Hvs). exists (omit B v). split.
        { apply elem_of_pachner. right. exists v. split; [apply elem_of_of_list; exact Hv|reflexivity]. }
        apply subset_omit; assumption.
  Qed.
End Move.

(** k-element faces W ∪ r with r a sublist of [l], explicitly. *)
Definition star_faces (k : nat) (lW l : list vertex) : list simplex :=
  if Nat.leb (length lW) k then map (fun r => of_list (lW ++ r)) (ksub (k - length lW) l) else [].

Lemma elem_of_star_faces k lW l s : NoDup (lW ++ l) ->
  s ∈ star_faces k lW l <-> size s = k /\ of_list lW ⊆ s /\ s ⊆ of_list (lW ++ l).
Proof.
  intros Hn. pose proof Hn as Hn'. apply NoDup_app in Hn' as (HW & Hd & Hl).
  assert (Hd' : of_list lW ## of_list l).
  { intros x A B. apply elem_of_of_list in A, B. exact (Hd x A B). }
  unfold star_faces. destruct (Nat.leb (length lW) k) eqn:E.
  - apply Nat.leb_le in E. rewrite elem_of_list_fmap. split.
    + intros (r & -> & Hr).
      assert (Hr' : of_list r ∈ ksubsets (k - length lW) l) by (apply elem_of_list_fmap; eauto).
      apply elem_of_ksubsets in Hr' as [A B]; [|exact Hl].
      rewrite of_list_app, size_union by set_solver. rewrite B, of_list_size by exact HW.
      split; [lia|]. rewrite of_list_app. set_solver.
    + intros (Hk & Hw & Hs). rewrite of_list_app in Hs.
      destruct (ksub_complete (k - length lW) l (s ∖ of_list lW)) as (r & Hr & Er).
      { set_solver. }
      { rewrite size_difference by exact Hw. rewrite of_list_size by exact HW. lia. }
      exists r. split; [|exact Hr]. rewrite of_list_app, <- Er. apply set_eq. intros y.
      destruct (decide (y ∈ of_list lW)); set_solver.
  - apply Nat.leb_gt in E. split; [intros H; apply elem_of_nil in H; tauto|].
    intros (Hk & Hw & _). apply subseteq_size in Hw. rewrite of_list_size in Hw by exact HW. lia.
Qed.

Lemma star_faces_NoDup k lW l : NoDup (lW ++ l) -> NoDup (star_faces k lW l).
Proof.
  intros Hn. pose proof Hn as Hn'. apply NoDup_app in Hn' as (HW & Hd & Hl).
  unfold star_faces. destruct (Nat.leb (length lW) k); [|constructor].
  assert (HN := ksubsets_NoDup (k - length lW) l Hl).
  assert (Hin : forall r, r ∈ ksub (k - length lW) l -> of_list lW ## of_list r).
  { intros r Hr. assert (Hr' : of_list r ∈ ksubsets (k - length lW) l) by (apply elem_of_list_fmap; eauto).
    apply elem_of_ksubsets in Hr' as [A _]; [|exact Hl]. intros x P Q. apply A in Q.
    apply elem_of_of_list in P, Q. exact (Hd x P Q). }
  revert HN Hin. unfold ksubsets. generalize (ksub (k - length lW) l) as L. clear.
  induction L as [|r L IH]; intros HN Hin; cbn; [constructor|].
  cbn in HN. apply NoDup_cons in HN as [Hr HN]. apply NoDup_cons. split.
  - intros H. apply elem_of_list_fmap in H as (r' & E & Hr'). apply Hr. apply elem_of_list_fmap.
    exists r'. split; [|exact Hr']. rewrite !of_list_app in E.
    pose proof (Hin r ltac:(constructor)). pose proof (Hin r' ltac:(constructor; assumption)).
    apply set_eq. intros y. assert (E' : y ∈ of_list lW ∪ of_list r <-> y ∈ of_list lW ∪ of_list r') by (rewrite E; tauto).
    set_solver.
  - apply IH; [exact HN|]. intros r' Hr'. apply Hin. constructor. exact Hr'.
Qed.

(** Exact change of the number of k-faces with any property. *)
Lemma count_pachner T lU lV k P : pachner_ok T lU lV -> (k <= 4)%nat ->
  count P (faces k (pachner T lU lV)) =
  count P (faces k T) - sum_of P (star_faces k lV lU) + sum_of P (star_faces k lU lV).
Proof.
  intros ok Hk. assert (Hn := po_nodup _ _ _ ok).
  assert (Hn' : NoDup (lV ++ lU)) by (rewrite (Permutation_app_comm lV lU); exact Hn).
  rewrite <- (count_change P (faces k T) (star_faces k lV lU) (star_faces k lU lV)).
  - f_equal. apply set_eq. intros s. rewrite faces_pachner by assumption.
    rewrite elem_of_union, elem_of_difference, !elem_of_list_to_set, !elem_of_star_faces by assumption.
    assert (Hss : s ∈ faces k T -> of_list lV ⊆ s -> s ⊆ of_list (lV ++ lU)).
    { intros Hs HV. apply elem_of_faces in Hs as (_ & c & Hc & Hs).
      destruct (po_around _ _ _ ok c Hc ltac:(set_solver)) as (u & Hu & ->).
      intros y Hy. apply Hs, elem_of_omit in Hy as [Hy _]. apply elem_of_of_list. rewrite elem_of_app in *. tauto. }
    split.
    + intros [[A B]|C]; [left|right; tauto]. split; [exact A|]. intros (_ & H & _). contradiction.
    + intros [[A B]|C]; [left|right; tauto]. split; [exact A|]. intros H. apply B.
      split; [apply elem_of_faces in A; tauto|]. split; [exact H|]. apply Hss; assumption.
  - apply star_faces_NoDup. exact Hn'.
  - apply star_faces_NoDup. exact Hn.
  - intros s Hs. apply elem_of_star_faces in Hs as (A & B & C); [|exact Hn'].
    apply elem_of_faces. split; [exact A|].
    assert (HU : ~ of_list lU ⊆ s).
    { intros HU. assert (of_list (lU ++ lV) ⊆ s) by (rewrite of_list_app; set_solver).
      apply subseteq_size in H. rewrite of_list_size, (po_five _ _ _ ok) in H by exact Hn. lia. }
    apply not_subseteq in HU as (u & Hu & Hus). exists (omit (lU ++ lV) u). split.
    + apply (po_present _ _ _ ok). apply elem_of_of_list. exact Hu.
    + apply subset_omit; [|exact Hus]. rewrite of_list_app in *. set_solver.
  - intros s Hs HT. apply elem_of_star_faces in Hs as (A & B & C); [|exact Hn].
    apply elem_of_faces in HT as (_ & c & Hc & Hsc). apply (po_absent _ _ _ ok c Hc). set_solver.
Qed.

(** The reversed move is legal afterwards and restores the complex. *)
Lemma omit_swap lU lV x : omit (lU ++ lV) x = omit (lV ++ lU) x.
Proof. unfold omit. rewrite !of_list_app. set_solver. Qed.

Lemma pachner_ok_reverse T lU lV : pachner_ok T lU lV -> pachner_ok (pachner T lU lV) lV lU.
Proof.
  intros ok. constructor.
  - rewrite (Permutation_app_comm lV lU). exact (po_nodup _ _ _ ok).
  - rewrite app_length, Nat.add_comm, <- app_length. exact (po_five _ _ _ ok).
  - exact (po_V _ _ _ ok).
  - exact (po_U _ _ _ ok).
  - intros x Hx. rewrite <- omit_swap. apply elem_of_pachner; [exact ok|]. right. eauto.
  - intros c Hc HU. apply elem_of_pachner in Hc as [[Hc _]|(x & Hx & ->)]; [|exists x; rewrite <- omit_swap; auto|exact ok].
    destruct (po_absent _ _ _ ok c Hc HU).
  - intros c Hc HV. apply elem_of_pachner in Hc as [[Hc HV']|(x & Hx & ->)]; [contradiction| |exact ok].
    assert (x ∈ omit (lU ++ lV) x) by (apply HV, elem_of_of_list, Hx). apply elem_of_omit in H. tauto.
Qed.

Lemma pachner_inverse T lU lV : pachner_ok T lU lV -> pachner (pachner T lU lV) lV lU = T.
Proof.
  intros ok. apply set_eq. intros c. rewrite (elem_of_pachner _ lV lU) by (apply pachner_ok_reverse; exact ok).
  rewrite elem_of_pachner by exact ok. split.
  - intros [[[[Hc _]|(x & Hx & ->)] HU]|(x & Hx & ->)].
    + exact Hc.
    + exfalso. apply HU. apply (omit_U T lU lV ok). exact Hx.
    + rewrite <- omit_swap. apply (po_present _ _ _ ok). exact Hx.
  - intros Hc. destruct (decide (of_list lV ⊆ c)) as [HV|HV].
    + destruct (po_around _ _ _ ok c Hc HV) as (x & Hx & ->). right. exists x. split; [exact Hx|]. apply omit_swap.
    + left. split; [auto|]. exact (po_absent _ _ _ ok c Hc).
Qed.

(** Closedness is preserved. *)
Lemma sum_of_omit f l xs : NoDup xs -> (forall x, x ∈ xs -> x ∈ l) -> f ⊆ of_list l ->
  sum_of (fun c => bool_decide (f ⊆ c)) (map (omit l) xs) = Z.of_nat (size (of_list xs ∖ f)).
Proof.
  induction xs as [|x xs IH]; intros Hn Hl Hf.
  - cbn. rewrite difference_empty_l_L || idtac. replace (of_list [] ∖ f) with (∅ : simplex) by (unfold of_list; set_solver). reflexivity.
  - apply NoDup_cons in Hn as [Hx Hn]. cbn [map sum_of fold_right].
    change (fold_right _ 0 (map (omit l) xs)) with (sum_of (fun c => bool_decide (f ⊆ c)) (map (omit l) xs)).
    rewrite IH; [|exact Hn|intros y Hy; apply Hl; constructor; exact Hy|exact Hf].
    rewrite of_list_cons. rewrite <- elem_of_of_list in Hx. case_bool_decide as E.
    + assert (Hxf : x ∉ f). { intros Hxf. apply E, elem_of_omit in Hxf. tauto. }
      assert (EQ : ({[x]} ∪ of_list xs) ∖ f = {[x]} ∪ (of_list xs ∖ f)) by set_solver.
      assert (EQ2 : size (({[x]} ∪ of_list xs) ∖ f) = S (size (of_list xs ∖ f))).
      { rewrite EQ, size_union by set_solver. rewrite size_singleton. reflexivity. }
      rewrite EQ2. lia.
    + assert (Hxf : x ∈ f).
      { destruct (decide (x ∈ f)); [assumption|]. exfalso. apply E. apply subset_omit_gen; assumption. }
      assert (EQ : ({[x]} ∪ of_list xs) ∖ f = of_list xs ∖ f) by set_solver.
      rewrite EQ. lia.
Qed.

Lemma cofaces_pachner T lU lV f : pachner_ok T lU lV -> pure T ->
  cofaces f (pachner T lU lV) =
  cofaces f T - sum_of (fun c => bool_decide (f ⊆ c)) (map (omit (lU ++ lV)) lU)
              + sum_of (fun c => bool_decide (f ⊆ c)) (map (omit (lU ++ lV)) lV).
Proof.
  intros ok _. unfold cofaces, pachner. pose proof (po_nodup _ _ _ ok) as Hn. apply NoDup_app in Hn as (HU & _ & HV).
  apply count_change.
  - apply map_omit_NoDup; [exact HU|]. intros x Hx. apply elem_of_app. auto.
  - apply map_omit_NoDup; [exact HV|]. intros x Hx. apply elem_of_app. auto.
  - intros s Hs. apply elem_of_list_fmap in Hs as (x & -> & Hx). apply (po_present _ _ _ ok). exact Hx.
  - intros s Hs. apply elem_of_list_fmap in Hs as (x & -> & Hx). apply (added_absent T lU lV ok). exact Hx.
Qed.

Lemma sum_of_none P l : (forall s, s ∈ l -> P s = false) -> sum_of P l = 0.
Proof.
  induction l as [|s l IH]; intros H; [reflexivity|]. cbn. rewrite (H s) by constructor.
  change (sum_of P l = 0). apply IH. intros s' Hs'. apply H. constructor. exact Hs'.
Qed.

Lemma pachner_closed T lU lV : pachner_ok T lU lV -> pure T -> closed T -> closed (pachner T lU lV).
Proof.
  intros ok HP HC f Hf. rewrite cofaces_pachner by assumption.
  pose proof (po_nodup _ _ _ ok) as Hn. pose proof Hn as Hn'. apply NoDup_app in Hn' as (HU & Hd & HV).
  assert (Hdis := UV_disjoint T lU lV ok).
  apply faces_pachner in Hf; [|exact ok|lia].
  destruct (decide (f ⊆ of_list (lU ++ lV))) as [HB|HB].
  - rewrite !sum_of_omit; try assumption; try (intros x Hx; apply elem_of_app; auto).
    assert (Hsz : (size (of_list lU ∖ f) + size (of_list lV ∖ f) = 2)%nat).
    { assert (Hf3 : size f = 3%nat) by (destruct Hf as [[Hf _]|[Hf _]]; [apply elem_of_faces in Hf; tauto|exact Hf]).
      assert (E : size (of_list (lU ++ lV) ∖ f) = 2%nat).
      { rewrite size_difference by exact HB. rewrite of_list_size by exact Hn. rewrite (po_five _ _ _ ok). lia. }
      rewrite of_list_app, difference_union_distr_l_L, size_union in E by set_solver. exact E. }
    destruct Hf as [[Hf HVf]|(Hf3 & HUf & _)].
    + assert (size (of_list lV ∖ f) <> 0)%nat.
      { intros E. apply size_empty_inv in E. apply HVf. intros y Hy. destruct (decide (y ∈ f)); [assumption|]. set_solver. }
      assert (size (of_list lU ∖ f) <> 0)%nat.
      { intros E. apply size_empty_inv in E. apply elem_of_faces in Hf as (_ & c & Hc & Hfc).
        apply (po_absent _ _ _ ok c Hc). intros y Hy. apply Hfc. destruct (decide (y ∈ f)); [assumption|]. set_solver. }
      rewrite (HC f Hf). lia.
    + assert (E : cofaces f T = 0).
      { unfold cofaces. unfold count. replace (filter _ T) with (∅ : gset simplex); [reflexivity|].
        symmetry. apply set_eq. intros c. rewrite elem_of_filter, bool_decide_eq_true. split; [|set_solver].
        intros [A Hc]. destruct (po_absent _ _ _ ok c Hc). set_solver. }
      assert (E2 : size (of_list lU ∖ f) = 0%nat).
      { replace (of_list lU ∖ f) with (∅ : simplex) by set_solver. apply size_empty. }
      lia.
  - destruct Hf as [[Hf HVf]|(_ & _ & Hf)]; [|contradiction].
    rewrite (HC f Hf), !sum_of_none; [reflexivity| |];
      intros s Hs; apply elem_of_list_fmap in Hs as (x & -> & _); apply bool_decide_eq_false; intros Hs; apply HB;
      (etransitivity; [exact Hs|apply omit_B]).
Qed.
