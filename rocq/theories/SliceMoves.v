(** What the moves do to the time slices, and runs. *)
From Verif Require Import Base Tracker Command Run Geom Metropolis Simplex Pachner Foliation Moves Links MoveCore MoveTools Move23 Move44 Move26 Move26Site Move62Site MoveSpec MoveSound Manifold ManifoldFacts ManifoldMoves ClassFacts Reverse Reverse44 PropsRunLemmas MoveProps SliceSpec SliceFacts.
From stdpp Require Import fin_sets gmap sorting relations.
From Verif Require Import Foliation SliceSpec.
Local Open Scope Z_scope.

(** Membership of a slice, with the part that does not depend on the cells first. *)
Definition flat (label : vertex -> Z) (t : Z) (s : simplex) : Prop :=
  (1 <= size s <= 3)%nat /\ forall v, v ∈ s -> v <> infinite /\ label v = t.
Lemma in_slice label t T s : s ∈ slice label t T <-> flat label t s /\ exists c, c ∈ T /\ s ⊆ c.
Proof. rewrite elem_of_slice. unfold flat. tauto. Qed.
Lemma flat_in label t s v : flat label t s -> v ∈ s -> label v = t.
Proof. intros [_ H] Hv. apply H, Hv. Qed.

(** [s] inside one list, without some of its members, is inside another. *)
Ltac inside H :=
  let y := fresh "y" in let Hy := fresh "Hy" in let Q := fresh "Q" in
  intros y Hy; pose proof (H y Hy) as Q; rewrite elem_of_of_list, ?elem_of_cons, ?elem_of_nil in Q;
  rewrite elem_of_of_list, ?elem_of_cons, ?elem_of_nil;
  repeat match type of Q with _ \/ _ => destruct Q as [Q|Q] end; try subst y; try contradiction; tauto.
Ltac inlist := rewrite ?elem_of_cons; tauto.
(** ... and what is inside a list contains what it has to. *)
Ltac has H := apply H, elem_of_of_list; inlist.

Lemma three_flat (label : vertex -> Z) t y a b x : label a = t -> label b = t -> label x = t -> classify [label y; label a; label b; label x] <> TWO_TWO.
Proof.
  intros -> -> -> H. apply (classify_spec _ 2 2) in H as (u & _ & H1 & H2); [|reflexivity|set_solver +].
  cbn [List.filter] in H1, H2. destruct (Z.eqb_spec u t), (Z.eqb_spec (u + 1) t), (Z.eqb_spec u (label y)), (Z.eqb_spec (u + 1) (label y)); cbn in H1, H2; lia.
Qed.

Lemma slice_23 label T T' v w a b x : two_three label T T' v w a b x -> forall t, slice label t T' = slice label t T.
Proof.
  intros (N & F & (_ & _ & OLD & NEW & RP) & Lvw & Q & K) t.
  assert (ABX : forall s, flat label t s -> ~ of_list [a; b; x] ⊆ s).
  { intros s Hs H.
    assert (La : label a = t) by (apply (flat_in _ _ _ _ Hs); has H).
    assert (Lb : label b = t) by (apply (flat_in _ _ _ _ Hs); has H).
    assert (Lx : label x = t) by (apply (flat_in _ _ _ _ Hs); has H).
    assert (T22 : forall y, NoDup [y; a; b; x] -> cell_type label (of_list [y; a; b; x]) <> TWO_TWO).
    { intros y Ny. rewrite cell_type_of_list by exact Ny. cbn [map]. apply (three_flat label t); assumption. }
    apply (T22 v); [apply NoDup_cons in N as [N1 N]; apply NoDup_cons in N as [_ N]; apply NoDup_cons; split; [set_solver + N1|exact N]|].
    apply Q. apply T22. apply NoDup_cons in N as [_ N]. exact N. }
  assert (VW : forall s, flat label t s -> v ∉ s \/ w ∉ s).
  { intros s Hs. destruct (decide (v ∈ s)) as [Hv|Hv]; [|auto]. destruct (decide (w ∈ s)) as [Hw|Hw]; [|auto].
    pose proof (flat_in _ _ _ _ Hs Hv). pose proof (flat_in _ _ _ _ Hs Hw). lia. }
  assert (O1 : of_list [v; a; b; x] ∈ T) by (apply OLD; inlist). assert (O2 : of_list [w; a; b; x] ∈ T) by (apply OLD; inlist).
  assert (N1 : of_list [v; w; a; b] ∈ T') by (apply RP; right; inlist).
  assert (N2 : of_list [v; w; b; x] ∈ T') by (apply RP; right; inlist).
  assert (N3 : of_list [v; w; a; x] ∈ T') by (apply RP; right; inlist).
  apply set_eq. intros s. rewrite !in_slice. split; intros [Hs (c & Hc & Hsc)]; (split; [exact Hs|]).
  - apply RP in Hc as [[Hc _]|Hc]; [eauto|]. rewrite !elem_of_cons, elem_of_nil in Hc.
    destruct (VW s Hs) as [X|X]; [exists (of_list [w; a; b; x])|exists (of_list [v; a; b; x])]; (split; [assumption|]);
      destruct Hc as [->|[->|[->|[]]]]; inside Hsc.
  - destruct (decide (c ∈ [of_list [v; a; b; x]; of_list [w; a; b; x]])) as [Ho|Ho].
    + pose proof (ABX s Hs) as Z. apply not_subseteq in Z as (z & Hz & Hzs).
      rewrite elem_of_of_list, !elem_of_cons, elem_of_nil in Hz. rewrite !elem_of_cons, elem_of_nil in Ho.
      destruct Hz as [->|[->|[->|[]]]].
      * exists (of_list [v; w; b; x]). split; [exact N2|]. destruct Ho as [->|[->|[]]]; inside Hsc.
      * exists (of_list [v; w; a; x]). split; [exact N3|]. destruct Ho as [->|[->|[]]]; inside Hsc.
      * exists (of_list [v; w; a; b]). split; [exact N1|]. destruct Ho as [->|[->|[]]]; inside Hsc.
    + exists c. split; [apply RP; auto|exact Hsc].
Qed.

Lemma two_around (T : tds) (f : simplex) c d : closed T -> f ∈ faces 3 T -> c <> d -> c ∈ T -> d ∈ T -> f ⊆ c -> f ⊆ d ->
  forall x, x ∈ T -> f ⊆ x -> x = c \/ x = d.
Proof.
  intros HC Hf N Hc Hd Fc Fd x Hx Fx. specialize (HC f Hf). rewrite cofaces_star in HC.
  assert (E : size (star f T) = 2%nat) by lia. apply size_two_inv in E as (y & z & _ & _ & _ & E).
  pose proof (E c ltac:(apply elem_of_star; auto)). pose proof (E d ltac:(apply elem_of_star; auto)). pose proof (E x ltac:(apply elem_of_star; auto)).
  intuition congruence.
Qed.

Lemma slice_26 label T T' a b c x d e : closed T -> x ∉ vertices T -> two_six label T T' a b c x d e ->
  surface_move (slice label (label x) T) [x] [a; b; c] (slice label (label x) T') /\
  forall t, t <> label x -> slice label t T' = slice label t T.
Proof.
  intros HC Hx (N & F & (_ & _ & OLD & NEW & RP) & t & La & Lb & Lc & Lx & Ld & Le).
  rewrite Lx. apply nodup6 in N.
  assert (O1 : of_list [a; b; c; d] ∈ T) by (apply OLD; inlist). assert (O2 : of_list [a; b; c; e] ∈ T) by (apply OLD; inlist).
  assert (X : forall s c, c ∈ T -> s ⊆ c -> x ∉ s).
  { intros s c0 Hc Hs Hxs. apply Hx, elem_of_vertices. exists c0. split; [exact Hc|]. apply Hs, Hxs. }
  assert (ND : forall s, flat label t s -> d ∉ s /\ e ∉ s).
  { intros s Hs. split; intros H; apply (flat_in _ _ _ _ Hs) in H; rewrite ?Ld, ?Le in H; clear - H; lia. }
  assert (CELLS : forall c0, c0 ∈ T -> of_list [a; b; c] ⊆ c0 -> c0 = of_list [a; b; c; d] \/ c0 = of_list [a; b; c; e]).
  { intros c0 H0 H1. apply (two_around T (of_list [a; b; c])); try assumption.
    - apply elem_of_faces. split; [apply of_list_size; rewrite !NoDup_cons, !elem_of_cons, !elem_of_nil; intuition (auto using NoDup_nil_2)|].
      exists (of_list [a; b; c; d]). split; [exact O1|]. intros y. rewrite !elem_of_of_list, !elem_of_cons. tauto.
    - intros E. assert (Q : d ∈ of_list [a; b; c; e]) by (rewrite <- E; apply elem_of_of_list; inlist).
      rewrite elem_of_of_list, !elem_of_cons, elem_of_nil in Q. intuition congruence.
    - intros y. rewrite !elem_of_of_list, !elem_of_cons. tauto.
    - intros y. rewrite !elem_of_of_list, !elem_of_cons. tauto. }
  split.
  - constructor.
    + cbn [app]. rewrite !NoDup_cons, !elem_of_cons, !elem_of_nil. intuition (auto using NoDup_nil_2).
    + reflexivity.
    + discriminate.
    + discriminate.
    + intros u Hu. apply elem_of_list_singleton in Hu as ->. apply in_slice.
      assert (E : of_list ([x] ++ [a; b; c]) ∖ {[x]} = of_list [a; b; c]).
      { apply set_eq. intros y. rewrite elem_of_difference, !elem_of_of_list, elem_of_singleton. cbn. rewrite !elem_of_cons, !elem_of_nil. intuition congruence. }
      rewrite E. split.
      * split.
        { rewrite of_list_size; [cbn; lia|]. rewrite !NoDup_cons, !elem_of_cons, !elem_of_nil. intuition (auto using NoDup_nil_2). }
        intros y. rewrite elem_of_of_list. intros Hy. split; [intros ->; apply F; set_solver + Hy|].
        rewrite !elem_of_cons, elem_of_nil in Hy. destruct Hy as [->|[->|[->|[]]]]; assumption.
      * exists (of_list [a; b; c; d]). split; [exact O1|]. intros y. rewrite !elem_of_of_list, !elem_of_cons. tauto.
    + intros s Hs HV. apply in_slice in Hs as [Hs (c0 & Hc & Hsc)]. destruct (ND s Hs) as [D1 D2]. cbn [app].
      destruct (CELLS c0 Hc) as [->| ->]; [set_solver + HV Hsc| |]; inside Hsc.
    + intros s Hs HU. apply in_slice in Hs as [_ (c0 & Hc & Hsc)]. apply (X s c0 Hc Hsc). has HU.
    + intros s. rewrite !in_slice. cbn [app]. split.
      * intros [Hs (c0 & Hc & Hsc)]. destruct (ND s Hs) as [D1 D2].
        apply RP in Hc as [[Hc Hn]|Hc].
        { left. split; [eauto|]. intros HV. apply Hn. destruct (CELLS c0 Hc) as [->| ->]; [set_solver + HV Hsc|inlist|inlist]. }
        assert (SB : s ⊆ of_list [x; a; b; c] /\ (a ∉ s \/ b ∉ s \/ c ∉ s)).
        { rewrite !elem_of_cons, elem_of_nil in Hc.
          assert (G : forall p q r z, s ⊆ of_list [p; q; r; z] -> (z = d \/ z = e) -> s ⊆ of_list [p; q; r]).
          { intros p q r z G1 [->| ->]; inside G1. }
          assert (NI : forall p y, s ⊆ of_list p -> y ∉ p -> y ∉ s).
          { intros p y G1 G2 G3. apply G2, elem_of_of_list, G1, G3. }
          destruct Hc as [->|[->|[->|[->|[->|[->|[]]]]]]]; (apply G in Hsc; [|tauto]); (split; [inside Hsc|]);
            [right; right|left|right; left|right; right|left|right; left];
            apply (NI _ _ Hsc); rewrite !elem_of_cons, elem_of_nil; intuition congruence. }
        destruct SB as [SB MISS].
        assert (HV : ~ of_list [a; b; c] ⊆ s).
        { intros HV. destruct MISS as [M|[M|M]]; apply M; has HV. }
        destruct (decide (x ∈ s)) as [Hxs|Hxs].
        { right. split; [|auto]. intros y. rewrite elem_of_of_list, elem_of_list_singleton. intros ->. exact Hxs. }
        left. split; [|exact HV]. split; [exact Hs|]. exists (of_list [a; b; c; d]). split; [exact O1|]. inside SB.
      * intros [[[Hs (c0 & Hc & Hsc)] HV]|(HU & SB & HV)].
        { split; [exact Hs|]. destruct (decide (c0 ∈ [of_list [a; b; c; d]; of_list [a; b; c; e]])) as [Ho|Ho]; [|exists c0; split; [apply RP; auto|exact Hsc]].
          apply not_subseteq in HV as (z & Hz & Hzs). destruct (ND s Hs) as [D1 D2].
          rewrite elem_of_of_list, !elem_of_cons, elem_of_nil in Hz. rewrite !elem_of_cons, elem_of_nil in Ho.
          destruct Hz as [->|[->|[->|[]]]].
          - exists (of_list [x; b; c; d]). split; [apply RP; right; inlist|]. destruct Ho as [->|[->|[]]]; inside Hsc.
          - exists (of_list [x; a; c; d]). split; [apply RP; right; inlist|]. destruct Ho as [->|[->|[]]]; inside Hsc.
          - exists (of_list [x; a; b; d]). split; [apply RP; right; inlist|]. destruct Ho as [->|[->|[]]]; inside Hsc. }
        { split.
          - split.
            + split.
              * assert (P0 : size s <> 0%nat); [|clear - P0; lia]. intros E. apply size_empty_inv in E. assert (x ∈ s) by (has HU). set_solver + E H.
              * assert (Q : size (of_list [x; a; b; c]) = 4%nat) by (apply of_list_size; rewrite !NoDup_cons, !elem_of_cons, !elem_of_nil; intuition (auto using NoDup_nil_2)).
                assert (P1 : (size s < size (of_list [x; a; b; c]))%nat); [|rewrite Q in P1; clear - P1; lia]. apply subset_size. split; [exact SB|]. intros K. apply HV.
                etransitivity; [|exact K]. intros y. rewrite !elem_of_of_list, !elem_of_cons. tauto.
            + intros y Hy. apply SB, elem_of_of_list in Hy. split; [intros ->; apply F; set_solver + Hy|].
              rewrite !elem_of_cons, elem_of_nil in Hy. destruct Hy as [->|[->|[->|[->|[]]]]]; assumption.
          - apply not_subseteq in HV as (z & Hz & Hzs). rewrite elem_of_of_list, !elem_of_cons, elem_of_nil in Hz.
            destruct Hz as [->|[->|[->|[]]]].
            + exists (of_list [x; b; c; d]). split; [apply RP; right; inlist|]. inside SB.
            + exists (of_list [x; a; c; d]). split; [apply RP; right; inlist|]. inside SB.
            + exists (of_list [x; a; b; d]). split; [apply RP; right; inlist|]. inside SB. }
  - intros t' Ht.
    assert (NB : forall s, flat label t' s -> a ∉ s /\ b ∉ s /\ c ∉ s /\ x ∉ s).
    { intros s Hs. repeat split; intros H; apply (flat_in _ _ _ _ Hs) in H; congruence. }
    apply set_eq. intros s. rewrite !in_slice. split; intros [Hs (c0 & Hc & Hsc)]; (split; [exact Hs|]); destruct (NB s Hs) as (B1 & B2 & B3 & B4).
    + apply RP in Hc as [[Hc _]|Hc]; [eauto|]. rewrite !elem_of_cons, elem_of_nil in Hc.
      destruct Hc as [->|[->|[->|[->|[->|[->|[]]]]]]];
        [exists (of_list [a; b; c; d])..|exists (of_list [a; b; c; e])|exists (of_list [a; b; c; e])|exists (of_list [a; b; c; e])]; (split; [assumption|]); inside Hsc.
    + destruct (decide (c0 ∈ [of_list [a; b; c; d]; of_list [a; b; c; e]])) as [Ho|Ho]; [|exists c0; split; [apply RP; auto|exact Hsc]].
      rewrite !elem_of_cons, elem_of_nil in Ho. destruct Ho as [->|[->|[]]].
      * exists (of_list [x; a; b; d]). split; [apply RP; right; inlist|]. inside Hsc.
      * exists (of_list [x; a; b; e]). split; [apply RP; right; inlist|]. inside Hsc.
Qed.

Lemma slice_44 label T p q a b top bot : NoDup [p; q; a; b; top; bot] -> infinite ∉ [p; q; a; b; top; bot] ->
  labels_44 label p q a b top bot -> pachner_ok T [a; b] [p; q; bot] ->
  pachner_ok (pachner T [a; b] [p; q; bot]) [a; b; top] [p; q] ->
  let T' := pachner (pachner T [a; b] [p; q; bot]) [a; b; top] [p; q] in
  surface_move (slice label (label p) T) [a; b] [p; q] (slice label (label p) T') /\
  forall t, t <> label p -> slice label t T' = slice label t T.
Proof.
  intros N F (t & Lp & Lq & La & Lb & Lt & Lbo) ok1 ok2 T'. set (T1 := pachner T [a; b] [p; q; bot]) in *. rewrite Lp.
  apply nodup6 in N.
  assert (STEP1 : forall u s, s ∈ slice label u T1 <-> (s ∈ slice label u T /\ ~ of_list [p; q; bot] ⊆ s) \/
     (flat label u s /\ of_list [a; b] ⊆ s /\ s ⊆ of_list [a; b; p; q; bot])).
  { intros u s. rewrite !in_slice. split.
    - intros [Hs Hc]. assert (Hf : s ∈ faces (size s) T1) by (apply elem_of_faces; auto).
      apply (faces_pachner T _ _ ok1) in Hf as [[Hf X]|(_ & X & Y)]; [|right; auto|destruct Hs as [[_ Hs] _]; clear - Hs; lia].
      left. apply elem_of_faces in Hf as [_ Hf]. auto.
    - intros H. assert (Hs : flat label u s) by tauto. split; [exact Hs|].
      assert (Hf : s ∈ faces (size s) T1).
      { apply (faces_pachner T _ _ ok1); [destruct Hs as [[_ Hs] _]; clear - Hs; lia|].
        destruct H as [[[_ H] X]|(_ & X & Y)]; [left|right; auto]. split; [apply elem_of_faces; auto|exact X]. }
      apply elem_of_faces in Hf as [_ Hf]. exact Hf. }
  assert (STEP2 : forall u s, s ∈ slice label u T' <-> (s ∈ slice label u T1 /\ ~ of_list [p; q] ⊆ s) \/
     (flat label u s /\ of_list [a; b; top] ⊆ s /\ s ⊆ of_list [a; b; top; p; q])).
  { intros u s. rewrite !in_slice. split.
    - intros [Hs Hc]. assert (Hf : s ∈ faces (size s) T') by (apply elem_of_faces; auto).
      apply (faces_pachner T1 _ _ ok2) in Hf as [[Hf X]|(_ & X & Y)]; [|right; auto|destruct Hs as [[_ Hs] _]; clear - Hs; lia].
      left. apply elem_of_faces in Hf as [_ Hf]. auto.
    - intros H. assert (Hs : flat label u s) by tauto. split; [exact Hs|].
      assert (Hf : s ∈ faces (size s) T').
      { apply (faces_pachner T1 _ _ ok2); [destruct Hs as [[_ Hs] _]; clear - Hs; lia|].
        destruct H as [[[_ H] X]|(_ & X & Y)]; [left|right; auto]. split; [apply elem_of_faces; auto|exact X]. }
      apply elem_of_faces in Hf as [_ Hf]. exact Hf. }
  assert (ND : forall s, flat label t s -> top ∉ s /\ bot ∉ s).
  { intros s Hs. split; intros H; apply (flat_in _ _ _ _ Hs) in H; rewrite ?Lt, ?Lbo in H; clear - H; lia. }
  assert (SZ : forall s, s ⊆ of_list [a; b; p; q] -> ~ of_list [p; q] ⊆ s -> of_list [a; b] ⊆ s -> flat label t s).
  { intros s SB HV HU. split.
    - split.
      + assert (P0 : size s <> 0%nat); [|clear - P0; lia]. intros E. apply size_empty_inv in E. assert (a ∈ s) by (has HU). set_solver + E H.
      + assert (Q : size (of_list [a; b; p; q]) = 4%nat) by (apply of_list_size; rewrite !NoDup_cons, !elem_of_cons, !elem_of_nil; intuition (auto using NoDup_nil_2)).
        assert (P1 : (size s < size (of_list [a; b; p; q]))%nat); [|rewrite Q in P1; clear - P1; lia]. apply subset_size. split; [exact SB|]. intros K. apply HV.
        etransitivity; [|exact K]. intros y. rewrite !elem_of_of_list, !elem_of_cons. tauto.
    - intros y Hy. apply SB, elem_of_of_list in Hy. split; [intros ->; apply F; set_solver + Hy|].
      rewrite !elem_of_cons, elem_of_nil in Hy. destruct Hy as [->|[->|[->|[->|[]]]]]; assumption. }
  split.
  - constructor.
    + cbn [app]. rewrite !NoDup_cons, !elem_of_cons, !elem_of_nil. intuition (auto using NoDup_nil_2).
    + reflexivity.
    + discriminate.
    + discriminate.
    + intros u Hu. cbn [app]. apply in_slice.
      assert (HuB : u ∈ [a; b; p; q]) by (rewrite !elem_of_cons, elem_of_nil in *; tauto).
      assert (Nd : NoDup [a; b; p; q]) by (rewrite !NoDup_cons, !elem_of_cons, !elem_of_nil; intuition (auto using NoDup_nil_2)).
      change (of_list [a; b; p; q] ∖ {[u]}) with (omit [a; b; p; q] u).
      split.
      * split; [rewrite omit_size by assumption; cbn; clear; lia|].
        intros y Hy. apply elem_of_omit in Hy as [Hy _]. split; [intros ->; apply F; set_solver + Hy|].
        rewrite !elem_of_cons, elem_of_nil in Hy. destruct Hy as [->|[->|[->|[->|[]]]]]; assumption.
      * exists (omit ([a; b] ++ [p; q; bot]) u). split; [apply (po_present _ _ _ ok1); exact Hu|].
        intros y. rewrite !elem_of_omit. cbn [app]. rewrite !elem_of_cons. tauto.
    + intros s Hs HV. cbn [app]. apply in_slice in Hs as [Hs (c & Hc & Hsc)]. destruct (ND s Hs) as [D1 D2].
      destruct (decide (of_list [p; q; bot] ⊆ c)) as [Hb|Hb].
      * destruct (po_around _ _ _ ok1 c Hc Hb) as (u & _ & ->).
        intros y Hy. pose proof (Hsc y Hy) as Q. apply elem_of_omit in Q as [Q _]. cbn [app] in Q. apply elem_of_of_list.
        assert (y <> bot) by congruence. rewrite !elem_of_cons in *. tauto.
      * assert (Hc1 : c ∈ T1) by (apply (elem_of_pachner T _ _ ok1); left; auto).
        destruct (po_around _ _ _ ok2 c Hc1) as (u & _ & ->); [set_solver + HV Hsc|].
        intros y Hy. pose proof (Hsc y Hy) as Q. apply elem_of_omit in Q as [Q _]. cbn [app] in Q. apply elem_of_of_list.
        assert (y <> top) by congruence. rewrite !elem_of_cons in *. tauto.
    + intros s Hs HU. apply in_slice in Hs as [_ (c & Hc & Hsc)]. apply (po_absent _ _ _ ok1 c Hc). set_solver + HU Hsc.
    + intros s. cbn [app]. rewrite STEP2, STEP1. split.
      * intros [[[[H _]|(Hs & HU & HB)] HV]|(Hs & HU & _)].
        { auto. }
        { right. split; [exact HU|]. split; [|exact HV]. destruct (ND s Hs) as [D1 D2]. inside HB. }
        { exfalso. destruct (ND s Hs) as [D1 D2]. apply D1. has HU. }
      * intros [[H HV]|(HU & HB & HV)]; left.
        { split; [left|exact HV]. split; [exact H|]. intros K. apply HV. intros y. rewrite elem_of_of_list. intros Hy. apply K, elem_of_of_list. rewrite !elem_of_cons in Hy. rewrite !elem_of_cons. tauto. }
        { split; [right|exact HV]. split; [apply SZ; assumption|]. split; [exact HU|].
          etransitivity; [exact HB|]. intros y. rewrite !elem_of_of_list, !elem_of_cons. tauto. }
  - intros t' Ht.
    assert (NB : forall s, flat label t' s -> a ∉ s /\ p ∉ s).
    { intros s Hs. split; intros H; apply (flat_in _ _ _ _ Hs) in H; congruence. }
    apply set_eq. intros s. rewrite STEP2, STEP1. split.
    + intros [[[[H _]|(Hs & HU & HB)] HV]|(Hs & HU & _)]; [exact H| |]; exfalso; apply (proj1 (NB s Hs)); has HU.
    + intros H. left. pose proof H as H0. apply in_slice in H0 as [Hs _]. destruct (NB s Hs) as [_ Np]. split.
      * left. split; [exact H|]. intros K. apply Np. has K.
      * intros K. apply Np. has K.
Qed.

(** What a successful, accepted move of each kind does. *)
Record slices_moved (label : vertex -> Z) (k : MoveType) (T T' : tds) : Prop := {
  sl_unchanged : k = TWO_THREE \/ k = THREE_TWO -> forall t, slice label t T' = slice label t T;
  sl_one : k = TWO_SIX \/ k = SIX_TWO \/ k = FOUR_FOUR -> exists t, (forall u, u <> t -> slice label u T' = slice label u T) /\
    exists lU lV, surface_move (slice label t T) lU lV (slice label t T') /\
      length lU = if k =? TWO_SIX then 1%nat else if k =? SIX_TWO then 3%nat else 2%nat }.

Section Runs.
  Variable W : world.
  Context {G : Type}.
  Variable R : choices G.
  Hypothesis RO : choices_ok R.
  Variable escape : manifold -> G -> move_result manifold * G.
  Hypothesis ES : stays_modelled escape.

  Lemma moved_slices k m m' : valid (m_cells m) -> moved W R escape k m m' -> (k = TWO_SIX -> check_move W m m' k = true) ->
    slices_moved (label_of W m) k (m_cells m) (m_cells m').
  Proof using RO ES.
    intros V H CK. split.
    - intros [->| ->] t.
      + apply (moved_23 W R RO escape ES) in H as (_ & _ & v & w & a & b & x & Q); [|exact V]. eapply slice_23. exact Q.
      + apply (moved_32 W R RO escape ES) in H as (_ & _ & v & w & a & b & x & Q); [|exact V]. symmetry. eapply slice_23. exact Q.
    - intros [->|[->| ->]].
      + apply (moved_26_checked W R RO escape ES) in H as (_ & a & b & c & x & d & e & Q & _ & _ & Hx); [|exact V|auto].
        destruct (slice_26 _ _ _ _ _ _ _ _ _ (va_closed _ V) Hx Q) as [A B]. eexists. split; [exact B|].
        eexists _, _. split; [exact A|reflexivity].
      + apply (moved_62 W R RO escape ES) in H as (GR & a & b & c & x & d & e & Q & _ & Hx); [|exact V].
        destruct (slice_26 _ _ _ _ _ _ _ _ _ (va_closed _ (gr_valid _ _ _ _ GR)) Hx Q) as [A B]. exists (label_of W m x).
        split; [intros u Hu; symmetry; apply B; exact Hu|]. exists [a; b; c], [x]. split; [|reflexivity].
        eapply move_back; [apply slice_complex|exact A].
      + apply (moved_site W R RO escape ES) in H as ([[K _]|[[K _]|[[K _]|[[K _]|[_ (e & He & H)]]]]] & _ & _); try discriminate.
        apply move_44_effect in H as (p & q & a & b & top & bot & N & F & E & L & ok1 & ok2 & -> & V'); [|exact V].
        destruct (slice_44 _ _ _ _ _ _ _ _ N F L ok1 ok2) as [A B]. eexists. split; [exact B|].
        eexists _, _. split; [exact A|reflexivity].
  Qed.

  (** The labels stay and every slice stays the same surface. *)
  Definition kept_slices (m m' : manifold) : Prop :=
    (forall v, label_of W m' v = label_of W m v) /\
    forall t, same_surface (slice (label_of W m) t (m_cells m)) (slice (label_of W m') t (m_cells m')).
  Definition track (m m' : manifold) : Prop := valid (m_cells m) -> valid (m_cells m') /\ kept_slices m m'.
  Lemma track_refl m : track m m.
  Proof using. intros V. split; [exact V|]. split; [reflexivity|]. intros t. apply rtc_refl. Qed.
  Lemma track_trans m1 m2 m3 : track m1 m2 -> track m2 m3 -> track m1 m3.
  Proof using.
    intros A B V. destruct (A V) as (V2 & L2 & S2). destruct (B V2) as (V3 & L3 & S3). split; [exact V3|]. split.
    - intros v. rewrite L3. apply L2.
    - intros t. eapply rtc_transitive; [apply S2|apply S3].
  Qed.

  Lemma moved_track k m m' : moved W R escape k m m' -> check_move W m m' k = true -> track m m'.
  Proof using RO ES.
    intros H C V. split; [apply (checked_well_formed W m m' k C)|].
    pose proof (moved_slices k m m' V H (fun _ => C)) as [U1 U2].
    apply (moved_site W R RO escape ES) in H as (HS & A & B). pose proof (same_label W m m' A B) as L.
    split; [intros v; rewrite L; reflexivity|]. intros t. rewrite L.
    assert (K : (k = TWO_THREE \/ k = THREE_TWO) \/ (k = TWO_SIX \/ k = SIX_TWO \/ k = FOUR_FOUR)).
    { destruct HS as [[-> _]|[[-> _]|[[-> _]|[[-> _]|[-> _]]]]]; tauto. }
    destruct K as [K|K]; [rewrite (U1 K); apply rtc_refl|].
    destruct (U2 K) as (u & O & lU & lV & M & _). destruct (Z.eq_dec t u) as [->|D]; [|rewrite (O t D); apply rtc_refl].
    apply rtc_once. exists lU, lV. exact M.
  Qed.

  Variable api : move_api manifold G.
  Hypothesis Hapi : api = do_api W R escape \/ api = propose_api W R escape.

  Lemma step_track m k g cand g1 : apply_random_move api m k g = (Moved cand, g1) -> check_move W m cand k = true -> track m cand.
  Proof using RO ES Hapi.
    intros H C. apply (moved_track k); [|exact C]. exists g, g1. destruct Hapi as [->| ->]; auto.
  Qed.
  Lemma chain_track m n m' : validated_chain api (check_move W) m n m' -> track m m'.
  Proof using RO ES Hapi.
    induction 1 as [m|m k g cand g1 n m' H C _ IH]; [apply track_refl|]. eapply track_trans; [eapply step_track; eassumption|exact IH].
  Qed.
  Lemma history_track m g h m' g' : history api (check_move W) m g h m' g' -> track m m'.
  Proof using RO ES Hapi. intros H. apply history_chain in H. eapply chain_track. exact H. Qed.
  Lemma command_track (c : command manifold) g c' g' u : counters_ok c -> execute api (check_move W) c g = Ret (c', g') u ->
    track (cm_manifold c) (cm_manifold c').
  Proof using RO ES Hapi. intros Hc H. apply execute_chain in H as (n & H & _); [|exact Hc]. eapply chain_track. exact H. Qed.
  Lemma passes_track {SS} N3 (m : manifold) (s : SS) ps m' s' : chained N3 m s ps m' s' ->
    Forall (fun x => track (rec_start x) (pr_manifold (rec_result x))) ps -> track m m'.
  Proof using.
    induction 1 as [m s|m s p l m' s' _ IH]; intros F; [apply track_refl|].
    apply Forall_cons in F as [A F]. cbn [rec_start rec_result] in A. eapply track_trans; [exact A|exact (IH F)].
  Qed.
  Lemma move_always_track {X} N3 draw print write s (w : X) man s' w' man' : cadence_ok (ma_cadence s) ->
    ma_run N3 api (check_move W) draw print write s w man = Ret (s', w') man' -> track man man'.
  Proof using RO ES Hapi.
    intros Hc H. apply ma_run_Ret in H as (ps & _ & Hch & Hf & _); [|exact Hc].
    eapply passes_track; [exact Hch|]. eapply Forall_impl; [exact Hf|]. cbn. intros x (_ & h & g1 & g2 & _ & Hh).
    eapply history_track. exact Hh.
  Qed.

  Section Metropolis.
    Context {P X : Type}.
    Variable geometry : manifold -> Geometry.
    Variable accept : Geometry -> Geometry -> MoveType -> P + exn.
    Variable at_least : P -> fp -> bool.
    Variable draw_int : Z -> Z -> G -> Z * G.
    Variable draw_p : G -> fp * G.
    Lemma markov_track cur g m t o cur' g' :
      markov_step geometry api (check_move W) accept at_least cur g m t o cur' g' -> track cur cur'.
    Proof using RO ES Hapi. destruct 1; try (apply track_refl; fail). eapply step_track; eassumption. Qed.
    Lemma sampled_track cur g h cur' g' :
      sampled_chain geometry api (check_move W) accept at_least draw_int draw_p cur g h cur' g' -> track cur cur'.
    Proof using RO ES Hapi.
      induction 1 as [cur g|cur g m g1 t g2 o cur' g' h cur'' g'' _ _ _ _ Hs _ IH]; [apply track_refl|].
      eapply track_trans; [eapply markov_track; eassumption|exact IH].
    Qed.
    Lemma metropolis_track max_time update print write (x : metropolis G) (w : X) man x' w' man' :
      (forall g m g', draw_int 0 4 g = (m, g') -> supported m) -> cadence_ok (mh_cadence x) ->
      mh_run geometry api (check_move W) accept at_least draw_int draw_p max_time update print write x w man = Ret (x', w') man' ->
      track man man'.
    Proof using RO ES Hapi.
      intros HD Hc H. apply metropolis_run in H as (hs & _ & _ & Hr & _); [|assumption..].
      induction Hr as [m|m g h m' g' hs m'' _ Hch _ IH]; [apply track_refl|]. eapply track_trans; [eapply sampled_track; eassumption|exact IH].
    Qed.
  End Metropolis.
End Runs.

Section Volumes.
  Variable W : world.
  Context {G : Type}.
  Variable R : choices G.
  Hypothesis RO : choices_ok R.
  Variable escape : manifold -> G -> move_result manifold * G.
  Hypothesis ES : stays_modelled escape.

  Lemma moved_unchanged k m m' : valid (m_cells m) -> moved W R escape k m m' -> k = TWO_THREE \/ k = THREE_TWO ->
    forall t, slice (label_of W m) t (m_cells m') = slice (label_of W m) t (m_cells m).
  Proof using RO ES.
    intros V H K. apply (moved_slices W R RO escape ES k m m' V H); [|exact K]. intros ->. destruct K; discriminate.
  Qed.
  Lemma moved_one k m m' : valid (m_cells m) -> moved W R escape k m m' -> check_move W m m' k = true ->
    k = TWO_SIX \/ k = SIX_TWO \/ k = FOUR_FOUR ->
    exists t, (forall u, u <> t -> slice (label_of W m) u (m_cells m') = slice (label_of W m) u (m_cells m)) /\
      exists lU lV, surface_move (slice (label_of W m) t (m_cells m)) lU lV (slice (label_of W m) t (m_cells m')) /\
        length lU = if k =? TWO_SIX then 1%nat else if k =? SIX_TWO then 3%nat else 2%nat.
  Proof using RO ES. intros V H C K. apply (moved_slices W R RO escape ES k m m' V H (fun _ => C)). exact K. Qed.

  Lemma moved_volumes k m m' : valid (m_cells m) -> moved W R escape k m m' -> check_move W m m' k = true ->
    let vol t n := slice_volume (label_of W m) t n in
    (k = TWO_THREE \/ k = THREE_TWO \/ k = FOUR_FOUR -> forall t, vol t (m_cells m') = vol t (m_cells m)) /\
    (k = TWO_SIX \/ k = SIX_TWO -> exists t,
       vol t (m_cells m') = vol t (m_cells m) + (if k =? TWO_SIX then 2 else -2) /\
       forall u, u <> t -> vol u (m_cells m') = vol u (m_cells m)).
  Proof using RO ES.
    intros V H C vol. unfold vol. setoid_rewrite <- slice_triangles. split.
    - intros K t. assert (D : (k = TWO_THREE \/ k = THREE_TWO) \/ k = FOUR_FOUR) by tauto. destruct D as [D|D].
      + rewrite (moved_unchanged k m m' V H D t). reflexivity.
      + destruct (moved_one k m m' V H C) as (u & O & lU & lV & M & L); [auto|]. destruct (Z.eq_dec t u) as [->|N]; [|rewrite (O t N); reflexivity].
        pose proof (members_change _ _ _ _ (slice_complex _ _ _) M) as (_ & _ & E). cbv zeta in E. pose proof (sv_four _ _ _ _ M) as F. rewrite app_length in F.
        subst k. cbn in L. lia.
    - intros K. destruct (moved_one k m m' V H C) as (u & O & lU & lV & M & L); [tauto|]. exists u. split.
      + pose proof (members_change _ _ _ _ (slice_complex _ _ _) M) as (_ & _ & E). cbv zeta in E. pose proof (sv_four _ _ _ _ M) as F. rewrite app_length in F.
        destruct K as [-> | ->]; cbn in L |- *; lia.
      + intros t N. rewrite (O t N). reflexivity.
  Qed.
End Volumes.
