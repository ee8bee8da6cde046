(** The two CGAL flips are legal Pachner moves on valid complexes, and the
    change of every count under a Pachner move on finite vertices. *)
From Verif Require Import Base Tracker Geom Simplex Pachner Foliation Moves Links.
From stdpp Require Import fin_sets gmap sorting.
Local Open Scope Z_scope.

Lemma NoDup_5 (a b c d e : vertex) : NoDup [a; b; c; d; e] <->
  (a <> b /\ a <> c /\ a <> d /\ a <> e) /\ (b <> c /\ b <> d /\ b <> e) /\ (c <> d /\ c <> e) /\ d <> e.
Proof.
  rewrite !NoDup_cons, !elem_of_cons, !elem_of_nil. split.
  - intros (A & B & C & D & _). repeat split; intros E; tauto.
  - intros (A & B & C & D). repeat split; try (intros E; intuition congruence). apply NoDup_nil_2.
Qed.

Lemma star_empty s T : star s T = ∅ <-> forall c, c ∈ T -> ~ s ⊆ c.
Proof.
  split.
  - intros E c Hc Hs. assert (H : c ∈ star s T) by (apply elem_of_star; auto). rewrite E in H. set_solver + H.
  - intros H. apply set_eq. intros c. rewrite elem_of_star. split; [intros [A B]; destruct (H c A B)|intros A; set_solver + A].
Qed.

(** ** The facet flip *)
Lemma flip_facet_pachner T c v T' : valid T -> c ∈ T -> v ∈ c -> tds_flip_facet T c v = Flipped T' ->
  exists n w a b x,
    neighbor T c v = Some n /\ n ∈ T /\ mirror_vertex n c = Some w /\
    c ∖ {[v]} = of_list [a; b; x] /\ c = of_list [v; a; b; x] /\ n = of_list [w; a; b; x] /\
    pachner_ok T [v; w] [a; b; x] /\ T' = pachner T [v; w] [a; b; x].
Proof.
  intros [HP HC _] Hc Hv. unfold tds_flip_facet.
  destruct (neighbor_spec T HP HC c v Hc Hv) as (n & w & En & Hn & Hw & Enw & Em & _ & Hall).
  rewrite En, Em. case_bool_decide as Hst; [|discriminate]. intros [= <-].
  destruct (elements_three (c ∖ {[v]})) as (a & b & x & Ee & Hnd & Ef).
  { rewrite size_difference by (set_solver + Hv). rewrite (HP c Hc), size_singleton. reflexivity. }
  rewrite Ee. exists n, w, a, b, x. split; [reflexivity|]. split; [exact Hn|]. split; [exact Em|]. split; [exact Ef|].
  assert (Ec : c = of_list [v; a; b; x]).
  { rewrite of_list_cons, <- Ef. apply set_eq. intros y. rewrite elem_of_union, elem_of_difference, elem_of_singleton. destruct (decide (y = v)) as [->|Hy]; tauto. }
  assert (En' : n = of_list [w; a; b; x]) by (rewrite Enw, Ef; reflexivity).
  split; [exact Ec|]. split; [exact En'|]. split; [|reflexivity].
  assert (Hvf : v ∉ c ∖ {[v]}) by (set_solver +). rewrite Ef, elem_of_of_list in Hvf.
  assert (Hwc : w ∉ [v; a; b; x]) by (rewrite Ec, elem_of_of_list in Hw; exact Hw).
  assert (Hnd5 : NoDup [v; w; a; b; x]).
  { apply NoDup_cons. split.
    - rewrite elem_of_cons. intros [E|E]; [|contradiction]. subst w. apply Hwc. constructor.
    - apply NoDup_cons. split; [|exact Hnd]. intros E. apply Hwc. constructor. exact E. }
  assert (Ov : omit [v; w; a; b; x] v = n).
  { rewrite En'. apply set_eq. intros y. rewrite elem_of_omit, elem_of_of_list. apply NoDup_cons in Hnd5 as [H _]. split.
    - intros [A B]. apply elem_of_cons in A as [A|A]; [contradiction|exact A].
    - intros A. split; [constructor; exact A|]. intros ->. contradiction. }
  assert (Ow : omit [v; w; a; b; x] w = c).
  { rewrite Ec. apply set_eq. intros y. rewrite elem_of_omit, elem_of_of_list. split.
    - intros [A B]. rewrite !elem_of_cons in *. tauto.
    - intros A. split; [rewrite !elem_of_cons in *; tauto|]. intros ->. contradiction. }
  constructor.
  - exact Hnd5.
  - reflexivity.
  - discriminate.
  - discriminate.
  - intros y Hy. cbn [app]. rewrite !elem_of_cons in Hy. destruct Hy as [->|[->|Hy]].
    + rewrite Ov. exact Hn.
    + rewrite Ow. exact Hc.
    + apply elem_of_nil in Hy. tauto.
  - intros c' Hc' Hs. rewrite <- Ef in Hs. destruct (Hall c' Hc' Hs) as [->| ->].
    + exists w. split; [set_solver +|]. symmetry. exact Ow.
    + exists v. split; [set_solver +|]. symmetry. exact Ov.
  - intros c' Hc'. apply star_empty with (c := c') in Hst; assumption.
Qed.

(** ** The edge flip *)
Lemma flip_edge_pachner T e T' : valid T -> size e = 2%nat -> tds_flip_edge T e = Flipped T' ->
  exists p q a b x,
    e = of_list [p; q] /\ link_vertices e T = of_list [a; b; x] /\
    pachner_ok T [a; b; x] [p; q] /\ T' = pachner T [a; b; x] [p; q] /\
    star e T = {[ of_list [p; q; a; b]; of_list [p; q; b; x]; of_list [p; q; a; x] ]}.
Proof.
  intros [HP HC _] He. unfold tds_flip_edge.
  destruct (Nat.eqb (size (star e T)) 3) eqn:E3; cbn [negb]; [|discriminate]. apply Nat.eqb_eq in E3.
  case_bool_decide as Hst; [|discriminate]. intros [= <-].
  destruct (degree_three T HP HC e He E3) as (a' & b' & x' & Hnd' & Hne & EL & ES).
  destruct (elements_two e He) as (p & q & Eee & Hpq & Ee).
  assert (Hlink3 : size (link_vertices e T) = 3%nat) by (rewrite EL; apply of_list_size; exact Hnd').
  destruct (elements_three _ Hlink3) as (a & b & x & Eel & Hnd & EL').
  exists p, q, a, b, x. split; [exact Ee|]. split; [exact EL'|].
  rewrite Eel, Eee.
  assert (Hdis : forall y, y ∈ [a; b; x] -> y ∉ e).
  { intros y Hy. apply Hne. rewrite <- elem_of_of_list, <- EL, EL'. apply elem_of_of_list. exact Hy. }
  assert (Hstar : forall y z, y ∈ [a; b; x] -> z ∈ [a; b; x] -> y <> z -> of_list [p; q; y; z] ∈ star e T).
  { intros y z Hy Hz Hyz. rewrite <- elem_of_of_list, <- EL', EL, elem_of_of_list in Hy, Hz.
    rewrite ES. rewrite Ee. rewrite !elem_of_union, !elem_of_singleton.
    assert (Hcase : (y = a' /\ z = b') \/ (y = b' /\ z = a') \/ (y = b' /\ z = x') \/ (y = x' /\ z = b') \/ (y = a' /\ z = x') \/ (y = x' /\ z = a')).
    { rewrite !elem_of_cons, elem_of_nil in Hy, Hz.
      destruct Hy as [->|[->|[->|[]]]], Hz as [->|[->|[->|[]]]]; tauto. }
    assert (Q : forall u v, of_list [p; q; u; v] = of_list [p; q] ∪ of_list [u; v]) by (intros; apply (of_list_app [p; q])).
    assert (S : forall u v, of_list [u; v] = of_list [v; u]) by (intros; apply set_eq; intros k; rewrite !elem_of_of_list; set_solver +).
    rewrite Q. destruct Hcase as [[-> ->]|[[-> ->]|[[-> ->]|[[-> ->]|[[-> ->]|[-> ->]]]]]]; rewrite ?(S b' a'), ?(S x' b'), ?(S x' a'); tauto. }
  assert (Hab : a <> b /\ a <> x /\ b <> x).
  { rewrite !NoDup_cons, !elem_of_cons, elem_of_nil in Hnd. tauto. }
  destruct Hab as (Hab & Hax & Hbx).
  assert (Hape : a ∉ e /\ b ∉ e /\ x ∉ e) by (repeat split; apply Hdis; set_solver +).
  rewrite Ee, !elem_of_of_list, !elem_of_cons, !elem_of_nil in Hape.
  assert (Hnd5 : NoDup [a; b; x; p; q]) by (apply NoDup_5; repeat split; try tauto; intros ->; tauto).
  assert (Oa : omit [a; b; x; p; q] a = of_list [p; q; b; x]).
  { apply set_eq. intros y. rewrite elem_of_omit, elem_of_of_list, !elem_of_cons, elem_of_nil.
    split; [tauto|]. intros Hy. split; [tauto|]. intros ->. apply NoDup_5 in Hnd5. tauto. }
  assert (Ob : omit [a; b; x; p; q] b = of_list [p; q; a; x]).
  { apply set_eq. intros y. rewrite elem_of_omit, elem_of_of_list, !elem_of_cons, elem_of_nil.
    split; [tauto|]. intros Hy. split; [tauto|]. intros ->. apply NoDup_5 in Hnd5. intuition congruence. }
  assert (Ox : omit [a; b; x; p; q] x = of_list [p; q; a; b]).
  { apply set_eq. intros y. rewrite elem_of_omit, elem_of_of_list, !elem_of_cons, elem_of_nil.
    split; [tauto|]. intros Hy. split; [tauto|]. intros ->. apply NoDup_5 in Hnd5. intuition congruence. }
  assert (Hin : forall y z, y ∈ [a; b; x] -> z ∈ [a; b; x] -> y <> z -> of_list [p; q; y; z] ∈ T).
  { intros y z Hy Hz Hyz. pose proof (Hstar y z Hy Hz Hyz) as H. apply elem_of_star in H. tauto. }
  assert (ES' : star e T = {[ of_list [p; q; a; b]; of_list [p; q; b; x]; of_list [p; q; a; x] ]}).
  { symmetry. set (X := {[ of_list [p; q; a; b]; of_list [p; q; b; x]; of_list [p; q; a; x] ]} : gset (gset positive)).
    assert (HX : forall s, s ∈ X -> s ∈ star e T).
    { intros s Hs. unfold X in Hs. rewrite !elem_of_union, !elem_of_singleton in Hs.
      destruct Hs as [[->| ->]| ->]; apply Hstar; try assumption; set_solver +. }
    assert (SX : size X = 3%nat).
    { unfold X. rewrite <- Oa, <- Ob, <- Ox. rewrite !size_union; rewrite ?size_singleton; try reflexivity.
      - apply disjoint_singleton_l. rewrite elem_of_singleton. intros E. apply omit_inj in E; [congruence|set_solver +].
      - apply disjoint_singleton_r. rewrite elem_of_union, !elem_of_singleton.
        intros [E|E]; apply omit_inj in E; try congruence; set_solver +. }
    clearbody X. apply set_eq. intros z. split; [apply HX|]. intros Hz.
    destruct (decide (z ∈ X)) as [|Hn]; [assumption|]. exfalso.
    assert (size X < size (star e T))%nat; [|lia]. apply subset_size. split; [exact HX|]. intros Hsub. apply Hn, Hsub, Hz. }
  split; [|split; [reflexivity|exact ES']].
  constructor.
  - exact Hnd5.
  - reflexivity.
  - discriminate.
  - discriminate.
  - intros y Hy. cbn [app]. rewrite !elem_of_cons, elem_of_nil in Hy. destruct Hy as [->|[->|[->|[]]]].
    + rewrite Oa. apply Hin; try assumption; set_solver +.
    + rewrite Ob. apply Hin; try assumption; set_solver +.
    + rewrite Ox. apply Hin; try assumption; set_solver +.
  - intros c Hc Hs. rewrite <- Ee in Hs.
    assert (Hcs : c ∈ star e T) by (apply elem_of_star; auto). rewrite ES', !elem_of_union, !elem_of_singleton in Hcs.
    cbn [app]. destruct Hcs as [[->| ->]| ->].
    + exists x. rewrite Ox. split; [set_solver +|reflexivity].
    + exists a. rewrite Oa. split; [set_solver +|reflexivity].
    + exists b. rewrite Ob. split; [set_solver +|reflexivity].
  - intros c Hc. rewrite EL' in Hst. apply star_empty with (c := c) in Hst; assumption.
Qed.

(** ** Counts under a Pachner move, in terms of vertex lists *)
Definition lsum (Q : list vertex -> bool) (k : nat) (lW l : list vertex) : Z :=
  if Nat.leb (length lW) k
  then fold_right (fun r acc => b2z (Q (lW ++ r)) + acc) 0 (ksub (k - length lW) l) else 0.

Lemma sum_of_lsum P Q k lW l : NoDup (lW ++ l) ->
  (forall r, NoDup r -> length r = k -> (forall x, x ∈ r -> x ∈ lW ++ l) -> P (of_list r) = Q r) ->
  sum_of P (star_faces k lW l) = lsum Q k lW l.
Proof.
  intros Hn H. unfold star_faces, lsum. destruct (Nat.leb (length lW) k) eqn:E; [|reflexivity].
  apply Nat.leb_le in E.
  assert (HQ : forall r, r ∈ ksub (k - length lW) l -> P (of_list (lW ++ r)) = Q (lW ++ r)).
  { intros r Hr. apply ksub_sublist in Hr as [A B]. apply NoDup_app in Hn as (N1 & N2 & N3). apply H.
    - apply NoDup_app. split; [exact N1|]. split; [|eapply sublist_NoDup; eassumption].
      intros x Hx Hx'. apply (N2 x Hx). apply (elem_of_submseteq r); [exact Hx'|apply sublist_submseteq; exact A].
    - rewrite app_length. lia.
    - intros x. rewrite !elem_of_app. intros [Hx|Hx]; [auto|right].
      apply (elem_of_submseteq r); [exact Hx|apply sublist_submseteq; exact A]. }
  revert HQ. generalize (ksub (k - length lW) l). induction l0 as [|r L IH]; intros HQ; [reflexivity|].
  cbn [map sum_of fold_right]. rewrite (HQ r) by constructor.
  change (b2z (Q (lW ++ r)) + sum_of P (map (fun r => of_list (lW ++ r)) L) = b2z (Q (lW ++ r)) + fold_right (fun r acc => b2z (Q (lW ++ r)) + acc) 0 L).
  f_equal. apply IH. intros r' Hr'. apply HQ. constructor. exact Hr'.
Qed.

Lemma count_pachner_list T lU lV k P Q : pachner_ok T lU lV -> (k <= 4)%nat ->
  (forall r, NoDup r -> length r = k -> (forall x, x ∈ r -> x ∈ lU ++ lV) -> P (of_list r) = Q r) ->
  count P (faces k (pachner T lU lV)) = count P (faces k T) - lsum Q k lV lU + lsum Q k lU lV.
Proof.
  intros ok Hk H. rewrite count_pachner by assumption.
  rewrite (sum_of_lsum P Q k lV lU), (sum_of_lsum P Q k lU lV); [reflexivity| | | |].
  - exact (po_nodup _ _ _ ok).
  - exact H.
  - rewrite (Permutation_app_comm lV lU). exact (po_nodup _ _ _ ok).
  - intros r A B C. apply H; [exact A|exact B|]. intros x Hx. apply C in Hx. rewrite elem_of_app in *. tauto.
Qed.

Section Counts.
  Variable label : vertex -> Z.
  Variables (T : tds) (lU lV : list vertex).
  Hypothesis ok : pachner_ok T lU lV.
  Hypothesis HP : pure T.
  Hypothesis fin : infinite ∉ lU ++ lV.

  Lemma finite_sub r : (forall x, x ∈ r -> x ∈ lU ++ lV) -> finite_simplex (of_list r) = true.
  Proof using fin. intros H. apply finite_spec. rewrite elem_of_of_list. intros Hi. apply fin, H, Hi. Qed.

  Definition qall (r : list vertex) : bool := true.
  Definition qtype (k : Z) (r : list vertex) : bool := classify (map label r) =? k.
  Definition qtl (r : list vertex) : bool := match r with [a; b] => negb (label a =? label b) | _ => false end.
  Definition qsl (r : list vertex) : bool := match r with [a; b] => label a =? label b | _ => false end.

  Lemma n3_pachner : n3 (pachner T lU lV) = n3 T - lsum qall 4 lV lU + lsum qall 4 lU lV.
  Proof using ok HP fin.
    unfold n3. rewrite <- (faces_cells T HP) at 2.
    rewrite <- (faces_cells (pachner T lU lV)) by (apply pachner_pure; assumption).
    apply count_pachner_list; [exact ok|lia|]. intros r _ _ H. apply finite_sub. exact H.
  Qed.
  Lemma n3_of_pachner k : n3_of label k (pachner T lU lV) = n3_of label k T - lsum (qtype k) 4 lV lU + lsum (qtype k) 4 lU lV.
  Proof using ok HP fin.
    unfold n3_of. rewrite <- (faces_cells T HP) at 2.
    rewrite <- (faces_cells (pachner T lU lV)) by (apply pachner_pure; assumption).
    apply count_pachner_list; [exact ok|lia|]. intros r Hn _ H. unfold finite_of_type.
    rewrite (finite_sub r H), cell_type_of_list by exact Hn. reflexivity.
  Qed.
  Lemma n2_pachner : n2 (pachner T lU lV) = n2 T - lsum qall 3 lV lU + lsum qall 3 lU lV.
  Proof using ok fin. apply count_pachner_list; [exact ok|lia|]. intros r _ _ H. apply finite_sub. exact H. Qed.
  Lemma n1_pachner : n1 (pachner T lU lV) = n1 T - lsum qall 2 lV lU + lsum qall 2 lU lV.
  Proof using ok fin. apply count_pachner_list; [exact ok|lia|]. intros r _ _ H. apply finite_sub. exact H. Qed.
  Lemma n0_pachner : n0 (pachner T lU lV) = n0 T - lsum qall 1 lV lU + lsum qall 1 lU lV.
  Proof using ok fin. apply count_pachner_list; [exact ok|lia|]. intros r _ _ H. apply finite_sub. exact H. Qed.
  Lemma n1_tl_pachner : n1_tl label (pachner T lU lV) = n1_tl label T - lsum qtl 2 lV lU + lsum qtl 2 lU lV.
  Proof using ok fin.
    apply count_pachner_list; [exact ok|lia|]. intros r Hn Hl H. cbn beta. rewrite (finite_sub r H). cbn [andb].
    destruct r as [|a [|b [|? ?]]]; try discriminate. apply timelike_of_list. apply NoDup_cons in Hn. set_solver + Hn.
  Qed.
  Lemma n1_sl_pachner : n1_sl label (pachner T lU lV) = n1_sl label T - lsum qsl 2 lV lU + lsum qsl 2 lU lV.
  Proof using ok fin.
    apply count_pachner_list; [exact ok|lia|]. intros r Hn Hl H. cbn beta. rewrite (finite_sub r H). cbn [andb].
    destruct r as [|a [|b [|? ?]]]; try discriminate. apply spacelike_of_list. apply NoDup_cons in Hn. set_solver + Hn.
  Qed.
End Counts.

(** Validity (including the Euler relation) is preserved by every legal move. *)
Lemma count_true S : count (fun _ => true) S = Z.of_nat (size S).
Proof.
  unfold count. do 2 f_equal. apply set_eq. intros s. rewrite elem_of_filter. tauto.
Qed.


Lemma pachner_valid T lU lV : pachner_ok T lU lV -> valid T -> valid (pachner T lU lV).
Proof.
  intros ok [HP HC HE]. split; [apply pachner_pure; assumption|apply pachner_closed; assumption|].
  assert (F : forall k, (k <= 4)%nat -> Z.of_nat (size (faces k (pachner T lU lV))) =
     Z.of_nat (size (faces k T)) - lsum qall k lV lU + lsum qall k lU lV).
  { intros k Hk. rewrite <- !count_true. apply count_pachner_list; [exact ok|exact Hk|]. intros; reflexivity. }
  pose proof (F 4%nat ltac:(lia)) as F4.
  rewrite (faces_cells T HP), (faces_cells (pachner T lU lV)) in F4 by (apply pachner_pure; assumption).
  rewrite (F 1%nat), (F 2%nat), (F 3%nat), F4 by lia.
  assert (Hz : forall lW l : list vertex, lW <> [] -> l <> [] -> (length (lW ++ l) = 5)%nat ->
     lsum qall 1 lW l - lsum qall 2 lW l + lsum qall 3 lW l - lsum qall 4 lW l =
     lsum qall 1 l lW - lsum qall 2 l lW + lsum qall 3 l lW - lsum qall 4 l lW).
  { intros lW l HW Hl H5. rewrite app_length in H5.
    destruct lW as [|a [|b [|c [|d [|? ?]]]]]; try congruence; cbn in H5;
    destruct l as [|a' [|b' [|c' [|d' [|? ?]]]]]; try congruence; cbn in H5; try lia; reflexivity. }
  pose proof (Hz lU lV (po_U _ _ _ ok) (po_V _ _ _ ok) (po_five _ _ _ ok)). lia.
Qed.
