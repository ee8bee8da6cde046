(** Local structure of closed complexes: neighbours across a facet, cells around
    an edge of degree three or four, cells around a vertex. *)
From Verif Require Import Base Tracker Geom Simplex Pachner Foliation Moves.
From stdpp Require Import fin_sets gmap sorting.
Local Open Scope Z_scope.

Lemma elem_of_star s T c : c ∈ star s T <-> c ∈ T /\ s ⊆ c.
Proof. unfold star. rewrite elem_of_filter. tauto. Qed.

Lemma cofaces_star f T : cofaces f T = Z.of_nat (size (star f T)).
Proof.
  unfold cofaces, count, star. do 2 f_equal. apply set_eq. intros c.
  rewrite !elem_of_filter, bool_decide_eq_true. tauto.
Qed.

Lemma size_two_inv {A} `{Countable A} (X : gset A) : size X = 2%nat ->
  exists x y, x <> y /\ x ∈ X /\ y ∈ X /\ forall z, z ∈ X -> z = x \/ z = y.
Proof.
  intros Hs. change (length (elements X) = 2%nat) in Hs.
  destruct (elements X) as [|x [|y [|? ?]]] eqn:E; try discriminate.
  pose proof (NoDup_elements X) as N. rewrite E in N.
  exists x, y. split; [apply NoDup_cons in N; set_solver|].
  rewrite <- !elem_of_elements, E. repeat split; try (rewrite ?elem_of_cons; auto; fail).
  intros z Hz. rewrite <- elem_of_elements, E in Hz. set_solver.
Qed.

Lemma elements_three (X : simplex) : size X = 3%nat ->
  exists a b c, elements X = [a; b; c] /\ NoDup [a; b; c] /\ X = of_list [a; b; c].
Proof.
  intros Hs. change (length (elements X) = 3%nat) in Hs.
  destruct (elements X) as [|a [|b [|c [|? ?]]]] eqn:E; try discriminate.
  pose proof (NoDup_elements X) as N. pose proof (of_list_elements X) as O. rewrite E in N, O.
  exists a, b, c. auto.
Qed.

Lemma elements_two (X : simplex) : size X = 2%nat ->
  exists a b, elements X = [a; b] /\ a <> b /\ X = of_list [a; b].
Proof.
  intros Hs. change (length (elements X) = 2%nat) in Hs.
  destruct (elements X) as [|a [|b [|? ?]]] eqn:E; try discriminate.
  pose proof (NoDup_elements X) as N. pose proof (of_list_elements X) as O. rewrite E in N, O.
  exists a, b. split; [reflexivity|]. split; [|auto]. apply NoDup_cons in N. set_solver.
Qed.

Lemma size_one_inv (X : simplex) : size X = 1%nat -> exists w, X = {[w]} /\ elements X = [w].
Proof.
  intros Hs. change (length (elements X) = 1%nat) in Hs.
  destruct (elements X) as [|a [|? ?]] eqn:E; try discriminate.
  exists a. split; [|reflexivity]. apply set_eq. intros y. rewrite <- elem_of_elements, E.
  rewrite elem_of_list_singleton, elem_of_singleton. reflexivity.
Qed.

Lemma subset_eq_size (A B : simplex) : A ⊆ B -> size A = size B -> A = B.
Proof.
  intros H E. apply set_eq. intros y. split; [apply H|]. intros Hy.
  destruct (decide (y ∈ A)); [assumption|]. exfalso.
  assert (size A < size B)%nat; [|lia]. apply subset_size. split; [exact H|]. intros HB. auto.
Qed.

(** What tds_valid says. *)
Record valid (T : tds) : Prop := {
  va_pure : pure T;
  va_closed : closed T;
  va_euler : Z.of_nat (size (faces 1 T)) - Z.of_nat (size (faces 2 T)) +
             Z.of_nat (size (faces 3 T)) - Z.of_nat (size T) = 0 }.

Lemma tds_valid_spec T : tds_valid T = true <-> valid T.
Proof.
  unfold tds_valid. rewrite !andb_true_iff, !bool_decide_eq_true, Z.eqb_eq. split.
  - intros [[A B] C]. split; [exact A|exact B|exact C].
  - intros [A B C]. auto.
Qed.

Section Closed.
  Variable T : tds.
  Hypothesis HP : pure T.
  Hypothesis HC : closed T.

  Lemma two_cells f c : c ∈ T -> f ⊆ c -> size f = 3%nat ->
    exists n, n ∈ T /\ n <> c /\ f ⊆ n /\ forall c', c' ∈ T -> f ⊆ c' -> c' = c \/ c' = n.
  Proof using HC.
    intros Hc Hf Hs. assert (Hff : f ∈ faces 3 T) by (apply elem_of_faces; eauto).
    pose proof (HC f Hff) as E. rewrite cofaces_star in E.
    destruct (size_two_inv (star f T) ltac:(lia)) as (x & y & Hxy & Hx & Hy & Hall).
    assert (Hcs : c ∈ star f T) by (apply elem_of_star; auto).
    apply elem_of_star in Hx as [Hx1 Hx2], Hy as [Hy1 Hy2].
    destruct (Hall c Hcs) as [->| ->].
    - exists y. split; [exact Hy1|]. split; [congruence|]. split; [exact Hy2|].
      intros c' Hc' Hf'. apply Hall, elem_of_star. auto.
    - exists x. split; [exact Hx1|]. split; [congruence|]. split; [exact Hx2|].
      intros c' Hc' Hf'. destruct (Hall c'); [apply elem_of_star; auto|right; assumption|left; assumption].
  Qed.

  (** The cell on the other side of a facet. *)
  Lemma neighbor_spec c v : c ∈ T -> v ∈ c ->
    exists n w, neighbor T c v = Some n /\ n ∈ T /\ w ∉ c /\ n = {[w]} ∪ c ∖ {[v]} /\
      mirror_vertex n c = Some w /\ mirror_vertex c n = Some v /\
      forall c', c' ∈ T -> c ∖ {[v]} ⊆ c' -> c' = c \/ c' = n.
  Proof using HP HC.
    intros Hc Hv. assert (Hs : size (c ∖ {[v]}) = 3%nat).
    { rewrite size_difference by set_solver. rewrite (HP c Hc), size_singleton. reflexivity. }
    destruct (two_cells (c ∖ {[v]}) c Hc ltac:(set_solver) Hs) as (n & Hn & Hnc & Hfn & Hall).
    assert (E : size (n ∖ (c ∖ {[v]})) = 1%nat).
    { rewrite size_difference by exact Hfn. rewrite (HP n Hn), Hs. reflexivity. }
    destruct (size_one_inv _ E) as (w & Ew & _).
    assert (En : n = {[w]} ∪ c ∖ {[v]}).
    { rewrite <- Ew. apply set_eq. intros y. destruct (decide (y ∈ c ∖ {[v]})); set_solver. }
    assert (Hwf : w ∉ c ∖ {[v]}) by set_solver.
    assert (Hwc : w ∉ c).
    { intros Hwc. assert (w = v) by (destruct (decide (w = v)); [assumption|]; exfalso; apply Hwf, elem_of_difference; rewrite elem_of_singleton; auto). subst w. apply Hnc. rewrite En. apply set_eq. intros y.
      destruct (decide (y = v)); set_solver + Hv e || set_solver + Hv n0. }
    exists n, w. split; [|split; [exact Hn|split; [exact Hwc|split; [exact En|split; [|split; [|exact Hall]]]]]].
    - unfold neighbor.
      assert (En1 : filter (fun n0 => n0 <> c) (star (c ∖ {[v]}) T) = {[n]}).
      { apply set_eq. intros z. rewrite elem_of_filter, elem_of_star, elem_of_singleton. split.
        - intros (A & B & D). destruct (Hall z B D); [contradiction|assumption].
        - intros ->. auto. }
      rewrite En1, elements_singleton. reflexivity.
    - unfold mirror_vertex. assert (E1 : n ∖ c = {[w]}) by (rewrite En; set_solver).
      rewrite E1, elements_singleton. reflexivity.
    - unfold mirror_vertex. assert (E1 : c ∖ n = {[v]}).
      { rewrite En. apply set_eq. intros y. destruct (decide (y = v)); set_solver. }
      rewrite E1, elements_singleton. reflexivity.
  Qed.

  (** Three cells around an edge: the link is a triangle. *)
  Lemma degree_three e : size e = 2%nat -> size (star e T) = 3%nat ->
    exists a b c, NoDup [a; b; c] /\ (forall x, x ∈ [a; b; c] -> x ∉ e) /\
      link_vertices e T = of_list [a; b; c] /\
      star e T = {[ e ∪ of_list [a; b]; e ∪ of_list [b; c]; e ∪ of_list [a; c] ]}.
  Proof using HP HC.
    intros He Hs.
    assert (pair : forall c, c ∈ star e T -> exists a b, a <> b /\ a ∉ e /\ b ∉ e /\ c = e ∪ of_list [a; b]).
    { intros c Hc. apply elem_of_star in Hc as [Hc Hec].
      destruct (elements_two (c ∖ e)) as (a & b & _ & Hab & E).
      { rewrite size_difference by exact Hec. rewrite (HP c Hc), He. reflexivity. }
      exists a, b. assert (a ∈ c ∖ e /\ b ∈ c ∖ e) as [A B] by (rewrite E, !elem_of_of_list; set_solver).
      split; [exact Hab|]. split; [set_solver|]. split; [set_solver|].
      rewrite <- E. apply set_eq. intros y. destruct (decide (y ∈ e)); set_solver. }
    assert (other : forall x y, x ∉ e -> y ∉ e -> x <> y -> e ∪ of_list [x; y] ∈ star e T ->
              exists z, z ∉ e /\ z <> x /\ z <> y /\ e ∪ of_list [x; z] ∈ star e T).
    { intros x y Hx Hy Hxy Hc. apply elem_of_star in Hc as [Hc Hec].
      assert (Hsf : size (e ∪ {[x]}) = 3%nat).
      { rewrite size_union by set_solver. rewrite He, size_singleton. reflexivity. }
      destruct (two_cells (e ∪ {[x]}) _ Hc ltac:(rewrite !of_list_cons; set_solver) Hsf) as (n & Hn & Hnc & Hfn & _).
      assert (Hn' : n ∈ star e T) by (apply elem_of_star; set_solver).
      destruct (pair n Hn') as (p & q & Hpq & Hp & Hq & En).
      assert (Hxn : x = p \/ x = q).
      { assert (H : x ∈ n) by (apply Hfn; set_solver +). rewrite En in H. rewrite elem_of_union, elem_of_of_list in H. set_solver + H Hx. }
      destruct Hxn as [<-| <-].
      - exists q. split; [exact Hq|]. split; [congruence|]. split; [|rewrite <- En; exact Hn'].
        intros ->. apply Hnc. exact En.
      - exists p. split; [exact Hp|]. split; [congruence|]. split.
        + intros ->. apply Hnc. rewrite En. apply set_eq. intros z. rewrite !elem_of_union, !elem_of_of_list. set_solver +.
        + replace (e ∪ of_list [x; p]) with n; [exact Hn'|]. rewrite En.
          apply set_eq. intros z. rewrite !elem_of_union, !elem_of_of_list. set_solver +. }
    assert (inj : forall x y x' y', x ∉ e -> y ∉ e -> x' ∉ e -> y' ∉ e ->
       e ∪ of_list [x; y] = e ∪ of_list [x'; y'] -> (x = x' /\ y = y') \/ (x = y' /\ y = x') \/ x = y \/ x' = y').
    { intros x y x' y' Hx Hy Hx' Hy' E.
      assert (x ∈ e ∪ of_list [x'; y']) by (rewrite <- E, elem_of_union, elem_of_of_list; set_solver +).
      assert (y ∈ e ∪ of_list [x'; y']) by (rewrite <- E, elem_of_union, elem_of_of_list; set_solver +).
      rewrite elem_of_union, elem_of_of_list in H, H0. set_solver + H H0 Hx Hy. }
    assert (sym : forall x y, e ∪ of_list [x; y] = e ∪ of_list [y; x]).
    { intros x y. apply set_eq. intros z. rewrite !elem_of_union, !elem_of_of_list. set_solver +. }
    destruct (decide (star e T = ∅)) as [E0|E0].
    { rewrite E0, size_empty in Hs. discriminate. }
    apply set_choose_L in E0 as [c0 Hc0]. destruct (pair c0 Hc0) as (a & b & Hab & Ha & Hb & ->).
    destruct (other b a Hb Ha ltac:(congruence) ltac:(rewrite sym; exact Hc0)) as (c & Hc & Hcb & Hca & Hbc).
    destruct (other a b Ha Hb Hab Hc0) as (d & Hd & Hda & Hdb & Had).
    assert (D3 : forall s, s ∈ star e T -> s = e ∪ of_list [a; b] \/ s = e ∪ of_list [b; c] \/ s = e ∪ of_list [a; d]).
    { intros s Hsin.
      set (X := {[ e ∪ of_list [a; b]; e ∪ of_list [b; c]; e ∪ of_list [a; d] ]} : gset simplex).
      assert (HX : X ⊆ star e T) by (unfold X; set_solver + Hc0 Hbc Had).
      assert (SX : size X = 3%nat).
      { unfold X. rewrite !size_union; rewrite ?size_singleton; try reflexivity.
        - apply disjoint_singleton_l. rewrite elem_of_singleton. intros E.
          destruct (inj _ _ _ _ Ha Hb Hb Hc E) as [[? ?]|[[? ?]|[?|?]]]; congruence.
        - apply disjoint_singleton_r. rewrite elem_of_union, !elem_of_singleton. intros [E|E].
          + destruct (inj _ _ _ _ Ha Hd Ha Hb E) as [[? ?]|[[? ?]|[?|?]]]; congruence.
          + destruct (inj _ _ _ _ Ha Hd Hb Hc E) as [[? ?]|[[? ?]|[?|?]]]; congruence. }
      assert (EX : X = star e T).
      { apply set_eq. intros z. split; [apply HX|]. intros Hz. destruct (decide (z ∈ X)) as [|Hn]; [assumption|].
        exfalso. assert (size X < size (star e T))%nat; [|lia]. apply subset_size. split; [exact HX|]. intros Hsub. apply Hn, Hsub, Hz. }
      rewrite <- EX in Hsin. unfold X in Hsin. rewrite !elem_of_union, !elem_of_singleton in Hsin. tauto. }
    assert (Hcd : d = c).
    { destruct (other c b Hc Hb Hcb ltac:(rewrite sym; exact Hbc)) as (z & Hz & Hzc & Hzb & Hcz).
      destruct (D3 _ Hcz) as [E|[E|E]]; apply inj in E; try assumption;
        destruct E as [[? ?]|[[? ?]|[?|?]]]; congruence. }
    subst d. exists a, b, c.
    assert (HN : NoDup [a; b; c]) by (repeat constructor; set_solver + Hab Hcb Hca).
    split; [exact HN|]. split; [set_solver + Ha Hb Hc|].
    assert (Est : star e T = {[ e ∪ of_list [a; b]; e ∪ of_list [b; c]; e ∪ of_list [a; c] ]}).
    { apply set_eq. intros s. rewrite !elem_of_union, !elem_of_singleton. split.
      - intros Hsin. destruct (D3 s Hsin) as [E|[E|E]]; auto.
      - intros [[E|E]|E]; subst s; assumption. }
    split; [|exact Est].
    unfold link_vertices. apply set_eq. intros x. rewrite elem_of_difference, elem_of_union_list, elem_of_of_list.
    setoid_rewrite elem_of_elements. split.
    - intros [(s & Hsin & Hxs) Hxe]. destruct (D3 s Hsin) as [E|[E|E]]; subst s;
        rewrite elem_of_union, elem_of_of_list in Hxs; set_solver + Hxs Hxe.
    - intros Hx. split; [|set_solver + Hx Ha Hb Hc]. rewrite !elem_of_cons in Hx. destruct Hx as [->|[->|[->|Hx]]].
      + exists (e ∪ of_list [a; b]). split; [exact Hc0|]. rewrite elem_of_union, elem_of_of_list. set_solver +.
      + exists (e ∪ of_list [a; b]). split; [exact Hc0|]. rewrite elem_of_union, elem_of_of_list. set_solver +.
      + exists (e ∪ of_list [b; c]). split; [exact Hbc|]. rewrite elem_of_union, elem_of_of_list. set_solver +.
      + apply elem_of_nil in Hx. tauto.
  Qed.
End Closed.
