(** The circulator visits exactly the cells around an edge, each once. *)
From Verif Require Import Base Tracker Command Geom Simplex Pachner Foliation Moves Links Manifold StarSpec StarFacts Seams.
From stdpp Require Import fin_sets gmap sorting.
From Verif Require Import Foliation Move44.
Local Open Scope Z_scope.

(** The cells on the edge [e] over consecutive vertices of a list. *)
Fixpoint chain (e : simplex) (l : list vertex) : list simplex :=
  match l with
  | x :: r => match r with y :: _ => (e ∪ of_list [x; y]) :: chain e r | [] => [] end
  | [] => []
  end.

Lemma chain_cons e x y r : chain e (x :: y :: r) = (e ∪ of_list [x; y]) :: chain e (y :: r).
Proof. reflexivity. Qed.

Lemma chain_app e l x r : chain e (l ++ x :: r) = chain e (l ++ [x]) ++ chain e (x :: r).
Proof.
  induction l as [|y l IH]; [reflexivity|]. cbn [app]. destruct l as [|z l].
  - cbn [app]. rewrite chain_cons. reflexivity.
  - cbn [app] in *. rewrite !chain_cons, IH. reflexivity.
Qed.

Lemma chain_snoc e l x w : chain e (l ++ [x; w]) = chain e (l ++ [x]) ++ [e ∪ of_list [x; w]].
Proof. apply (chain_app e l x [w]). Qed.

Lemma chain_length e l : length (chain e l) = pred (length l).
Proof. induction l as [|x [|y l] IH]; [reflexivity..|]. rewrite chain_cons. cbn [length] in *. rewrite IH. reflexivity. Qed.

Lemma elem_of_chain e l d : d ∈ chain e l <-> exists l1 x y l2, l = l1 ++ x :: y :: l2 /\ d = e ∪ of_list [x; y].
Proof.
  split.
  - induction l as [|x [|y l] IH]; [intros H; apply elem_of_nil in H as []..|]. rewrite chain_cons, elem_of_cons. intros [->|H].
    + exists [], x, y, l. auto.
    + destruct (IH H) as (l1 & a & b & l2 & E & ->). exists (x :: l1), a, b, l2. rewrite E. auto.
  - intros (l1 & x & y & l2 & -> & ->). rewrite (chain_app e l1 x (y :: l2)), elem_of_app, chain_cons. right. constructor.
Qed.

Lemma chain_vertices e l d v : d ∈ chain e l -> v ∈ d -> v ∈ e \/ v ∈ l.
Proof.
  intros Hd Hv. apply elem_of_chain in Hd as (l1 & x & y & l2 & -> & ->).
  rewrite elem_of_union, elem_of_of_list, !elem_of_cons, elem_of_nil in Hv.
  rewrite elem_of_app, !elem_of_cons. tauto.
Qed.

Lemma chain_edge e l d : d ∈ chain e l -> e ⊆ d.
Proof. intros Hd. apply elem_of_chain in Hd as (l1 & x & y & l2 & _ & ->). set_solver +. Qed.

Lemma chain_NoDup e l : NoDup l -> (forall x, x ∈ l -> x ∉ e) -> NoDup (chain e l).
Proof.
  induction l as [|x [|y l] IH]; intros N He; [constructor..|]. rewrite chain_cons. apply NoDup_cons in N as [Hx N].
  apply NoDup_cons. split; [|apply IH; [exact N|]; intros k Hk; apply He; constructor; exact Hk].
  intros H. destruct (chain_vertices e _ _ x H) as [H'|H'].
  - rewrite elem_of_union, elem_of_of_list. right. constructor.
  - apply (He x); [constructor|exact H'].
  - contradiction.
Qed.

Section Circulator.
  Variable T : tds.
  Variable e : simplex.
  Hypothesis HP : pure T.
  Hypothesis HC : closed T.
  Hypothesis He : size e = 2%nat.

  Lemma facet_size x : x ∉ e -> size (e ∪ {[x]}) = 3%nat.
  Proof using He. intros Hx. rewrite size_union by (set_solver + Hx). rewrite He, size_singleton. reflexivity. Qed.

  Lemma pair_eq x w y z : x ∉ e -> w ∉ e -> e ∪ of_list [x; w] = e ∪ of_list [y; z] ->
    (x = y \/ x = z) /\ (w = y \/ w = z).
  Proof using.
    intros Hx Hw E. assert (A : x ∈ e ∪ of_list [y; z]) by (rewrite <- E, elem_of_union, elem_of_of_list; right; constructor).
    assert (B : w ∈ e ∪ of_list [y; z]) by (rewrite <- E, elem_of_union, elem_of_of_list; right; do 2 constructor).
    rewrite elem_of_union, elem_of_of_list, !elem_of_cons, elem_of_nil in A, B. tauto.
  Qed.

  Lemma pair_comm x w : e ∪ of_list [x; w] = e ∪ of_list [w; x].
  Proof using. f_equal. apply of_list_perm_swap || (apply set_eq; intros k; rewrite !elem_of_of_list, !elem_of_cons, !elem_of_nil; tauto). Qed.

  (** Crossing the facet opposite [x] of the cell over [x w]. *)
  Lemma crossing x w : x ∉ e -> w ∉ e -> x <> w -> e ∪ of_list [x; w] ∈ T ->
    exists w', w' ∉ e /\ w' <> w /\ w' <> x /\ e ∪ of_list [w; w'] ∈ T /\
      neighbor T (e ∪ of_list [x; w]) x = Some (e ∪ of_list [w; w']) /\
      elements ((e ∪ of_list [x; w]) ∖ e ∖ {[x]}) = [w] /\
      (forall d, d ∈ T -> e ∪ {[w]} ⊆ d -> d = e ∪ of_list [x; w] \/ d = e ∪ of_list [w; w']).
  Proof using HP HC.
    intros Hx Hw Hxw Hc.
    assert (Hxc : x ∈ e ∪ of_list [x; w]) by (rewrite elem_of_union, elem_of_of_list; right; constructor).
    destruct (neighbor_spec T HP HC _ x Hc Hxc) as (n & w' & En & Hn & Hw' & Ew & _ & _ & Hall).
    assert (Ef : (e ∪ of_list [x; w]) ∖ {[x]} = e ∪ {[w]}).
    { apply set_eq. intros k. rewrite elem_of_difference, !elem_of_union, elem_of_of_list, !elem_of_cons, elem_of_nil, !elem_of_singleton.
      split; [tauto|]. intros [H|H]; [|subst k; split; [tauto|congruence]]. split; [tauto|]. intros ->. contradiction. }
    rewrite Ef in Ew, Hall.
    assert (Enn : n = e ∪ of_list [w; w']).
    { rewrite Ew. apply set_eq. intros k. rewrite !elem_of_union, elem_of_of_list, !elem_of_cons, elem_of_nil, !elem_of_singleton. tauto. }
    rewrite elem_of_union, elem_of_of_list, !elem_of_cons, elem_of_nil in Hw'.
    exists w'. split; [tauto|]. split; [tauto|]. split; [tauto|]. rewrite <- Enn. split; [exact Hn|]. split; [exact En|]. split; [|exact Hall].
    assert (Es : (e ∪ of_list [x; w]) ∖ e ∖ {[x]} = {[w]}).
    { apply set_eq. intros k. rewrite !elem_of_difference, elem_of_union, elem_of_of_list, !elem_of_cons, elem_of_nil, !elem_of_singleton.
      split; [tauto|]. intros ->. split; [tauto|congruence]. }
    rewrite Es. apply elements_singleton.
  Qed.

  Lemma star_bound l : NoDup l -> (forall d, d ∈ l -> d ∈ T /\ e ⊆ d) -> (length l <= size (star e T))%nat.
  Proof using.
    intros N H. rewrite <- (size_list_to_set (C := gset simplex) l N). apply subseteq_size. intros d Hd.
    apply elem_of_list_to_set in Hd. apply elem_of_star. apply H. exact Hd.
  Qed.

  Lemma circulate_spec x0 first : forall fuel pre x w,
    let xs := pre ++ [x] in
    head xs = Some x0 -> NoDup xs -> (forall k, k ∈ xs -> k ∉ e) ->
    (forall d, d ∈ chain e (xs ++ [w]) -> d ∈ T) -> NoDup (chain e (xs ++ [w])) ->
    w <> x -> w ∉ e -> head (chain e (xs ++ [w])) = Some first ->
    (size (star e T) < fuel + length pre)%nat ->
    (circulate T e first fuel (e ∪ of_list [x; w]) x = MeetsInfinite /\ exists d, d ∈ T /\ e ⊆ d /\ infinite ∈ d) \/
    exists ys, NoDup (xs ++ ys) /\ (forall k, k ∈ xs ++ ys -> k ∉ e) /\
      head (ys ++ [x0]) = Some w /\
      (forall d, d ∈ chain e (xs ++ ys ++ [x0]) -> d ∈ T) /\ NoDup (chain e (xs ++ ys ++ [x0])) /\
      (forall d, d ∈ chain e (x :: ys ++ [x0]) -> infinite ∉ d) /\
      circulate T e first fuel (e ∪ of_list [x; w]) x = Around (chain e (x :: ys ++ [x0])).
  Proof using HP HC He.
    induction fuel as [|fuel IH]; intros pre x w xs H0 N Hxe HT ND Hwx Hwe Hfirst Hfuel.
    { exfalso. assert (B : (length (chain e (xs ++ [w])) <= size (star e T))%nat).
      { apply star_bound; [exact ND|]. intros d Hd. split; [apply HT; exact Hd|exact (chain_edge _ _ _ Hd)]. }
      rewrite chain_length, app_length in B. unfold xs in B. rewrite app_length in B. cbn [length] in B. lia. }
    assert (Exw : xs ++ [w] = pre ++ [x; w]) by (unfold xs; rewrite <- app_assoc; reflexivity).
    assert (Hc : e ∪ of_list [x; w] ∈ T).
    { apply HT. rewrite Exw, chain_snoc, elem_of_app. right. constructor. }
    assert (Hx : x ∉ e) by (apply Hxe; unfold xs; rewrite elem_of_app; right; constructor).
    destruct (crossing x w Hx Hwe ltac:(congruence) Hc) as (w' & Hw'e & Hw'w & Hw'x & Hn & En & Ez & Hall).
    cbn [circulate]. destruct (finite_simplex (e ∪ of_list [x; w])) eqn:Fin; cbn [negb].
    2: { left. split; [reflexivity|]. exists (e ∪ of_list [x; w]). split; [exact Hc|]. split; [set_solver +|].
         destruct (decide (infinite ∈ e ∪ of_list [x; w])) as [|H]; [assumption|]. apply finite_spec in H. congruence. }
    assert (Finx : infinite ∉ e ∪ of_list [x; w]) by (apply finite_spec; exact Fin).
    rewrite En, Ez.
    assert (Efirst : exists x1 r, xs ++ [w] = x0 :: x1 :: r /\ first = e ∪ of_list [x0; x1]).
    { unfold xs in *. destruct pre as [|a [|b pre]]; cbn [app head] in H0 |- *.
      - injection H0 as ->. exists w, []. split; [reflexivity|]. cbn [app] in Hfirst. rewrite chain_cons in Hfirst. cbn [head] in Hfirst. congruence.
      - injection H0 as ->. exists x, [w]. split; [reflexivity|]. cbn [app] in Hfirst. rewrite chain_cons in Hfirst. cbn [head] in Hfirst. congruence.
      - injection H0 as ->. exists b, ((pre ++ [x]) ++ [w]). split; [reflexivity|]. cbn [app] in Hfirst. rewrite chain_cons in Hfirst. cbn [head] in Hfirst. congruence. }
    destruct Efirst as (x1 & r & Er & Ef).
    destruct (decide (w = x0)) as [->|Hw0].
    - (* closing the cycle *)
      right. exists []. cbn [app]. rewrite app_nil_r.
      assert (Hf : first ∈ T) by (apply HT; rewrite Er, chain_cons, Ef; constructor).
      assert (Hfc : first <> e ∪ of_list [x; x0]).
      { intros E. destruct pre as [|a pre].
        - cbn in H0. congruence.
        - rewrite Exw in ND, Er. cbn [app] in Er. injection Er as Ea Er. cbn [app] in ND. rewrite Er, chain_cons in ND.
          apply NoDup_cons in ND as [ND _]. apply ND. rewrite Ea, <- Ef, E.
          apply elem_of_chain. exists pre, x, x0, []. split; [rewrite <- Er; reflexivity|reflexivity]. }
      assert (Enf : e ∪ of_list [x0; w'] = first).
      { destruct (Hall first Hf) as [E|E]; [|contradiction|symmetry; exact E].
        rewrite Ef. intros k. rewrite !elem_of_union, elem_of_singleton, elem_of_of_list, !elem_of_cons. tauto. }
      rewrite (bool_decide_eq_true_2 _ Enf).
      split; [exact N|]. split; [exact Hxe|]. split; [reflexivity|]. split; [exact HT|]. split; [exact ND|].
      split; [|reflexivity]. intros d Hd. cbn in Hd. apply elem_of_list_singleton in Hd as ->. exact Finx.
    - (* a new vertex *)
      assert (Hwx' : w ∉ xs).
      { intros Hin. unfold xs in Hin. rewrite elem_of_app, elem_of_list_singleton in Hin. destruct Hin as [Hin|Hin]; [|contradiction].
        apply elem_of_list_split in Hin as (l1 & l2 & ->).
        destruct l1 as [|a l1 _] using rev_ind; [cbn in H0; congruence|].
        destruct l2 as [|b l2].
        + (* w was visited just before x *)
          rewrite Exw in ND. rewrite <- app_assoc in ND. cbn [app] in ND.
          rewrite (chain_app e (l1 ++ [a]) w [x; w]) in ND. apply NoDup_app in ND as (_ & _ & ND).
          rewrite !chain_cons in ND. apply NoDup_cons in ND as [ND _]. apply ND. rewrite (pair_comm w x). constructor.
        + assert (E1 : e ∪ of_list [a; w] ∈ chain e (((l1 ++ [a]) ++ w :: b :: l2) ++ [x; w])).
          { apply elem_of_chain. exists l1, a, w, (b :: l2 ++ [x; w]). split; [rewrite <- !app_assoc; reflexivity|reflexivity]. }
          assert (E2 : e ∪ of_list [w; b] ∈ chain e (((l1 ++ [a]) ++ w :: b :: l2) ++ [x; w])).
          { apply elem_of_chain. exists (l1 ++ [a]), w, b, (l2 ++ [x; w]). split; [rewrite <- !app_assoc; reflexivity|reflexivity]. }
          rewrite <- Exw in E1, E2. apply HT in E1, E2.
          unfold xs in N, Hxe. assert (Ha : a ∉ e) by (apply Hxe; rewrite !elem_of_app, elem_of_list_singleton; tauto).
          assert (Hb : b ∉ e) by (apply Hxe; rewrite !elem_of_app, !elem_of_cons; tauto).
          assert (Hdist : a <> w /\ b <> w /\ a <> b /\ a <> x /\ b <> x).
          { clear - N. rewrite <- !app_assoc in N. apply NoDup_app in N as (_ & _ & N). cbn [app] in N.
            rewrite !NoDup_cons, !elem_of_cons, !elem_of_app, !elem_of_cons in N. repeat split; intros ->; tauto. }
          destruct Hdist as (D1 & D2 & D3 & D4 & D5).
          destruct (Hall _ E1) as [X|X]; [set_solver +| |].
          * apply pair_eq in X as [[X|X] _]; [congruence..|exact Ha|exact Hwe].
          * destruct (Hall _ E2) as [Y|Y]; [set_solver +| |].
            -- apply pair_eq in Y as [_ [Y|Y]]; [congruence..|exact Hwe|exact Hb].
            -- rewrite <- X in Y. apply pair_eq in Y as [_ [Y|Y]]; [congruence..|exact Hwe|exact Hb]. }
      assert (Hnf : e ∪ of_list [w; w'] <> first).
      { intros E. rewrite Ef in E. pose proof E as E0. apply pair_eq in E as [[E|E] _]; [congruence| |exact Hwe|exact Hw'e].
        destruct pre as [|a pre].
        - unfold xs in Er. cbn in Er. injection Er as E1 E2 _. cbn in H0. injection H0 as E3.
          assert (Q : e ∪ of_list [w; w'] = e ∪ of_list [x; w]) by (rewrite E0, <- E1, <- E2; reflexivity).
          apply pair_eq in Q as [_ [Q|Q]]; [congruence..|exact Hwe|exact Hw'e].
        - apply Hwx'. rewrite E. unfold xs in Er |- *. destruct pre as [|b pre]; cbn [app] in Er |- *; injection Er as E1 E2 E3; rewrite <- E2; set_solver +. }
      rewrite (bool_decide_eq_false_2 _ Hnf).
      specialize (IH xs w w'). cbv zeta in IH.
      destruct IH as [[IH1 IH2]|(ys & I1 & I2 & I3 & I4 & I5 & I6 & I7)].
      + unfold xs. destruct pre; exact H0.
      + apply NoDup_app. split; [exact N|]. split; [|apply NoDup_singleton]. intros k Hk ->%elem_of_list_singleton. contradiction.
      + intros k. rewrite elem_of_app, elem_of_list_singleton. intros [Hk| ->]; [apply Hxe; exact Hk|exact Hwe].
      + rewrite <- app_assoc. change ([w] ++ [w']) with [w; w']. intros d. rewrite chain_snoc, elem_of_app, elem_of_list_singleton.
        intros [Hd| ->]; [apply HT; exact Hd|exact Hn].
      + rewrite <- app_assoc. change ([w] ++ [w']) with [w; w']. rewrite chain_snoc. apply NoDup_app. split; [exact ND|]. split; [|apply NoDup_singleton].
        intros d Hd ->%elem_of_list_singleton. rewrite Exw, chain_snoc, elem_of_app, elem_of_list_singleton in Hd. fold xs in Hd.
        destruct Hd as [Hd|Hd].
        * destruct (chain_vertices e xs _ w Hd) as [H|H]; [rewrite elem_of_union, elem_of_of_list; right; constructor|contradiction|contradiction].
        * apply pair_eq in Hd as [_ [Q|Q]]; [congruence..|exact Hwe|exact Hw'e].
      + exact Hw'w.
      + exact Hw'e.
      + rewrite <- app_assoc. change ([w] ++ [w']) with [w; w']. rewrite chain_snoc, <- Hfirst.
        rewrite Er, chain_cons. reflexivity.
      + unfold xs. rewrite app_length. cbn [length]. lia.
      + left. rewrite IH1. split; [reflexivity|exact IH2].
      + right. exists (w :: ys). rewrite I7.
        replace (xs ++ w :: ys) with ((xs ++ [w]) ++ ys) by (rewrite <- app_assoc; reflexivity).
        replace (xs ++ (w :: ys) ++ [x0]) with ((xs ++ [w]) ++ ys ++ [x0]) by (rewrite <- app_assoc; reflexivity).
        split; [exact I1|]. split; [exact I2|]. split; [reflexivity|]. split; [exact I4|]. split; [exact I5|].
        cbn [app]. rewrite chain_cons. split; [|reflexivity].
        intros d. rewrite elem_of_cons. intros [->|Hd]; [exact Finx|apply I6; exact Hd].
  Qed.
End Circulator.
