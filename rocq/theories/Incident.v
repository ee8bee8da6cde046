(** The cells handed out for an edge handle and for a vertex are exactly the cells
    of the triangulation that contain the edge or the vertex. *)
From Verif Require Import Base Tracker Command Geom Simplex Pachner Foliation Moves Links Manifold StarSpec StarFacts Seams Circulator.
From stdpp Require Import fin_sets gmap sorting.
From Verif Require Import Foliation Move44.
Local Open Scope Z_scope.

Section Cycle.
  Variable T : tds.
  Variable e : simplex.
  Hypothesis HP : pure T.
  Hypothesis HC : closed T.
  Hypothesis He : size e = 2%nat.

  (** The cells over a closed list of vertices around [e]. *)
  Definition cycle (x : vertex) (ys : list vertex) : list simplex := chain e (x :: ys ++ [x]).

  Lemma cycle_pairs x ys z : ys <> [] -> NoDup (cycle x ys) -> z ∈ x :: ys ->
    exists d d', d ∈ cycle x ys /\ d' ∈ cycle x ys /\ d <> d' /\ e ∪ {[z]} ⊆ d /\ e ∪ {[z]} ⊆ d'.
  Proof using.
    intros Hy N Hz. apply elem_of_cons in Hz as [->|Hz].
    - destruct ys as [|y1 ys]; [contradiction|]. unfold cycle in *. cbn [app] in *. rewrite chain_cons in *.
      destruct (exists_last (l := y1 :: ys)) as (m & yl & Em); [discriminate|].
      assert (Hl : e ∪ of_list [yl; x] ∈ chain e (y1 :: ys ++ [x])).
      { change (y1 :: ys ++ [x]) with ((y1 :: ys) ++ [x]). rewrite Em, <- app_assoc. change ([yl] ++ [x]) with [yl; x].
        rewrite chain_snoc, elem_of_app. right. constructor. }
      exists (e ∪ of_list [x; y1]), (e ∪ of_list [yl; x]). split; [constructor|]. split; [right; exact Hl|].
      apply NoDup_cons in N as [N _]. split; [intros E; rewrite E in N; contradiction|].
      split; intros k; rewrite !elem_of_union, elem_of_singleton, elem_of_of_list, !elem_of_cons; tauto.
    - apply elem_of_list_split in Hz as (l1 & l2 & ->). unfold cycle in *.
      assert (EL : x :: (l1 ++ z :: l2) ++ [x] = (x :: l1) ++ z :: (l2 ++ [x])) by (cbn [app]; rewrite <- app_assoc; reflexivity).
      rewrite EL, chain_app in *.
      destruct (exists_last (l := x :: l1)) as (m & a & Ea); [discriminate|].
      destruct (l2 ++ [x]) as [|b m'] eqn:Eb; [destruct l2; discriminate|].
      assert (A : e ∪ of_list [a; z] ∈ chain e ((x :: l1) ++ [z])).
      { rewrite Ea, <- app_assoc. change ([a] ++ [z]) with [a; z]. rewrite chain_snoc, elem_of_app. right. constructor. }
      assert (B : e ∪ of_list [z; b] ∈ chain e (z :: b :: m')) by (rewrite chain_cons; constructor).
      exists (e ∪ of_list [a; z]), (e ∪ of_list [z; b]).
      split; [apply elem_of_app; auto|]. split; [apply elem_of_app; auto|].
      apply NoDup_app in N as (_ & N & _). split; [intros E; apply (N _ A); rewrite E; exact B|].
      split; intros k; rewrite !elem_of_union, elem_of_singleton, elem_of_of_list, !elem_of_cons; tauto.
  Qed.

  Lemma cycle_closed x ys d f n : ys <> [] -> NoDup (cycle x ys) -> (forall k, k ∈ x :: ys -> k ∉ e) ->
    (forall d, d ∈ cycle x ys -> d ∈ T) -> d ∈ cycle x ys ->
    n ∈ T -> e ⊆ f -> size f = 3%nat -> f ⊆ d -> f ⊆ n -> n ∈ cycle x ys.
  Proof using HC He.
    intros Hy N Hout HT Hd Hn Hef Hf Hfd Hfn.
    assert (Hone : size (f ∖ e) = 1%nat) by (rewrite size_difference by exact Hef; lia).
    destruct (size_one_inv _ Hone) as (z & Ez & _).
    assert (Ef : f = e ∪ {[z]}).
    { rewrite <- Ez. apply set_eq. intros k. rewrite elem_of_union, elem_of_difference. destruct (decide (k ∈ e)); [|tauto]. split; [tauto|]. intros _. apply Hef. assumption. }
    assert (Hzf : z ∈ f /\ z ∉ e) by (apply elem_of_difference; rewrite Ez; set_solver +).
    assert (Hz : z ∈ x :: ys).
    { destruct (chain_vertices e _ d z Hd) as [H|H]; [apply Hfd; tauto|tauto|].
      rewrite elem_of_cons, elem_of_app, elem_of_list_singleton in H. rewrite elem_of_cons. tauto. }
    destruct (cycle_pairs x ys z Hy N Hz) as (d1 & d2 & H1 & H2 & H12 & S1 & S2).
    rewrite <- Ef in S1, S2.
    destruct (two_cells T HC f d1 (HT _ H1) S1 Hf) as (m & _ & _ & _ & Hall).
    destruct (Hall d2 (HT _ H2) S2) as [E|E]; [congruence|]. subst m.
    destruct (Hall n Hn Hfn) as [->| ->]; assumption.
  Qed.

  Lemma circulate_cycle x w : x ∉ e -> w ∉ e -> x <> w -> e ∪ of_list [x; w] ∈ T ->
    let c := e ∪ of_list [x; w] in
    (circulate T e c (S (size T)) c x = MeetsInfinite /\ exists d, d ∈ star e T /\ infinite ∈ d) \/
    exists ys, NoDup (x :: ys) /\ ys <> [] /\ (forall k, k ∈ x :: ys -> k ∉ e) /\
      (forall d, d ∈ cycle x ys -> d ∈ star e T /\ infinite ∉ d) /\ NoDup (cycle x ys) /\ head ys = Some w /\
      circulate T e c (S (size T)) c x = Around (cycle x ys).
  Proof using HP HC He.
    intros Hx Hw Hxw Hc c.
    destruct (circulate_spec T e HP HC He x c (S (size T)) [] x w) as [(A & d & D)|(ys & Y1 & Y2 & Y3 & Y4 & Y5 & Y6 & Y7)];
      cbn [app].
    - reflexivity.
    - apply NoDup_singleton.
    - intros k ->%elem_of_list_singleton. exact Hx.
    - intros d. cbn [chain]. intros ->%elem_of_list_singleton. exact Hc.
    - apply NoDup_singleton.
    - congruence.
    - exact Hw.
    - reflexivity.
    - cbn [length]. rewrite Nat.add_0_r. apply Nat.lt_succ_r, subseteq_size. intros d Hd. apply elem_of_star in Hd. tauto.
    - left. split; [exact A|]. exists d. rewrite elem_of_star. tauto.
    - right. exists ys. cbn [app] in *. split; [exact Y1|].
      assert (Hy : ys <> []) by (intros ->; cbn in Y3; congruence).
      split; [exact Hy|]. split; [exact Y2|]. split.
      { intros d Hd. split; [apply elem_of_star; split; [apply Y4; exact Hd|exact (chain_edge _ _ _ Hd)]|apply Y6; exact Hd]. }
      split; [exact Y5|]. split; [|exact Y7]. destruct ys; [contradiction|exact Y3].
  Qed.

  Lemma cycle_star x w ys : joined_stars T -> ys <> [] -> NoDup (x :: ys) -> (forall k, k ∈ x :: ys -> k ∉ e) ->
    (forall d, d ∈ cycle x ys -> d ∈ star e T /\ infinite ∉ d) -> NoDup (cycle x ys) -> head ys = Some w ->
    cycle x ys ≡ₚ elements (star e T).
  Proof using HC He.
    intros HJ Hy Hx Hout HT N Hw. apply NoDup_Permutation; [exact N|apply NoDup_elements|].
    intros d. rewrite elem_of_elements. split; [apply HT|]. intros Hd. apply elem_of_star in Hd as [Hd Hed].
    assert (Hc : e ∪ of_list [x; w] ∈ cycle x ys).
    { destruct ys as [|y ys]; [contradiction|]. injection Hw as ->. unfold cycle. cbn [app]. rewrite chain_cons. constructor. }
    pose proof (proj1 (HT _ Hc)) as Hcs. apply elem_of_star in Hcs as [HcT Hce].
    pose proof (HJ e _ _ HcT Hd Hce Hed) as J.
    clear HcT Hce Hw Hed. revert Hc. induction J as [c|c f n c' Hn Hef Hf Hfc Hfn _ IH]; intros Hc; [exact Hc|].
    apply IH; [exact Hd|]. apply (cycle_closed x ys c f n); try assumption. intros d' Hd'. apply HT in Hd'. rewrite elem_of_star in Hd'. tauto.
  Qed.
End Cycle.

(** ** Handles *)
Definition edge_of (h : list vertex) (i j : Z) : simplex :=
  of_list (match nth_error h (Z.to_nat i), nth_error h (Z.to_nat j) with Some a, Some b => [a; b] | _, _ => [] end).

Lemma index_cases i : valid_index i = true -> i = 0 \/ i = 1 \/ i = 2 \/ i = 3.
Proof. unfold valid_index. rewrite andb_true_iff, Z.leb_le, Z.ltb_lt. lia. Qed.

(** Reading an accepted edge handle. *)
Lemma read_edge T e : pure T -> tds_is_edge T e = true ->
  exists h a b y w, re_cell e = OwnCell h /\ of_list h ∈ T /\ NoDup h /\ length h = 4%nat /\
    ends e = Seen (a, b) /\ vertex_of (re_cell e) (next_around_edge (re_second e) (re_third e)) = Seen y /\
    NoDup [a; b; y; w] /\ of_list h = of_list [a; b; y; w] /\ is_well_formed_edge e = true.
Proof.
  intros HP. destruct e as [c i j]. unfold tds_is_edge, is_well_formed_edge, ends. cbn [re_cell re_second re_third].
  rewrite !andb_true_iff. intros [[[Hc Hi] Hj] Hij]. unfold tds_is_cell in Hc. destruct c as [| |h]; [discriminate..|].
  rewrite andb_true_iff, Nat.eqb_eq in Hc. destruct Hc as [Hl Hc]. apply bool_decide_eq_true_1 in Hc.
  assert (N : NoDup h).
  { apply NoDup_ListNoDup. pose proof (HP _ Hc) as Hs. unfold of_list in Hs.
    rewrite <- NoDup_ListNoDup. clear - Hs Hl. revert Hl Hs.
    destruct h as [|a [|b [|c [|d [|? ?]]]]]; try discriminate. intros _ Hs.
    destruct (decide (NoDup [a; b; c; d])) as [|H]; [assumption|]. exfalso.
    assert (size (list_to_set [a; b; c; d] : simplex) <= 3)%nat; [|lia].
    assert (K : exists l, (length l <= 3)%nat /\ (list_to_set [a; b; c; d] : simplex) = list_to_set l).
    { rewrite !NoDup_cons, !elem_of_cons, !elem_of_nil in H.
      destruct (decide (a = b)) as [->|]; [exists [b; c; d]; split; [cbn; lia|set_solver +]|].
      destruct (decide (a = c)) as [->|]; [exists [b; c; d]; split; [cbn; lia|set_solver +]|].
      destruct (decide (a = d)) as [->|]; [exists [b; c; d]; split; [cbn; lia|set_solver +]|].
      destruct (decide (b = c)) as [->|]; [exists [a; c; d]; split; [cbn; lia|set_solver +]|].
      destruct (decide (b = d)) as [->|]; [exists [a; c; d]; split; [cbn; lia|set_solver +]|].
      destruct (decide (c = d)) as [->|]; [exists [a; b; d]; split; [cbn; lia|set_solver +]|].
      exfalso. apply H. repeat split; try apply NoDup_nil_2; intros X; intuition congruence. }
    destruct K as (l & Hl & ->). clear - Hl. transitivity (length l); [|exact Hl].
    induction l as [|x l IH]; [reflexivity|]. cbn [list_to_set length]. rewrite size_union_alt.
    rewrite size_singleton. assert (size (list_to_set l ∖ {[x]} : simplex) <= size (list_to_set l : simplex))%nat by (apply subseteq_size; set_solver +).
    cbn in Hl. specialize (IH ltac:(lia)). lia. }
  destruct h as [|v0 [|v1 [|v2 [|v3 [|? ?]]]]]; try discriminate Hl.
  pose proof (proj1 (nodup4 _ _ _ _) N) as N'.
  apply index_cases in Hi as Ci. apply index_cases in Hj as Cj.
  destruct Ci as [->|[->|[->| ->]]], Cj as [->|[->|[->| ->]]]; try discriminate Hij;
    exists [v0; v1; v2; v3]; do 3 eexists;
    match goal with |- context [next_around_edge ?a ?b] =>
      let k := eval vm_compute in (next_around_edge a b) in
      let w := eval vm_compute in (nth (Z.to_nat (6 - a - b - k)) [v0; v1; v2; v3] v0) in
      change (next_around_edge a b) with k; exists w end;
    (split; [reflexivity|]; split; [exact Hc|]; split; [exact N|]; split; [reflexivity|]; split; [reflexivity|]; split; [reflexivity|]);
    (split; [apply nodup4; clear - N'; intuition congruence|]; split; [|reflexivity]);
    apply set_eq; intros k; rewrite !elem_of_of_list, !elem_of_cons, !elem_of_nil; tauto.
Qed.

Section Exact.
  Variable T : tds.
  Hypothesis HP : pure T.
  Hypothesis HC : closed T.
  Hypothesis HJ : joined_stars T.

  (** Both answers of [finite_incident_cells] on an accepted handle. *)
  Lemma incident_exact e a b : tds_is_edge T e = true -> ends e = Seen (a, b) ->
    (finite_incident_cells T e = Seen None /\ exists d, d ∈ star (of_list [a; b]) T /\ infinite ∈ d) \/
    (exists x ys, NoDup (x :: ys) /\ ys <> [] /\ (forall k, k ∈ x :: ys -> k ∉ of_list [a; b]) /\ NoDup (cycle (of_list [a; b]) x ys) /\
       (forall d, d ∈ star (of_list [a; b]) T -> infinite ∉ d) /\
       cycle (of_list [a; b]) x ys ≡ₚ elements (star (of_list [a; b]) T) /\
       finite_incident_cells T e = Seen (Some (cycle (of_list [a; b]) x ys))).
  Proof using HP HC HJ.
    intros He Ee. destruct (read_edge T e HP He) as (h & a' & b' & y & w & Ec & Hh & Nh & Lh & Ee' & Ey & N & Eh & Wf).
    rewrite Ee in Ee'. injection Ee' as <- <-.
    pose proof (proj1 (nodup4 _ _ _ _) N) as N'.
    assert (Es : size (of_list [a; b]) = 2%nat) by (apply of_list_size, (sublist_NoDup _ [a; b; y; w]); [repeat constructor|exact N]).
    assert (Eh' : of_list h = of_list [a; b] ∪ of_list [y; w]) by (rewrite Eh; apply (of_list_app [a; b] [y; w])).
    assert (Hy : y ∉ of_list [a; b]) by (rewrite elem_of_of_list, !elem_of_cons, elem_of_nil; clear - N'; intuition congruence).
    assert (Hw : w ∉ of_list [a; b]) by (rewrite elem_of_of_list, !elem_of_cons, elem_of_nil; clear - N'; intuition congruence).
    rewrite Eh' in Hh.
    assert (Ef : finite_incident_cells T e =
      match circulate T (of_list [a; b]) (of_list [a; b] ∪ of_list [y; w]) (S (size T)) (of_list [a; b] ∪ of_list [y; w]) y with
      | Around l => Seen (Some l) | MeetsInfinite => Seen None | Lost => Dangling end).
    { unfold finite_incident_cells. rewrite He, Wf. cbn [negb orb]. rewrite Ec at 1. rewrite Ee, Ey. cbn [dbind]. rewrite Eh'. reflexivity. }
    rewrite Ef. clear Ef.
    destruct (circulate_cycle T (of_list [a; b]) HP HC Es y w Hy Hw ltac:(tauto) Hh) as [(A & D)|(ys & Y1 & Y2 & Y3 & Y4 & Y5 & Y6 & Y7)].
    - left. rewrite A. split; [reflexivity|exact D].
    - right. exists y, ys. rewrite Y7.
      pose proof (cycle_star T (of_list [a; b]) HC Es y w ys HJ Y2 Y1 Y3 Y4 Y5 Y6) as P.
      split; [exact Y1|]. split; [exact Y2|]. split; [exact Y3|]. split; [exact Y5|]. split; [|split; [exact P|reflexivity]].
      intros d Hd. apply elem_of_elements in Hd. rewrite <- P in Hd. apply Y4. exact Hd.
  Qed.
End Exact.

(** ** The search around a vertex *)
Section Flood.
  Variable T : tds.
  Variable s start : simplex.
  Hypothesis HP : pure T.
  Hypothesis Hstart : start ∈ star s T.

  Lemma grow_sub X : X ⊆ grow T s X.
  Proof using. unfold grow. set_solver +. Qed.
  Lemma grow_star X : X ⊆ star s T -> grow T s X ⊆ star s T.
  Proof using.
    intros H c. unfold grow. rewrite elem_of_union, elem_of_filter, elem_of_star. intros [Hc|[[A _] B]]; [apply H, elem_of_star in Hc; exact Hc|auto].
  Qed.
  Let X n := Nat.iter n (grow T s) ({[start]} : gset simplex).
  Lemma flood_star n : X n ⊆ star s T.
  Proof using Hstart.
    induction n as [|n IH]; [intros c Hc; unfold X in Hc; cbn [Nat.iter nat_rect] in Hc; apply elem_of_singleton in Hc; subst c; exact Hstart|]. apply grow_star. exact IH.
  Qed.
  Lemma flood_mono n : X n ⊆ X (S n).
  Proof using. apply grow_sub. Qed.
  Lemma flood_start n : start ∈ X n.
  Proof using. induction n as [|n IH]; [change (start ∈ ({[start]} : gset simplex)); apply elem_of_singleton; reflexivity|apply flood_mono; exact IH]. Qed.
  (** Either the set has stopped growing or it has grown at every step. *)
  Lemma flood_grows n : (exists k, (k < n)%nat /\ X (S k) = X k) \/ (n < size (X n))%nat.
  Proof using.
    induction n as [|n IH].
    - right. change (0 < size ({[start]} : gset simplex))%nat. rewrite size_singleton. lia.
    - destruct IH as [(k & Hk & E)|IH]; [left; exists k; split; [lia|exact E]|].
      destruct (decide (X (S n) = X n)) as [E|E]; [left; exists n; split; [lia|exact E]|].
      right. assert (size (X n) < size (X (S n)))%nat; [|lia]. apply subset_size. split; [apply flood_mono|].
      intros H. apply E. apply set_eq. intros c. split; [apply H|apply flood_mono].
  Qed.
  Lemma flood_stable k : X (S k) = X k -> forall m, X (k + m) = X k.
  Proof using.
    intros E. induction m as [|m IH]; [rewrite Nat.add_0_r; reflexivity|]. rewrite Nat.add_succ_r.
    change (grow T s (X (k + m)) = X k). rewrite IH. exact E.
  Qed.
  Lemma flood_fixed : grow T s (X (size T)) = X (size T).
  Proof using Hstart.
    destruct (flood_grows (size T)) as [(k & Hk & E)|H].
    - pose proof (flood_stable k E (size T - k)) as E1. replace (k + (size T - k))%nat with (size T) in E1 by lia.
      rewrite E1. exact E.
    - exfalso. assert (size (X (size T)) <= size T)%nat; [|lia]. apply subseteq_size. intros c Hc. apply flood_star, elem_of_star in Hc. tauto.
  Qed.
  Lemma flood_all : joined_stars T -> X (size T) = star s T.
  Proof using Hstart HP.
    intros HJ. apply set_eq. intros c. split; [apply flood_star|]. intros Hc.
    pose proof Hstart as H1. apply elem_of_star in H1 as [H1 H2]. apply elem_of_star in Hc as [Hc Hs].
    pose proof (HJ s _ _ H1 Hc H2 Hs) as J.
    assert (forall d, joined T s d c -> d ∈ X (size T) -> c ∈ X (size T)); [|eauto using flood_start].
    clear J. intros d J. induction J as [d|d f n c Hn Hsf Hf Hfd Hfn _ IH]; intros Hd; [exact Hd|].
    apply IH; [exact Hc|exact Hs|]. rewrite <- flood_fixed. unfold grow. rewrite elem_of_union, elem_of_filter.
    destruct (decide (n = d)) as [->|Hnd]; [left; exact Hd|]. right. split; [|exact Hn]. split; [intros k Hk; apply Hfn, Hsf, Hk|].
    exists d. split; [exact Hd|].
    assert (HdT : d ∈ T) by (apply flood_star, elem_of_star in Hd; tauto).
    assert (L : (size f <= size (n ∩ d))%nat) by (apply subseteq_size; intros k Hk; apply elem_of_intersection; auto).
    assert (U : (size (n ∩ d) < size n)%nat).
    { apply subset_size. split; [set_solver +|]. intros H. apply Hnd. apply subset_eq_size; [|rewrite (HP _ Hn), (HP _ HdT); reflexivity].
      intros k Hk. apply H in Hk. apply elem_of_intersection in Hk. tauto. }
    rewrite (HP _ Hn) in U. lia.
  Qed.
End Flood.
