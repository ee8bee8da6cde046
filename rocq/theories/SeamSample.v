(** A decision procedure for [joined_stars], used only to show that the samples meet
    the hypotheses of the theorems of PropsSeams.v. *)
From Verif Require Import Base Tracker Command Geom Simplex Pachner Foliation Moves Links Manifold Samples SampleFacts MoveTools StarSpec StarFacts Seams SeamSpec Incident.
From stdpp Require Import fin_sets gmap.
From Verif Require Import Foliation.
Local Open Scope Z_scope.

Fixpoint subsets (l : list vertex) : list simplex :=
  match l with [] => [∅] | x :: r => subsets r ++ map (fun s => {[x]} ∪ s) (subsets r) end.
Lemma subsets_all l s : s ⊆ of_list l -> s ∈ subsets l.
Proof.
  revert s. induction l as [|x r IH]; intros s H; cbn [subsets].
  - apply elem_of_list_singleton. apply set_eq. intros v. split; [intros Hv; apply H in Hv; apply elem_of_of_list in Hv; inversion Hv|set_solver +].
  - apply elem_of_app. destruct (decide (x ∈ s)) as [Hx|Hx].
    + right. apply elem_of_list_fmap. exists (s ∖ {[x]}). split.
      * apply set_eq. intros v. rewrite elem_of_union, elem_of_difference, !elem_of_singleton. destruct (decide (v = x)) as [->|]; tauto.
      * apply IH. intros v Hv. apply elem_of_difference in Hv as [Hv Hn]. apply H in Hv. rewrite elem_of_of_list, elem_of_cons in *. set_solver.
    + left. apply IH. intros v Hv. pose proof (H v Hv) as Hv'. rewrite elem_of_of_list, elem_of_cons in *. destruct Hv' as [->|]; [contradiction|assumption].
Qed.
Lemma flood_joined T s start n c : s ⊆ start ->
  c ∈ Nat.iter n (grow T s) ({[start]} : gset simplex) -> s ⊆ c /\ joined T s start c.
Proof.
  intros Hs. revert c. induction n as [|n IH]; intros c Hc.
  - change (c ∈ ({[start]} : gset simplex)) in Hc. apply elem_of_singleton in Hc. subst c. split; [exact Hs|constructor].
  - change (c ∈ grow T s (Nat.iter n (grow T s) {[start]})) in Hc. unfold grow in Hc at 1.
    rewrite elem_of_union, elem_of_filter in Hc. destruct Hc as [Hc|[[A (d & Hd & E)] B]]; [apply IH; exact Hc|].
    destruct (IH d Hd) as [Sd J]. split; [exact A|]. eapply joined_trans; [exact J|].
    apply (joined_one T s d (c ∩ d) c); [exact B|set_solver|exact E|set_solver +|set_solver +].
Qed.
Definition stars_joined (T : tds) : bool :=
  let cells := elements T in
  forallb (fun c => forallb (fun s =>
    let X := Nat.iter 5 (grow T s) ({[c]} : gset simplex) in
    forallb (fun d => negb (bool_decide (s ⊆ d)) || bool_decide (d ∈ X)) cells) (subsets (elements c))) cells.
Lemma stars_joined_sound T : stars_joined T = true -> joined_stars T.
Proof.
  unfold stars_joined. rewrite forallb_forall. intros H s c c' Hc Hc' Hs Hs'.
  specialize (H c (proj1 (elem_of_list_In _ _) (proj2 (elem_of_elements _ _) Hc))). rewrite forallb_forall in H.
  specialize (H s). rewrite <- elem_of_list_In in H.
  assert (Hi : s ∈ subsets (elements c)).
  { apply subsets_all. intros v Hv. rewrite elem_of_of_list, elem_of_elements. apply Hs, Hv. }
  specialize (H Hi). cbn zeta in H. rewrite forallb_forall in H.
  specialize (H c' (proj1 (elem_of_list_In _ _) (proj2 (elem_of_elements _ _) Hc'))).
  apply orb_true_iff in H as [H|H]; [apply negb_true_iff, bool_decide_eq_false_1 in H; contradiction|].
  apply bool_decide_eq_true_1 in H. exact (proj2 (flood_joined _ _ _ _ _ Hs H)).
Qed.

Lemma joined_44 : joined_stars (m_cells m_44).
Proof. apply stars_joined_sound. vm_compute. reflexivity. Qed.
Lemma joined_32 : joined_stars (m_cells m_32).
Proof. apply stars_joined_sound. vm_compute. reflexivity. Qed.
Lemma joined_23 : joined_stars (m_cells m_23).
Proof. apply stars_joined_sound. vm_compute. reflexivity. Qed.
Lemma joined_62 : joined_stars (m_cells m_62).
Proof. apply stars_joined_sound. vm_compute. reflexivity. Qed.

(** Edge 4-6 of the sample, by its places in the cell 2-4-5-6. *)
Definition edge_44 : raw_edge := mkRawEdge (OwnCell [2; 4; 5; 6]%positive) 1 3.
(** The same places in a cell that is not one of the sample's. *)
Definition edge_gone : raw_edge := mkRawEdge (OwnCell [2; 3; 5; 6]%positive) 1 3.
(** Edge 2-6 of the sample after a (2,3) move, three cells around it. *)
Definition edge_32 : raw_edge := mkRawEdge (OwnCell [2; 6; 3; 4]%positive) 1 0.
Lemma names_44 : names_edge (m_cells m_44) edge_44 4 6.
Proof.
  exists [2; 4; 5; 6]%positive, 1%nat, 3%nat. split; [reflexivity|]. split; [reflexivity|]. split; [|auto].
  refine (bool_decide_unpack _ _). vm_compute. exact I.
Qed.
Definition flips_to (T : tds) (a : flip_answer) : bool :=
  match a with Flip T' => bool_decide (T' = T) | _ => false end.
Lemma flips_to_sound T a : flips_to T a = true -> a = Flip T.
Proof. destruct a; try discriminate. intros H. apply bool_decide_eq_true_1 in H. congruence. Qed.
Definition goes_around (T : tds) (e : raw_edge) (l : list simplex) : bool :=
  match finite_incident_cells T e with Seen (Some l') => bool_decide (l' = l) | _ => false end.
Lemma goes_around_sound T e l : goes_around T e l = true -> finite_incident_cells T e = Seen (Some l).
Proof. unfold goes_around. destruct finite_incident_cells as [[l'|]|]; try discriminate. intros H. apply bool_decide_eq_true_1 in H. congruence. Qed.
