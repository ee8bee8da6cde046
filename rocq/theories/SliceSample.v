(** A closed connected slice and a move on it; a moved manifold. *)
From Verif Require Import Base Tracker Command Run Geom Metropolis Simplex Pachner Foliation Moves Links Manifold ManifoldMoves MoveProps MoveSpec Samples SampleFacts SliceSpec SliceFacts SliceMoves.
From stdpp Require Import fin_sets gmap relations.
From Verif Require Import Foliation SliceSpec.
Local Open Scope Z_scope.

(** The boundary of a tetrahedron, and the same with a vertex put into a face. *)
Definition sphere : gset simplex :=
  list_to_set (ksubsets 1 [2; 3; 4; 5]%positive ++ ksubsets 2 [2; 3; 4; 5]%positive ++ ksubsets 3 [2; 3; 4; 5]%positive).
Definition cone_over : list (gset positive) :=
  [of_list [6]; of_list [6; 3]; of_list [6; 4]; of_list [6; 5]; of_list [6; 3; 4]; of_list [6; 4; 5]; of_list [6; 3; 5]]%positive.
Definition sphere' : gset simplex := (sphere ∖ {[of_list [3; 4; 5]%positive]}) ∪ list_to_set cone_over.

Lemma sphere_closed : closed_surface sphere.
Proof.
  assert (H : set_Forall (fun e => size e = 2%nat -> size (filter (fun f => size f = 3%nat /\ e ⊆ f) sphere) = 2%nat) sphere)
    by (refine (bool_decide_unpack _ _); vm_compute; exact I).
  exact H.
Qed.
Lemma sphere_connected : connected_surface sphere.
Proof.
  intros v w Hv Hw. destruct (decide (v = w)) as [->|N]; [apply rtc_refl|]. apply rtc_once. unfold neighbours, sphere in *.
  assert (M : forall u, {[u]} ∈ sphere -> u ∈ [2; 3; 4; 5]%positive).
  { intros u Hu. assert (F : set_Forall (fun s : simplex => s ⊆ of_list [2; 3; 4; 5]%positive) sphere)
      by (refine (bool_decide_unpack _ _); vm_compute; exact I).
    apply elem_of_of_list, (F _ Hu), elem_of_singleton. reflexivity. }
  apply elem_of_list_to_set, elem_of_app. right. apply elem_of_app. left. apply elem_of_ksubsets.
  - refine (bool_decide_unpack _ _). vm_compute. exact I.
  - split.
    + intros y. rewrite !elem_of_of_list, !elem_of_cons, elem_of_nil. intros [->|[->|[]]].
      * apply M in Hv. rewrite !elem_of_cons, elem_of_nil in Hv. exact Hv.
      * apply M in Hw. rewrite !elem_of_cons, elem_of_nil in Hw. exact Hw.
    + rewrite of_list_size; [reflexivity|]. rewrite !NoDup_cons, elem_of_cons, !elem_of_nil. intuition (auto using NoDup_nil_2).
Qed.
Lemma sphere_complex : complex2 sphere.
Proof.
  constructor.
  - intros s H. assert (F : set_Forall (fun s : simplex => 1 <= size s <= 3)%nat sphere)
      by (refine (bool_decide_unpack _ _); vm_compute; exact I). exact (F s H).
  - intros s r H Hr N. assert (F : set_Forall (fun s : simplex => s ⊆ of_list [2; 3; 4; 5]%positive /\ (size s <= 3)%nat) sphere)
      by (refine (bool_decide_unpack _ _); vm_compute; exact I).
    destruct (F s H) as [F1 F2]. pose proof (subseteq_size _ _ Hr) as F3.
    assert (F0 : size r <> 0%nat) by (intros E; apply size_empty_inv in E; set_solver + E N).
    assert (ND : NoDup [2; 3; 4; 5]%positive) by (refine (bool_decide_unpack _ _); vm_compute; exact I).
    apply elem_of_list_to_set. rewrite !elem_of_app, !elem_of_ksubsets by exact ND.
    assert (R : r ⊆ of_list [2; 3; 4; 5]%positive) by (etransitivity; eassumption).
    assert (size r = 1 \/ size r = 2 \/ size r = 3)%nat as [E|[E|E]] by (clear - F0 F2 F3; lia); auto.
Qed.
Lemma sphere_moved : surface_move sphere [6]%positive [3; 4; 5]%positive sphere'.
Proof.
  constructor.
  - refine (bool_decide_unpack _ _). vm_compute. exact I.
  - reflexivity.
  - discriminate.
  - discriminate.
  - apply Forall_forall. refine (bool_decide_unpack _ _). vm_compute. exact I.
  - assert (F : set_Forall (fun s : simplex => of_list [3; 4; 5]%positive ⊆ s -> s ⊆ of_list ([6]%positive ++ [3; 4; 5]%positive)) sphere)
      by (refine (bool_decide_unpack _ _); vm_compute; exact I). exact F.
  - assert (F : set_Forall (fun s : simplex => ~ of_list [6]%positive ⊆ s) sphere)
      by (refine (bool_decide_unpack _ _); vm_compute; exact I). exact F.
  - intros s. unfold sphere' at 1. rewrite elem_of_union, elem_of_difference, elem_of_singleton, elem_of_list_to_set.
    assert (F : set_Forall (fun s : simplex => of_list [3; 4; 5]%positive ⊆ s -> s = of_list [3; 4; 5]%positive) sphere)
      by (refine (bool_decide_unpack _ _); vm_compute; exact I).
    assert (K : forall s : simplex, s ∈ cone_over <-> of_list [6]%positive ⊆ s /\ s ⊆ of_list ([6]%positive ++ [3; 4; 5]%positive) /\ ~ of_list [3; 4; 5]%positive ⊆ s).
    { clear s. intros s. split.
      - assert (Q : Forall (fun s : simplex => of_list [6]%positive ⊆ s /\ s ⊆ of_list ([6]%positive ++ [3; 4; 5]%positive) /\ ~ of_list [3; 4; 5]%positive ⊆ s) cone_over)
          by (refine (bool_decide_unpack _ _); vm_compute; exact I).
        rewrite Forall_forall in Q. apply Q.
      - intros (H1 & H2 & H3). assert (ND : NoDup ([6]%positive ++ [3; 4; 5]%positive)) by (refine (bool_decide_unpack _ _); vm_compute; exact I).
        assert (Q : forall k, Forall (fun s : simplex => of_list [6]%positive ⊆ s -> ~ of_list [3; 4; 5]%positive ⊆ s -> s ∈ cone_over) (ksubsets k ([6]%positive ++ [3; 4; 5]%positive))).
        { intros k. do 5 (destruct k as [|k]; [refine (bool_decide_unpack _ _); vm_compute; exact I|]). constructor. }
        specialize (Q (size s)). rewrite Forall_forall in Q. apply Q; [|assumption..]. apply elem_of_ksubsets; auto. }
    rewrite K. split; [intros [[H1 H2]|H]; [left|right; exact H]|intros [[H1 H2]|H]; [left|right; exact H]].
    + split; [exact H1|]. intros H3. apply H2, F; assumption.
    + split; [exact H1|]. intros ->. apply H2. reflexivity.
Qed.

(** The (2,6) move of the sample: slice 3 goes from one triangle to three. *)
Lemma sample_volumes : slice_volume (label_of W_26 m_26) 3 (m_cells m_26) = 1 /\ slice_volume (label_of W_26 m_62) 3 (m_cells m_62) = 3 /\
  members 1 (slice (label_of W_26 m_26) 2 (m_cells m_26)) = 1.
Proof. vm_compute. auto. Qed.
