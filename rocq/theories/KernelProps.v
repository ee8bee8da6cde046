(** Detailed balance of the steps that can be undone, and what fails otherwise. *)
From Verif Require Import Base Tracker Command Run Geom Metropolis Simplex Pachner Foliation Moves Links MoveCore MoveTools Move23 Move44 Move26 Move26Site Move62Site MoveSpec MoveSound Manifold ManifoldFacts ManifoldMoves ClassFacts Reverse Reverse44 PropsRunLemmas MoveProps Select NoThrow Samples SampleFacts Undo ApplySpec Apply Mp Action Acceptance KernelSpec KernelFacts.
From stdpp Require Import fin_sets gmap sorting.
From Verif Require Import Base Foliation Metropolis.
From Coq Require Import Reals Lra.
Local Open Scope Z_scope.

Lemma leads_to_true m' r : leads_to m' r = true <-> r = Moved m'.
Proof.
  destruct r as [x|e|e]; cbn; [|split; discriminate..]. rewrite bool_decide_eq_true. split.
  - intros (A & B & C). f_equal. destruct x, m'. cbn in *. congruence.
  - intros [= ->]. auto.
Qed.

(** A list without duplicates contains at most one index of a value. *)
Lemma one_index {A} (l : list A) (f : nat -> bool) (P : A -> Prop) : NoDup l ->
  (forall x y, P x -> P y -> x = y) ->
  (forall i, (i < length l)%nat -> f i = true <-> exists x, nth_error l i = Some x /\ P x) ->
  (exists x, x ∈ l /\ P x) -> length (List.filter f (List.seq 0 (length l))) = 1%nat.
Proof.
  intros ND U F (x & Hx & Px). apply elem_of_list_In, In_nth_error in Hx as [i Hi].
  assert (Li : (i < length l)%nat) by (apply nth_error_Some; congruence).
  assert (E : List.filter f (List.seq 0 (length l)) ≡ₚ [i]).
  { apply NoDup_Permutation.
    - apply NoDup_ListNoDup, List.NoDup_filter, seq_NoDup.
    - repeat constructor. apply not_elem_of_nil.
    - intros j. rewrite elem_of_list_In, List.filter_In, in_seq, elem_of_list_singleton. split.
      + intros [Hj Fj]. apply F in Fj as (y & Hy & Py); [|lia]. rewrite <- (U x y Px Py) in Hy.
        apply NoDup_ListNoDup in ND. eapply (proj1 (NoDup_nth_error l) ND); [lia|congruence].
      + intros ->. split; [lia|]. apply F; [exact Li|]. eauto. }
  rewrite (Permutation_length E). reflexivity.
Qed.
Lemma no_index (f : nat -> bool) n : (forall i, (i < n)%nat -> f i = false) -> length (List.filter f (List.seq 0 n)) = 0%nat.
Proof.
  intros H. assert (E : List.filter f (List.seq 0 n) = []); [|rewrite E; reflexivity].
  destruct (List.filter f (List.seq 0 n)) as [|i r] eqn:E; [reflexivity|]. exfalso.
  assert (K : In i (List.filter f (List.seq 0 n))) by (rewrite E; left; reflexivity).
  apply List.filter_In in K as [K1 K2]. apply in_seq in K1. rewrite H in K2 by lia. discriminate.
Qed.

Section Kernel.
  Variable W : world.

  (** Candidates under a scripted draw. *)
  Lemma stop_there_modelled : stays_modelled stop_there.
  Proof. intros m g m' H. discriminate H. Qed.
  Lemma candidate_iff i m k m' : valid (m_cells m) -> candidate W i m k = Moved m' <->
    exists s, nth_error (sites_of W m k) i = Some s /\
      site_gives W m k s (m_cells m') /\ m_radius m' = m_radius m /\ m_spacing m' = m_spacing m.
  Proof.
    intros V. unfold candidate. apply (candidate_at W (always_draw i)); [reflexivity|exact stop_there_modelled|exact V].
  Qed.
  Lemma drawn_candidate {G} (R : choices G) escape m k g m' : choices_ok R -> stays_modelled escape -> valid (m_cells m) ->
    fst (propose_candidate (propose_api W R escape) m k g) = Moved m' <->
    candidate W (fst (draw_index R (indices W m k) g)) m k = Moved m'.
  Proof.
    intros RO ES V. rewrite candidate_iff by exact V. apply candidate_at; [|exact ES|exact V]. intros A l x. apply shuffle_perm, RO.
  Qed.

  Lemma site_in m k s T' : site_gives W m k s T' -> s ∈ sites_of W m k.
  Proof.
    intros [(-> & A & B)|[(-> & A & B)|[(-> & A & B)|[(-> & v & ed & -> & A & B)|(-> & A & B)]]]]; try exact A.
    unfold sites_of. cbn [Z.eqb]. apply elem_of_list_In, (in_map (fun v => {[v]})), elem_of_list_In, A.
  Qed.

  (** Whether [m'] can be proposed from [m]. *)
  Definition proposable (m : manifold) (k : MoveType) (m' : manifold) : Prop :=
    (exists s, site_gives W m k s (m_cells m')) /\ m_radius m' = m_radius m /\ m_spacing m' = m_spacing m.

  Lemma proposable_index m k m' : valid (m_cells m) -> proposable m k m' <-> exists i, (i < indices W m k)%nat /\ candidate W i m k = Moved m'.
  Proof.
    intros V. split.
    - intros ((s & Hs) & A & B). pose proof (site_in _ _ _ _ Hs) as I. apply elem_of_list_In, In_nth_error in I as [i Hi].
      exists i. split; [rewrite <- sites_of_count; apply nth_error_Some; congruence|]. apply candidate_iff; [exact V|]. eauto.
    - intros (i & _ & H). apply candidate_iff in H as (s & _ & H & A & B); [|exact V]. split; eauto.
  Qed.

  Lemma chance_one m k m' : valid (m_cells m) -> proposable m k m' -> chance W m k m' = (1 / INR (indices W m k))%R.
  Proof.
    intros V ((s & Hs) & A & B). unfold chance. rewrite <- (sites_of_count W m k).
    rewrite (one_index (sites_of W m k) _ (fun s => site_gives W m k s (m_cells m'))); [reflexivity|apply sites_of_NoDup| | |].
    - intros x y. apply one_site, V.
    - intros i _. rewrite leads_to_true, candidate_iff by exact V. split; [intros (x & H1 & H2 & _)|intros (x & H1 & H2)]; eauto.
    - exists s. split; [eapply site_in, Hs|exact Hs].
  Qed.
  Lemma chance_zero m k m' : valid (m_cells m) -> ~ proposable m k m' -> chance W m k m' = 0%R.
  Proof.
    intros V N. unfold chance. rewrite no_index; [cbn; unfold Rdiv; ring|]. intros i Hi.
    apply not_true_iff_false. rewrite leads_to_true. intros H. apply N, proposable_index; eauto.
  Qed.
  Lemma proposable_dec m k m' : valid (m_cells m) -> {proposable m k m'} + {~ proposable m k m'}.
  Proof.
    intros V. destruct (existsb (fun i => leads_to m' (candidate W i m k)) (List.seq 0 (indices W m k))) eqn:E.
    - left. apply existsb_exists in E as (i & Hi & H). apply in_seq in Hi. apply proposable_index; [exact V|].
      exists i. split; [lia|]. apply leads_to_true, H.
    - right. intros P. apply (proposable_index _ _ _ V) in P as (i & Hi & H). apply leads_to_true in H.
      assert (K : existsb (fun i => leads_to m' (candidate W i m k)) (List.seq 0 (indices W m k)) = true); [|congruence].
      apply existsb_exists. exists i. split; [apply in_seq; lia|exact H].
  Qed.
End Kernel.
