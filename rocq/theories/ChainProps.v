(** The program's chain on a set of manifolds that its steps do not leave. *)
From Verif Require Import Base Tracker Command Run Geom Metropolis Simplex Pachner Foliation Moves Links MoveSpec Manifold ManifoldFacts ManifoldMoves MoveProps Samples SampleFacts Undo Mp Action Acceptance HastingsError KernelSpec KernelFacts KernelProps KernelBalance KernelStep ChainSpec ChainFacts.
From stdpp Require Import fin_sets gmap sorting relations.
From Verif Require Import Base Foliation Metropolis.
From Coq Require Import Reals Lra.
Local Open Scope R_scope.

Section Chain.
  Variable W : world.
  Variable p : PhysicalParameters.
  Hypothesis VP : valid_parameters p.
  Notation step := (step_probability W p).
  Notation correct_state m := (is_structurally_correct W m = true).

  Lemma correct_valid m : correct_state m -> valid (m_cells m).
  Proof using. intros S. exact (proj1 (proj1 (structurally_correct_spec W m) S)). Qed.
  Lemma in_outcomes m x : x ∈ outcomes W m <-> exists k i, In k five_moves /\ (i < indices W m k)%nat /\ candidate W i m k = Moved x.
  Proof using.
    unfold outcomes. rewrite elem_of_remove_dups, elem_of_list_In, in_flat_map. split.
    - intros (k & Ik & H). apply in_flat_map in H as (i & Hi & H). apply in_seq in Hi. exists k, i. split; [exact Ik|]. split; [lia|].
      destruct (candidate W i m k); [|destruct H..]. destruct H as [->|[]]. reflexivity.
    - intros (k & i & Ik & Hi & E). exists k. split; [exact Ik|]. apply in_flat_map. exists i. split; [apply in_seq; lia|]. rewrite E. left. reflexivity.
  Qed.
  Lemma step_outcome m x : valid (m_cells m) -> 0 < step m x -> x ∈ outcomes W m.
  Proof using VP.
    intros V H. apply (possible_step W p m x VP V) in H as (k & i & Hi & E & C). apply in_outcomes. exists k, i.
    split; [eapply checked_kind, C|]. auto.
  Qed.
  Lemma outcomes_NoDup m : NoDup (outcomes W m).
  Proof using. apply NoDup_remove_dups. Qed.
  Lemma sum_outcomes m X : valid (m_cells m) -> NoDup X -> (forall x, 0 < step m x -> x ∈ X) ->
    sum_on (step m) (outcomes W m) = sum_on (step m) X.
  Proof using VP.
    intros V ND C. apply sum_on_support; [apply outcomes_NoDup|exact ND|]. intros x N.
    assert (P : 0 < step m x) by (pose proof (step_nonneg W p VP m x); lra).
    split; intros _; [apply C, P|apply step_outcome; assumption].
  Qed.
  Lemma stay_nonneg m : 0 <= stay W p m.
  Proof using VP. unfold stay. pose proof (steps_sum W p m (outcomes W m) VP) as H. unfold sum_on. specialize (H (outcomes_NoDup m)). lra. Qed.
  Lemma kernel_nonneg m x : 0 <= kernel W p m x.
  Proof using VP. unfold kernel. pose proof (step_nonneg W p VP m x). pose proof (stay_nonneg m). destruct (decide (m = x)); lra. Qed.
  Lemma kernel_sum m X : valid (m_cells m) -> NoDup X -> m ∈ X -> (forall x, 0 < step m x -> x ∈ X) -> sum_on (kernel W p m) X = 1.
  Proof using VP.
    intros V ND I C. unfold kernel. rewrite sum_on_plus. rewrite (sum_on_at' (fun _ => stay W p m) X m ND I).
    rewrite <- (sum_outcomes m X V ND C). unfold stay. ring.
  Qed.
  Lemma kernel_balance m x : correct_state m -> correct_state x -> (0 < step m x <-> 0 < step x m) ->
    weight W p m * kernel W p m x = weight W p x * kernel W p x m.
  Proof using VP.
    intros Sm Sx T. pose proof (balance_both W p VP m x Sm Sx T) as B. unfold kernel.
    destruct (decide (m = x)) as [->|N].
    - rewrite decide_True by reflexivity. reflexivity.
    - rewrite (decide_False (P := x = m)) by congruence. lra.
  Qed.
  Lemma weight_pos m : 0 < weight W p m.
  Proof using. apply exp_pos. Qed.

  (** A set of states around one state. *)
  Lemma stationary_at X m : NoDup X -> m ∈ X -> (forall x, x ∈ X -> correct_state x) ->
    (forall x, 0 < step m x -> x ∈ X) -> (forall x, x ∈ X -> (0 < step m x <-> 0 < step x m)) ->
    sum_on (fun x => weight W p x * kernel W p x m) X = weight W p m.
  Proof using VP.
    intros ND I S C T. rewrite (sum_on_ext _ (fun x => weight W p m * kernel W p m x)).
    - rewrite sum_on_scale, (kernel_sum m X (correct_valid m (S m I)) ND I C). ring.
    - intros x Ix. symmetry. apply kernel_balance; [apply S, I|apply S, Ix|apply T, Ix].
  Qed.

  Variable X : list manifold.
  Hypothesis ND : NoDup X.
  Hypothesis Correct : forall x, x ∈ X -> correct_state x.
  Hypothesis Closed : closed W p X.

  Lemma sums_one x : x ∈ X -> sum_on (kernel W p x) X = 1.
  Proof using VP ND Correct Closed. intros I. apply kernel_sum; [apply correct_valid, Correct, I|exact ND|exact I|]. intros y P. exact (Closed x y I P). Qed.
  Lemma after_steps n x y : after W p X n x y = steps X (kernel W p) n x y.
  Proof using. revert x. induction n as [|n IH]; intros x; cbn; [reflexivity|]. apply sum_on_ext. intros z _. rewrite IH. reflexivity. Qed.
  Lemma after_probability n x : x ∈ X -> (forall y, y ∈ X -> 0 <= after W p X n x y) /\ sum_on (after W p X n x) X = 1.
  Proof using VP ND Correct Closed.
    intros I. split.
    - intros y J. rewrite after_steps. apply steps_nonneg; [intros; apply kernel_nonneg|exact I|exact J].
    - rewrite (sum_on_ext _ (steps X (kernel W p) n x)) by (intros; apply after_steps). apply steps_one; [exact ND|exact sums_one|exact I].
  Qed.

  Hypothesis Two : two_way W p X.
  Lemma chain_balance x y : x ∈ X -> y ∈ X -> weight W p x * kernel W p x y = weight W p y * kernel W p y x.
  Proof using VP Correct Two. intros I J. apply kernel_balance; [apply Correct, I|apply Correct, J|apply Two; assumption]. Qed.
  Lemma equilibrium_probability x : x ∈ X -> 0 < equilibrium W p X x /\ sum_on (equilibrium W p X) X = 1.
  Proof using.
    intros I. assert (P : 0 < sum_on (weight W p) X) by (eapply sum_positive_w; [intros; apply weight_pos|exact I]).
    split; [apply Rdiv_lt_0_compat; [apply weight_pos|exact P]|]. unfold equilibrium, Rdiv. rewrite sum_on_scale_r. field. lra.
  Qed.
  Lemma equilibrium_stationary n y : y ∈ X -> sum_on (fun x => equilibrium W p X x * after W p X n x y) X = equilibrium W p X y.
  Proof using VP ND Correct Closed Two.
    intros J. unfold equilibrium, Rdiv.
    rewrite (sum_on_ext _ (fun x => weight W p x * steps X (kernel W p) n x y * / sum_on (weight W p) X)) by (intros x _; rewrite after_steps; ring).
    rewrite sum_on_scale_r. rewrite (steps_stationary X ND (kernel W p) (weight W p) sums_one chain_balance n y J). reflexivity.
  Qed.
  Hypothesis Linked : linked W p X.
  Lemma chain_linked x y : x ∈ X -> y ∈ X -> rtc (fun a b => b ∈ X /\ 0 < kernel W p a b) x y.
  Proof using VP Closed Linked.
    intros I J. pose proof (Linked x y I J) as R0. clear J. induction R0 as [x|x y z P R0 IH]; [constructor|].
    pose proof (Closed x y I P) as Iy. eapply rtc_l; [|apply IH, Iy]. split; [exact Iy|]. unfold kernel.
    pose proof (stay_nonneg x). destruct (decide (x = y)); lra.
  Qed.
  Lemma only_equilibrium mu : sum_on mu X = 1 -> (forall y, y ∈ X -> sum_on (fun x => mu x * kernel W p x y) X = mu y) ->
    forall x, x ∈ X -> mu x = equilibrium W p X x.
  Proof using VP ND Correct Closed Two Linked.
    intros S1 St x I. unfold equilibrium.
    exact (unique X (kernel W p) (weight W p) (fun x y _ _ => kernel_nonneg x y) sums_one (fun x _ => weight_pos x) chain_balance mu
             chain_linked S1 St x I).
  Qed.
  Lemma to_equilibrium m0 : m0 ∈ X -> 0 < kernel W p m0 m0 ->
    forall eps, 0 < eps -> exists N, forall n x y, (N <= n)%nat -> x ∈ X -> y ∈ X -> Rabs (after W p X n x y - equilibrium W p X y) < eps.
  Proof using VP ND Correct Closed Two Linked.
    intros I0 P0 eps Pe.
    destruct (converges X ND (kernel W p) (weight W p) (fun x y _ _ => kernel_nonneg x y) sums_one (fun x _ => weight_pos x) chain_balance
      m0 I0 P0 (fun x I => chain_linked x m0 I I0) eps Pe) as [N H].
    exists N. intros n x y Hn I J. rewrite after_steps. exact (H n x y Hn I J).
  Qed.
End Chain.

(** ** When a state can stay *)
Section Stay.
  Variable W : world.
  Variable p : PhysicalParameters.
  Hypothesis VP : valid_parameters p.
  (** The steps sum to at most 1/5 times the number of kinds with a possible step. *)
  Lemma by_kind_fifth m k L : NoDup L -> sum_on (fun x => by_kind W p m k x) L <= 1 / 5.
  Proof using VP.
    intros ND. apply (Rle_trans _ (1 / 5 * sum_on (chance W m k) L)).
    - rewrite <- sum_on_scale. apply sum_on_le. intros x _. unfold by_kind. pose proof (taken_range W p VP m k x).
      pose proof (chance_nonneg W m k x). nra.
    - pose proof (chances_sum W m k L ND) as H. unfold sum_on. lra.
  Qed.
  (** A kind of move with no possible step leaves a chance of at least 1/5. *)
  Lemma idle_kind m k : valid (m_cells m) -> In k five_moves ->
    (forall i x, (i < indices W m k)%nat -> candidate W i m k = Moved x -> check_move W m x k = false) ->
    1 / 5 <= kernel W p m m.
  Proof using VP.
    intros V Ik H. unfold kernel. rewrite decide_True by reflexivity. pose proof (step_nonneg W p VP m m) as P.
    enough (sum_on (step_probability W p m) (outcomes W m) <= 4 / 5) by (unfold stay; lra).
    pose proof (outcomes_NoDup W m) as ND. set (L := outcomes W m) in *.
    assert (Z : sum_on (fun x => by_kind W p m k x) L = 0).
    { apply sum_on_zero. intros x _. apply by_kind_zero; [exact VP|exact V|]. intros [Pr C].
      apply (proposable_index W _ _ _ V) in Pr as (i & Hi & E). rewrite (H i x Hi E) in C. discriminate. }
    unfold step_probability. change (sum_on (fun x => sum_on (fun k => by_kind W p m k x) five_moves) L <= 4 / 5).
    rewrite (sum_on_swap (fun x k => by_kind W p m k x)).
    pose proof (fun k => by_kind_fifth m k L ND) as F. unfold five_moves, sum_on at 1. cbn [map fold_right].
    pose proof (F TWO_THREE) as F1. pose proof (F THREE_TWO) as F2. pose proof (F TWO_SIX) as F3. pose proof (F SIX_TWO) as F4. pose proof (F FOUR_FOUR) as F5.
    unfold five_moves in Ik. cbn [In] in Ik. destruct Ik as [<-|[<-|[<-|[<-|[<-|[]]]]]]; rewrite Z; lra.
  Qed.
End Stay.

(** ** A chain of two states *)
Definition two_states : list manifold := [m_26; m_62].
Lemma outcomes_26 : outcomes W_flat m_26 = [m_62].
Proof. refine (bool_decide_unpack _ _). vm_compute. exact I. Qed.
Lemma outcomes_62 : outcomes W_flat m_62 = [m_26].
Proof. refine (bool_decide_unpack _ _). vm_compute. exact I. Qed.
Lemma two_states_chain p : valid_parameters p ->
  NoDup two_states /\ (forall x, x ∈ two_states -> is_structurally_correct W_flat x = true) /\
  closed W_flat p two_states /\ two_way W_flat p two_states /\ linked W_flat p two_states /\
  0 < kernel W_flat p m_26 m_26.
Proof.
  intros VP. destruct (flat_step p VP) as (_ & CA & S & B & P).
  destruct (step_back W_flat p VP m_26 TWO_SIX m_62 CA S (or_intror (or_introl eq_refl)) B) as (S' & P1 & P2).
  assert (Ne : m_26 <> m_62) by (refine (bool_decide_unpack _ _); vm_compute; exact I).
  assert (V : valid (m_cells m_26)) by (apply (correct_valid W_flat), S).
  assert (V' : valid (m_cells m_62)) by (apply (correct_valid W_flat), S').
  assert (Z : forall x, x ∈ two_states -> x = m_26 \/ x = m_62).
  { intros x H. apply elem_of_cons in H as [->|H]; [auto|]. apply elem_of_list_singleton in H. auto. }
  assert (N1 : forall x, 0 < step_probability W_flat p m_26 x -> x = m_62).
  { intros x H. apply (step_outcome W_flat p VP m_26 x V) in H. rewrite outcomes_26 in H. apply elem_of_list_singleton in H. exact H. }
  assert (N2 : forall x, 0 < step_probability W_flat p m_62 x -> x = m_26).
  { intros x H. apply (step_outcome W_flat p VP m_62 x V') in H. rewrite outcomes_62 in H. apply elem_of_list_singleton in H. exact H. }
  assert (I1 : m_26 ∈ two_states) by apply elem_of_list_here.
  assert (I2 : m_62 ∈ two_states) by apply elem_of_list_further, elem_of_list_here.
  split; [constructor; [|constructor; [apply not_elem_of_nil|constructor]]; intros H; apply elem_of_list_singleton in H; congruence|].
  split; [intros x H; destruct (Z x H) as [->| ->]; assumption|].
  split; [|split; [|split]].
  - intros m m' H Q. destruct (Z m H) as [->| ->]; [rewrite (N1 m' Q)|rewrite (N2 m' Q)]; assumption.
  - intros m m' H H'. destruct (Z m H) as [->| ->], (Z m' H') as [->| ->]; tauto.
  - intros m m' H H'. destruct (Z m H) as [->| ->], (Z m' H') as [->| ->]; try apply rtc_refl; apply rtc_once; assumption.
  - apply (Rlt_le_trans _ (1 / 5)); [lra|]. apply (idle_kind W_flat p VP m_26 TWO_THREE V); [left; reflexivity|].
    intros i x Hi. assert (E : indices W_flat m_26 TWO_THREE = 0%nat) by (vm_compute; reflexivity). lia.
Qed.
