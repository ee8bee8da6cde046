(** Ways back, and states a run can leave for good. *)
From Verif Require Import Base Tracker Command Run Geom Metropolis Simplex Pachner Foliation Moves Links MoveSpec Manifold ManifoldMoves MoveProps ManifoldFacts Samples SampleFacts Undo Mp Action Acceptance HastingsError KernelSpec KernelFacts KernelProps KernelBalance KernelStep ChainSpec ChainFacts ChainProps PassSpec PassFacts.
From stdpp Require Import fin_sets gmap sorting relations.
From Verif Require Import Base Foliation Metropolis.
From Coq Require Import Reals Lra.
Local Open Scope R_scope.

Section Trap.
  Variable W : world.
  Variable p : PhysicalParameters.
  Hypothesis VP : valid_parameters p.
  Notation can x y := (0 < step_probability W p x y).

  Lemma way_back : cgal_accepts W -> forall x y, is_structurally_correct W x = true ->
    rtc (fun a b => exists k, (k = TWO_THREE \/ k = TWO_SIX \/ k = FOUR_FOUR) /\ 0 < by_kind W p a k b) x y ->
    rtc (fun a b => can a b) x y /\ rtc (fun a b => can a b) y x.
  Proof using VP.
    intros CA x y S R0. revert S. induction R0 as [x|x y z (k & K & P) R0 IH]; intros S; [split; apply rtc_refl|].
    destruct (step_back W p VP x k y CA S K P) as (S' & A & B). destruct (IH S') as [F G]. split.
    - exact (rtc_l _ _ _ _ A F).
    - eapply rtc_r; [exact G|exact B].
  Qed.

  Variable X : list manifold.
  Hypothesis ND : NoDup X.
  Hypothesis Correct : forall x, x ∈ X -> is_structurally_correct W x = true.
  Hypothesis Closed : closed W p X.
  Let Knonneg : forall x y, 0 <= kernel W p x y := kernel_nonneg W p VP.
  Let Kone : forall x, x ∈ X -> sum_on (kernel W p x) X = 1 := sums_one W p VP X ND Correct Closed.

  Lemma after_path n x y : x ∈ X -> y ∈ X -> 0 < after W p X n x y -> rtc (fun a b => can a b) x y.
  Proof using VP ND Correct Closed.
    intros I J. revert x I. induction n as [|n IH]; intros x I P; cbn [after] in P.
    - destruct (decide (x = y)) as [->|]; [apply rtc_refl|lra].
    - apply sum_on_positive_term in P as (z & Iz & P).
      2: { intros z Iz. apply Rmult_le_pos; [apply Knonneg|]. exact (after_nonneg W p VP X ND Correct Closed z y n Iz J). }
      pose proof (Knonneg x z) as Kp. pose proof (after_nonneg W p VP X ND Correct Closed z y n Iz J) as Ap.
      assert (Q : 0 < after W p X n z y) by (destruct Ap as [Q|E]; [exact Q|rewrite <- E in P; lra]).
      assert (Kq : 0 < kernel W p x z) by (destruct Kp as [Q'|E]; [exact Q'|rewrite <- E in P; lra]).
      destruct (decide (x = z)) as [->|Ne]; [apply IH; assumption|].
      unfold kernel in Kq. rewrite decide_False in Kq by exact Ne. eapply rtc_l; [|apply (IH z Iz Q)]. lra.
  Qed.
  Lemma closed_path x y : x ∈ X -> rtc (fun a b => can a b) x y -> rtc (fun a b => b ∈ X /\ 0 < kernel W p a b) x y.
  Proof using VP Closed.
    intros I R0. revert I. induction R0 as [x|x y z P R0 IH]; intros I; [constructor|].
    pose proof (Closed x y I P) as Iy. eapply rtc_l; [|apply IH, Iy]. split; [exact Iy|]. unfold kernel.
    pose proof (stay_nonneg W p VP x). destruct (decide (x = y)); lra.
  Qed.

  Variables m y : manifold.
  Hypothesis Im : m ∈ X.
  Hypothesis Iy : y ∈ X.
  Hypothesis Stay : 0 < kernel W p m m.
  Hypothesis To : forall x, x ∈ X -> rtc (fun a b => can a b) x m.
  Hypothesis No : ~ rtc (fun a b => can a b) m y.
  Lemma never n : after W p X n m y = 0.
  Proof using VP ND Correct Closed Im Iy No.
    destruct (Rle_lt_or_eq_dec _ _ (after_nonneg W p VP X ND Correct Closed m y n Im Iy)) as [P|P]; [|symmetry; exact P].
    exfalso. exact (No (after_path n m y Im Iy P)).
  Qed.
  Lemma fades eps : 0 < eps -> exists N, forall n x, (N <= n)%nat -> x ∈ X -> after W p X n x y < eps.
  Proof using VP ND Correct Closed Im Iy Stay To No.
    intros Pe.
    destruct (reach_all X ND (kernel W p) (fun x y _ _ => Knonneg x y) m Im Stay
      (fun x I => closed_path x m I (To x I))) as (N & d & Pd & Hd).
    assert (Hd' : forall x, x ∈ X -> d <= after W p X N x m) by (intros x I; rewrite after_steps; apply Hd, I).
    assert (D1 : d <= 1).
    { apply (Rle_trans _ (after W p X N m m)); [apply Hd', Im|]. rewrite <- (after_one W p VP X ND Correct Closed m Im N).
      apply (sum_on_term (after W p X N m)); [|exact Im]. intros z Iz. apply (after_nonneg W p VP X ND Correct Closed); assumption. }
    assert (Step : forall a b, (forall x, x ∈ X -> after W p X a x y <= b) -> 0 <= b -> forall x, x ∈ X -> after W p X (N + a) x y <= (1 - d) * b).
    { intros a b H Pb x I. rewrite (after_add W p X ND N a x y I).
      apply (Rle_trans _ (sum_on (fun z => after W p X N x z * b - (if decide (z = m) then after W p X N x z else 0) * b) X)).
      - apply sum_on_le. intros z Iz. pose proof (after_nonneg W p VP X ND Correct Closed x z N I Iz) as Pz.
        destruct (decide (z = m)) as [->|Nz]; [rewrite never; lra|].
        pose proof (H z Iz). nra.
      - rewrite sum_on_minus, !sum_on_scale_r, (after_one W p VP X ND Correct Closed x I N).
        rewrite (sum_on_at (after W p X N x) X m ND Im). pose proof (Hd' x I). nra. }
    assert (More : forall k a b, (forall x, x ∈ X -> after W p X a x y <= b) -> forall x, x ∈ X -> after W p X (k + a) x y <= b).
    { induction k as [|k IH]; intros a b H x I; [apply H, I|]. change (S k + a)%nat with (S (k + a)). cbn [after].
      apply (kernel_bound W p X Knonneg Kone x _ b I). intros z Iz. apply IH; assumption. }
    assert (All : forall k x, x ∈ X -> after W p X (k * N) x y <= (1 - d) ^ k).
    { induction k as [|k IH]; intros x I.
      - cbn [Nat.mul pow after]. destruct (decide (x = y)); lra.
      - change (S k * N)%nat with (N + k * N)%nat. cbn [pow]. apply Step; [exact IH|apply pow_le; lra|exact I]. }
    destruct (pow_lt_1_zero (1 - d)) with (y := eps) as [k Hk]; [rewrite Rabs_right by lra; lra|lra|].
    exists (k * N)%nat. intros n x Hn I. replace n with ((n - k * N) + k * N)%nat by lia.
    eapply Rle_lt_trans; [apply (More _ _ _ (All k) x I)|]. specialize (Hk k (le_n k)).
    rewrite Rabs_right in Hk; [exact Hk|]. apply Rle_ge, pow_le. lra.
  Qed.
  (** No distribution with a chance of [y] is left unchanged. *)
  Lemma preserved_zero mu : (forall z, z ∈ X -> sum_on (fun x => mu x * kernel W p x z) X = mu z) -> mu y = 0.
  Proof using VP ND Correct Closed Im Iy Stay To No.
    intros St.
    assert (Sn : forall n, sum_on (fun x => mu x * after W p X n x y) X = mu y).
    { induction n as [|n IH].
      - rewrite (sum_on_ext _ (fun x => if decide (x = y) then mu x else 0)); [apply sum_on_at; assumption|].
        intros x _. cbn [after]. destruct (decide (x = y)); ring.
      - cbn [after]. rewrite (sum_on_ext _ (fun x => sum_on (fun z => mu x * kernel W p x z * after W p X n z y) X))
          by (intros x _; rewrite <- sum_on_scale; apply sum_on_ext; intros; ring).
        rewrite sum_on_swap. rewrite <- IH. apply sum_on_ext. intros z Iz. rewrite sum_on_scale_r, (St z Iz). reflexivity. }
    set (S := sum_on (fun x => Rabs (mu x)) X). assert (PS : 0 <= S) by (apply sum_on_nonneg; intros; apply Rabs_pos).
    destruct (Req_dec (mu y) 0) as [E|Ne]; [exact E|]. exfalso. apply Rabs_pos_lt in Ne.
    destruct (fades (Rabs (mu y) / (S + 1))) as [N H]; [apply Rdiv_lt_0_compat; lra|].
    assert (B : Rabs (mu y) <= Rabs (mu y) / (S + 1) * S).
    { rewrite <- (Sn N) at 1. eapply Rle_trans; [apply sum_on_abs|]. unfold S. rewrite <- sum_on_scale. apply sum_on_le. intros x I.
      rewrite Rabs_mult, Rmult_comm. apply Rmult_le_compat_r; [apply Rabs_pos|].
      pose proof (after_nonneg W p VP X ND Correct Closed x y N I Iy). rewrite Rabs_right by lra. apply Rlt_le, H; [apply le_n|exact I]. }
    assert (Q : Rabs (mu y) / (S + 1) * S = Rabs (mu y) - Rabs (mu y) / (S + 1)) by (field; lra).
    assert (0 < Rabs (mu y) / (S + 1)) by (apply Rdiv_lt_0_compat; lra). lra.
  Qed.
End Trap.

(** ** Computing the steps from a manifold *)
Definition nexts (W : world) (m : manifold) : list manifold :=
  remove_dups (flat_map (fun k => flat_map (fun i => match candidate W i m k with Moved x => if check_move W m x k then [x] else [] | _ => [] end)
    (List.seq 0 (indices W m k))) five_moves).
Lemma nexts_spec W p m x : valid_parameters p -> valid (m_cells m) -> x ∈ nexts W m <-> 0 < step_probability W p m x.
Proof.
  intros VP V. unfold nexts. rewrite elem_of_remove_dups, elem_of_list_In, in_flat_map, (possible_step W p m x VP V). split.
  - intros (k & _ & H). apply in_flat_map in H as (i & Hi & H). apply in_seq in Hi. exists k, i.
    destruct (candidate W i m k) as [z|e|e] eqn:C; [|destruct H|destruct H]. destruct (check_move W m z k) eqn:D; [|destruct H].
    destruct H as [H|[]]. subst z. repeat split; auto. lia.
  - intros (k & i & Hi & C & D). exists k. split; [eapply checked_kind, D|]. apply in_flat_map. exists i.
    split; [apply in_seq; lia|]. rewrite C, D. left. reflexivity.
Qed.
Fixpoint forward (W : world) (n : nat) (m : manifold) : list manifold :=
  match n with O => [m] | S n => m :: flat_map (forward W n) (nexts W m) end.
Lemma forward_path W p n m x : valid_parameters p -> is_structurally_correct W m = true -> In x (forward W n m) ->
  rtc (fun a b => 0 < step_probability W p a b) m x.
Proof.
  intros VP. revert m. induction n as [|n IH]; intros m S H; cbn [forward In] in H.
  - destruct H as [<-|[]]. apply rtc_refl.
  - destruct H as [<-|H]; [apply rtc_refl|]. apply in_flat_map in H as (z & Hz & H).
    assert (V : valid (m_cells m)) by (apply (correct_valid W), S).
    apply elem_of_list_In in Hz. apply (nexts_spec W p m z VP V) in Hz. eapply rtc_l; [exact Hz|]. apply (IH z); [|exact H].
    apply (possible_step W p m z VP V) in Hz as (k & i & _ & _ & C).
    pose proof (proj1 (check_move_spec W m z k) C) as (V' & CL' & _). apply structurally_correct_spec. auto.
Qed.
Definition closed_list (W : world) (X : list manifold) : bool :=
  forallb (fun x => is_structurally_correct W x && forallb (fun z => bool_decide (z ∈ X)) (nexts W x)) X.
Lemma closed_list_spec W p X : valid_parameters p -> closed_list W X = true ->
  (forall x, x ∈ X -> is_structurally_correct W x = true) /\ closed W p X.
Proof.
  intros VP H. assert (A : forall x, x ∈ X -> is_structurally_correct W x = true /\ forall z, z ∈ nexts W x -> z ∈ X).
  { intros x I. apply elem_of_list_In in I. pose proof (proj1 (forallb_forall _ _) H x I) as B. cbn beta in B.
    apply andb_true_iff in B as [B C]. split; [exact B|]. intros z Iz. apply elem_of_list_In in Iz.
    pose proof (proj1 (forallb_forall _ _) C z Iz) as D. cbn beta in D. apply bool_decide_eq_true in D. exact D. }
  split; [intros x I; apply A, I|]. intros x z I P. destruct (A x I) as [S B]. apply B.
  apply (nexts_spec W p x z VP); [apply (correct_valid W), S|exact P].
Qed.

(** The manifolds of [X] from which [n] steps or fewer can lead into [R]. *)
Fixpoint backward (L : list (manifold * list manifold)) (n : nat) (R : list manifold) : list manifold :=
  match n with
  | O => R
  | S n => backward L n (R ++ map fst (List.filter (fun e => existsb (fun z => bool_decide (z ∈ R)) (snd e)) L))
  end.
Lemma backward_path W p X m n x : valid_parameters p -> (forall x, x ∈ X -> is_structurally_correct W x = true) ->
  x ∈ backward (map (fun z => (z, nexts W z)) X) n [m] -> rtc (fun a b => 0 < step_probability W p a b) x m.
Proof.
  intros VP Cor. assert (H0 : forall z, z ∈ [m] -> rtc (fun a b => 0 < step_probability W p a b) z m).
  { intros z Hz. apply elem_of_list_singleton in Hz as ->. apply rtc_refl. }
  revert H0. generalize [m]. induction n as [|n IH]; intros R H0 H; cbn [backward] in H; [apply H0, H|].
  revert H. apply IH. intros z Hz. apply elem_of_app in Hz as [Hz|Hz]; [apply H0, Hz|].
  apply elem_of_list_In, in_map_iff in Hz as ([z' L] & E & Hz). cbn in E. subst z'.
  apply filter_In in Hz as [Hz He]. apply in_map_iff in Hz as (z' & E & Iz). injection E as -> <-.
  cbn [snd] in He. apply existsb_exists in He as (y & Hy & B). apply bool_decide_eq_true in B.
  apply elem_of_list_In in Iz. eapply rtc_l; [|apply H0, B].
  apply (nexts_spec W p z y VP); [apply (correct_valid W), Cor, Iz|]. apply elem_of_list_In, Hy.
Qed.

Definition idle (W : world) (m : manifold) (k : MoveType) : bool :=
  forallb (fun i => match candidate W i m k with Moved x => negb (check_move W m x k) | _ => true end) (List.seq 0 (indices W m k)).
Lemma idle_spec W m k : idle W m k = true ->
  forall i x, (i < indices W m k)%nat -> candidate W i m k = Moved x -> check_move W m x k = false.
Proof.
  intros H i x Hi C. pose proof (proj1 (forallb_forall _ _) H i) as B. cbn beta in B. rewrite C in B.
  apply negb_true_iff, B, in_seq. lia.
Qed.

(** The six manifolds that can be reached from [m_22]. *)
Definition six_states : list manifold := remove_dups (forward W_22 3 m_22).
Definition six_check : bool :=
  let X := six_states in
  closed_list W_22 X && Nat.eqb (length X) 6 && bool_decide (m_22 ∈ X) && bool_decide (m_22' ∈ X) &&
  (let R := backward (map (fun z => (z, nexts W_22 z)) X) 3 [m_22'] in forallb (fun x => bool_decide (x ∈ R)) X) &&
  (let Y := forward W_22 1 m_22' in closed_list W_22 Y && negb (bool_decide (m_22 ∈ Y))) && idle W_22 m_22' FOUR_FOUR.
Lemma six_checked : six_check = true.
Proof. vm_cast_no_check (eq_refl true). Qed.

Lemma six_trap p : valid_parameters p ->
  NoDup six_states /\ (forall x, x ∈ six_states -> is_structurally_correct W_22 x = true) /\ closed W_22 p six_states /\
  length six_states = 6%nat /\ m_22 ∈ six_states /\ m_22' ∈ six_states /\
  (forall x, x ∈ six_states -> rtc (fun a b => 0 < step_probability W_22 p a b) m_22 x) /\
  (forall x, x ∈ six_states -> rtc (fun a b => 0 < step_probability W_22 p a b) x m_22') /\
  ~ rtc (fun a b => 0 < step_probability W_22 p a b) m_22' m_22 /\
  0 < kernel W_22 p m_22' m_22'.
Proof.
  intros VP. pose proof six_checked as H. unfold six_check in H.
  apply andb_true_iff in H as [H H7]. apply andb_true_iff in H as [H H6]. apply andb_true_iff in H as [H H5].
  apply andb_true_iff in H as [H H4]. apply andb_true_iff in H as [H H3]. apply andb_true_iff in H as [H1 H2].
  destruct (closed_list_spec W_22 p _ VP H1) as [Cor Cl]. apply Nat.eqb_eq in H2.
  apply bool_decide_eq_true in H3. apply bool_decide_eq_true in H4. apply andb_true_iff in H6 as [H6 H8].
  apply negb_true_iff, bool_decide_eq_false in H8. destruct (closed_list_spec W_22 p _ VP H6) as [Cor' Cl'].
  split; [apply NoDup_remove_dups|]. split; [exact Cor|]. split; [exact Cl|]. split; [exact H2|]. split; [exact H3|]. split; [exact H4|].
  split; [|split; [|split]].
  - intros x I. unfold six_states in I. rewrite elem_of_remove_dups, elem_of_list_In in I.
    apply (forward_path W_22 p 3 m_22 x VP (Cor m_22 H3) I).
  - intros x I. apply elem_of_list_In in I. pose proof (proj1 (forallb_forall _ _) H5 x I) as B. cbn beta in B.
    apply bool_decide_eq_true in B. exact (backward_path W_22 p six_states m_22' 3 x VP Cor B).
  - intros R0. apply H8. assert (I0 : m_22' ∈ forward W_22 1 m_22') by (cbn [forward]; apply elem_of_list_here).
    revert R0 I0. generalize m_22' at 1 2. generalize m_22. clear - Cl'.
    intros y x R0. induction R0 as [x|x z y P R0 IH]; intros I0; [exact I0|]. apply IH. exact (Cl' x z I0 P).
  - apply (Rlt_le_trans _ (1 / 5)); [lra|]. apply (idle_kind W_22 p VP m_22' FOUR_FOUR).
    + apply (correct_valid W_22), Cor, H4.
    + do 4 right. left. reflexivity.
    + apply idle_spec, H7.
Qed.
Lemma differs_somewhere {A} (f g : A -> R) (L : list A) : (exists y, y ∈ L /\ f y <> g y) \/ forall y, y ∈ L -> f y = g y.
Proof.
  induction L as [|z L [(y & Iy & Ny)|IH]].
  - right. intros y Iy. apply elem_of_nil in Iy. destruct Iy.
  - left. exists y. split; [apply elem_of_list_further, Iy|exact Ny].
  - destruct (Req_dec (f z) (g z)) as [E|Ne].
    + right. intros y Iy. apply elem_of_cons in Iy as [->|Iy]; [exact E|apply IH, Iy].
    + left. exists z. split; [apply elem_of_list_here|exact Ne].
Qed.
Lemma six_lost p : valid_parameters p -> exists X,
  NoDup X /\ (forall x, x ∈ X -> is_structurally_correct W_22 x = true) /\ closed W_22 p X /\ m_22 ∈ X /\ m_22' ∈ X /\
  (forall x, x ∈ X -> rtc (fun a b => 0 < step_probability W_22 p a b) m_22 x) /\
  ~ rtc (fun a b => 0 < step_probability W_22 p a b) m_22' m_22 /\
  (forall eps, 0 < eps -> exists N, forall n x, (N <= n)%nat -> x ∈ X -> after W_22 p X n x m_22 < eps) /\
  0 < equilibrium W_22 p X m_22 /\
  exists y, y ∈ X /\ sum_on (fun x => equilibrium W_22 p X x * kernel W_22 p x y) X <> equilibrium W_22 p X y.
Proof.
  intros VP. destruct (six_trap p VP) as (ND & Cor & Cl & _ & I & I' & F & T & No & St). exists six_states.
  split; [exact ND|]. split; [exact Cor|]. split; [exact Cl|]. split; [exact I|]. split; [exact I'|]. split; [exact F|]. split; [exact No|].
  split; [exact (fades W_22 p VP six_states ND Cor Cl m_22' m_22 I' I St T No)|].
  pose proof (proj1 (equilibrium_probability W_22 p six_states m_22 I)) as P. split; [exact P|].
  pose proof (preserved_zero W_22 p VP six_states ND Cor Cl m_22' m_22 I' I St T No (equilibrium W_22 p six_states)) as Z.
  revert Z P. generalize (equilibrium W_22 p six_states) as mu, (kernel W_22 p) as K. intros mu K Z P.
  pose proof (differs_somewhere (fun y => sum_on (fun x => mu x * K x y) six_states) mu six_states) as D. cbn beta in D.
  destruct D as [D|D]; [exact D|]. specialize (Z D). rewrite Z in P. apply Rlt_irrefl in P. destruct P.
Qed.
Lemma flat_path p : valid_parameters p -> valid_parameters example_params /\
  cgal_accepts W_flat /\ is_structurally_correct W_flat m_26 = true /\ m_26 <> m_62 /\
  rtc (fun a b => exists k, (k = TWO_THREE \/ k = TWO_SIX \/ k = FOUR_FOUR) /\ 0 < by_kind W_flat p a k b) m_26 m_62.
Proof.
  intros VP. destruct (flat_step p VP) as (A & B & C & D & _). split; [exact A|]. split; [exact B|]. split; [exact C|].
  split; [refine (bool_decide_unpack _ _); vm_compute; exact I|]. apply rtc_once. exists TWO_SIX.
  exact (conj (or_intror (or_introl eq_refl)) D).
Qed.
