(** Detailed balance of the steps that can be undone, and what fails otherwise. *)
From Verif Require Import Base Tracker Command Run Geom Metropolis Simplex Pachner Foliation Moves Links MoveCore MoveTools Move23 Move44 Move26 Move26Site Move62Site MoveSpec MoveSound Manifold ManifoldFacts ManifoldMoves ClassFacts Reverse Reverse44 PropsRunLemmas MoveProps Select NoThrow Samples SampleFacts Undo ApplySpec Apply Mp Action Acceptance KernelSpec KernelFacts KernelProps.
From stdpp Require Import fin_sets gmap sorting.
From Verif Require Import Base Foliation Metropolis.
From Coq Require Import Reals Lra Psatz.
Local Open Scope R_scope.

Definition bounded_draw (i : nat) : choices unit := mkChoices (fun n g => (Nat.min i (n - 1), g)) (fun _ l g => (l, g)).
Lemma bounded_draw_ok i : choices_ok (bounded_draw i).
Proof. split; [intros n g H; cbn; lia|reflexivity]. Qed.

Section Balance.
  Variable W : world.

  Lemma proposable_moved m k m' : valid (m_cells m) -> proposable W m k m' -> exists i, moved W (bounded_draw i) stop_there k m m'.
  Proof.
    intros V P. apply (proposable_index W _ _ _ V) in P as (i & Hi & H). exists i.
    assert (K : fst (propose_candidate (propose_api W (bounded_draw i) stop_there) m k tt) = Moved m').
    { apply drawn_candidate; [apply bounded_draw_ok|exact stop_there_modelled|exact V|]. cbn [draw_index bounded_draw fst].
      replace (Nat.min i (indices W m k - 1)) with i by lia. exact H. }
    exists tt, (snd (propose_candidate (propose_api W (bounded_draw i) stop_there) m k tt)). right.
    rewrite <- K. apply surjective_pairing.
  Qed.
  Lemma counts_positive m k m' : valid (m_cells m) -> proposable W m k m' -> check_move W m m' k = true ->
    exists r, reverse_move k = Some r /\ (0 < proposal_site_count (geometry_m W m) k)%Z /\ (0 < proposal_site_count (geometry_m W m') r)%Z.
  Proof.
    intros V P C. destruct (proposable_moved m k m' V P) as [i M].
    exact (proposed_site_counts W _ _ k m m' (bounded_draw_ok i) stop_there_modelled V M C).
  Qed.

  (** ** The check tells the kinds apart and is symmetric *)
  Lemma checked_kind m m' k : check_move W m m' k = true -> In k five_moves.
  Proof.
    intros H. apply check_move_spec in H as (_ & _ & _ & _ & _ & _ & d & Hd & _). unfold move_delta in Hd. unfold five_moves.
    destruct (Z.eqb_spec k TWO_THREE); [subst; cbn; tauto|]. destruct (Z.eqb_spec k THREE_TWO); [subst; cbn; tauto|].
    destruct (Z.eqb_spec k TWO_SIX); [subst; cbn; tauto|]. destruct (Z.eqb_spec k SIX_TWO); [subst; cbn; tauto|].
    destruct (Z.eqb_spec k FOUR_FOUR); [subst; cbn; tauto|]. discriminate.
  Qed.
  Lemma checked_once m m' k k' : check_move W m m' k = true -> check_move W m m' k' = true -> k = k'.
  Proof.
    intros H H'. pose proof (checked_kind _ _ _ H) as I. pose proof (checked_kind _ _ _ H') as I'.
    apply check_move_spec in H as (_ & _ & _ & _ & _ & _ & d & Hd & E).
    apply check_move_spec in H' as (_ & _ & _ & _ & _ & _ & d' & Hd' & E').
    rewrite E in E'. apply (f_equal gN3) in E'. cbn in E'. unfold five_moves in *. cbn in I, I'.
    repeat (destruct I as [<-|I]; [|]); try tauto; repeat (destruct I' as [<-|I']; [|]); try tauto; try reflexivity;
      injection Hd as <-; injection Hd' as <-; cbn in E'; lia.
  Qed.
  Lemma checked_back m m' k r : is_structurally_correct W m = true -> check_move W m m' k = true -> reverse_move k = Some r ->
    check_move W m' m r = true.
  Proof.
    intros S H HR. apply structurally_correct_spec in S as [V C]. pose proof (checked_kind _ _ _ H) as I.
    apply check_move_spec in H as (_ & _ & A & B & D & E & d & Hd & EG). apply check_move_spec.
    repeat (split; [auto; fail|]). unfold five_moves in I. cbn in I. destruct (geometry_m W m) as [n0 n1 n2 n3 n4 n5 n6 n7 n8 n9] eqn:EM.
    rewrite EG.
    repeat (destruct I as [<-|I]; [|]); try tauto; injection Hd as <-; injection HR as <-; eexists; (split; [reflexivity|]);
      unfold geometry_plus; cbn; f_equal; lia.
  Qed.

  (** ** One step *)
  Variable p : PhysicalParameters.
  Hypothesis VP : valid_parameters p.

  Lemma taken_exact m k r m' : check_move W m m' k = true -> reverse_move k = Some r ->
    (0 < proposal_site_count (geometry_m W m) k)%Z -> (0 < proposal_site_count (geometry_m W m') r)%Z ->
    taken W p m k m' = Rmin 1 (sites_R (geometry_m W m) k / sites_R (geometry_m W m') r *
      exp (params_action p (geometry_m W m) - params_action p (geometry_m W m'))).
  Proof using VP.
    intros C HR A B. unfold taken. rewrite C, (acceptance_exact p _ _ k r VP HR A B). reflexivity.
  Qed.
  Lemma taken_positive m k m' : valid (m_cells m) -> proposable W m k m' -> check_move W m m' k = true -> 0 < taken W p m k m'.
  Proof using VP.
    intros V P C. destruct (counts_positive m k m' V P C) as (r & HR & A & B). rewrite (taken_exact m k r m' C HR A B).
    apply Rmin_glb_lt; [lra|]. apply Rmult_lt_0_compat; [|apply exp_pos].
    unfold sites_R. apply Rdiv_lt_0_compat; apply IZR_lt; assumption.
  Qed.
  Lemma taken_range m k m' : 0 <= taken W p m k m' <= 1.
  Proof using VP.
    unfold taken. destruct (check_move W m m' k) eqn:C; [|lra].
    pose proof (checked_kind _ _ _ C) as I.
    assert (HR : exists r, reverse_move k = Some r).
    { unfold five_moves in I. cbn in I. repeat (destruct I as [<-|I]; [eexists; reflexivity|]). tauto. }
    destruct HR as [r HR].
    assert (Z0 : forall g x, (proposal_site_count g x <= 0)%Z -> proposal_probability PNum g x = PNum 0).
    { intros g x H. unfold proposal_probability. rewrite (proj2 (Z.leb_le _ _) H). reflexivity. }
    assert (M0 : mp_is_zero (PNum 0) = true) by (cbn; apply Reqb_spec; reflexivity).
    destruct (Z_le_gt_dec (proposal_site_count (geometry_m W m) k) 0) as [A|A].
    { unfold acceptance_probability, hastings_ratio. rewrite HR, (Z0 _ _ A), M0. cbn. lra. }
    destruct (Z_le_gt_dec (proposal_site_count (geometry_m W m') r) 0) as [B|B].
    { unfold acceptance_probability, hastings_ratio. rewrite HR, (Z0 _ _ B), M0, orb_true_r. lra. }
    rewrite (acceptance_exact p _ _ k r VP HR) by lia. split; [|apply Rmin_l].
    apply Rmin_glb; [lra|]. apply Rmult_le_pos; [|apply Rlt_le, exp_pos].
    unfold sites_R. apply Rlt_le, Rdiv_lt_0_compat; apply IZR_lt; lia.
  Qed.
  Lemma chance_nonneg m k m' : 0 <= chance W m k m'.
  Proof.
    unfold chance. destruct (indices W m k) as [|n]; [cbn; unfold Rdiv; rewrite Rmult_0_l; lra|].
    apply Rmult_le_pos; [apply pos_INR|]. apply Rlt_le, Rinv_0_lt_compat, lt_0_INR. lia.
  Qed.
  Lemma by_kind_nonneg m k m' : 0 <= by_kind W p m k m'.
  Proof using VP.
    unfold by_kind. pose proof (chance_nonneg m k m'). pose proof (taken_range m k m').
    apply Rmult_le_pos; [apply Rmult_le_pos; lra|lra].
  Qed.
  (** A kind contributes exactly if one of its indices yields a candidate that
      passes the check. *)
  Lemma by_kind_positive m k m' : valid (m_cells m) ->
    0 < by_kind W p m k m' <-> proposable W m k m' /\ check_move W m m' k = true.
  Proof using VP.
    intros V. split.
    - intros H. split.
      + destruct (proposable_dec W m k m' V) as [P|N]; [exact P|]. unfold by_kind in H. rewrite (chance_zero W m k m' V N) in H. lra.
      + destruct (check_move W m m' k) eqn:C; [reflexivity|]. unfold by_kind, taken in H. rewrite C in H. lra.
    - intros [P C]. unfold by_kind. rewrite (chance_one W m k m' V P). pose proof (taken_positive m k m' V P C).
      destruct (counts_positive m k m' V P C) as (r & _ & A & _).
      assert (0 < INR (indices W m k)) by (apply lt_0_INR; unfold indices; lia).
      apply Rmult_lt_0_compat; [|assumption]. apply Rmult_lt_0_compat; [lra|]. apply Rdiv_lt_0_compat; lra.
  Qed.
  Lemma by_kind_zero m k m' : valid (m_cells m) -> ~ (proposable W m k m' /\ check_move W m m' k = true) -> by_kind W p m k m' = 0.
  Proof using VP.
    intros V N. pose proof (by_kind_nonneg m k m') as P. destruct (Rle_lt_or_eq_dec _ _ P) as [H|H]; [|auto].
    apply by_kind_positive in H; [contradiction|exact V].
  Qed.

  Lemma sum_one (f : MoveType -> R) l k : NoDup l -> In k l -> (forall k', k' <> k -> f k' = 0) -> fold_right Rplus 0 (map f l) = f k.
  Proof.
    intros ND I Z. induction l as [|x l IH]; [destruct I|]. inversion ND as [|? ? N ND']; subst. cbn.
    destruct I as [->|I].
    - assert (E : fold_right Rplus 0 (map f l) = 0); [|lra]. clear IH ND ND'.
      assert (F : forall y, In y l -> f y = 0) by (intros y Hy; apply Z; intros ->; apply N, elem_of_list_In, Hy).
      clear N. induction l as [|y l IH]; cbn; [reflexivity|]. rewrite IH by (intros z Hz; apply F; right; exact Hz).
      rewrite F by (left; reflexivity). lra.
    - rewrite IH by assumption. rewrite Z; [lra|]. intros ->. apply N, elem_of_list_In, I.
  Qed.
  Lemma sum_nonneg (f : MoveType -> R) l : (forall k, 0 <= f k) -> 0 <= fold_right Rplus 0 (map f l).
  Proof. intros H. induction l as [|x l IH]; cbn; [lra|]. specialize (H x). lra. Qed.
  Lemma sum_positive (f : MoveType -> R) l : (forall k, 0 <= f k) -> 0 < fold_right Rplus 0 (map f l) -> exists k, In k l /\ 0 < f k.
  Proof.
    intros H. induction l as [|x l IH]; cbn; [lra|]. intros P. destruct (Rlt_dec 0 (f x)) as [A|A]; [eauto|].
    destruct IH as (k & I & K); [specialize (H x); lra|]. eauto.
  Qed.
  Lemma five_NoDup : NoDup five_moves.
  Proof. refine (bool_decide_unpack _ _). vm_compute. exact I. Qed.
  Lemma step_by m k m' : valid (m_cells m) -> check_move W m m' k = true -> step_probability W p m m' = by_kind W p m k m'.
  Proof using VP.
    intros V C. unfold step_probability. apply (sum_one (fun k => by_kind W p m k m')); [exact five_NoDup|eapply checked_kind, C|].
    intros k' N. apply by_kind_zero; [exact V|]. intros [_ C']. apply N. eapply checked_once; eassumption.
  Qed.
  Lemma step_nonneg m m' : 0 <= step_probability W p m m'.
  Proof using VP. apply sum_nonneg. intros k. apply by_kind_nonneg. Qed.
  Lemma step_positive m m' : valid (m_cells m) ->
    0 < step_probability W p m m' <-> exists k, proposable W m k m' /\ check_move W m m' k = true.
  Proof using VP.
    intros V. split.
    - intros H. apply sum_positive in H as (k & _ & H); [|intros k; apply by_kind_nonneg].
      exists k. apply by_kind_positive; assumption.
    - intros (k & P & C). rewrite (step_by m k m' V C). apply by_kind_positive; auto.
  Qed.

  Lemma index_count m k : (0 < proposal_site_count (geometry_m W m) k)%Z -> INR (indices W m k) = sites_R (geometry_m W m) k.
  Proof. intros H. unfold indices, sites_R. rewrite INR_IZR_INZ, Z2Nat.id by lia. reflexivity. Qed.

  (** Balance between manifolds each of which the program can turn into the other. *)
  Lemma balance_both m m' : is_structurally_correct W m = true -> is_structurally_correct W m' = true ->
    (0 < step_probability W p m m' <-> 0 < step_probability W p m' m) ->
    weight W p m * step_probability W p m m' = weight W p m' * step_probability W p m' m.
  Proof using VP.
    intros S S' H. pose proof (proj1 (structurally_correct_spec W m) S) as [V _].
    pose proof (proj1 (structurally_correct_spec W m') S') as [V' _].
    destruct (Rle_lt_or_eq_dec _ _ (step_nonneg m m')) as [P|E].
    - pose proof (proj1 H P) as P'. apply (step_positive _ _ V) in P as (k & P & C).
      apply (step_positive _ _ V') in P' as (k' & P' & C').
      destruct (counts_positive m k m' V P C) as (r & HR & A & B).
      pose proof (checked_back m m' k r S C HR) as CB.
      assert (k' = r) as -> by (eapply checked_once; eassumption).
      rewrite (step_by m k m' V C), (step_by m' r m V' C'). unfold by_kind.
      rewrite (chance_one W m k m' V P), (chance_one W m' r m V' P'), (index_count m k A), (index_count m' r B).
      destruct (detailed_balance p _ _ k r VP HR A B) as (a & a' & Ea & Ea' & EQ).
      unfold taken. rewrite C, C', Ea, Ea'. unfold documented_proposal, weight in *.
      assert (0 < sites_R (geometry_m W m) k) by (apply IZR_lt; exact A).
      assert (0 < sites_R (geometry_m W m') r) by (apply IZR_lt; exact B).
      replace (1 / 5 * (1 / sites_R (geometry_m W m) k)) with (1 / (5 * sites_R (geometry_m W m) k)) by (field; lra).
      replace (1 / 5 * (1 / sites_R (geometry_m W m') r)) with (1 / (5 * sites_R (geometry_m W m') r)) by (field; lra).
      rewrite <- !Rmult_assoc. exact EQ.
    - rewrite <- E. destruct (Rle_lt_or_eq_dec _ _ (step_nonneg m' m)) as [P'|E']; [|rewrite <- E'; ring].
      apply H in P'. lra.
  Qed.

  (** Steps by (2,3), (2,6) and (4,4) can be undone. *)
  Lemma step_back m k m' : cgal_accepts W -> is_structurally_correct W m = true ->
    k = TWO_THREE \/ k = TWO_SIX \/ k = FOUR_FOUR ->
    0 < by_kind W p m k m' -> is_structurally_correct W m' = true /\ 0 < step_probability W p m m' /\ 0 < step_probability W p m' m.
  Proof using VP.
    intros CA S K H. pose proof (proj1 (structurally_correct_spec W m) S) as [V CL].
    apply (by_kind_positive _ _ _ V) in H as [P C]. pose proof P as ((s & Hs) & A & B).
    destruct (inverse_exists W m k s m' CA V CL K A B Hs C) as (r & s' & HR & Hs').
    pose proof (checked_back m m' k r S C HR) as CB.
    pose proof (proj1 (check_move_spec W m m' k) C) as (V' & CL' & _).
    assert (S' : is_structurally_correct W m' = true) by (apply structurally_correct_spec; auto).
    split; [exact S'|]. split; [apply step_positive; eauto|]. apply step_positive; [exact V'|]. exists r. split; [|exact CB].
    split; [eauto|]. auto.
  Qed.
  Lemma balance_kinds m k m' : cgal_accepts W -> is_structurally_correct W m = true ->
    k = TWO_THREE \/ k = TWO_SIX \/ k = FOUR_FOUR -> 0 < by_kind W p m k m' ->
    0 < step_probability W p m m' /\
    weight W p m * step_probability W p m m' = weight W p m' * step_probability W p m' m.
  Proof using VP.
    intros CA S K H. destruct (step_back m k m' CA S K H) as (S' & A & B). split; [exact A|]. apply balance_both; [exact S|exact S'|tauto].
  Qed.
End Balance.
