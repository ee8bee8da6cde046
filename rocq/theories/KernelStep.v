(** Steps of the chain: probabilities, runs of the program, and pairs of manifolds
    between which balance fails. *)
From Verif Require Import Base Tracker Command Run Geom Metropolis Simplex Pachner Foliation Moves Links MoveCore MoveTools MoveSpec MoveSound Manifold ManifoldFacts ManifoldMoves PropsRunLemmas MoveProps Samples SampleFacts Undo Mp Action Acceptance HastingsError KernelSpec KernelFacts KernelProps KernelBalance.
From stdpp Require Import fin_sets gmap sorting.
From Verif Require Import Base Foliation Metropolis.
From Coq Require Import Reals Lra Psatz.
Local Open Scope R_scope.

(** ** The chances of different targets add up to at most one *)
Definition hits (L : list manifold) (r : move_result manifold) : nat := length (List.filter (fun m' => leads_to m' r) L).
Lemma hits_le L r : NoDup L -> (hits L r <= 1)%nat.
Proof.
  intros ND. unfold hits. induction L as [|x L IH]; [cbn; lia|]. inversion ND as [|? ? N ND']; subst. cbn [List.filter].
  destruct (leads_to x r) eqn:E; [|apply IH; exact ND']. cbn.
  assert (K : List.filter (fun m' => leads_to m' r) L = []); [|rewrite K; cbn; lia].
  apply leads_to_true in E as ->. clear - N. induction L as [|y L IH]; [reflexivity|]. cbn [List.filter].
  destruct (leads_to y (Moved x)) eqn:E.
  - apply leads_to_true in E. injection E as ->. exfalso. apply N. left.
  - apply IH. intros H. apply N. right. exact H.
Qed.
Definition nsum (l : list nat) : nat := fold_right Nat.add 0%nat l.
Lemma nsum_le l n : (forall x, In x l -> (x <= 1)%nat) -> length l = n -> (nsum l <= n)%nat.
Proof.
  intros H <-. induction l as [|x l IH]; cbn; [lia|]. specialize (H x (or_introl eq_refl)) as Hx.
  specialize (IH (fun y Hy => H y (or_intror Hy))). cbn in IH. unfold nsum in IH. lia.
Qed.
Lemma hits_cons x L r : hits (x :: L) r = ((if leads_to x r then 1 else 0) + hits L r)%nat.
Proof. unfold hits. cbn [List.filter]. destruct (leads_to x r); reflexivity. Qed.
Lemma double_count (f : nat -> move_result manifold) L is :
  nsum (map (fun m' => length (List.filter (fun i => leads_to m' (f i)) is)) L) = nsum (map (fun i => hits L (f i)) is).
Proof.
  induction L as [|x L IH].
  { unfold hits. cbn. induction is as [|i is IH]; cbn; [reflexivity|exact IH]. }
  cbn [map]. unfold nsum at 1. cbn [fold_right]. fold (nsum (map (fun m' => length (List.filter (fun i => leads_to m' (f i)) is)) L)).
  rewrite IH. clear IH. induction is as [|i is IH]; [reflexivity|]. unfold nsum in *. cbn [map fold_right List.filter].
  rewrite <- IH, hits_cons. destruct (leads_to x (f i)); cbn [length]; lia.
Qed.
Lemma INR_nsum l : INR (nsum l) = fold_right Rplus 0 (map INR l).
Proof. induction l as [|x l IH]; cbn [nsum fold_right map]; [reflexivity|]. rewrite plus_INR. unfold nsum in IH. rewrite IH. reflexivity. Qed.
Lemma rsum_scale {A} (f : A -> R) c l : fold_right Rplus 0 (map (fun x => f x * c) l) = fold_right Rplus 0 (map f l) * c.
Proof. induction l as [|x l IH]; cbn; [ring|]. rewrite IH. ring. Qed.
Lemma rsum_le {A} (f g : A -> R) l : (forall x, f x <= g x) -> fold_right Rplus 0 (map f l) <= fold_right Rplus 0 (map g l).
Proof. intros H. induction l as [|x l IH]; cbn; [lra|]. specialize (H x). lra. Qed.
Lemma rsum_swap {A B} (f : A -> B -> R) la lb :
  fold_right Rplus 0 (map (fun a => fold_right Rplus 0 (map (f a) lb)) la) = fold_right Rplus 0 (map (fun b => fold_right Rplus 0 (map (fun a => f a b) la)) lb).
Proof.
  induction la as [|a la IH]; cbn.
  - induction lb as [|b lb IH]; cbn; [reflexivity|]. rewrite <- IH. ring.
  - rewrite IH. clear IH. induction lb as [|b lb IH]; cbn; [ring|]. rewrite <- IH. ring.
Qed.

Section Sum.
  Variable W : world.
  Lemma chances_sum m k L : NoDup L -> fold_right Rplus 0 (map (chance W m k) L) <= 1.
  Proof.
    intros ND. unfold chance. set (n := indices W m k). set (is := List.seq 0 n).
    assert (E : fold_right Rplus 0 (map (fun m' => INR (length (List.filter (fun i => leads_to m' (candidate W i m k)) is)) / INR n) L) =
                INR (nsum (map (fun m' => length (List.filter (fun i => leads_to m' (candidate W i m k)) is)) L)) / INR n).
    { unfold Rdiv. rewrite (rsum_scale (fun m' => INR (length (List.filter (fun i => leads_to m' (candidate W i m k)) is)))), INR_nsum, map_map. reflexivity. }
    rewrite E, double_count.
    assert (LE : (nsum (map (fun i => hits L (candidate W i m k)) is) <= n)%nat).
    { apply nsum_le; [|rewrite map_length; apply seq_length]. intros x Hx. apply in_map_iff in Hx as (i & <- & _). apply hits_le, ND. }
    destruct n as [|n]; [replace (nsum _) with 0%nat by lia; cbn; unfold Rdiv; rewrite Rmult_0_l; lra|].
    assert (0 < INR (S n)) by (apply lt_0_INR; lia).
    apply (Rmult_le_reg_r (INR (S n))); [assumption|]. unfold Rdiv. rewrite Rmult_assoc, Rinv_l, Rmult_1_r, Rmult_1_l by lra.
    apply le_INR, LE.
  Qed.
  Lemma steps_sum p m L : valid_parameters p -> NoDup L ->
    fold_right Rplus 0 (map (step_probability W p m) L) <= 1.
  Proof.
    intros VP ND. unfold step_probability. rewrite (rsum_swap (fun m' k => by_kind W p m k m')).
    apply (Rle_trans _ (fold_right Rplus 0 (map (fun k => 1 / 5) five_moves))); [|cbn; lra].
    apply rsum_le. intros k.
    apply (Rle_trans _ (fold_right Rplus 0 (map (fun m' => chance W m k m' * (1 / 5)) L))).
    - apply rsum_le. intros m'. unfold by_kind. pose proof (taken_range W p VP m k m'). pose proof (chance_nonneg W m k m'). nra.
    - rewrite rsum_scale. pose proof (chances_sum m k L ND). lra.
  Qed.
End Sum.

(** ** Runs of the program *)
(** A transition ends with [m'] accepted exactly when the index drawn for the
    kind yields [m'], the check passes and the trial is not above the computed
    acceptance probability. *)
Lemma accepted_step {G P} W (R : choices G) escape acc at_least (x : mstate manifold G) k t x' o m' :
  choices_ok R -> stays_modelled escape -> valid (m_cells (ms_cur x)) ->
  resolve_transition (P := P) (geometry_m W) (propose_api W R escape) (check_move W) acc at_least x k t = Ret x' o ->
  (o = METROPOLIS_ACCEPTED /\ ms_cur x' = m') <->
  (candidate W (fst (draw_index R (indices W (ms_cur x) k) (ms_gen x))) (ms_cur x) k = Moved m' /\ check_move W (ms_cur x) m' k = true /\
   exists a, acc (geometry_m W (ms_cur x)) (geometry_m W m') k = inl a /\ at_least a t = true).
Proof.
  intros RO ES V H. rewrite <- (drawn_candidate W R escape) by assumption. revert H. unfold resolve_transition.
  destruct (trial_invalid t); [discriminate|].
  destruct (reverse_move k) as [r|] eqn:HR.
  2:{ intros [= <- <-]. split; [intros [K _]; discriminate K|]. intros (H & _). exfalso. revert H. unfold propose_candidate. unfold reverse_move in HR.
      destruct (k =? TWO_THREE)%Z; [discriminate|]. destruct (k =? THREE_TWO)%Z; [discriminate|]. destruct (k =? TWO_SIX)%Z; [discriminate|].
      destruct (k =? SIX_TWO)%Z; [discriminate|]. destruct (k =? FOUR_FOUR)%Z; discriminate. }
  destruct (bump _ k) as [prop| |]; [|discriminate..]. destruct (bump (attempted _) k) as [att| |]; [|discriminate..].
  destruct (propose_candidate (propose_api W R escape) (ms_cur x) k (ms_gen x)) as [[cand|e|e] g1]; cbn [fst].
  - destruct (check_move W (ms_cur x) cand k) eqn:C; cbn [negb].
    + cbn [succeeded]. destruct (bump _ k) as [suc| |]; [|discriminate..].
      cbn [st_geometry set_proposed set_geometry].
      destruct (acc (geometry_m W (ms_cur x)) (geometry_m W cand) k) as [a|e] eqn:A; [|discriminate].
      destruct (at_least a t) eqn:T.
      * destruct (bump _ k) as [ac| |]; [|discriminate..]. intros [= <- <-]. cbn [ms_cur]. split.
        -- intros [_ <-]. split; [reflexivity|]. split; [exact C|]. exists a. split; [exact A|exact T].
        -- intros ([= <-] & _). auto.
      * destruct (bump _ k) as [ac| |]; [|discriminate..]. intros [= <- <-]. split; [intros [K _]; discriminate K|].
        intros ([= <-] & _ & b & B & TB). rewrite A in B. injection B as <-. congruence.
    + unfold fail_transition. destruct (bump _ k) as [f| |]; [|discriminate..]. destruct (bump _ k) as [rej| |]; [|discriminate..].
      intros [= <- <-]. split; [intros [K _]; discriminate K|]. intros ([= <-] & C' & _). congruence.
  - unfold fail_transition. destruct (bump _ k) as [f| |]; [|discriminate..]. destruct (bump _ k) as [rej| |]; [|discriminate..].
    intros [= <- <-]. split; [|intros (K & _); discriminate K]. intros [K _]. exfalso. unfold outcome_from in K.
    destruct (category e); discriminate K.
  - discriminate.
Qed.

(** ** No balance without the way back *)
Lemma not_back W p m m' r : valid_parameters p -> valid (m_cells m') -> check_move W m' m r = true ->
  (forall s, ~ site_gives W m' r s (m_cells m)) -> step_probability W p m' m = 0.
Proof.
  intros VP V' C N. rewrite (step_by W p VP m' r m V' C). apply by_kind_zero; [exact VP|exact V'|]. intros [((s & Hs) & _) _]. exact (N s Hs).
Qed.

Lemma one_way W p m k s m' r : valid_parameters p -> is_structurally_correct W m = true ->
  m_radius m' = m_radius m -> m_spacing m' = m_spacing m -> check_move W m m' k = true -> reverse_move k = Some r ->
  site_gives W m k s (m_cells m') -> (forall s', ~ site_gives W m' r s' (m_cells m)) ->
  0 < step_probability W p m m' /\ step_probability W p m' m = 0 /\
  weight W p m * step_probability W p m m' <> weight W p m' * step_probability W p m' m.
Proof.
  intros VP S A B C HR Hs N. pose proof (proj1 (structurally_correct_spec W m) S) as [V _].
  pose proof (proj1 (check_move_spec W m m' k) C) as (V' & _).
  assert (P : 0 < step_probability W p m m').
  { apply step_positive; [exact VP|exact V|]. exists k. split; [|exact C]. split; [eauto|auto]. }
  assert (Z : step_probability W p m' m = 0) by (eapply not_back; eauto using checked_back).
  split; [exact P|]. split; [exact Z|]. rewrite Z, Rmult_0_r.
  assert (0 < weight W p m) by apply exp_pos. nra.
Qed.
Lemma one_way_22 p : valid_parameters p ->
  is_structurally_correct W_22 m_22 = true /\ is_structurally_correct W_22 m_22' = true /\
  0 < step_probability W_22 p m_22 m_22' /\ step_probability W_22 p m_22' m_22 = 0 /\
  weight W_22 p m_22 * step_probability W_22 p m_22 m_22' <> weight W_22 p m_22' * step_probability W_22 p m_22' m_22.
Proof.
  intros VP. destruct no_inverse_23 as (s & A & B & C & D). split; [exact A|]. split; [exact B|].
  eapply (one_way W_22 p m_22 THREE_TWO s m_22' TWO_THREE); [exact VP|assumption|reflexivity|reflexivity|vm_compute; reflexivity|reflexivity|assumption|assumption].
Qed.
Lemma one_way_lost p : valid_parameters p ->
  is_structurally_correct W_lost m_lost = true /\ is_structurally_correct W_lost m_lost' = true /\
  0 < step_probability W_lost p m_lost m_lost' /\ step_probability W_lost p m_lost' m_lost = 0 /\
  weight W_lost p m_lost * step_probability W_lost p m_lost m_lost' <> weight W_lost p m_lost' * step_probability W_lost p m_lost' m_lost.
Proof.
  intros VP. destruct no_inverse_26 as (s & A & B & C & D). split; [exact A|]. split; [exact B|].
  eapply (one_way W_lost p m_lost SIX_TWO s m_lost' TWO_SIX); [exact VP|assumption|reflexivity|reflexivity|vm_compute; reflexivity|reflexivity|assumption|assumption].
Qed.

Lemma candidate_once W m k m' i j : valid (m_cells m) -> candidate W i m k = Moved m' -> candidate W j m k = Moved m' -> i = j.
Proof.
  intros V A B. apply (candidate_iff W) in A as (s & Hs & A & _); [|exact V]. apply (candidate_iff W) in B as (s' & Hs' & B & _); [|exact V].
  rewrite <- (one_site W m k s s' _ V A B) in Hs'. pose proof (sites_of_NoDup W m k) as ND. apply NoDup_ListNoDup in ND.
  eapply (proj1 (NoDup_nth_error _) ND); [apply nth_error_Some|]; congruence.
Qed.
Lemma possible_step W p m m' : valid_parameters p -> valid (m_cells m) ->
  0 < step_probability W p m m' <->
  exists k i, (i < indices W m k)%nat /\ candidate W i m k = Moved m' /\ check_move W m m' k = true.
Proof.
  intros VP V. rewrite (step_positive W p VP m m' V). split.
  - intros (k & P & C). apply (proposable_index W _ _ _ V) in P as (i & Hi & H). eauto.
  - intros (k & i & Hi & H & C). exists k. split; [|exact C]. apply proposable_index; eauto.
Qed.
Lemma flat_step p : valid_parameters p -> valid_parameters example_params /\
  cgal_accepts W_flat /\ is_structurally_correct W_flat m_26 = true /\ 0 < by_kind W_flat p m_26 TWO_SIX m_62 /\
  0 < step_probability W_flat p m_26 m_62.
Proof.
  intros VP. split; [exact (proj1 example_parameters)|]. split; [split; reflexivity|].
  assert (S : is_structurally_correct W_flat m_26 = true) by (vm_compute; reflexivity). split; [exact S|].
  destruct (moved_site W_flat plain plain_ok no_escape no_escape_modelled _ _ _ (proj1 moved_flat)) as (H & A & B).
  apply site_gives_from in H. apply structurally_correct_spec in S as [V _].
  assert (C : check_move W_flat m_26 m_62 TWO_SIX = true) by (vm_compute; reflexivity).
  assert (P : 0 < by_kind W_flat p m_26 TWO_SIX m_62) by (apply by_kind_positive; [exact VP|exact V|]; split; [split; auto|exact C]).
  split; [exact P|]. rewrite (step_by W_flat p VP m_26 TWO_SIX m_62 V C). exact P.
Qed.
