(** The samples as instances of the hypotheses of the move theorems. *)
From Verif Require Import Base Tracker Command Run Geom Metropolis Simplex Pachner Foliation Moves Links MoveCore MoveTools Move26Site MoveSpec Manifold ManifoldFacts ManifoldMoves MoveProps NoThrow Select Loops Undo Samples.
From stdpp Require Import fin_sets gmap sorting.
From Verif Require Import Foliation.
Local Open Scope Z_scope.

Lemma no_escape_modelled : stays_modelled no_escape.
Proof. intros m g m'. discriminate. Qed.
(** An escape that fails. *)
Definition give_up (m : manifold) (g : unit) : move_result manifold * unit := (Failed (mkMoveError EXECUTION_FAILURE 0), g).
Lemma give_up_fails : escapes_fail give_up.
Proof. intros m g. eexists. reflexivity. Qed.

Lemma is_done_Moved m m' k escape : stays_modelled escape -> forall W,
  m_radius m' = m_radius m -> m_spacing m' = m_spacing m ->
  is_done m' (apply_random_move (do_api W plain escape) m k tt) = true -> moved W plain escape k m m'.
Proof.
  intros ES W A B H. unfold is_done in H. destruct (apply_random_move _ m k tt) as [[m1|?|?] u] eqn:E; try discriminate.
  apply bool_decide_eq_true in H.
  assert (m1 = m').
  { destruct (api_Moved W plain plain_ok escape ES k m tt m1 u (or_introl E)) as (_ & P & Q). destruct m1, m'. cbn in *. congruence. }
  subst m1. exists tt, u. left. exact E.
Qed.
Lemma well_formed_of W m : is_structurally_correct W m = true -> well_formed W m.
Proof. intros H. apply structurally_correct_spec. exact H. Qed.

Lemma moved_m23 : moved W_23 plain no_escape TWO_THREE m_23 m_32.
Proof. apply is_done_Moved; [apply no_escape_modelled|reflexivity..|exact (proj1 sample_23)]. Qed.
Lemma moved_m32 : moved W_23 plain no_escape THREE_TWO m_32 m_23.
Proof. apply is_done_Moved; [apply no_escape_modelled|reflexivity..|exact (proj1 sample_32)]. Qed.
Lemma moved_m26 : moved W_26 plain no_escape TWO_SIX m_26 m_62.
Proof. apply is_done_Moved; [apply no_escape_modelled|reflexivity..|exact (proj1 sample_26)]. Qed.
Lemma moved_m62 : moved W_26 plain no_escape SIX_TWO m_62 m_26.
Proof. apply is_done_Moved; [apply no_escape_modelled|reflexivity..|exact (proj1 sample_62)]. Qed.
Lemma moved_m44 : moved W_44 plain no_escape FOUR_FOUR m_44 m_44'.
Proof. apply is_done_Moved; [apply no_escape_modelled|reflexivity..|exact (proj1 sample_44)]. Qed.
Lemma moved_m30 : moved W_30 plain no_escape TWO_SIX m_30 m_30'.
Proof. apply is_done_Moved; [apply no_escape_modelled|reflexivity..|exact (proj1 sample_30)]. Qed.
Lemma well_formed_samples : well_formed W_23 m_23 /\ well_formed W_23 m_32 /\ well_formed W_26 m_26 /\ well_formed W_26 m_62 /\
  well_formed W_44 m_44 /\ well_formed W_30 m_30.
Proof.
  split; [|split; [|split; [|split; [|split]]]]; apply well_formed_of.
  - apply sample_23. - apply sample_32. - apply sample_26. - apply sample_62. - apply sample_44. - apply sample_30.
Qed.
Lemma no_junk s pts T : no_infinite_31 (fun v => w_timevalue (exact_world pts s) NaN NaN v) (w_junk (exact_world pts s)) T.
Proof. intros n _ _ _. discriminate. Qed.

(** A world in which the centroid of points of one slice is on that slice. *)
Definition flat_time (v : vertex) : Z := if Pos.eqb v 2 then 1 else if Pos.eqb v 7 then 3 else 2.
Definition flat_centroid (f : simplex) : vertex :=
  if bool_decide (2%positive ∈ f) then 2%positive else if bool_decide (7%positive ∈ f) then 7%positive else 5%positive.
Definition W_flat : world :=
  mkWorld (fun _ _ v => flat_time v) (fun _ _ => UNCLASSIFIED) (fun _ _ => true)
    (fun _ _ _ => true) (fun _ _ => true) flat_centroid.
Lemma flat_same a b c : flat_time a = flat_time b -> flat_time b = flat_time c ->
  flat_time (flat_centroid (of_list [a; b; c])) = flat_time a.
Proof.
  intros A B. unfold flat_centroid.
  destruct (bool_decide (2%positive ∈ of_list [a; b; c])) eqn:E2.
  - apply bool_decide_eq_true in E2. rewrite elem_of_of_list, !elem_of_cons, elem_of_nil in E2.
    destruct E2 as [<-|[<-|[<-|[]]]]; congruence.
  - apply bool_decide_eq_false in E2. rewrite elem_of_of_list, !elem_of_cons, elem_of_nil in E2.
    destruct (bool_decide (7%positive ∈ of_list [a; b; c])) eqn:E7.
    + apply bool_decide_eq_true in E7. rewrite elem_of_of_list, !elem_of_cons, elem_of_nil in E7.
      destruct E7 as [<-|[<-|[<-|[]]]]; congruence.
    + apply bool_decide_eq_false in E7. rewrite elem_of_of_list, !elem_of_cons, elem_of_nil in E7.
      unfold flat_time. destruct (Pos.eqb_spec a 2) as [->|]; [tauto|]. destruct (Pos.eqb_spec a 7) as [->|]; [tauto|]. reflexivity.
Qed.
Lemma moved_flat : moved W_flat plain no_escape TWO_SIX m_26 m_62 /\ well_formed W_flat m_26 /\
  no_infinite_31 (label_of W_flat m_26) (w_junk W_flat) (m_cells m_26) /\
  (forall a b c, label_of W_flat m_26 a = label_of W_flat m_26 b -> label_of W_flat m_26 b = label_of W_flat m_26 c ->
     label_of W_flat m_26 (w_centroid W_flat (of_list [a; b; c])) = label_of W_flat m_26 a).
Proof.
  split; [|split; [|split]].
  - apply is_done_Moved; [apply no_escape_modelled|reflexivity..|]. vm_compute. reflexivity.
  - apply well_formed_of. vm_compute. reflexivity.
  - intros n _ _ _. discriminate.
  - exact flat_same.
Qed.

Lemma success_not_causal : moved W_30 plain no_escape TWO_SIX m_30 m_30' /\
  is_structurally_correct W_30 m_30 = true /\ is_structurally_correct W_30 m_30' = false /\
  exists c, c ∈ m_cells m_30' /\ infinite ∉ c /\ cell_type (label_of W_30 m_30') c = ACAUSAL.
Proof.
  destruct sample_30 as (_ & A & B & C). split; [apply moved_m30|]. split; [exact A|]. split; [exact B|].
  exists (of_list [6; 3; 4; 5]%positive). split; [|split].
  - assert (K : bool_decide (of_list [6; 3; 4; 5]%positive ∈ m_cells m_30') = true) by (vm_compute; reflexivity).
    apply bool_decide_eq_true in K. exact K.
  - apply finite_spec. vm_compute. reflexivity.
  - vm_compute. reflexivity.
Qed.

Lemma genuine_moves_pass W (G : Type) (R : choices G) escape k m m' : choices_ok R -> stays_modelled escape ->
  valid (m_cells m) -> causal (label_of W m) (m_cells m) -> moved W R escape k m m' ->
  k <> TWO_SIX \/ (no_infinite_31 (label_of W m) (w_junk W) (m_cells m) /\
    (forall a b c, label_of W m a = label_of W m b -> label_of W m b = label_of W m c ->
     label_of W m (w_centroid W (of_list [a; b; c])) = label_of W m a)) ->
  check_move W m m' k = true.
Proof.
  intros RO ES V C H K. apply moved_passes; try assumption.
  destruct (Z.eq_dec k TWO_SIX) as [->|N]; [|eapply moved_good; eassumption].
  destruct K as [K|[K1 K2]]; [contradiction|]. eapply moved_26; eassumption.
Qed.

Lemma all_searches W (G : Type) (R : choices G) escape m :
  searches_all R m TWO_THREE (sites_23 W m) (attempt_23 W m) (do_23 W R escape m) /\
  searches_all R m THREE_TWO (sites_32 W m) (attempt_32 W m) (do_32 W R escape m) /\
  searches_all R m SIX_TWO (sites_62 m) (attempt_62 R W m) (do_62 W R escape m) /\
  searches_all R m FOUR_FOUR (sites_44 W m) (attempt_44 W m) (do_44 W R escape m).
Proof. split; [apply searches_23|]. split; [apply searches_32|]. split; [apply searches_62|apply searches_44]. Qed.
Lemma no_candidate_all W (G : Type) (R : choices G) escape m : choices_ok R ->
  ((forall c (g g' : G), c ∈ sites_23 W m -> attempt_23 W m c g <> (Unmodelled, g')) ->
   forall g, (exists k g', do_23 W R escape m g = (Failed (mkMoveError NO_CANDIDATE k), g')) <-> sites_23 W m = []) /\
  ((forall c (g g' : G), c ∈ sites_32 W m -> attempt_32 W m c g <> (Unmodelled, g')) ->
   forall g, (exists k g', do_32 W R escape m g = (Failed (mkMoveError NO_CANDIDATE k), g')) <-> sites_32 W m = []) /\
  ((forall c (g g' : G), c ∈ sites_62 m -> attempt_62 R W m c g <> (Unmodelled, g')) ->
   forall g, (exists k g', do_62 W R escape m g = (Failed (mkMoveError NO_CANDIDATE k), g')) <-> sites_62 m = []) /\
  ((forall c (g g' : G), c ∈ sites_44 W m -> attempt_44 W m c g <> (Unmodelled, g')) ->
   forall g, (exists k g', do_44 W R escape m g = (Failed (mkMoveError NO_CANDIDATE k), g')) <-> sites_44 W m = []).
Proof.
  intros RO. split; [|split; [|split]]; intros U.
  - eapply no_candidate_iff; [exact RO|apply searches_23|apply attempt_23_reason|exact U].
  - eapply no_candidate_iff; [exact RO|apply searches_32|apply attempt_32_reason|exact U].
  - eapply no_candidate_iff; [exact RO|apply searches_62|apply attempt_62_reason|exact U].
  - eapply no_candidate_iff; [exact RO|apply searches_44|apply attempt_44_reason|exact U].
Qed.

Lemma selection_order_free' (G A : Type) (le : A -> A -> Prop) (D : RelDecision le) : Total le -> Transitive le -> AntiSymm (=) le ->
  forall precedes : A -> A -> bool, (forall x y, precedes x y = false <-> le y x) ->
  forall (R : choices G) nth nth' l l' g,
  (forall n l, nth_element_post precedes n l (nth n l)) ->
  (forall n l, nth_element_post precedes n l (nth' n l)) -> l ≡ₚ l' ->
  canonical_random_element_cpp R nth l g = canonical_random_element_cpp R nth' l' g.
Proof. intros. eapply (selection_order_free le precedes); eassumption. Qed.
Lemma selection_bijective' (A : Type) (le : A -> A -> Prop) (D : RelDecision le) : Total le -> Transitive le -> AntiSymm (=) le ->
  forall precedes : A -> A -> bool, (forall x y, precedes x y = false <-> le y x) ->
  forall l s nth, NoDup l -> s ∈ l ->
  (forall n l, nth_element_post precedes n l (nth n l)) ->
  exists i, (i < length l)%nat /\ nth i l !! i = Some s /\ forall j, nth j l !! j = Some s -> j = i.
Proof. intros. eapply (selection_bijective le precedes); eassumption. Qed.
Lemma program_orders :
  (Total simplex_le /\ Transitive simplex_le /\ AntiSymm (=) simplex_le /\
   forall x y, simplex_precedes x y = false <-> simplex_le y x) /\
  (Total Pos.le /\ Transitive Pos.le /\ AntiSymm (=) Pos.le /\
   forall x y, point_precedes x y = false <-> (y <= x)%positive).
Proof.
  split; (split; [apply _|split; [apply _|split; [apply _|]]]); [apply simplex_precedes_le|apply point_precedes_le].
Qed.
Lemma selection_example : (forall n l, nth_element_post simplex_precedes n l (merge_sort simplex_le l)) /\
  simplex_precedes (of_list [5; 2; 9; 4]%positive) (of_list [2; 4; 6; 5]%positive) = false /\
  stored_edges W_22 m_22 true (elements (list_to_set (sites_32 W_22 m_22) : gset simplex)).
Proof.
  split; [exact (sorting_is_nth_element simplex_le simplex_precedes simplex_precedes_le)|]. split; [vm_compute; reflexivity|].
  split; [apply NoDup_elements|]. intros e. rewrite elem_of_elements, elem_of_list_to_set.
  unfold sites_32. rewrite elem_of_canonicalize. unfold edge_sites.
  rewrite elem_of_elements, elem_of_filter, andb_true_iff, finite_spec. tauto.
Qed.
