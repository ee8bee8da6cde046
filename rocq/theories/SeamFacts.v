(** What the functions on raw handles answer. *)
From Verif Require Import Base Tracker Command Geom Simplex Pachner Foliation Moves Links MoveCore MoveTools Manifold StarSpec StarFacts Seams Circulator.
From stdpp Require Import fin_sets gmap sorting.
From Verif Require Import Foliation Move44 Incident SeamSpec Reverse Flip FlipFacts.
Local Open Scope Z_scope.

(** ** Handles that name no edge *)
Lemma edge_ends T e : tds_is_edge T e = true -> is_well_formed_edge e = true /\ exists p q, ends e = Seen (p, q).
Proof.
  destruct e as [c i j]. unfold tds_is_edge, is_well_formed_edge, ends. cbn [re_cell re_second re_third].
  rewrite !andb_true_iff. intros [[[Hc Hi] Hj] Hij]. destruct c as [| |h]; [discriminate Hc..|]. cbn [tds_is_cell] in Hc.
  rewrite andb_true_iff, Nat.eqb_eq in Hc. destruct Hc as [Hl _]. split; [auto|].
  destruct h as [|v0 [|v1 [|v2 [|v3 [|? ?]]]]]; try discriminate Hl.
  apply index_cases in Hi. apply index_cases in Hj.
  destruct Hi as [->|[->|[->| ->]]], Hj as [->|[->|[->| ->]]]; cbn; eauto.
Qed.

Lemma unnamed T e : (forall p q, ~ names_edge T e p q) -> tds_is_edge T e = false.
Proof.
  intros H. destruct (tds_is_edge T e) eqn:E; [|reflexivity]. exfalso.
  destruct (edge_ends T e E) as (_ & p & q & Ee). apply (H p q), names_edge_iff. auto.
Qed.

Lemma refused T e label junk : (forall p q, ~ names_edge T e p q) ->
  finite_incident_cells T e = Seen None /\
  raw_is_32_movable label junk T e = Seen false /\
  raw_prepare_32 label junk T e = Seen (Fail INVALID_TOPOLOGY) /\
  raw_flip_location label junk T e = Seen None /\
  raw_prepare_44 label junk T e = Seen (Fail INVALID_TOPOLOGY) /\
  (forall top bottom, prepare_flip T e top bottom = Seen (Fail INVALID_TOPOLOGY)).
Proof.
  intros H. pose proof (unnamed T e H) as E. pose proof (not_edge T e E) as F.
  split; [exact F|]. unfold raw_is_32_movable, raw_prepare_32, raw_flip_location, raw_prepare_44, prepare_flip.
  rewrite F, E. cbn [dbind negb]. rewrite orb_true_r.
  split; [reflexivity|]. split; [reflexivity|]. split; [destruct (is_well_formed_edge e); reflexivity|]. split; [reflexivity|].
  intros top bottom. destruct (negb (is_well_formed_edge e)); [reflexivity|]. cbn [orb]. destruct top, bottom; reflexivity.
Qed.

(** ** The incident cells *)
Section Exact.
  Variable T : tds.
  Hypothesis HP : pure T.
  Hypothesis HC : closed T.
  Hypothesis HJ : joined_stars T.

  Lemma star_pair p q c : c ∈ star (of_list [p; q]) T <-> c ∈ T /\ p ∈ c /\ q ∈ c.
  Proof using.
    rewrite elem_of_star. split.
    - intros [Hc S]. split; [exact Hc|]. split; apply S; rewrite elem_of_of_list; set_solver +.
    - intros (Hc & Hp & Hq). split; [exact Hc|]. intros k. rewrite elem_of_of_list, !elem_of_cons, elem_of_nil. intros [->|[->|[]]]; assumption.
  Qed.

  Lemma chain_steps e l d d' l1 l2 : chain e l = l1 ++ d :: d' :: l2 -> exists z, e ∪ {[z]} ⊆ d /\ e ∪ {[z]} ⊆ d' /\ z ∈ l.
  Proof using.
    revert l1. induction l as [|x [|y l] IH]; intros l1 E; [destruct l1; discriminate..|].
    rewrite chain_cons in E. destruct l1 as [|c l1]; cbn [app] in E.
    - pose proof (f_equal (@tl simplex) E) as E2. pose proof (f_equal (hd ∅) E) as E1. cbn [hd tl] in E1, E2. clear E. subst d.
      destruct l as [|z l]; [discriminate|]. rewrite chain_cons in E2. pose proof (f_equal (hd ∅) E2) as E1. cbn [hd] in E1. subst d'. clear E2 IH.
      exists y. split; [|split; [|set_solver +]]; intros k; rewrite !elem_of_union, elem_of_singleton, elem_of_of_list, !elem_of_cons; tauto.
    - pose proof (f_equal (@tl simplex) E) as E2. cbn [tl] in E2. destruct (IH _ E2) as (z & A & B & C). exists z. split; [exact A|]. split; [exact B|]. right. exact C.
  Qed.

  (** The two answers of [finite_incident_cells]; neither is [Dangling]. *)
  Lemma incident_some e p q l : names_edge T e p q -> finite_incident_cells T e = Seen (Some l) ->
    NoDup l /\ (forall c, c ∈ l <-> c ∈ T /\ p ∈ c /\ q ∈ c) /\ (forall c, c ∈ l -> infinite ∉ c) /\
    (forall l1 l2 d d', l = l1 ++ d :: d' :: l2 -> exists f, size f = 3%nat /\ p ∈ f /\ q ∈ f /\ f ⊆ d /\ f ⊆ d').
  Proof using HP HC HJ.
    intros NE E. apply names_edge_iff in NE as [He Ee].
    destruct (incident_exact T HP HC HJ e p q He Ee) as [[E' _]|(x & ys & N & _ & Hout & Nc & Hfin & P & E')]; rewrite E in E'; [discriminate|].
    injection E' as ->. split; [exact Nc|]. split; [|split].
    - intros c. rewrite P, elem_of_elements. apply star_pair.
    - intros c Hc. apply Hfin. apply elem_of_elements. rewrite <- P. exact Hc.
    - intros l1 l2 d d' El. unfold cycle in El. apply chain_steps in El as (z & A & B & Hz).
      assert (Hze : z ∉ of_list [p; q]) by (apply Hout; rewrite elem_of_cons, elem_of_app, elem_of_list_singleton in Hz; rewrite elem_of_cons; tauto).
      assert (Hpq : size (of_list [p; q]) = 2%nat).
      { destruct (read_edge T e HP He) as (h & a & b & y0 & w0 & _ & _ & _ & _ & Ee' & _ & N4 & _ & _).
        rewrite Ee in Ee'. injection Ee' as <- <-. apply of_list_size, (sublist_NoDup _ [p; q; y0; w0]); [repeat constructor|exact N4]. }
      exists (of_list [p; q] ∪ {[z]}). split; [|split; [|split; [|split; [exact A|exact B]]]].
      + rewrite size_union by set_solver + Hze. rewrite Hpq, size_singleton. reflexivity.
      + rewrite elem_of_union, elem_of_of_list. left. set_solver +.
      + rewrite elem_of_union, elem_of_of_list. left. set_solver +.
  Qed.
  Lemma incident_total e p q : names_edge T e p q ->
    (exists l, finite_incident_cells T e = Seen (Some l) /\ forall c, c ∈ T -> p ∈ c -> q ∈ c -> infinite ∉ c) \/
    (finite_incident_cells T e = Seen None /\ exists c, c ∈ T /\ p ∈ c /\ q ∈ c /\ infinite ∈ c).
  Proof using HP HC HJ.
    intros NE. apply names_edge_iff in NE as [He Ee].
    destruct (incident_exact T HP HC HJ e p q He Ee) as [(E & d & Hd & Hi)|(x & ys & _ & _ & _ & _ & Hfin & _ & E)].
    - right. split; [exact E|]. exists d. apply star_pair in Hd. tauto.
    - left. eexists. split; [exact E|]. intros c Hc Hp Hq. apply Hfin, star_pair. auto.
  Qed.
  Lemma incident_safe e : exists r, finite_incident_cells T e = Seen r.
  Proof using HP HC HJ.
    destruct (tds_is_edge T e) eqn:He; [|rewrite not_edge by exact He; eauto].
    destruct (edge_ends T e He) as (_ & p & q & Ee).
    destruct (incident_exact T HP HC HJ e p q He Ee) as [[E _]|(x & ys & _ & _ & _ & _ & _ & _ & E)]; rewrite E; eauto.
  Qed.

  (** ** Agreement with the functions on edges *)
  Lemma forallb_perm {A} (f : A -> bool) l l' : l ≡ₚ l' -> forallb f l = forallb f l'.
  Proof using.
    intros P. apply eq_true_iff_eq. rewrite !forallb_forall. setoid_rewrite <- elem_of_list_In. setoid_rewrite P. reflexivity.
  Qed.
  Lemma filter_perm {A} (f : A -> bool) l l' : l ≡ₚ l' -> List.filter f l ≡ₚ List.filter f l'.
  Proof using.
    induction 1 as [|x l l' _ IH|x y l|l1 l2 l3 _ IH1 _ IH2]; cbn [List.filter].
    - reflexivity.
    - destruct (f x); [constructor|]; exact IH.
    - destruct (f x), (f y); try reflexivity. apply perm_swap.
    - rewrite IH1. exact IH2.
  Qed.

  Lemma pair_elements p q : p <> q -> elements (of_list [p; q]) = [p; q] \/ elements (of_list [p; q]) = [q; p].
  Proof using.
    intros H. assert (P : elements (of_list [p; q]) ≡ₚ [p; q]).
    { apply elements_list_to_set. repeat constructor; set_solver + H. }
    symmetry in P. apply Permutation_length_2_inv in P. exact P.
  Qed.
  Lemma named_distinct e p q : names_edge T e p q -> p <> q /\ of_list [p; q] ∈ faces 2 T.
  Proof using HP.
    intros NE. apply names_edge_iff in NE as [He Ee].
    destruct (read_edge T e HP He) as (h & a & b & y0 & w0 & _ & Hh & _ & _ & Ee' & _ & N4 & Eh & _).
    rewrite Ee in Ee'. injection Ee' as <- <-. pose proof (proj1 (nodup4 _ _ _ _) N4) as N'. split; [tauto|].
    apply elem_of_faces. split; [apply of_list_size, (sublist_NoDup _ [p; q; y0; w0]); [repeat constructor|exact N4]|].
    exists (of_list h). split; [exact Hh|]. rewrite Eh. intros k. rewrite !elem_of_of_list. set_solver +.
  Qed.
  Variable label : vertex -> Z.
  Variable junk : tds -> simplex -> Z.

  Lemma count_type_perm k l l' : l ≡ₚ l' -> count_type label k l = count_type label k l'.
  Proof using. intros P. unfold count_type. rewrite (filter_length_perm _ _ _ P). reflexivity. Qed.
  Lemma difference_abs a b : (if label a >? label b then label a - label b else label b - label a) = Z.abs (label a - label b).
  Proof using. destruct (label a >? label b) eqn:E; rewrite Z.gtb_ltb in E; [apply Z.ltb_lt in E|apply Z.ltb_ge in E]; lia. Qed.

  Lemma movable_agrees e p q : names_edge T e p q ->
    raw_is_32_movable label junk T e = Seen (is_32_movable label junk T (of_list [p; q])).
  Proof using HP HC HJ.
    intros NE. destruct (named_distinct e p q NE) as [Hpq _]. pose proof NE as NE'. apply names_edge_iff in NE as [He Ee].
    unfold raw_is_32_movable, is_32_movable.
    destruct (incident_exact T HP HC HJ e p q He Ee) as [(E & d & Hd & Hi)|(x & ys & _ & _ & _ & _ & Hfin & P & E)]; rewrite E; cbn [dbind].
    - assert (F : forallb finite_simplex (elements (star (of_list [p; q]) T)) = false).
      { destruct (forallb _ _) eqn:F; [|reflexivity]. rewrite forallb_forall in F. exfalso.
        assert (X : finite_simplex d = true) by (apply F, elem_of_list_In, elem_of_elements; exact Hd). apply finite_spec in X. contradiction. }
      rewrite F. reflexivity.
    - assert (F : forallb finite_simplex (elements (star (of_list [p; q]) T)) = true).
      { apply forallb_forall. intros c Hc. apply finite_spec, Hfin. apply elem_of_elements, elem_of_list_In. exact Hc. }
      rewrite F. cbn [andb]. rewrite <- !(count_type_perm _ _ _ P), <- (forallb_perm _ _ _ P), <- (Permutation_length P).
      destruct (Nat.eqb _ 3); cbn [negb andb]; [|reflexivity]. rewrite Ee. cbn [dbind]. rewrite difference_abs.
      assert (B : match elements (of_list [p; q]) with [a; b] => Z.abs (label a - label b) =? 1 | _ => false end = (Z.abs (label p - label q) =? 1)).
      { destruct (pair_elements p q Hpq) as [-> | ->]; [reflexivity|]. f_equal. lia. }
      rewrite B. destruct (Z.abs (label p - label q) =? 1); cbn [negb andb]; [|reflexivity].
      destruct (forallb (correct label junk T) _); reflexivity.
  Qed.
  Lemma prepare_32_agrees e p q : names_edge T e p q ->
    raw_prepare_32 label junk T e =
    Seen (match prepare_32 label junk T (of_list [p; q]) with Done _ => Done (of_list [p; q]) | Fail f => Fail f | Unmodelled => Unmodelled end).
  Proof using HP HC HJ.
    intros NE. destruct (named_distinct e p q NE) as [Hpq Hf]. pose proof (proj1 (names_edge_iff _ _ _ _) NE) as [He Ee].
    destruct (edge_ends T e He) as [Wf _]. unfold raw_prepare_32, prepare_32. rewrite Wf, He. cbn [negb orb].
    rewrite (bool_decide_eq_true_2 _ Hf). cbn [negb]. rewrite (movable_agrees e p q NE). cbn [dbind].
    destruct (is_32_movable _ _ _ _); cbn [negb]; [|reflexivity]. rewrite Ee. reflexivity.
  Qed.

  Lemma vle_antisym a b : vle label a b -> vle label b a -> a = b.
  Proof using. unfold vle. intros A B. apply Pos.le_antisym; lia. Qed.
  Lemma top_some l : l <> [] -> exists r, top_vertex label l = Some r.
  Proof using.
    destruct l as [|x l]; [contradiction|]. intros _. unfold top_vertex. cbn [fold_left]. generalize x. clear x.
    induction l as [|y l IH]; intros x; cbn [fold_left]; [eauto|]. destruct (vertex_precedes _ _ _); apply IH.
  Qed.
  Lemma bottom_some l : l <> [] -> exists r, bottom_vertex label l = Some r.
  Proof using.
    destruct l as [|x l]; [contradiction|]. intros _. unfold bottom_vertex. cbn [fold_left]. generalize x. clear x.
    induction l as [|y l IH]; intros x; cbn [fold_left]; [eauto|]. destruct (vertex_precedes _ _ _); apply IH.
  Qed.
  Lemma same_empty {A} (l l' : list A) : (forall k, k ∈ l <-> k ∈ l') -> l = [] -> l' = [].
  Proof using. intros H ->. destruct l' as [|x l']; [reflexivity|]. exfalso. apply (not_elem_of_nil x), H. constructor. Qed.
  Lemma top_same l l' : (forall k, k ∈ l <-> k ∈ l') -> top_vertex label l = top_vertex label l'.
  Proof using.
    intros H. destruct l as [|x0 l0] eqn:El; [rewrite (same_empty [] l' H eq_refl); reflexivity|]. rewrite <- El in *.
    destruct (top_some l) as (r & Er); [rewrite El; discriminate|].
    destruct (top_some l') as (r' & Er'); [intros E'; assert (l = []) by (apply (same_empty l' l); [intros k; symmetry; apply H|exact E']); congruence|].
    rewrite Er, Er'. f_equal. apply top_spec in Er as [A B], Er' as [A' B'].
    apply vle_antisym; [apply B', H, A|apply B, H, A'].
  Qed.
  Lemma bottom_same l l' : (forall k, k ∈ l <-> k ∈ l') -> bottom_vertex label l = bottom_vertex label l'.
  Proof using.
    intros H. destruct l as [|x0 l0] eqn:El; [rewrite (same_empty [] l' H eq_refl); reflexivity|]. rewrite <- El in *.
    destruct (bottom_some l) as (r & Er); [rewrite El; discriminate|].
    destruct (bottom_some l') as (r' & Er'); [intros E'; assert (l = []) by (apply (same_empty l' l); [intros k; symmetry; apply H|exact E']); congruence|].
    rewrite Er, Er'. f_equal. apply bottom_spec in Er as [A B], Er' as [A' B'].
    apply vle_antisym; [apply B, H, A'|apply B', H, A].
  Qed.

  Lemma prepare_44_agrees e p q : names_edge T e p q ->
    raw_prepare_44 label junk T e =
    Seen (match prepare_44 label junk T (of_list [p; q]) with Done (t, b) => Done (of_list [p; q], t, b) | Fail f => Fail f | Unmodelled => Unmodelled end).
  Proof using HP HC HJ.
    intros NE. destruct (named_distinct e p q NE) as [Hpq Hf]. pose proof (proj1 (names_edge_iff _ _ _ _) NE) as [He Ee].
    destruct (edge_ends T e He) as [Wf _]. unfold raw_prepare_44, prepare_44, raw_flip_location, flip_location_44. rewrite Wf, He. cbn [negb orb].
    rewrite (bool_decide_eq_true_2 _ Hf). cbn [negb].
    destruct (incident_exact T HP HC HJ e p q He Ee) as [(E & d & Hd & Hi)|(x & ys & _ & _ & _ & _ & Hfin & P & E)]; rewrite E; cbn [dbind].
    - assert (F : forallb finite_simplex (elements (star (of_list [p; q]) T)) = false).
      { destruct (forallb _ _) eqn:F; [|reflexivity]. rewrite forallb_forall in F. exfalso.
        assert (X : finite_simplex d = true) by (apply F, elem_of_list_In, elem_of_elements; exact Hd). apply finite_spec in X. contradiction. }
      rewrite F. reflexivity.
    - assert (F : forallb finite_simplex (elements (star (of_list [p; q]) T)) = true).
      { apply forallb_forall. intros c Hc. apply finite_spec, Hfin. apply elem_of_elements, elem_of_list_In. exact Hc. }
      rewrite F. cbn [andb]. rewrite <- !(count_type_perm _ _ _ (filter_perm _ _ _ P)), <- (Permutation_length P).
      destruct (Nat.eqb _ 4); cbn [negb andb]; [|reflexivity]. rewrite Ee. cbn [dbind].
      assert (B : spacelike label (of_list [p; q]) = (label p =? label q)).
      { unfold spacelike. destruct (pair_elements p q Hpq) as [-> | ->]; [reflexivity|]. apply Z.eqb_sym. }
      rewrite B. destruct (label p =? label q); cbn [negb andb]; [|reflexivity].
      destruct ((_ =? 2) && (_ =? 2)); [|reflexivity]. cbn [dbind]. cbv zeta. f_equal.
      assert (O : forall k, k ∈ flat_map (fun c : simplex => elements (c ∖ of_list [p; q])) (cycle (of_list [p; q]) x ys) <->
                            k ∈ flat_map (fun c : simplex => elements (c ∖ of_list [p; q])) (elements (star (of_list [p; q]) T))).
      { intros k. rewrite !elem_of_list_In, !in_flat_map. setoid_rewrite <- elem_of_list_In. setoid_rewrite P. reflexivity. }
      rewrite (top_same _ _ O), (bottom_same _ _ O).
      destruct (top_vertex _ _) as [t|]; [|reflexivity]. destruct (bottom_vertex _ _) as [b|]; [|reflexivity].
      destruct (_ || _ || _); [reflexivity|]. rewrite !(filter_length_perm _ _ _ P). destruct (_ || _); reflexivity.
  Qed.

  (** ** Searching *)
  Lemma pivot_first edges : exists r, find_pivot_edge T edges = Seen r /\
    match r with
    | Some e => exists before after, edges = before ++ e :: after /\
        (exists p q w x y z, names_edge T e p q /\ four_around T p q w x y z) /\
        forall e', e' ∈ before -> forall p q w x y z, ~ (names_edge T e' p q /\ four_around T p q w x y z)
    | None => forall e', e' ∈ edges -> forall p q w x y z, ~ (names_edge T e' p q /\ four_around T p q w x y z)
    end.
  Proof using HP HC HJ.
    assert (K : forall e p q w x y z, names_edge T e p q /\ four_around T p q w x y z ->
              exists l, finite_incident_cells T e = Seen (Some l) /\ length l = 4%nat).
    { intros e p q w x y z [NE FA]. apply names_edge_iff in NE as [He Ee].
      destruct (four_cells_found T HP HC HJ e p q w x y z He Ee FA) as (l & E & P). exists l. split; [exact E|].
      rewrite (Permutation_length P). reflexivity. }
    induction edges as [|e edges (r & Er & IH)]; [exists None; split; [reflexivity|]; intros e' H; apply elem_of_nil in H as []|].
    cbn [find_pivot_edge]. destruct (incident_safe e) as (c & Ec). rewrite Ec. cbn [dbind].
    assert (Skip : (forall l, c = Some l -> length l <> 4%nat) ->
       match r with
       | Some e0 => exists before after, e :: edges = before ++ e0 :: after /\
           (exists p q w x y z, names_edge T e0 p q /\ four_around T p q w x y z) /\
           forall e', e' ∈ before -> forall p q w x y z, ~ (names_edge T e' p q /\ four_around T p q w x y z)
       | None => forall e', e' ∈ e :: edges -> forall p q w x y z, ~ (names_edge T e' p q /\ four_around T p q w x y z)
       end).
    { intros Hl. assert (Hne : forall p q w x y z, ~ (names_edge T e p q /\ four_around T p q w x y z)).
      { intros p q w x y z H. destruct (K _ _ _ _ _ _ _ H) as (l & E & L). rewrite Ec in E. injection E as ->. exact (Hl l eq_refl L). }
      destruct r as [e0|].
      - destruct IH as (before & after & -> & A & B). exists (e :: before), after. split; [reflexivity|]. split; [exact A|].
        intros e' H. apply elem_of_cons in H as [->|H]; [exact Hne|exact (B e' H)].
      - intros e' H. apply elem_of_cons in H as [->|H]; [exact Hne|exact (IH e' H)]. }
    destruct c as [l|]; [destruct (Nat.eqb (length l) 4) eqn:El|].
    - apply Nat.eqb_eq in El. exists (Some e). split; [reflexivity|]. exists [], edges. split; [reflexivity|]. split.
      + destruct (tds_is_edge T e) eqn:He; [|rewrite not_edge in Ec by exact He; discriminate].
        destruct (edge_ends T e He) as (_ & p & q & Ee).
        destruct (four_spec T HP HC HJ e p q l He Ee Ec El) as (w & x & y & z & FA & _).
        exists p, q, w, x, y, z. split; [apply names_edge_iff; auto|exact FA].
      + intros e' H. apply elem_of_nil in H as [].
    - exists r. split; [exact Er|]. apply Skip. intros l' [= <-] H. rewrite H in El. discriminate.
    - exists r. split; [exact Er|]. apply Skip. intros l' [=].
  Qed.
End Exact.

Lemma get_vertices_exact cells : NoDup (get_vertices cells) /\ forall v, v ∈ get_vertices cells <-> exists h, h ∈ cells /\ v ∈ h.
Proof.
  unfold get_vertices. split; [apply NoDup_elements|]. intros v. rewrite elem_of_elements.
  assert (I : forall (h : list vertex) (S : gset vertex), v ∈ fold_left (fun S v => S ∪ {[v]}) h S <-> v ∈ S \/ v ∈ h).
  { induction h as [|x h IH]; intros S; cbn [fold_left]; [rewrite elem_of_nil; tauto|].
    rewrite IH, elem_of_union, elem_of_singleton, elem_of_cons. tauto. }
  assert (O : forall (cs : list (list vertex)) (S : gset vertex),
     v ∈ fold_left (fun (S : gset vertex) h => fold_left (fun S v => S ∪ {[v]}) h S) cs S <-> v ∈ S \/ exists h, h ∈ cs /\ v ∈ h).
  { induction cs as [|h cs IH]; intros S; cbn [fold_left].
    - split; [auto|]. intros [H|(h & H & _)]; [exact H|apply elem_of_nil in H as []].
    - rewrite IH, I. setoid_rewrite elem_of_cons. split.
      + intros [[H|H]|(h' & H & H')]; [auto|right; exists h; auto|right; exists h'; auto].
      + intros [H|(h' & [->|H] & H')]; [auto|auto|right; exists h'; auto]. }
  rewrite O. split; [intros [H|H]; [apply not_elem_of_empty in H as []|exact H]|auto].
Qed.

Lemma vertex_search T v start : pure T -> joined_stars T -> start ∈ T -> v ∈ start ->
  forall c, c ∈ incident_cells_of_vertex T v start <-> c ∈ T /\ v ∈ c.
Proof.
  intros HP HJ Hs Hv c. unfold incident_cells_of_vertex.
  assert (S : start ∈ star {[v]} T) by (apply elem_of_star; split; [exact Hs|intros k ->%elem_of_singleton; exact Hv]).
  rewrite (flood_all T {[v]} start HP S HJ), elem_of_star. split; intros [A B]; (split; [exact A|]).
  - apply B, elem_of_singleton. reflexivity.
  - intros k ->%elem_of_singleton. exact B.
Qed.
