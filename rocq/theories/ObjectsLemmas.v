(** Proofs about objects: what a client gets from each statement. *)
From Verif Require Import Base Geom Simplex Foliation Repair Objects ObjectsSpec ObjectsFacts ObjectsRuns ObjectsReads ObjectsWorld.
From stdpp Require Import fin_sets gmap sorting.
From Verif Require Import Base Geom Simplex Foliation Objects ObjectsSpec ObjectsFacts ObjectsRuns ObjectsReads ObjectsWorld.
Local Open Scope Z_scope.

Section Lemmas.
  Variable timevalue : fp -> fp -> positive -> Z.
  Variable C : cgal.
  Variable luck : nat -> nat.
  Hypothesis CO : cgal_ok C.
  Notation coherent := (coherent timevalue).
  Notation coherent_value := (coherent_value timevalue).

  (** ** Repairs of what is right do nothing *)
  Section Copy.
    Variables (H H1 : heap) (o : foliated) (t t1 : tri).
    Hypothesis K : coherent H o t.
    Hypothesis W1 : well_made H1 t1.
    Hypothesis S1 : same_contents H t H1 t1.
    Lemma copy_times v : v ∈ t_vertices t1 -> info H1 v = timevalue (f_radius o) (f_spacing o) (point H1 v).
    Proof using K S1.
      intros V. assert (X : vertex_data H1 v ∈ map (vertex_data H) (t_vertices t)).
      { rewrite <- (same_vertices _ _ _ _ S1). apply elem_of_list_In, in_map, elem_of_list_In, V. }
      rewrite (coherent_vertex_data timevalue H o t K) in X. apply elem_of_list_In, in_map_iff in X as (p & E & _).
      unfold vertex_data in E. injection E as E1 E2. rewrite <- E1, <- E2. reflexivity.
    Qed.
    Lemma copy_types c : c ∈ t_cells t1 ->
      expected_cell_type H1 c = c_info (h_cell H1 c) /\ exists d, d ∈ t_cells t /\ c_info (h_cell H d) = c_info (h_cell H1 c).
    Proof using K W1 S1.
      intros V. assert (X : cell_data H1 c ∈ map (cell_data H) (t_cells t)).
      { rewrite <- (same_cells _ _ _ _ S1). apply elem_of_list_In, in_map, elem_of_list_In, V. }
      apply elem_of_list_In, in_map_iff in X as (d & E & D). apply elem_of_list_In in D. unfold cell_data in E. injection E as E1 E2.
      split; [|exists d; auto]. rewrite <- E2, (co_types _ _ _ _ K d D). unfold expected_cell_type, type_of_points.
      rewrite <- (map_map (point H) (timevalue (f_radius o) (f_spacing o))), E1, map_map. f_equal. apply map_ext_in'.
      intros v Hv. apply copy_times. apply (wm_cell H1 t1 W1 c V), Hv.
    Qed.
    Lemma copy_check : check_cells H t = forallb (fun c => negb (c_info (h_cell H c) =? ACAUSAL) && negb (c_info (h_cell H c) =? UNCLASSIFIED)) (t_cells t).
    Proof using K.
      apply forallb_ext_in. intros c X. unfold is_cell_type_correct. rewrite (coherent_expected timevalue H o t c K X), <- (co_types _ _ _ _ K c X), Z.eqb_refl, andb_true_r.
      reflexivity.
    Qed.
    Lemma copy_right_vertices : find_incorrect_vertices timevalue (f_radius o) (f_spacing o) H1 t1 = [].
    Proof using K W1 S1.
      unfold find_incorrect_vertices. destruct (List.filter _ _) as [|v l] eqn:E; [reflexivity|]. exfalso.
      assert (X : v ∈ v :: l) by left. rewrite <- E in X. apply filter_elem in X as [X N]. unfold get_vertices_from_cells in X.
      rewrite distinct_elem, elem_of_list_In in X. apply in_flat_map in X as (c & D & V). apply elem_of_list_In in D, V.
      unfold is_vertex_timevalue_correct in N. rewrite (copy_times v) in N by (apply (wm_cell H1 t1 W1 c D), V).
      rewrite Z.eqb_refl in N. discriminate N.
    Qed.
    Lemma copy_wrong_cells : bool_decide (List.filter (fun c => negb (is_cell_type_correct H1 c)) (t_cells t1) = []) = check_cells H t.
    Proof using K W1 S1.
      rewrite copy_check. symmetry.
      assert (P : forallb (fun d : list positive * Z => negb (snd d =? ACAUSAL) && negb (snd d =? UNCLASSIFIED)) (map (cell_data H1) (t_cells t1)) =
                  forallb (fun d : list positive * Z => negb (snd d =? ACAUSAL) && negb (snd d =? UNCLASSIFIED)) (map (cell_data H) (t_cells t))).
      { generalize (same_cells _ _ _ _ S1). generalize (map (cell_data H1) (t_cells t1)). generalize (map (cell_data H) (t_cells t)).
        intros l l' P. induction P; cbn [forallb]; try congruence.
        destruct (snd x =? ACAUSAL), (snd x =? UNCLASSIFIED), (snd y =? ACAUSAL), (snd y =? UNCLASSIFIED); reflexivity. }
      assert (G : forall (f : nat -> list positive * Z) l, forallb (fun d : list positive * Z => negb (snd d =? ACAUSAL) && negb (snd d =? UNCLASSIFIED)) (map f l) =
        forallb (fun c => negb (snd (f c) =? ACAUSAL) && negb (snd (f c) =? UNCLASSIFIED)) l).
      { intros f l. induction l as [|c l IH]; [reflexivity|]. cbn. rewrite IH. reflexivity. }
      rewrite !G in P. cbn [snd cell_data] in P. rewrite <- P. clear P G.
      pose proof (fun c X => proj1 (copy_types c X)) as T. revert T. induction (t_cells t1) as [|c l IH]; intros T; [reflexivity|].
      cbn [forallb List.filter]. rewrite IH by (intros d D; apply T; right; exact D).
      assert (IC : is_cell_type_correct H1 c = negb (c_info (h_cell H1 c) =? ACAUSAL) && negb (c_info (h_cell H1 c) =? UNCLASSIFIED)).
      { unfold is_cell_type_correct. rewrite (T c) by left. rewrite Z.eqb_refl, andb_true_r. reflexivity. }
      rewrite IC.
      destruct (negb (c_info (h_cell H1 c) =? ACAUSAL) && negb (c_info (h_cell H1 c) =? UNCLASSIFIED)); reflexivity.
    Qed.
    Lemma copy_invalid_cells : bool_decide (find_invalid_timevalue_cells H1 t1 = []) = check_cells H t.
    Proof using K W1 S1.
      rewrite <- copy_wrong_cells. f_equal. unfold find_invalid_timevalue_cells. 
      apply bool_decide_ext. erewrite filter_ext_in'; [reflexivity|]. intros c X. cbn. unfold is_cell_type_correct.
      rewrite (proj1 (copy_types c X)), Z.eqb_refl, andb_true_r.
      destruct (c_info (h_cell H1 c) =? ACAUSAL), (c_info (h_cell H1 c) =? UNCLASSIFIED); reflexivity.
    Qed.
  End Copy.
  Lemma wp_fix_vertices_member o t H : coherent H o t ->
    wp (member_fix_vertices timevalue C luck o) (fun p H' => quiet H H' /\ p = (o, false)) (quiet H) H.
  Proof using CO.
    intros K. unfold member_fix_vertices, member. rewrite (co_tri _ _ _ _ K). apply wp_bind.
    eapply wp_mono; [apply wp_copy; [exact CO|apply K]| |intros ? ->; apply writes_refl]. intros t1 H1 [M1 S1].
    apply wp_bind. unfold keeping. apply wp_bind. unfold fix_vertices. apply wp_bind, wp_get. cbv zeta.
    assert (W1 : well_made H1 t1) by apply M1. rewrite (copy_right_vertices H H1 o t t1 K W1 S1). apply wp_bind, wp_put, wp_ret, wp_ret. cbn [snd].
    apply wp_ret. split; [apply M1|reflexivity].
  Qed.
  Lemma wp_fix_cells_member o t H : coherent H o t ->
    wp (member_fix_cells timevalue C luck o)
       (fun p H' => snd p = negb (check_cells H t) /\ if snd p then copied timevalue H o t (fst p) H' else quiet H H' /\ fst p = o) (quiet H) H.
  Proof using CO.
    intros K. unfold member_fix_cells, member. rewrite (co_tri _ _ _ _ K). apply wp_bind.
    eapply wp_mono; [apply wp_copy; [exact CO|apply K]| |intros ? ->; apply writes_refl]. intros t1 H1 [M1 S1].
    assert (W1 : well_made H1 t1) by apply M1.
    apply wp_bind. unfold keeping. apply wp_bind. unfold fix_cells. apply wp_bind, wp_get. cbv zeta.
    set (wrong := List.filter (fun c => negb (is_cell_type_correct H1 c)) (t_cells t1)).
    apply wp_bind, wp_put, wp_ret, wp_ret. cbn [fst snd].
    pose proof (copy_wrong_cells H H1 o t t1 K W1 S1) as CW. fold wrong in CW. rewrite CW.
    assert (R : relabels [] wrong H1 (write_types wrong H1)) by apply write_types_relabels.
    assert (Sub : forall c, c ∈ wrong -> c ∈ t_cells t1) by (intros c X; apply filter_elem in X; apply X).
    assert (E : edits t1 H1 (write_types wrong H1) t1).
    { eapply relabels_edits; [exact R|exact W1|intros v V; apply elem_of_nil in V; destruct V|intros c X; apply in_cells, Sub, X]. }
    pose proof (makes_edits _ _ _ _ _ M1 E) as M2.
    destruct (check_cells H t) eqn:Ch; cbn [negb].
    - apply wp_ret. cbn. split; [reflexivity|]. split; [apply M2|reflexivity].
    - apply wp_bind. eapply wp_mono; [apply wp_of_new, M2| |auto]. intros o' H3 (R3 & M3 & K3 & Er & Es).
      rewrite swap_right. apply wp_ret. cbn [fst snd]. split; [reflexivity|]. exists t1. split; [exact M3|]. split; [exact K3|].
      split; [exact Er|]. split; [exact Es|]. left. eapply same_contents_relabel; [exact K|exact K3|exact Er|exact Es|exact S1|].
      eapply relabels_trans; [exact R|exact R3|..]; auto. intros v V. apply elem_of_nil in V. destruct V.
  Qed.
  Lemma wp_is_fixed_member o t H : coherent H o t ->
    wp (member_is_fixed timevalue C luck o)
       (fun p H' => snd p = negb (check_cells H t) /\
          if snd p then new_object timevalue H (fst p) H' /\ f_radius (fst p) = f_radius o /\ f_spacing (fst p) = f_spacing o
          else quiet H H' /\ fst p = o) (quiet H) H.
  Proof using CO.
    intros K. unfold member_is_fixed, member. rewrite (co_tri _ _ _ _ K). apply wp_bind.
    eapply wp_mono; [apply wp_copy; [exact CO|apply K]| |intros ? ->; apply writes_refl]. intros t1 H1 [M1 S1].
    assert (W1 : well_made H1 t1) by apply M1.
    apply wp_bind. apply wp_bind. unfold fix_vertices. apply wp_bind, wp_get. cbv zeta.
    rewrite (copy_right_vertices H H1 o t t1 K W1 S1). apply wp_bind, wp_put, wp_ret. cbn [write_times fold_left].
    apply wp_bind. unfold fix_cells. apply wp_bind, wp_get. cbv zeta.
    set (wrong := List.filter (fun c => negb (is_cell_type_correct H1 c)) (t_cells t1)).
    apply wp_bind, wp_put, wp_ret. pose proof (copy_wrong_cells H H1 o t t1 K W1 S1) as CW. fold wrong in CW. rewrite CW.
    assert (R : relabels [] wrong H1 (write_types wrong H1)) by apply write_types_relabels.
    assert (Sub : forall c, c ∈ wrong -> c ∈ t_cells t1) by (intros c X; apply filter_elem in X; apply X).
    assert (E : edits t1 H1 (write_types wrong H1) t1).
    { eapply relabels_edits; [exact R|exact W1|intros v V; apply elem_of_nil in V; destruct V|intros c X; apply in_cells, Sub, X]. }
    pose proof (makes_edits _ _ _ _ _ M1 E) as M2. set (H2 := write_types wrong H1) in *.
    destruct (check_cells H t) eqn:Ch.
    - assert (Wn : wrong = []) by (apply (bool_decide_eq_true_1 (wrong = [])); rewrite <- Ch; exact (copy_wrong_cells H H1 o t t1 K W1 S1)).
      assert (EH : H2 = H1) by (unfold H2; rewrite Wn; reflexivity). rewrite EH in *.
      apply wp_bind. unfold fix_timevalues. apply wp_bind, wp_get.
      pose proof (copy_invalid_cells H H1 o t t1 K W1 S1) as I. rewrite Ch in I. apply bool_decide_eq_true_1 in I. rewrite I.
      apply wp_ret, wp_ret. cbn. apply wp_ret. cbn. split; [reflexivity|]. split; [apply M1|reflexivity].
    - apply wp_bind. eapply wp_mono; [apply wp_fix_timevalues; [exact CO|apply M2]| |intros ? ->; apply M2].
      intros [t3 b] H3 E3. apply wp_ret. cbn [fst snd]. rewrite orb_true_r. cbn [orb].
      pose proof (makes_edits _ _ _ _ _ M2 E3) as M3. apply wp_bind.
      eapply wp_mono; [apply wp_of_new, M3| |auto]. intros o' H4 (_ & M4 & K4 & Er & Es).
      rewrite swap_right. apply wp_ret. cbn [fst snd]. split; [reflexivity|]. split; [exists t3; auto|auto].
  Qed.

  (** ** Statements *)
  Notation act := (act timevalue C luck).
  Notation good := (good timevalue).
  Lemma run_done {A} w (m : M A) f Q E w' : wp m Q E (w_heap w) -> run w m f = Done w' ->
    exists a k, Q a (w_heap w') /\ w' = World (w_heap w') k (f a).
  Proof using.
    intros X. specialize (X (w_clock w)). unfold run. destruct (m (w_heap w) (w_clock w)) as [a H' k|H' k|]; try discriminate.
    intros [= <-]. exists a, k. cbn. auto.
  Qed.
  Lemma plain_same H t H' t' : same_contents H t H' t' -> same_reading (read timevalue H' (VP (Some t'))) (read timevalue H (VP (Some t))).
  Proof using. intros S. constructor; cbn; try reflexivity; apply S. Qed.
  Lemma copy_reads w x y w' : good w -> allowed w (Copy x y) -> act w (Copy x y) = Done w' ->
    exists v v', w_var w y = Some v /\ w_var w' x = Some v' /\ same_reading (read timevalue (w_heap w') v') (read timevalue (w_heap w) v).
  Proof using CO.
    intros [GV _] (D & v & Ey & I) E. exists v. cbn [Objects.act] in E. rewrite Ey in E. pose proof (GV y v Ey) as Kv.
    destruct v as [o|m|[t|]]; [| | |destruct I; reflexivity].
    - destruct (coherent_of_value timevalue _ o Kv I) as [t K].
      destruct (run_done w _ _ _ _ w' (wp_foliated_copy timevalue C luck CO o t _ K) E) as (o' & k & X & Ew). exists (VF o').
      split; [exact Ey|]. split; [rewrite Ew; apply set_same|]. eapply copied_reads; eassumption.
    - destruct (geometric_of_value timevalue _ m Kv I) as [Ge [t K]].
      destruct (run_done w _ _ _ _ w' (wp_manifold_copy timevalue C luck CO m t _ K Ge) E) as (m' & k & (X & Eg & _) & Ew). exists (VM m').
      split; [exact Ey|]. split; [rewrite Ew; apply set_same|]. cbn. rewrite Eg. eapply copied_reads; eassumption.
    - destruct (run_done w _ _ _ _ w' (wp_copy C luck CO t _ (Kv t eq_refl)) E) as (t' & k & (_ & X) & Ew). exists (VP (Some t')).
      split; [exact Ey|]. split; [rewrite Ew; apply set_same|]. apply plain_same, X.
  Qed.
  Lemma read_refl r : same_reading r r.
  Proof using. constructor; reflexivity. Qed.
  Lemma assign_copy_reads w x y w' : good w -> allowed w (AssignCopy x y) -> act w (AssignCopy x y) = Done w' ->
    exists v v', w_var w y = Some v /\ w_var w' x = Some v' /\ same_reading (read timevalue (w_heap w') v') (read timevalue (w_heap w) v).
  Proof using CO.
    intros [GV _] (vx & v & Ex & Ey & Ty & I) E. exists v. cbn [Objects.act] in E. pose proof (GV y v Ey) as Kv.
    destruct (Nat.eqb_spec x y) as [->|N].
    { unfold pure in E. injection E as <-. exists v. split; [exact Ey|]. split; [exact Ey|apply read_refl]. }
    rewrite Ex, Ey in E. destruct vx as [this|this|], v as [o|m|]; try destruct Ty.
    - destruct (coherent_of_value timevalue _ o Kv I) as [t K].
      destruct (run_done w _ _ _ _ w' (wp_assign_copy timevalue C luck CO this o t _ K) E) as (o' & k & X & Ew). exists (VF o').
      split; [exact Ey|]. split; [rewrite Ew; apply set_same|]. eapply copied_reads; eassumption.
    - destruct (geometric_of_value timevalue _ m Kv I) as [Ge [t K]].
      destruct (run_done w _ _ _ _ w' (wp_manifold_assign_copy timevalue C luck CO this m t _ K Ge) E) as (m' & k & (X & Eg & _) & Ew). exists (VM m').
      split; [exact Ey|]. split; [rewrite Ew; apply set_same|]. cbn. rewrite Eg. eapply copied_reads; eassumption.
  Qed.
  Lemma snapshot_reads w x y w' : good w -> allowed w (Snapshot x y) -> act w (Snapshot x y) = Done w' ->
    exists v v', w_var w y = Some v /\ w_var w' x = Some v' /\
      r_vertices (read timevalue (w_heap w') v') ≡ₚ r_vertices (read timevalue (w_heap w) v) /\
      r_cells (read timevalue (w_heap w') v') ≡ₚ r_cells (read timevalue (w_heap w) v).
  Proof using CO.
    intros [GV _] (D & v & Ey & I & NP) E. exists v. cbn [Objects.act] in E. rewrite Ey in E. pose proof (GV y v Ey) as Kv.
    destruct v as [o|m|t]; [| |destruct (NP t); reflexivity].
    - destruct (coherent_of_value timevalue _ o Kv I) as [t K].
      destruct (run_done w _ _ _ _ w' (wp_snapshot timevalue C luck CO o t _ K) E) as (t' & k & (_ & X) & Ew). exists (VP (Some t')).
      split; [exact Ey|]. split; [rewrite Ew; apply set_same|]. cbn. rewrite (tri_of_coherent timevalue _ _ _ K). split; apply X.
    - destruct (geometric_of_value timevalue _ m Kv I) as [Ge [t K]].
      destruct (run_done w _ _ _ _ w' (wp_snapshot timevalue C luck CO _ t _ K) E) as (t' & k & (_ & X) & Ew). exists (VP (Some t')).
      split; [exact Ey|]. split; [rewrite Ew; apply set_same|]. cbn. rewrite (tri_of_coherent timevalue _ _ _ K). split; apply X.
  Qed.
  Lemma updated_reads w x y w' m : good w -> allowed w (Updated x y) -> act w (Updated x y) = Done w' ->
    w_var w y = Some (VM m) -> number_of_vertices (m_triangulation m) <> 0%nat ->
    exists m', w_var w' x = Some (VM m') /\ same_reading (read timevalue (w_heap w') (VM m')) (read timevalue (w_heap w) (VM m)).
  Proof using CO.
    intros [GV _] (D & m0 & Ey' & I) E Ey NE. rewrite Ey in Ey'. injection Ey' as <-. cbn [Objects.act] in E. rewrite Ey in E. pose proof (GV y _ Ey) as Kv.
    destruct (geometric_of_value timevalue _ m Kv I) as [Ge [t K]].
    destruct (run_done w _ _ _ _ w' (wp_updated timevalue C luck CO m t _ K) E) as (m' & k & (X & Ge' & Cp) & Ew). exists m'.
    split; [rewrite Ew; apply set_same|]. unfold number_of_vertices in NE. rewrite (tri_of_coherent timevalue _ _ _ K) in NE.
    assert (N : t_vertices t <> []) by (intros N; apply NE; rewrite N; reflexivity). specialize (Cp N).
    cbn [read]. replace (m_geometry m') with (m_geometry m); [eapply copied_reads; eassumption|].
    unfold geometric in *. rewrite Ge, Ge'. symmetry. eapply copied_geometry; eassumption.
  Qed.
  Lemma move_reads w x y w' : good w -> allowed w (Move x y) -> act w (Move x y) = Done w' ->
    w_var w' x = w_var w y /\ w_heap w' = w_heap w /\ forall v, w_var w' y = Some v -> triangulation_in v = None.
  Proof using.
    intros G (D & L) E. cbn [Objects.act] in E. destruct (w_var w y) as [v|] eqn:Ey; [|congruence].
    assert (N : y <> x) by congruence. destruct v as [o|m|t]; cbn [foliated_move manifold_move] in E.
    - unfold pure in E. injection E as <-. cbn. rewrite set_same, set_other, set_same by exact N. split; [reflexivity|]. split; [reflexivity|].
      intros v [= <-]. reflexivity.
    - destruct m as [o g]. unfold pure in E. cbn in E. injection E as <-. cbn. rewrite set_same, set_other, set_same by exact N. split; [reflexivity|]. split; [reflexivity|].
      intros v [= <-]. reflexivity.
    - unfold pure in E. injection E as <-. cbn. rewrite set_same, set_other, set_same by exact N. split; [reflexivity|]. split; [reflexivity|].
      intros v [= <-]. reflexivity.
  Qed.
  Lemma swap_reads w x y w' a : a = Swap x y \/ a = AssignMove x y -> allowed w a -> act w a = Done w' ->
    w_var w' x = w_var w y /\ w_var w' y = w_var w x /\ w_heap w' = w_heap w.
  Proof using.
    intros Ea Al E. assert (Al' : exists v v', w_var w x = Some v /\ w_var w y = Some v' /\ same_type v v') by (destruct Ea as [-> | ->]; exact Al).
    destruct Al' as (v & v' & Ex & Ey & Ty).
    assert (X : w' = World (w_heap w) (w_clock w) (if (x =? y)%nat then w_var w else set_var x (Some v') (set_var y (Some v) (w_var w)))).
    { destruct Ea as [-> | ->]; cbn [Objects.act] in E; destruct (Nat.eqb_spec x y); try (unfold pure in E; congruence);
      rewrite Ex, Ey in E; destruct v as [this|this|], v' as [o|m|]; try destruct Ty;
      unfold foliated_assign_move, manifold_assign_move in E; rewrite ?swap_right, ?manifold_swap_right in E; unfold pure in E; congruence. }
    rewrite X. cbn. destruct (Nat.eqb_spec x y) as [->|N]; [auto|]. rewrite set_same, set_other, set_same by congruence. auto.
  Qed.
  Lemma fix_reads w x a w' : good w -> a = FixVertices x \/ a = FixCells x -> allowed w a -> act w a = Done w' ->
    exists v v', w_var w x = Some v /\ w_var w' x = Some v' /\ same_reading (read timevalue (w_heap w') v') (read timevalue (w_heap w) v).
  Proof using CO.
    intros G Ea Al E. pose proof (proj1 G) as GV.
    assert (Al' : exists o, w_var w x = Some (VF o) /\ f_tri o <> None) by (destruct Ea as [-> | ->]; exact Al).
    destruct Al' as (o & Ex & I). destruct (coherent_of_value timevalue _ o (GV x _ Ex) I) as [t K]. exists (VF o).
    assert (Same : forall H' k, quiet (w_heap w) H' -> w' = World H' k (set_var x (Some (VF o)) (w_var w)) ->
      exists v', w_var w' x = Some v' /\ same_reading (read timevalue (w_heap w') v') (read timevalue (w_heap w) (VF o))).
    { intros H' k Q ->. exists (VF o). cbn [w_var w_heap]. rewrite set_same. split; [reflexivity|]. cbn [read].
      rewrite (read_frame timevalue (w_heap w) H' None o t); [apply read_refl|apply quiet_agree; [exact Q|apply (co_made _ _ _ _ K)]|exact K]. }
    destruct Ea as [-> | ->]; cbn [Objects.act] in E; rewrite Ex in E.
    - destruct (run_done w _ _ _ _ w' (wp_fix_vertices_member o t _ K) E) as (p & k & (Q & ->) & Ew).
      destruct (Same _ k Q Ew) as (v' & A & B). exists v'. auto.
    - destruct (run_done w _ _ _ _ w' (wp_fix_cells_member o t _ K) E) as ([o' b] & k & (_ & X) & Ew). cbn [fst snd] in *. destruct b.
      + exists (VF o'). split; [exact Ex|]. split; [rewrite Ew; apply set_same|]. eapply copied_reads; eassumption.
      + destruct X as [Q ->]. destruct (Same _ k Q Ew) as (v' & A & B). exists v'. auto.
  Qed.
  Lemma is_fixed_reads w x o w' : good w -> allowed w (IsFixed x) -> act w (IsFixed x) = Done w' -> w_var w x = Some (VF o) ->
    exists o', w_var w' x = Some (VF o') /\ f_radius o' = f_radius o /\ f_spacing o' = f_spacing o /\
      (is_foliated (w_heap w) o = true -> read timevalue (w_heap w') (VF o') = read timevalue (w_heap w) (VF o)).
  Proof using CO.
    intros G (o0 & Ex & I) E Ex'. rewrite Ex in Ex'. injection Ex' as ->. pose proof (proj1 G) as GV.
    destruct (coherent_of_value timevalue _ o (GV x _ Ex) I) as [t K]. cbn [Objects.act] in E. rewrite Ex in E.
    destruct (run_done w _ _ _ _ w' (wp_is_fixed_member o t _ K) E) as ([o' b] & k & (Eb & X) & Ew). cbn [fst snd] in *.
    exists o'. split; [rewrite Ew; apply set_same|]. destruct b.
    - destruct X as (_ & Er & Es). split; [exact Er|]. split; [exact Es|]. rewrite (coherent_foliated timevalue _ o t K). unfold check_all_cells.
      rewrite (tri_of_coherent timevalue _ o t K). destruct (check_cells (w_heap w) t); [discriminate Eb|discriminate].
    - destruct X as [Q ->]. split; [reflexivity|]. split; [reflexivity|]. intros _. cbn [read].
      apply (read_frame timevalue (w_heap w) _ None o t); [apply quiet_agree; [exact Q|apply (co_made _ _ _ _ K)]|exact K].
  Qed.
End Lemmas.
