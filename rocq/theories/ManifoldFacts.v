(** Structural correctness and the move check in terms of the specification. *)
From Verif Require Import Base Tracker Command Geom Simplex Pachner Foliation Moves Links MoveCore MoveTools Move23 Move44 Move26 Move26Site Move62Site MoveSpec MoveSound Manifold.
From stdpp Require Import fin_sets gmap sorting.
From Verif Require Import Foliation.
Local Open Scope Z_scope.

(** ** Partitions of cells and edges *)
Lemma count_le P Q S : (forall s, s ∈ S -> P s = true -> Q s = true) -> count P S <= count Q S.
Proof.
  intros H. unfold count. apply inj_le, subseteq_size. intros s. rewrite !elem_of_filter. intros [A B]. auto.
Qed.

Lemma count_eq_all P Q S : (forall s, s ∈ S -> P s = true -> Q s = true) -> count P S = count Q S ->
  forall s, s ∈ S -> Q s = true -> P s = true.
Proof.
  intros H E s Hs HQ. destruct (P s) eqn:HP; [reflexivity|]. exfalso. unfold count in E.
  assert (size (filter (fun s => P s = true) S) < size (filter (fun s => Q s = true) S))%nat; [|lia].
  apply subset_size. split.
  - intros y. rewrite !elem_of_filter. intros [A B]. auto.
  - intros C. assert (s ∈ filter (fun s => P s = true) S) by (apply C, elem_of_filter; auto).
    apply elem_of_filter in H0 as [H0 _]. congruence.
Qed.

Lemma cells_partition label T :
  n3_of label THREE_ONE T + n3_of label TWO_TWO T + n3_of label ONE_THREE T =
  count (fun c => finite_simplex c && causal_type (cell_type label c)) T.
Proof.
  unfold n3_of. symmetry.
  rewrite (count_split _ (fun c => finite_simplex c && ((cell_type label c =? THREE_ONE) || (cell_type label c =? TWO_TWO)))
             (finite_of_type label ONE_THREE)).
  - f_equal. apply count_split. intros s _. unfold finite_of_type.
    destruct (finite_simplex s), (cell_type label s =? THREE_ONE) eqn:A, (cell_type label s =? TWO_TWO) eqn:B; cbn; try auto.
    apply Z.eqb_eq in A. rewrite A in B. discriminate.
  - intros s _. unfold finite_of_type, causal_type.
    destruct (finite_simplex s), (cell_type label s =? THREE_ONE) eqn:A, (cell_type label s =? TWO_TWO) eqn:B, (cell_type label s =? ONE_THREE) eqn:C; cbn; try auto;
      try (apply Z.eqb_eq in A; rewrite A in C; discriminate); try (apply Z.eqb_eq in B; rewrite B in C; discriminate).
Qed.

Lemma cells_partition_causal label T :
  n3_of label THREE_ONE T + n3_of label TWO_TWO T + n3_of label ONE_THREE T = n3 T <-> causal label T.
Proof.
  rewrite cells_partition. unfold n3, causal. split.
  - intros E c Hc Hf. apply finite_spec in Hf.
    assert (finite_simplex c && causal_type (cell_type label c) = true); [|apply andb_true_iff in H; tauto].
    refine (count_eq_all _ finite_simplex T _ E c Hc Hf). intros s _ H. apply andb_true_iff in H. tauto.
  - intros H. apply count_ext. intros s Hs. destruct (finite_simplex s) eqn:E; [|reflexivity].
    apply finite_spec in E. rewrite (H s Hs E). reflexivity.
Qed.

Lemma edges_partition label T : n1_tl label T + n1_sl label T = n1 T.
Proof.
  unfold n1_tl, n1_sl, n1. symmetry. apply count_split. intros s Hs. apply elem_of_faces in Hs as [Hs _].
  destruct (elements_two s Hs) as (a & b & E & _ & _). unfold timelike, spacelike. rewrite E.
  destruct (finite_simplex s), (label a =? label b); auto.
Qed.

Lemma spacelike_facets_le label T : spacelike_facets label T <= n2 T.
Proof. unfold spacelike_facets, n2. apply count_le. intros s _ H. apply andb_true_iff in H. tauto. Qed.

Lemma min_le_max label T : min_time label T <= max_time label T.
Proof.
  unfold min_time, max_time. set (l := map label (elements (finite_vertices T))).
  destruct l as [|x l]; [cbn; lia|].
  destruct (list_max_In (x :: l) ltac:(discriminate)) as [_ B]. destruct (list_min_In (x :: l) ltac:(discriminate)) as [A _]. auto.
Qed.

Lemma correct_finite label junk T c : finite_simplex c = true ->
  correct label junk T c = true <-> cell_type label c <> ACAUSAL /\ cell_type label c <> UNCLASSIFIED.
Proof.
  intros F. unfold correct, cell_info. rewrite F, !andb_true_iff, !negb_true_iff, !Z.eqb_neq, Z.eqb_eq. tauto.
Qed.

Lemma correct_finite_causal label junk T c : finite_simplex c = true -> size c = 4%nat ->
  correct label junk T c = true <-> causal_type (cell_type label c) = true.
Proof.
  intros F Hs. rewrite correct_finite by exact F. split.
  - intros [A _]. destruct (classify_total (map label (elements c))) as [E|E]; [|contradiction|exact E].
    rewrite map_length. exact Hs.
  - unfold causal_type. rewrite !orb_true_iff, !Z.eqb_eq. unfold ACAUSAL, UNCLASSIFIED, THREE_ONE, TWO_TWO, ONE_THREE. lia.
Qed.

Section Facts.
  Variable W : world.

  Lemma structurally_correct_spec m : is_structurally_correct W m = true <->
    valid (m_cells m) /\ causal (label_of W m) (m_cells m).
  Proof.
    unfold is_structurally_correct, has_consistent_structure, check_all_cells.
    rewrite !andb_true_iff, tds_valid_spec, forallb_forall. split.
    - intros [[[[[_ H] _] _] V] _]. split; [exact V|]. apply Z.eqb_eq in H. apply cells_partition_causal. exact H.
    - intros [V C]. split; [split; [split; [split; [split|]|]|]|].
      + apply Z.leb_le, spacelike_facets_le.
      + apply Z.eqb_eq, cells_partition_causal, C.
      + apply Z.eqb_eq, edges_partition.
      + destruct (bool_decide (finite_vertices (m_cells m) = ∅)) eqn:E.
        * apply bool_decide_eq_true in E. unfold max_time_m, min_time_m, max_time, min_time. rewrite E. reflexivity.
        * apply Z.leb_le, min_le_max.
      + exact V.
      + intros c Hc. apply elem_of_list_In, elem_of_elements in Hc. destruct (finite_simplex c) eqn:F; [|reflexivity]. cbn.
        apply correct_finite_causal; [exact F|exact (va_pure _ V _ Hc)|]. apply C; [exact Hc|]. apply finite_spec. exact F.
  Qed.

  Lemma check_move_spec before after k : check_move W before after k = true <->
    valid (m_cells after) /\ causal (label_of W after) (m_cells after) /\
    m_radius after = m_radius before /\ m_spacing after = m_spacing before /\
    max_time_m W after = max_time_m W before /\ min_time_m W after = min_time_m W before /\
    exists d, move_delta k = Some d /\ geometry_m W after = geometry_plus (geometry_m W before) d.
  Proof.
    unfold check_move, same_configuration_value. rewrite <- Logic.and_assoc, <- structurally_correct_spec.
    destruct (is_structurally_correct W after); cbn [negb orb]; [|split; [discriminate|intros [? _]; discriminate]].
    destruct (bool_decide (m_radius after = m_radius before)) eqn:E1; cbn [negb orb];
      [apply bool_decide_eq_true in E1|apply bool_decide_eq_false in E1; split; [discriminate|intros (_ & ? & _); contradiction]].
    destruct (bool_decide (m_spacing after = m_spacing before)) eqn:E2; cbn [negb orb];
      [apply bool_decide_eq_true in E2|apply bool_decide_eq_false in E2; split; [discriminate|intros (_ & _ & ? & _); contradiction]].
    set (a := geometry_m W after). set (b := geometry_m W before).
    assert (A : gN3_31_13 a = gN3_31 a + gN3_13 a) by reflexivity.
    assert (B : gN3_31_13 b = gN3_31 b + gN3_13 b) by reflexivity.
    clearbody a b. unfold move_delta.
    assert (G : forall d, geometry_plus d geometry_zero = d -> a = geometry_plus b d <->
      gN3 a = gN3 b + gN3 d /\ gN3_31 a = gN3_31 b + gN3_31 d /\ gN3_22 a = gN3_22 b + gN3_22 d /\ gN3_13 a = gN3_13 b + gN3_13 d /\
      gN2 a = gN2 b + gN2 d /\ gN1 a = gN1 b + gN1 d /\ gN1_TL a = gN1_TL b + gN1_TL d /\ gN1_SL a = gN1_SL b + gN1_SL d /\
      gN0 a = gN0 b + gN0 d /\ gN3_31_13 a = gN3_31_13 b + gN3_31_13 d).
    { intros d _. split.
      - intros ->. destruct b, d. cbn. tauto.
      - intros H. destruct a, b, d. unfold geometry_plus. cbn in *. f_equal; tauto. }
    destruct (k =? FOUR_FOUR) eqn:K4.
    { apply Z.eqb_eq in K4 as ->. cbn [Z.eqb].
      change (FOUR_FOUR =? TWO_THREE) with false; change (FOUR_FOUR =? THREE_TWO) with false;
        change (FOUR_FOUR =? TWO_SIX) with false; change (FOUR_FOUR =? SIX_TWO) with false. cbn iota. cbn [Z.eqb Pos.eqb FOUR_FOUR].
      rewrite !andb_true_iff, !Z.eqb_eq. split.
      - intros H. repeat (split; [tauto|]). eexists. split; [reflexivity|]. apply G; [reflexivity|]. cbn. lia.
      - intros (_ & _ & _ & H1 & H2 & d & [= <-] & H). apply G in H; [|reflexivity]. cbn in H. lia. }
    destruct (k =? TWO_THREE) eqn:K1.
    { rewrite !andb_true_iff, !Z.eqb_eq. split.
      - intros H. repeat (split; [tauto|]). eexists. split; [reflexivity|]. apply G; [reflexivity|]. cbn. lia.
      - intros (_ & _ & _ & H1 & H2 & d & [= <-] & H). apply G in H; [|reflexivity]. cbn in H. lia. }
    destruct (k =? THREE_TWO) eqn:K2.
    { rewrite !andb_true_iff, !Z.eqb_eq. split.
      - intros H. repeat (split; [tauto|]). eexists. split; [reflexivity|]. apply G; [reflexivity|]. cbn. lia.
      - intros (_ & _ & _ & H1 & H2 & d & [= <-] & H). apply G in H; [|reflexivity]. cbn in H. lia. }
    destruct (k =? TWO_SIX) eqn:K3.
    { rewrite !andb_true_iff, !Z.eqb_eq. split.
      - intros H. repeat (split; [tauto|]). eexists. split; [reflexivity|]. apply G; [reflexivity|]. cbn. lia.
      - intros (_ & _ & _ & H1 & H2 & d & [= <-] & H). apply G in H; [|reflexivity]. cbn in H. lia. }
    destruct (k =? SIX_TWO) eqn:K5.
    { rewrite !andb_true_iff, !Z.eqb_eq. split.
      - intros H. repeat (split; [tauto|]). eexists. split; [reflexivity|]. apply G; [reflexivity|]. cbn. lia.
      - intros (_ & _ & _ & H1 & H2 & d & [= <-] & H). apply G in H; [|reflexivity]. cbn in H. lia. }
    split; [discriminate|]. intros (_ & _ & _ & _ & _ & d & H & _). discriminate.
  Qed.

  (** A sound move on a causal manifold passes. *)
  Lemma sound_passes m T' k : causal (label_of W m) (m_cells m) ->
    sound_move (label_of W m) k (m_cells m) T' ->
    check_move W m (mkManifold T' (m_radius m) (m_spacing m)) k = true.
  Proof.
    intros C [S1 S2 S3 S4 S5]. apply check_move_spec. cbn. repeat (split; [tauto|]). exact S1.
  Qed.
End Facts.
