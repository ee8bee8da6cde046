(** Facts about Repair.v. *)
From Verif Require Import Base Config Foliation Repair FoliationSpec.
From Coq Require Import QArith Qround Lqa.
From stdpp Require Import fin_sets gmap sorting.
From Verif Require Import Foliation Repair FoliationSpec.
Local Open Scope Z_scope.

(** ** Monadic helpers *)
Lemma filterM_val {A} (p : A -> checked bool) (q : A -> bool) l :
  (forall x, In x l -> p x = Val (q x)) -> filterM p l = Val (List.filter q l).
Proof.
  induction l as [|x l IH]; intros H; [reflexivity|]. cbn [filterM List.filter].
  rewrite (H x) by (left; reflexivity). cbn [bind]. rewrite IH by (intros y Hy; apply H; right; exact Hy).
  cbn [bind]. reflexivity.
Qed.
Lemma filterM_undef {A} (p : A -> checked bool) l :
  (forall x, In x l -> p x = Undef \/ exists b, p x = Val b) -> (exists x, In x l /\ p x = Undef) -> filterM p l = Undef.
Proof.
  induction l as [|x l IH]; intros H (y & Hy & E); [destruct Hy|]. cbn [filterM].
  destruct (H x (or_introl eq_refl)) as [-> | [b Hb]]; [reflexivity|]. rewrite Hb. cbn [bind].
  rewrite IH; [reflexivity|intros z Hz; apply H; right; exact Hz|].
  destruct Hy as [->|Hy]; [congruence|]. eauto.
Qed.
Lemma all_ofM_val {A} (p : A -> checked bool) (q : A -> bool) l :
  (forall x, In x l -> p x = Val (q x)) -> all_ofM p l = Val (forallb q l).
Proof.
  induction l as [|x l IH]; intros H; [reflexivity|]. cbn [all_ofM forallb].
  rewrite (H x) by (left; reflexivity). cbn [bind]. destruct (q x); [|reflexivity].
  apply IH. intros y Hy. apply H. right. exact Hy.
Qed.

Section RF.
Context (expected : positive -> Z).
Context (iter : gset positive -> list positive) (Hiter : forall S, iter S ≡ₚ elements S).

(** ** Vertex repair *)
Lemma fold_write l (f : positive -> Z) v :
  fold_left (fun f v => write_v f v (expected v)) l f v = if bool_decide (v ∈ l) then expected v else f v.
Proof.
  revert f. induction l as [|w l IH]; intros f; [reflexivity|]. cbn [fold_left]. rewrite IH. unfold write_v.
  destruct (decide (v ∈ l)) as [K|K].
  - rewrite !bool_decide_eq_true_2 by (try right; assumption). reflexivity.
  - rewrite (bool_decide_eq_false_2 (v ∈ l)) by exact K. destruct (decide (v = w)) as [->|N].
    + rewrite !bool_decide_eq_true_2 by (try left; reflexivity). reflexivity.
    + rewrite !bool_decide_eq_false_2; [reflexivity| |exact N]. rewrite elem_of_cons. tauto.
Qed.

Lemma elem_vertices_of_cells d v : v ∈ get_vertices_from_cells iter (d_cells d) <-> on_cell d v.
Proof using Hiter.
  unfold get_vertices_from_cells. rewrite Hiter, elem_of_elements, elem_of_list_to_set.
  rewrite elem_of_list_In, in_concat. unfold on_cell. setoid_rewrite elem_of_list_In. reflexivity.
Qed.
Lemma elem_incorrect d v : v ∈ find_incorrect_vertices expected iter d <-> on_cell d v /\ d_vinfo d v <> expected v.
Proof using Hiter.
  unfold find_incorrect_vertices. rewrite elem_of_list_In, filter_In, <- elem_of_list_In, elem_vertices_of_cells.
  unfold is_vertex_timevalue_correct. rewrite negb_true_iff, Z.eqb_neq. intuition congruence.
Qed.

Lemma fix_vertices_spec d d' b : fix_vertices expected iter d = (d', b) ->
  d_vertices d' = d_vertices d /\ d_cells d' = d_cells d /\ d_facets d' = d_facets d /\ d_edges d' = d_edges d /\
  d_cinfo d' = d_cinfo d /\
  (forall v, on_cell d v -> d_vinfo d' v = expected v) /\
  (forall v, ~ on_cell d v -> d_vinfo d' v = d_vinfo d v) /\
  (forall v, d_vinfo d' v <> d_vinfo d v -> d_vinfo d v <> expected v) /\
  (b = true <-> exists v, on_cell d v /\ d_vinfo d v <> expected v).
Proof using Hiter.
  unfold fix_vertices. intros E. injection E as <- <-. cbn. split; [reflexivity|]. do 4 (split; [reflexivity|]).
  split; [|split; [|split]].
  - intros v Hv. rewrite fold_write. case_bool_decide as B; [reflexivity|]. rewrite elem_incorrect in B.
    destruct (Z.eq_dec (d_vinfo d v) (expected v)); [assumption|tauto].
  - intros v Hv. rewrite fold_write. case_bool_decide as B; [|reflexivity]. rewrite elem_incorrect in B. tauto.
  - intros v Hv. rewrite fold_write in Hv. case_bool_decide as B; [|congruence]. rewrite elem_incorrect in B. tauto.
  - rewrite negb_true_iff, bool_decide_eq_false. split.
    + intros N. destruct (find_incorrect_vertices expected iter d) as [|v l] eqn:E; [congruence|].
      exists v. apply elem_incorrect. rewrite E. left.
    + intros (v & Hv) E. apply elem_incorrect in Hv. rewrite E in Hv. inversion Hv.
Qed.

Lemma fix_vertices_again d d' b d'' b' : fix_vertices expected iter d = (d', b) -> fix_vertices expected iter d' = (d'', b') ->
  b' = false /\ d_cells d'' = d_cells d' /\ d_vertices d'' = d_vertices d' /\ d_cinfo d'' = d_cinfo d' /\
  forall v, d_vinfo d'' v = d_vinfo d' v.
Proof using Hiter.
  intros H1 H2. apply fix_vertices_spec in H1 as (V & C & F & E & I & A & B & X & Y).
  apply fix_vertices_spec in H2 as (V' & C' & F' & E' & I' & A' & B' & X' & Y').
  assert (K : forall v, on_cell d' v -> d_vinfo d' v = expected v).
  { intros v (c & Hc & Hv). apply A. exists c. rewrite <- C. auto. }
  split; [|split; [exact C'|split; [exact V'|split; [exact I'|]]]].
  - destruct b'; [|reflexivity]. destruct (proj1 Y' eq_refl) as (v & Hv & N). exfalso. apply N, K, Hv.
  - intros v. destruct (Z.eq_dec (d_vinfo d'' v) (d_vinfo d' v)) as [Z|Z]; [exact Z|]. exfalso.
    assert (N : ~ ~ on_cell d' v) by (intros K2; apply Z, B', K2).
    apply N. intros O. apply Z. rewrite (A' v O), (K v O). reflexivity.
Qed.

(** ** Cell repair *)
(** No signed overflow when classifying the cells. *)
Definition cells_defined (d : delaunay) : Prop := forall c, c ∈ d_cells d -> cell_type_defined (times (d_vinfo d) c) = true.
Definition cell_class (d : delaunay) (c : list positive) : Z := classify (times (d_vinfo d) c).
Definition correct_cell (d : delaunay) (c : list positive) : bool :=
  negb (cell_class d c =? ACAUSAL) && negb (cell_class d c =? UNCLASSIFIED) && (cell_class d c =? d_cinfo d c).

Lemma expected_cell_type_val d c : cells_defined d -> In c (d_cells d) -> expected_cell_type d c = Val (cell_class d c).
Proof using. intros H I. unfold expected_cell_type. rewrite (H c) by (apply elem_of_list_In; exact I). reflexivity. Qed.
Lemma is_correct_val d c : cells_defined d -> In c (d_cells d) -> is_cell_type_correct d c = Val (correct_cell d c).
Proof using. intros H I. unfold is_cell_type_correct. rewrite expected_cell_type_val by assumption. reflexivity. Qed.
Lemma find_incorrect_cells_val d : cells_defined d ->
  find_incorrect_cells d = Val (List.filter (fun c => negb (correct_cell d c)) (d_cells d)).
Proof using. intros H. apply filterM_val. intros c I. rewrite is_correct_val by assumption. reflexivity. Qed.
Lemma check_cells_val d : cells_defined d -> check_cells d = Val (forallb (correct_cell d) (d_cells d)).
Proof using. intros H. apply all_ofM_val. intros c I. apply is_correct_val; assumption. Qed.

Lemma write_cells_val d l f : cells_defined d -> (forall c, In c l -> In c (d_cells d)) ->
  exists g, write_cells d l f = Val g /\
    forall c, g c = if bool_decide (c ∈ l) then cell_class d c else f c.
Proof using.
  intros H. revert f. induction l as [|c l IH]; intros f I.
  - exists f. split; [reflexivity|]. intros c. reflexivity.
  - cbn [write_cells]. rewrite expected_cell_type_val by (auto; apply I; left; reflexivity). cbn [bind].
    destruct (IH (write_c f c (cell_class d c))) as (g & E & G); [intros x Hx; apply I; right; exact Hx|].
    exists g. split; [exact E|]. intros x. rewrite G. unfold write_c.
    destruct (decide (x ∈ l)) as [K|K].
    + rewrite !bool_decide_eq_true_2 by (try right; assumption). reflexivity.
    + rewrite (bool_decide_eq_false_2 (x ∈ l)) by exact K. destruct (decide (x = c)) as [->|N].
      * rewrite !bool_decide_eq_true_2 by (try left; reflexivity). reflexivity.
      * rewrite !bool_decide_eq_false_2; [reflexivity| |exact N]. rewrite elem_of_cons. tauto.
Qed.

Lemma correct_cell_class d c : correct_cell d c = true -> d_cinfo d c = cell_class d c.
Proof using. unfold correct_cell. rewrite !andb_true_iff. intros [_ E]. apply Z.eqb_eq in E. congruence. Qed.
Lemma correct_cell_iff d c : length c = 4%nat ->
  correct_cell d c = true <-> cell_class d c <> ACAUSAL /\ d_cinfo d c = cell_class d c.
Proof using.
  intros L. unfold correct_cell. rewrite !andb_true_iff, !negb_true_iff, !Z.eqb_neq, Z.eqb_eq.
  assert (N : cell_class d c <> UNCLASSIFIED).
  { unfold cell_class. destruct (classify_total (times (d_vinfo d) c)) as [E|E].
    - unfold times. rewrite map_length. exact L.
    - rewrite E. discriminate.
    - intros K. rewrite K in E. discriminate. }
  intuition congruence.
Qed.
Definition four (d : delaunay) : Prop := forall c, c ∈ d_cells d -> length c = 4%nat.

Lemma fix_cells_spec d : cells_defined d -> four d ->
  exists d' b, fix_cells d = Val (d', b) /\
    d_vertices d' = d_vertices d /\ d_cells d' = d_cells d /\ d_facets d' = d_facets d /\ d_edges d' = d_edges d /\
    d_vinfo d' = d_vinfo d /\
    (forall c, c ∈ d_cells d -> d_cinfo d' c = cell_class d c) /\
    (forall c, c ∉ d_cells d -> d_cinfo d' c = d_cinfo d c) /\
    (b = true <-> exists c, c ∈ d_cells d /\ (d_cinfo d c <> cell_class d c \/ cell_class d c = ACAUSAL)).
Proof using.
  intros H F4. unfold fix_cells. rewrite find_incorrect_cells_val by exact H. cbn [bind].
  destruct (write_cells_val d (List.filter (fun c => negb (correct_cell d c)) (d_cells d)) (d_cinfo d) H) as (g & E & G).
  { intros c Hc. apply filter_In in Hc. tauto. }
  rewrite E. cbn [bind]. eexists _, _. split; [reflexivity|]. cbn. do 5 (split; [reflexivity|]).
  assert (M : forall c, c ∈ List.filter (fun c => negb (correct_cell d c)) (d_cells d) <-> c ∈ d_cells d /\ correct_cell d c = false).
  { intros c. rewrite elem_of_list_In, filter_In, <- elem_of_list_In, negb_true_iff. reflexivity. }
  split; [|split].
  - intros c Hc. rewrite G. case_bool_decide as B; [reflexivity|]. rewrite M in B.
    apply correct_cell_class. destruct (correct_cell d c); tauto.
  - intros c Hc. rewrite G. case_bool_decide as B; [|reflexivity]. rewrite M in B. tauto.
  - rewrite negb_true_iff, bool_decide_eq_false. split.
    + intros N. destruct (List.filter _ (d_cells d)) as [|c l] eqn:EF; [congruence|].
      destruct (proj1 (M c)) as [Hc K]; [left|]. exists c. split; [exact Hc|].
      pose proof (correct_cell_iff d c (F4 c Hc)) as CI. rewrite K in CI.
      destruct (Z.eq_dec (cell_class d c) ACAUSAL) as [A|A]; [tauto|].
      destruct (Z.eq_dec (d_cinfo d c) (cell_class d c)) as [A2|A2]; [|tauto].
      exfalso. assert (false = true) by (apply CI; auto). discriminate.
    + intros (c & Hc & K) EF. assert (I : c ∈ List.filter (fun c => negb (correct_cell d c)) (d_cells d)).
      { apply M. split; [exact Hc|]. destruct (correct_cell d c) eqn:Q; [|reflexivity].
        apply correct_cell_iff in Q; [|apply F4, Hc]. tauto. }
      rewrite EF in I. inversion I.
Qed.

(** Repeating the repair: classes stay, an acausal cell is reported each time. *)
Lemma iterate_fix_cells_spec n d : (2 <= n)%nat -> cells_defined d -> four d ->
  exists d' b, iterate_fix_cells n d = Val (d', b) /\ d_cells d' = d_cells d /\ d_vinfo d' = d_vinfo d /\
    (forall c, c ∈ d_cells d -> d_cinfo d' c = cell_class d c) /\
    (b = true <-> exists c, c ∈ d_cells d /\ cell_class d c = ACAUSAL).
Proof using.
  intros Hn. revert d. induction n as [|n IH]; intros d H F4; [lia|].
  destruct n as [|n]; [lia|].
  destruct (fix_cells_spec d H F4) as (d1 & b1 & E1 & V1 & C1 & _ & _ & I1 & K1 & O1 & B1).
  assert (CC : forall c, cell_class d1 c = cell_class d c) by (intros c; unfold cell_class; rewrite I1; reflexivity).
  assert (H1 : cells_defined d1) by (unfold cells_defined; rewrite C1, I1; exact H).
  assert (F1 : four d1) by (unfold four; rewrite C1; exact F4).
  destruct n as [|n].
  - cbn [iterate_fix_cells]. rewrite E1. cbn [bind fst].
    destruct (fix_cells_spec d1 H1 F1) as (d2 & b2 & E2 & V2 & C2 & _ & _ & I2 & K2 & O2 & B2).
    exists d2, b2. split; [exact E2|]. split; [congruence|]. split; [congruence|]. split.
    + intros c Hc. rewrite K2 by (rewrite C1; exact Hc). apply CC.
    + rewrite B2, C1. split; intros (c & Hc & K); exists c; (split; [exact Hc|]).
      * rewrite CC in K. rewrite (K1 c Hc) in K. tauto.
      * right. rewrite CC. exact K.
  - change (iterate_fix_cells (S (S (S n))) d) with (let! r := fix_cells d in iterate_fix_cells (S (S n)) (fst r)).
    rewrite E1. cbn [bind fst]. destruct (IH ltac:(lia) d1 H1 F1) as (d2 & b2 & E2 & C2 & I2 & K2 & B2).
    exists d2, b2. split; [exact E2|]. split; [congruence|]. split; [congruence|]. split.
    + intros c Hc. rewrite K2 by (rewrite C1; exact Hc). apply CC.
    + rewrite B2, C1. setoid_rewrite CC. reflexivity.
Qed.

(** The only other outcome is undefined behaviour, exactly when a cell's times
    are too far apart. *)
Lemma fix_cells_undef d : (exists c, c ∈ d_cells d /\ cell_type_defined (times (d_vinfo d) c) = false) -> fix_cells d = Undef.
Proof using.
  intros (c & Hc & U). unfold fix_cells, find_incorrect_cells. rewrite filterM_undef; [reflexivity| |].
  - intros x Hx. unfold is_cell_type_correct, expected_cell_type. destruct (cell_type_defined (times (d_vinfo d) x)); [right; eexists|left]; reflexivity.
  - exists c. split; [apply elem_of_list_In; exact Hc|]. unfold is_cell_type_correct, expected_cell_type. rewrite U. reflexivity.
Qed.

(** Times in a half-range cannot overflow. *)
Lemma defined_of_range vi (c : list positive) : c <> [] -> (forall v, v ∈ c -> 0 <= vi v <= INT32_MAX) ->
  cell_type_defined (times vi c) = true.
Proof using.
  intros N H. unfold cell_type_defined. apply in_int32b_spec. unfold in_int32, INT32_MIN, INT32_MAX in *.
  assert (NE : times vi c <> []) by (destruct c; [congruence|discriminate]).
  destruct (list_max_In _ NE) as [M _]. destruct (list_min_In _ NE) as [m _].
  unfold times in M at 2. unfold times in m at 2. apply elem_of_list_fmap in M as (x & M & Hx). apply elem_of_list_fmap in m as (y & m & Hy).
  apply H in Hx, Hy. lia.
Qed.

(** ** Removal of badly placed vertices *)
Definition invalid_cell (d : delaunay) (c : list positive) : bool :=
  (cell_class d c =? ACAUSAL) || (cell_class d c =? UNCLASSIFIED).
Lemma find_invalid_val d : cells_defined d -> find_invalid_timevalue_cells d = Val (List.filter (invalid_cell d) (d_cells d)).
Proof using. intros H. apply filterM_val. intros c I. rewrite expected_cell_type_val by assumption. reflexivity. Qed.
Lemma has_valid_iff d : cells_defined d -> four d ->
  exists b, has_valid_timevalues d = Val b /\ (b = true <-> forall c, c ∈ d_cells d -> causal_type (cell_class d c) = true).
Proof using.
  intros H F4. unfold has_valid_timevalues. rewrite find_invalid_val by exact H. cbn [bind]. eexists. split; [reflexivity|].
  rewrite bool_decide_eq_true. split.
  - intros E c Hc. destruct (classify_total (times (d_vinfo d) c)) as [A|A]; [unfold times; rewrite map_length; apply F4, Hc| |exact A].
    assert (I : In c (List.filter (invalid_cell d) (d_cells d))).
    { apply filter_In. split; [apply elem_of_list_In, Hc|]. unfold invalid_cell, cell_class. rewrite A. reflexivity. }
    rewrite E in I. destruct I.
  - intros A. destruct (List.filter (invalid_cell d) (d_cells d)) as [|c l] eqn:E; [reflexivity|].
    assert (I : In c (List.filter (invalid_cell d) (d_cells d))) by (rewrite E; left; reflexivity).
    apply filter_In in I as [I K]. apply elem_of_list_In in I. specialize (A c I). unfold invalid_cell in K.
    apply orb_true_iff in K as [K|K]; apply Z.eqb_eq in K; rewrite K in A; discriminate.
Qed.

Lemma last_in {A} (l : list A) x : l <> [] -> In (List.last l x) l.
Proof using.
  induction l as [|y l IH]; [congruence|]. intros _. destruct l as [|z l]; [left; reflexivity|].
  right. change (In (List.last (z :: l) x) (z :: l)). apply IH. discriminate.
Qed.

(** The selected vertex belongs to the cell and carries its extreme time. *)
Lemma bad_vertex_spec d c : c <> [] -> find_bad_vertex d c ∈ c /\
  ((d_vinfo d (find_bad_vertex d c) = list_max (times (d_vinfo d) c) /\
    count_eq (list_max (times (d_vinfo d) c)) (times (d_vinfo d) c) <= count_eq (list_min (times (d_vinfo d) c)) (times (d_vinfo d) c)) \/
   (d_vinfo d (find_bad_vertex d c) = list_min (times (d_vinfo d) c) /\
    count_eq (list_min (times (d_vinfo d) c)) (times (d_vinfo d) c) < count_eq (list_max (times (d_vinfo d) c)) (times (d_vinfo d) c))).
Proof using.
  intros N. assert (NE : times (d_vinfo d) c <> []) by (destruct c; [congruence|discriminate]).
  unfold find_bad_vertex. destruct (list_max_In _ NE) as [M _]. destruct (list_min_In _ NE) as [m _].
  destruct (Z.leb_spec (count_eq (list_max (times (d_vinfo d) c)) (times (d_vinfo d) c))
    (count_eq (list_min (times (d_vinfo d) c)) (times (d_vinfo d) c))) as [L|L].
  - assert (K : List.filter (fun v => d_vinfo d v =? list_max (times (d_vinfo d) c)) c <> []).
    { unfold times in M at 2. apply elem_of_list_fmap in M as (x & E & Hx). intros EF.
      assert (In x (List.filter (fun v => d_vinfo d v =? list_max (times (d_vinfo d) c)) c)).
      { apply filter_In. split; [apply elem_of_list_In, Hx|]. apply Z.eqb_eq. congruence. }
      rewrite EF in H. destruct H. }
    pose proof (last_in _ 1%positive K) as I. apply filter_In in I as [I1 I2]. apply Z.eqb_eq in I2.
    split; [apply elem_of_list_In; exact I1|]. left. split; [exact I2|exact L].
  - assert (K : List.filter (fun v => d_vinfo d v =? list_min (times (d_vinfo d) c)) c <> []).
    { unfold times in m at 2. apply elem_of_list_fmap in m as (x & E & Hx). intros EF.
      assert (In x (List.filter (fun v => d_vinfo d v =? list_min (times (d_vinfo d) c)) c)).
      { apply filter_In. split; [apply elem_of_list_In, Hx|]. apply Z.eqb_eq. congruence. }
      rewrite EF in H. destruct H. }
    destruct (List.filter _ c) as [|y l] eqn:EF; [congruence|].
    assert (I : In y (List.filter (fun v => d_vinfo d v =? list_min (times (d_vinfo d) c)) c)) by (rewrite EF; left; reflexivity).
    apply filter_In in I as [I1 I2]. apply Z.eqb_eq in I2.
    split; [apply elem_of_list_In; exact I1|]. right. split; [exact I2|lia].
Qed.


Context (remove : delaunay -> gset positive -> delaunay) (HR : removes remove).

Definition times_in_range (d : delaunay) : Prop := forall v, v ∈ d_vertices d -> 0 <= d_vinfo d v <= INT32_MAX.
Lemma range_defined d : wf d -> times_in_range d -> cells_defined d.
Proof using.
  intros [_ W] T c Hc. destruct (W c Hc) as (L & _ & V). apply defined_of_range; [destruct c; discriminate|].
  intros v Hv. apply T, V, Hv.
Qed.
Lemma wf_four d : wf d -> four d.
Proof using. intros [_ W] c Hc. apply (W c Hc). Qed.

Lemma fix_timevalues_spec d : wf d -> times_in_range d ->
  exists d' b, fix_timevalues remove d = Val (d', b) /\ wf d' /\ times_in_range d' /\
    (forall v, v ∈ d_vertices d' -> v ∈ d_vertices d /\ d_vinfo d' v = d_vinfo d v) /\
    (b = false -> d' = d /\ has_valid_timevalues d = Val true) /\
    (b = true -> has_valid_timevalues d = Val false /\ (length (d_vertices d') < length (d_vertices d))%nat).
Proof using HR.
  clear Hiter iter expected. intros W T. pose proof (range_defined d W T) as DF. unfold fix_timevalues, has_valid_timevalues.
  rewrite find_invalid_val by exact DF. cbn [bind].
  destruct (List.filter (invalid_cell d) (d_cells d)) as [|c l] eqn:E.
  - rewrite bool_decide_eq_true_2 by reflexivity. exists d, false. split; [reflexivity|]. split; [exact W|]. split; [exact T|]. split; [auto|].
    split; [intros _; split; reflexivity|discriminate].
  - rewrite bool_decide_eq_false_2 by discriminate.
    set (S := list_to_set (map (find_bad_vertex d) (c :: l)) : gset positive).
    destruct (HR d S W) as (W' & V' & I'). exists (remove d S), true.
    split; [reflexivity|]. split; [exact W'|].
    assert (VV : forall v, v ∈ d_vertices (remove d S) -> v ∈ d_vertices d /\ d_vinfo (remove d S) v = d_vinfo d v).
    { intros v Hv. split; [apply V' in Hv; tauto|apply I', Hv]. }
    split; [intros v Hv; destruct (VV v Hv) as [A ->]; apply T, A|]. split; [exact VV|].
    split; [discriminate|]. intros _. split; [reflexivity|].
    assert (I : In c (d_cells d)).
    { assert (In c (List.filter (invalid_cell d) (d_cells d))) by (rewrite E; left; reflexivity). apply filter_In in H. tauto. }
    destruct W as [ND W]. destruct (W c) as (L & _ & V); [apply elem_of_list_In; exact I|].
    destruct (bad_vertex_spec d c) as [B _]; [destruct c; discriminate|].
    set (x := find_bad_vertex d c) in *.
    assert (XS : x ∈ S) by (unfold S; apply elem_of_list_to_set; left).
    assert (SUB : forall v, v ∈ x :: d_vertices (remove d S) -> v ∈ d_vertices d).
    { intros v Hv. apply elem_of_cons in Hv as [->|Hv]; [apply V, B|apply V' in Hv; tauto]. }
    assert (NDx : NoDup (x :: d_vertices (remove d S))).
    { constructor; [|exact (proj1 W')]. intros K. apply V' in K. tauto. }
    assert (length (x :: d_vertices (remove d S)) <= length (d_vertices d))%nat as LE; [|cbn [length] in LE; exact LE].
    apply NoDup_incl_length; [apply NoDup_ListNoDup; exact NDx|]. intros v Hv. apply elem_of_list_In, SUB, elem_of_list_In, Hv.
Qed.

Lemma passes_timevalues n d : wf d -> times_in_range d ->
  exists d', passes n (fix_timevalues remove) d = Val d' /\ wf d' /\ times_in_range d' /\
    (forall v, v ∈ d_vertices d' -> v ∈ d_vertices d /\ d_vinfo d' v = d_vinfo d v) /\
    (has_valid_timevalues d' = Val true \/ (length (d_vertices d') + n <= length (d_vertices d))%nat).
Proof using HR.
  revert d. induction n as [|n IH]; intros d W T.
  - exists d. split; [reflexivity|]. split; [exact W|]. split; [exact T|]. split; [auto|]. right. lia.
  - cbn [passes]. destruct (fix_timevalues_spec d W T) as (d1 & b & E & W1 & T1 & V1 & B0 & B1). rewrite E. cbn [bind fst snd].
    destruct b.
    + destruct (IH d1 W1 T1) as (d2 & E2 & W2 & T2 & V2 & K). exists d2. split; [exact E2|]. split; [exact W2|]. split; [exact T2|].
      split.
      { intros v Hv. destruct (V2 v Hv) as [A ->]. destruct (V1 v A) as [A' ->]. auto. }
      destruct K as [K|K]; [left; exact K|]. right. destruct (B1 eq_refl) as [_ L]. lia.
    + destruct (B0 eq_refl) as [-> HV]. exists d. split; [reflexivity|]. split; [exact W|]. split; [exact T|]. split; [exact V1|left; exact HV].
Qed.

Lemma valid_of_few d : wf d -> times_in_range d -> (length (d_vertices d) < 4)%nat -> has_valid_timevalues d = Val true.
Proof using.
  intros W T L. destruct (has_valid_iff d (range_defined d W T) (wf_four d W)) as (b & E & B). rewrite E. f_equal.
  apply B. intros c Hc. exfalso. destruct W as [ND W]. destruct (W c Hc) as (L4 & NDc & V).
  assert (length c <= length (d_vertices d))%nat; [|lia].
  apply NoDup_incl_length; [apply NoDup_ListNoDup; exact NDc|]. intros v Hv. apply elem_of_list_In, V, elem_of_list_In, Hv.
Qed.

Lemma passes_vertices n d : (2 <= n)%nat -> exists d', passes n (fun d => Val (fix_vertices expected iter d)) d = Val d' /\
  d_vertices d' = d_vertices d /\ d_cells d' = d_cells d /\
  (forall v, on_cell d v -> d_vinfo d' v = expected v) /\ (forall v, ~ on_cell d v -> d_vinfo d' v = d_vinfo d v).
Proof using Hiter.
  intros Hn. destruct n as [|[|n]]; try lia. cbn [passes bind].
  destruct (fix_vertices expected iter d) as [d1 b1] eqn:E1. cbn [fst snd].
  pose proof (fix_vertices_spec _ _ _ E1) as (V1 & C1 & _ & _ & _ & A1 & O1 & _ & _).
  destruct b1.
  - destruct (fix_vertices expected iter d1) as [d2 b2] eqn:E2. cbn [fst snd].
    destruct (fix_vertices_again _ _ _ _ _ E1 E2) as (-> & C2 & V2 & _ & I2).
    exists d2. split; [reflexivity|]. split; [congruence|]. split; [congruence|].
    split; intros v Hv; rewrite I2; auto.
  - exists d1. auto.
Qed.

Lemma passes_cells n d : (1 <= n)%nat -> cells_defined d -> four d ->
  exists d', passes n fix_cells d = Val d' /\ d_vertices d' = d_vertices d /\ d_cells d' = d_cells d /\ d_vinfo d' = d_vinfo d /\
    (forall c, c ∈ d_cells d -> d_cinfo d' c = cell_class d c).
Proof using.
  revert d. induction n as [|n IH]; intros d Hn H F4; [lia|]. cbn [passes].
  destruct (fix_cells_spec d H F4) as (d1 & b1 & E1 & V1 & C1 & _ & _ & I1 & K1 & O1 & B1). rewrite E1. cbn [bind fst snd].
  destruct b1.
  - destruct n as [|n].
    + exists d1. auto.
    + destruct (IH d1) as (d2 & E2 & V2 & C2 & I2 & K2); [lia|unfold cells_defined; rewrite C1, I1; exact H|unfold four; rewrite C1; exact F4|].
      exists d2. split; [exact E2|]. split; [congruence|]. split; [congruence|]. split; [congruence|].
      intros c Hc. rewrite K2 by (rewrite C1; exact Hc). unfold cell_class. rewrite I1. reflexivity.
  - exists d1. auto.
Qed.


Lemma has_valid_same d d' : d_cells d' = d_cells d -> d_vinfo d' = d_vinfo d -> has_valid_timevalues d' = has_valid_timevalues d.
Proof using.
  intros C I. unfold has_valid_timevalues, find_invalid_timevalue_cells, expected_cell_type. rewrite C, I. reflexivity.
Qed.

Lemma repair_spec d : wf d -> covered d -> (forall v, v ∈ d_vertices d -> 0 <= expected v <= INT32_MAX) ->
  exists d', repair expected iter remove false d = Val (Some d') /\ wf d' /\
    (forall v, v ∈ d_vertices d' -> v ∈ d_vertices d /\ d_vinfo d' v = expected v) /\
    (forall c, c ∈ d_cells d' -> d_cinfo d' c = cell_class d' c) /\
    (exists b, has_valid_timevalues d' = Val b /\
      (b = true <-> forall c, c ∈ d_cells d' -> causal_type (d_cinfo d' c) = true) /\
      (b = false -> (length (d_vertices d') + 50 <= length (d_vertices d))%nat) /\
      ((length (d_vertices d) < 54)%nat -> b = true) /\
      (repair expected iter remove true d = Val (if b then Some d' else None))).
Proof using Hiter HR.
  intros W CV EX. unfold repair, MAX_FIX_PASSES.
  destruct (passes_vertices 50 d ltac:(lia)) as (d1 & E1 & V1 & C1 & A1 & O1). rewrite E1. cbn [bind].
  assert (W1 : wf d1) by (unfold wf; rewrite V1, C1; exact W).
  assert (T1 : times_in_range d1).
  { intros v Hv. rewrite V1 in Hv. rewrite A1 by (apply CV, Hv). apply EX, Hv. }
  destruct (passes_timevalues 50 d1 W1 T1) as (d2 & E2 & W2 & T2 & V2 & K2). rewrite E2. cbn [bind].
  pose proof (range_defined d2 W2 T2) as DF2. pose proof (wf_four d2 W2) as F2.
  destruct (passes_cells 50 d2 ltac:(lia) DF2 F2) as (d3 & E3 & V3 & C3 & I3 & K3). rewrite E3. cbn [bind].
  assert (HV : has_valid_timevalues d3 = has_valid_timevalues d2) by (apply has_valid_same; assumption).
  exists d3. split; [reflexivity|]. split; [unfold wf; rewrite V3, C3; exact W2|]. split; [|split].
  - intros v Hv. rewrite V3 in Hv. destruct (V2 v Hv) as [A I]. rewrite V1 in A. split; [exact A|].
    rewrite I3, I. apply A1, CV, A.
  - intros c Hc. rewrite C3 in Hc. rewrite K3 by exact Hc. unfold cell_class. rewrite I3. reflexivity.
  - destruct (has_valid_iff d2 DF2 F2) as (b & EB & B). exists b. split; [congruence|]. split; [|split; [|split]].
    + rewrite B, C3. split; intros H c Hc; [rewrite K3 by exact Hc|rewrite <- K3 by exact Hc]; apply H, Hc.
    + intros ->. destruct K2 as [K2|K2]; [congruence|]. rewrite V3, <- V1. exact K2.
    + intros L. destruct K2 as [K2|K2]; [congruence|].
      assert (has_valid_timevalues d2 = Val true); [|congruence]. apply valid_of_few; auto. rewrite V1 in K2. lia.
    + rewrite HV, EB. cbn [bind]. reflexivity.
Qed.
End RF.
