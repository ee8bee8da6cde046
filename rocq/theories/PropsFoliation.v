(** Theorems about labelling, repair and the containers of a foliated
    triangulation (C23 construction, C54-C57, C59, C63, C64). Vocabulary:
    FoliationSpec.v. [expected v] is the time the code computes for a vertex;
    [iter] is the iteration order of a std::unordered_set. *)
From Verif Require Import Base Config Foliation Repair FoliationSpec RepairFacts FoliationFacts FoliationProps FoliationProps2 RepairSample.
From Coq Require Import QArith Qabs.
From stdpp Require Import fin_sets gmap.
From Verif Require Import Foliation Repair FoliationSpec.
Local Open Scope Z_scope.

(** ** C23: construction *)
Theorem C23_construction : forall expected d, well_formed d -> d_vertices d <> [] -> no_overflow expected d ->
  exists f, construct expected d = Val f /\ reports expected d f.
Proof. intros expected d W N O. destruct (construct_spec expected d W N O) as (f & E & R & _). exists f. split; [exact E|exact R]. Qed.
Print Assumptions C23_construction.
Theorem C23_construction_refused : forall expected d,
  (d_vertices d = [] -> construct expected d = Throws InvalidArgument) /\
  (well_formed d -> d_vertices d <> [] -> ~ no_overflow expected d -> construct expected d = Undef).
Proof. exact (fun expected d => conj (construct_empty expected d) (construct_undef expected d)). Qed.
Print Assumptions C23_construction_refused.
Theorem C23_construction_partition : forall expected d f, well_formed d -> construct expected d = Val f ->
  (length (f_three_one f) + length (f_two_two f) + length (f_one_three f) = length (f_cells f))%nat <->
  (forall c, c ∈ d_cells d -> causal_cell expected c).
Proof.
  intros expected d f W E. destruct (construct_inv expected d f W E) as (_ & _ & R & _).
  rewrite <- (no_acausal_iff expected d f W R), (proj2 (r_cells _ _ _ R)). pose proof (counts_acausal expected d f W R). lia.
Qed.
Print Assumptions C23_construction_partition.
Example C23_construction_example : exists f, construct sample_label sample_delaunay = Val f /\
  f_three_one f = [[2; 3; 4; 5]]%positive /\ f_two_two f = [[3; 4; 5; 6]]%positive /\ f_one_three f = [] /\
  length (f_timelike_edges f) = 5%nat /\ length (f_spacelike_edges f) = 4%nat /\ f_min f = 1 /\ f_max f = 2.
Proof. eexists. split; [vm_compute; reflexivity|]. repeat split; vm_compute; reflexivity. Qed.

(** ** C54 *)
Theorem C54_vertex_repair_exact : forall expected iter, (forall S, iter S ≡ₚ elements S) -> forall d d' b,
  fix_vertices expected iter d = (d', b) ->
  d_vertices d' = d_vertices d /\ d_cells d' = d_cells d /\ d_facets d' = d_facets d /\ d_edges d' = d_edges d /\
  d_cinfo d' = d_cinfo d /\
  (forall v, on_cell d v -> d_vinfo d' v = expected v) /\
  (forall v, ~ on_cell d v -> d_vinfo d' v = d_vinfo d v) /\
  (forall v, d_vinfo d' v <> d_vinfo d v -> d_vinfo d v <> expected v) /\
  (b = true <-> exists v, on_cell d v /\ d_vinfo d v <> expected v).
Proof. exact fix_vertices_spec. Qed.
Print Assumptions C54_vertex_repair_exact.
Theorem C54_vertex_repair_idempotent : forall expected iter, (forall S, iter S ≡ₚ elements S) -> forall d d' b d'' b',
  fix_vertices expected iter d = (d', b) -> fix_vertices expected iter d' = (d'', b') ->
  b' = false /\ d_cells d'' = d_cells d' /\ d_vertices d'' = d_vertices d' /\ d_cinfo d'' = d_cinfo d' /\
  forall v, d_vinfo d'' v = d_vinfo d' v.
Proof. exact fix_vertices_again. Qed.
Print Assumptions C54_vertex_repair_idempotent.
Example C54_example : snd (fix_vertices sample_label elements sample_delaunay) = true /\
  map (d_vinfo (fst (fix_vertices sample_label elements sample_delaunay))) [2; 3; 4; 5; 6]%positive = [1; 1; 1; 2; 2].
Proof. split; vm_compute; reflexivity. Qed.

(** ** C55 *)
Theorem C55_cell_repair_exact : forall d, wf d -> no_overflow (d_vinfo d) d ->
  exists d' b, fix_cells d = Val (d', b) /\
    d_vertices d' = d_vertices d /\ d_cells d' = d_cells d /\ d_facets d' = d_facets d /\ d_edges d' = d_edges d /\
    d_vinfo d' = d_vinfo d /\
    (forall c, c ∈ d_cells d -> class_is (d_vinfo d) c (d_cinfo d' c)) /\
    (forall c, (c ∉ d_cells d \/ class_is (d_vinfo d) c (d_cinfo d c)) -> d_cinfo d' c = d_cinfo d c) /\
    (b = true <-> exists c, c ∈ d_cells d /\ (~ class_is (d_vinfo d) c (d_cinfo d c) \/ ~ causal_cell (d_vinfo d) c)).
Proof. exact fix_cells_exact. Qed.
Print Assumptions C55_cell_repair_exact.
Theorem C55_acausal_reported_forever : forall d n, (2 <= n)%nat -> wf d -> no_overflow (d_vinfo d) d ->
  exists d' b, iterate_fix_cells n d = Val (d', b) /\ d_cells d' = d_cells d /\
    (forall c, c ∈ d_cells d -> class_is (d_vinfo d) c (d_cinfo d' c)) /\
    (b = true <-> exists c, c ∈ d_cells d /\ ~ causal_cell (d_vinfo d) c).
Proof. exact fix_cells_forever. Qed.
Print Assumptions C55_acausal_reported_forever.
Theorem C55_check_cells : forall d, wf d -> no_overflow (d_vinfo d) d ->
  exists b, check_cells d = Val b /\
    (b = true <-> forall c, c ∈ d_cells d -> causal_cell (d_vinfo d) c /\ class_is (d_vinfo d) c (d_cinfo d c)).
Proof. exact check_cells_exact. Qed.
Print Assumptions C55_check_cells.
Theorem C55_overflow : forall d, wf d -> ~ no_overflow (d_vinfo d) d -> fix_cells d = Undef.
Proof. exact fix_cells_overflow. Qed.
Print Assumptions C55_overflow.
(** All vertices still carry time 7: both cells are acausal and stay so. *)
Example C55_example : wf sample_delaunay /\ no_overflow (d_vinfo sample_delaunay) sample_delaunay /\
  exists d', fix_cells sample_delaunay = Val (d', true) /\ map (d_cinfo d') (d_cells d') = [ACAUSAL; ACAUSAL] /\
    exists d'', fix_cells d' = Val (d'', true).
Proof.
  split; [apply wf_of, sample_well_formed|]. split; [intros c v w _ _ _; vm_compute; discriminate|].
  eexists. split; [vm_compute; reflexivity|]. split; [vm_compute; reflexivity|]. eexists. vm_compute. reflexivity.
Qed.
Example C55_example_causal : exists d' d'',
  fix_cells (fst (fix_vertices sample_label elements sample_delaunay)) = Val (d', true) /\
  map (d_cinfo d') (d_cells d') = [THREE_ONE; TWO_TWO] /\ fix_cells d' = Val (d'', false).
Proof. eexists _, _. split; [vm_compute; reflexivity|]. split; vm_compute; reflexivity. Qed.

(** ** C56. Full statement: the triangulation [make_triangulation] returns has
    only causal cells. Proved: for every CGAL remove() that removes exactly the
    given vertices, the result carries the right times and classes, and it is
    causal unless the 50 passes were used up, each having removed a vertex; an
    assertion-enabled build then aborts instead of returning. Missing: that 50
    passes suffice; they need not (next theorem). *)
Theorem C56_repair_partial : forall expected iter remove, (forall S, iter S ≡ₚ elements S) -> removes remove ->
  forall d, wf d -> covered d -> (forall v, v ∈ d_vertices d -> 0 <= expected v <= INT32_MAX) ->
  exists d', repair expected iter remove false d = Val (Some d') /\
    (forall v, v ∈ d_vertices d' -> v ∈ d_vertices d /\ d_vinfo d' v = expected v) /\
    (forall c, c ∈ d_cells d' -> class_is expected c (d_cinfo d' c)) /\
    ((forall c, c ∈ d_cells d' -> causal_cell expected c) /\ repair expected iter remove true d = Val (Some d') \/
     (exists c, c ∈ d_cells d' /\ ~ causal_cell expected c) /\ repair expected iter remove true d = Val None /\
     (length (d_vertices d') + 50 <= length (d_vertices d))%nat /\ (54 <= length (d_vertices d))%nat).
Proof. exact repair_outcome. Qed.
Print Assumptions C56_repair_partial.
(** A retriangulation within the contract of remove() for which a release build
    returns a triangulation with acausal cells. *)
Theorem C56_bounded_passes_refuted : removes cone_remove /\ wf tower /\ covered tower /\
  (forall v, v ∈ d_vertices tower -> 0 <= Z.pos v <= INT32_MAX) /\
  exists d', repair Z.pos elements cone_remove false tower = Val (Some d') /\ has_valid_timevalues d' = Val false /\
    length (d_vertices d') = 10%nat.
Proof.
  split; [exact cone_removes|]. split; [exact tower_wf|]. split; [exact tower_covered|]. split; [exact tower_range|]. exact tower_not_repaired.
Qed.
Print Assumptions C56_bounded_passes_refuted.

(** ** C57 *)
Theorem C57_max_time : forall (vi : positive -> Z) (l : list positive) m, find_max_timevalue vi l = Val m <->
  (exists v, v ∈ l /\ vi v = m) /\ (forall v, v ∈ l -> vi v <= m).
Proof. exact find_max_spec. Qed.
Print Assumptions C57_max_time.
Theorem C57_min_time : forall (vi : positive -> Z) (l : list positive) m, find_min_timevalue vi l = Val m <->
  (exists v, v ∈ l /\ vi v = m) /\ (forall v, v ∈ l -> m <= vi v).
Proof. exact find_min_spec. Qed.
Print Assumptions C57_min_time.
Theorem C57_empty : forall vi, find_max_timevalue vi [] = Throws InvalidArgument /\ find_min_timevalue vi [] = Throws InvalidArgument.
Proof. exact find_empty. Qed.
Print Assumptions C57_empty.
Theorem C57_slice_volume : forall expected d f t, well_formed d -> construct expected d = Val f ->
  spacelike_face_count f t = Z.of_nat (length (List.filter (facet_on expected t) (d_facets d))).
Proof. exact built_volume. Qed.
Print Assumptions C57_slice_volume.
Theorem C57_slice_members : forall vi l t,
  map snd (equal_range t (collect_spacelike_facets vi l)) = List.filter (facet_on vi t) l /\
  volume_per_timeslice vi l = collect_spacelike_facets vi l.
Proof. exact (fun vi l t => conj (volume_count vi l t) (volume_per_timeslice_same vi l)). Qed.
Print Assumptions C57_slice_members.
Theorem C57_outside : forall expected d f t, well_formed d -> construct expected d = Val f ->
  (t < f_min f \/ f_max f < t) -> spacelike_face_count f t = 0.
Proof. exact built_volume_outside. Qed.
Print Assumptions C57_outside.
Theorem C57_volumes_sum : forall expected d f, well_formed d -> construct expected d = Val f ->
  sum (map (spacelike_face_count f) (slices (f_min f) (f_max f))) = number_of_spacelike_faces f /\
  number_of_spacelike_faces f =
    Z.of_nat (length (List.filter (fun f0 => existsb (fun v => facet_on expected (expected v) f0) (d_vertices d)) (d_facets d))).
Proof. exact (fun expected d f W E => conj (built_volume_sum expected d f W E) (built_spacelike_total expected d f W E)). Qed.
Print Assumptions C57_volumes_sum.
Theorem C57_printed : forall expected d f, well_formed d -> construct expected d = Val f ->
  print_volume_per_timeslice f =
    if f_max f =? INT32_MAX then Undef
    else Val (map (fun t => (t, Z.of_nat (length (List.filter (facet_on expected t) (d_facets d))))) (slices (f_min f) (f_max f))).
Proof. exact built_printed. Qed.
Print Assumptions C57_printed.
Example C57_example : well_formed sample_delaunay /\ exists f, construct sample_label sample_delaunay = Val f /\
  print_volume_per_timeslice f = Val [(1, 1); (2, 0)] /\ number_of_spacelike_faces f = 1.
Proof. split; [exact sample_well_formed|]. eexists. split; [vm_compute; reflexivity|]. split; vm_compute; reflexivity. Qed.

(** ** C59 *)
Theorem C59_make_causal_vertices : forall (P : Type) (ps : list P) ts,
  (length ps <> length ts -> make_causal_vertices ps ts = Throws LengthError) /\
  (length ps = length ts -> ~ List.Forall in_int32 ts -> make_causal_vertices ps ts = Throws OutOfRange) /\
  (length ps = length ts -> List.Forall in_int32 ts -> make_causal_vertices ps ts = Val (combine ps ts)).
Proof. exact @make_causal_vertices_spec. Qed.
Print Assumptions C59_make_causal_vertices.
Example C59_example :
  make_causal_vertices [true; false] [3; 2147483647] = Val [(true, 3); (false, 2147483647)] /\
  make_causal_vertices [true; false] [3; 2147483648] = Throws OutOfRange /\
  make_causal_vertices [true] [2147483648; 3] = Throws LengthError.
Proof. repeat split; vm_compute; reflexivity. Qed.

(** ** C63 *)
Theorem C63_nearest_slice : forall R I S z, (0 < S)%Q -> 1 <= z <= INT32_MAX ->
  nearest_slice Fin (Fin R) (Fin I) (Fin S) = Some z <->
  (I + (inject_Z z - (3 # 2)) * S <= R /\ R < I + (inject_Z z - (1 # 2)) * S)%Q.
Proof. exact nearest_exact. Qed.
Print Assumptions C63_nearest_slice.
Theorem C63_monotone : forall rd, (forall p q, (p <= q)%Q -> fp_le (rd p) (rd q) = true) ->
  forall R R' I S z z', (0 < S)%Q -> (R <= R')%Q ->
  nearest_slice rd (Fin R) (Fin I) (Fin S) = Some z -> nearest_slice rd (Fin R') (Fin I) (Fin S) = Some z' -> z <= z'.
Proof. exact nearest_slice_mono. Qed.
Print Assumptions C63_monotone.
Theorem C63_layer_label : forall rd R I S i, ieee_double rd -> 0 <= i < INT32_MAX ->
  (pow2 (-900) <= S)%Q -> (S <= pow2 900)%Q -> (Qabs (R - (I + inject_Z i * S)) <= (1 # 4) * S)%Q ->
  expected_timevalue rd (Fin R) (Fin I) (Fin S) = Some (i + 1).
Proof. exact layer_label. Qed.
Print Assumptions C63_layer_label.
Example C63_example : ieee_double Fin /\ expected_timevalue Fin (Fin (31 # 10)) (Fin 1) (Fin 1) = Some 3 /\
  expected_timevalue Fin (Fin (5 # 2)) (Fin 1) (Fin 1) = Some 3 /\ expected_timevalue Fin (Fin (249 # 100)) (Fin 1) (Fin 1) = Some 2.
Proof.
  split; [|repeat split; vm_compute; reflexivity]. intros q _. exists q. split; [reflexivity|].
  assert (E : (q - q == 0)%Q) by ring. rewrite E. change (Qabs 0) with 0%Q. apply Qle_trans with (pow2 (-53) * Qabs q + 0)%Q.
  - rewrite Qplus_0_r. apply Qmult_le_0_compat; [vm_compute; discriminate|apply Qabs_nonneg].
  - apply Qplus_le_r. vm_compute. discriminate.
Qed.

(** ** C64 *)
Theorem C64_structurally_correct_iff_causal : forall expected d f, well_formed d -> construct expected d = Val f ->
  exists b, is_structurally_correct f = Val b /\ (b = true <-> forall c, c ∈ d_cells d -> causal_cell expected c).
Proof. exact structurally_correct_iff. Qed.
Print Assumptions C64_structurally_correct_iff_causal.
Theorem C64_is_foliated_iff_causal : forall expected d f, well_formed d -> construct expected d = Val f ->
  exists b, is_foliated f = Val b /\ (b = true <-> forall c, c ∈ d_cells d -> causal_cell expected c).
Proof. exact is_foliated_iff. Qed.
Print Assumptions C64_is_foliated_iff_causal.
Theorem C64_nothing_to_fix_in_vertices : forall expected iter, (forall S, iter S ≡ₚ elements S) ->
  forall d f, well_formed d -> construct expected d = Val f -> member_fix_vertices expected iter f = Val (f, false).
Proof. exact member_fix_vertices_built. Qed.
Print Assumptions C64_nothing_to_fix_in_vertices.
(** Times of vertices can be changed from outside through the handles an object
    gives out; on any such object check_vertices says whether all are right, and
    fix_vertices reports a change exactly if one on a cell was wrong, giving an
    object that reports the right ones. *)
Theorem C64_check_vertices : forall expected d,
  check_vertices expected d = true <-> forall v, v ∈ d_vertices d -> d_vinfo d v = expected v.
Proof. exact check_vertices_iff. Qed.
Print Assumptions C64_check_vertices.
Theorem C64_fix_vertices_member : forall expected iter, (forall S, iter S ≡ₚ elements S) ->
  forall f, well_formed (f_delaunay f) -> d_vertices (f_delaunay f) <> [] -> no_overflow expected (f_delaunay f) ->
  exists g b, member_fix_vertices expected iter f = Val (g, b) /\
    (b = true <-> exists v, on_cell (f_delaunay f) v /\ d_vinfo (f_delaunay f) v <> expected v) /\
    (b = true -> reports expected (f_delaunay f) g) /\ (b = false -> g = f).
Proof. exact member_fix_vertices_any. Qed.
Print Assumptions C64_fix_vertices_member.
Theorem C64_fix_cells_member : forall expected d f, well_formed d -> construct expected d = Val f ->
  exists g b, member_fix_cells expected f = Val (g, b) /\ reports expected d g /\
    (b = true <-> exists c, c ∈ d_cells d /\ ~ causal_cell expected c) /\ (b = false -> g = f).
Proof. exact member_fix_cells_built. Qed.
Print Assumptions C64_fix_cells_member.
Theorem C64_fix_cells_altered : forall expected f,
  well_formed (f_delaunay f) -> d_vertices (f_delaunay f) <> [] -> no_overflow expected (f_delaunay f) ->
  no_overflow (d_vinfo (f_delaunay f)) (f_delaunay f) ->
  exists g b, member_fix_cells expected f = Val (g, b) /\
    (b = true <-> exists c, c ∈ d_cells (f_delaunay f) /\
       (~ class_is (d_vinfo (f_delaunay f)) c (d_cinfo (f_delaunay f) c) \/ ~ causal_cell (d_vinfo (f_delaunay f)) c)) /\
    (b = true -> reports expected (f_delaunay f) g) /\ (b = false -> g = f).
Proof. exact member_fix_cells_any. Qed.
Print Assumptions C64_fix_cells_altered.
Theorem C64_is_fixed_member : forall expected iter, (forall S, iter S ≡ₚ elements S) -> forall remove, removes remove ->
  forall d f, well_formed d -> construct expected d = Val f ->
  (forall v, v ∈ d_vertices d -> 0 <= expected v <= INT32_MAX) ->
  (forall c, c ∈ d_cells d -> causal_cell expected c) /\ member_is_fixed expected iter remove f = Val (f, false) \/
  (exists c, c ∈ d_cells d /\ ~ causal_cell expected c) /\
  (exists d', (length (d_vertices d') < length (d_vertices d))%nat /\ (forall v, v ∈ d_vertices d' -> v ∈ d_vertices d) /\
     member_is_fixed expected iter remove f = let! g := construct expected d' in Val (g, true)).
Proof. exact member_is_fixed_built. Qed.
Print Assumptions C64_is_fixed_member.
Example C64_altered_example : exists f, construct sample_label sample_delaunay = Val f /\
  let spoiled := mkFoliated (set_vinfo (f_delaunay f) (fun _ => 7)) (f_vertices f) (f_cells f) (f_three_one f) (f_two_two f) (f_one_three f)
     (f_faces f) (f_spacelike_facets f) (f_edges f) (f_timelike_edges f) (f_spacelike_edges f) (f_max f) (f_min f) in
  check_vertices sample_label (f_delaunay spoiled) = false /\ well_formed (f_delaunay spoiled) /\
  no_overflow sample_label (f_delaunay spoiled) /\
  exists g, member_fix_vertices sample_label elements spoiled = Val (g, true).
Proof.
  eexists. split; [vm_compute; reflexivity|]. split; [vm_compute; reflexivity|]. split; [apply well_formedb_spec; vm_compute; reflexivity|].
  split; [|eexists; vm_compute; reflexivity].
  intros c v w _ _ _. unfold sample_label. repeat case_bool_decide; vm_compute; discriminate.
Qed.
Example C64_example : exists f, construct sample_label sample_delaunay = Val f /\ is_structurally_correct f = Val true /\
  is_foliated f = Val true /\ member_is_fixed sample_label elements cone_remove f = Val (f, false).
Proof. eexists. split; [vm_compute; reflexivity|]. repeat split; vm_compute; reflexivity. Qed.
