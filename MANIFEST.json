{
 "claims": [
  {
   "property": "C01",
   "status": "proved",
   "theorems": [
    "C01_names",
    "C01_index_conversion",
    "C01_same_slot",
    "C01_increment_one_slot"
   ],
   "note": ""
  },
  {
   "property": "C02",
   "status": "proved",
   "theorems": [
    "C02_addition_exact",
    "C02_total_exact"
   ],
   "note": ""
  },
  {
   "property": "C03",
   "status": "proved",
   "theorems": [
    "C03_failure_routing",
    "C03_successful_report"
   ],
   "note": ""
  },
  {
   "property": "C04",
   "status": "proved",
   "theorems": [
    "C04_fifo_each_once",
    "C04_dispatch"
   ],
   "note": ""
  },
  {
   "property": "C05",
   "status": "proved",
   "theorems": [
    "C05_counter_identities",
    "C05_defined",
    "C05_reset",
    "C05_reset_then_execute"
   ],
   "note": ""
  },
  {
   "property": "C06",
   "status": "proved",
   "theorems": [
    "C06_only_validated_moves"
   ],
   "note": ""
  },
  {
   "property": "C07",
   "status": "proved",
   "theorems": [
    "C07_exception_commits_prefix"
   ],
   "note": ""
  },
  {
   "property": "C08",
   "status": "proved",
   "theorems": [
    "C08_default",
    "C08_cadence_accepts_positive",
    "C08_constructors_reject"
   ],
   "note": ""
  },
  {
   "property": "C09",
   "status": "proved",
   "theorems": [
    "C09_observing_is_faithful",
    "C09_checkpoint_schedule"
   ],
   "note": ""
  },
  {
   "property": "C10",
   "status": "proved",
   "theorems": [
    "C10_C11_move_always_run",
    "C10_C11_metropolis_run"
   ],
   "note": ""
  },
  {
   "property": "C11",
   "status": "proved",
   "theorems": [
    "C10_C11_move_always_run",
    "C10_C11_metropolis_run"
   ],
   "note": ""
  },
  {
   "property": "C12",
   "status": "proved",
   "theorems": [
    "C12_move_always_all_or_nothing",
    "C12_metropolis_all_or_nothing"
   ],
   "note": ""
  },
  {
   "property": "C13",
   "status": "proved",
   "theorems": [
    "C13_move_always_replay",
    "C13_metropolis_replay",
    "C13_split_forgets_draws"
   ],
   "note": ""
  },
  {
   "property": "C14",
   "status": "proved",
   "theorems": [
    "C14_C17_counters_describe_one_history",
    "C14_C17_reflection_meaning"
   ],
   "note": ""
  },
  {
   "property": "C15",
   "status": "proved",
   "theorems": [
    "C15_state_changes_only_on_acceptance",
    "C15_dispatch",
    "C15_throwing_keeps_state"
   ],
   "note": ""
  },
  {
   "property": "C16",
   "status": "proved",
   "theorems": [
    "C16_no_effect",
    "C16_valid_trials"
   ],
   "note": ""
  },
  {
   "property": "C17",
   "status": "proved",
   "theorems": [
    "C14_C17_counters_describe_one_history",
    "C14_C17_reflection_meaning",
    "C17_trace_function",
    "C17_one_byte_changes_trace"
   ],
   "note": ""
  },
  {
   "property": "C18",
   "status": "proved",
   "theorems": [
    "C18_exact",
    "C18_any_rounding",
    "C18_zero_trial",
    "C18_positive"
   ],
   "note": ""
  },
  {
   "property": "C19",
   "status": "proved",
   "theorems": [
    "C19_exact",
    "C19_refusal",
    "C19_mpfr_error",
    "C19_sites"
   ],
   "note": ""
  },
  {
   "property": "C20",
   "status": "proved",
   "theorems": [
    "C20_detailed_balance"
   ],
   "note": ""
  },
  {
   "property": "C21",
   "status": "proved",
   "theorems": [
    "C21_site_counts_positive",
    "C21_acceptance_defined",
    "C21_transition_never_throws"
   ],
   "note": ""
  },
  {
   "property": "C22",
   "status": "partial",
   "theorems": [
    "C22_one_site_per_result",
    "C22_inverse_site_partial",
    "C22_inverse_of_32_refuted",
    "C22_inverse_of_62_lost",
    "C22_inverse_of_62_refuted"
   ],
   "note": "Proved: at most one raw site per result for all five kinds, and an inverse site exists after (2,3), (2,6), (4,4) when CGAL locates the points and accepts the flip. The documented unique-inverse claim is false of the code for (3,2) and (6,2): two _refuted theorems give witnesses."
  },
  {
   "property": "C23",
   "status": "proved",
   "theorems": [
    "C23_construction",
    "C23_construction_refused",
    "C23_construction_partition",
    "C23_classification",
    "C23_counts_partition"
   ],
   "note": "Classification exactness and count partition; that construction writes exactly these classes is C23_construction in PropsFoliation.v."
  },
  {
   "property": "C24",
   "status": "proved",
   "theorems": [
    "C24_partition",
    "C24_classes",
    "C24_timelike_adjacent"
   ],
   "note": ""
  },
  {
   "property": "C25",
   "status": "proved",
   "theorems": [
    "C25_two_three"
   ],
   "note": ""
  },
  {
   "property": "C26",
   "status": "proved",
   "theorems": [
    "C26_three_two"
   ],
   "note": ""
  },
  {
   "property": "C27",
   "status": "proved",
   "theorems": [
    "C27_two_six",
    "C27_two_six_checked"
   ],
   "note": ""
  },
  {
   "property": "C28",
   "status": "proved",
   "theorems": [
    "C28_six_two"
   ],
   "note": ""
  },
  {
   "property": "C29",
   "status": "proved",
   "theorems": [
    "C29_four_four"
   ],
   "note": ""
  },
  {
   "property": "C30",
   "status": "partial",
   "theorems": [
    "C30_refuted"
   ],
   "note": "The claim is false of the code: C30_refuted gives a structurally correct manifold with integer coordinates for which a successful (2,6) move returns a manifold with an acausal cell. The conditional positive statement is C27; C92 says exactly when it fails, and that the move check notices."
  },
  {
   "property": "C31",
   "status": "proved",
   "theorems": [
    "C31_undo_two_three",
    "C31_undo_two_six",
    "C31_undo_four_four"
   ],
   "note": "Under the hypothesis that CGAL can locate the points involved and accepts the edge flip; combinatorially unconditional."
  },
  {
   "property": "C32",
   "status": "proved",
   "theorems": [
    "C32_check_exact",
    "C32_moves_pass"
   ],
   "note": ""
  },
  {
   "property": "C33",
   "status": "proved",
   "theorems": [
    "C33_command",
    "C33_command_that_throws",
    "C33_move_always",
    "C33_metropolis",
    "C33_attempt"
   ],
   "note": ""
  },
  {
   "property": "C34",
   "status": "proved",
   "theorems": [
    "C34_search",
    "C34_no_candidate",
    "C34_two_six_first_prepared"
   ],
   "note": ""
  },
  {
   "property": "C35",
   "status": "proved",
   "theorems": [
    "C35_order_free",
    "C35_one_draw_per_site",
    "C35_program_orders",
    "C35_sites",
    "C35_sorted_sites"
   ],
   "note": ""
  },
  {
   "property": "C36",
   "status": "proved",
   "theorems": [
    "C36_closed_form",
    "C36_finite_with_rounding",
    "C36_alpha_one",
    "C36_alpha_minus_one"
   ],
   "note": ""
  },
  {
   "property": "C37",
   "status": "proved",
   "theorems": [
    "C37_state_independent",
    "C37_values",
    "C37_four_four_always_accepted"
   ],
   "note": ""
  },
  {
   "property": "C38",
   "status": "proved",
   "theorems": [
    "C38_parameters"
   ],
   "note": ""
  },
  {
   "property": "C39",
   "status": "proved",
   "theorems": [
    "C39_labels_survive"
   ],
   "note": ""
  },
  {
   "property": "C40",
   "status": "proved",
   "theorems": [
    "C40_sections_accepted"
   ],
   "note": ""
  },
  {
   "property": "C41",
   "status": "proved",
   "theorems": [
    "C41_provenance_survives",
    "C41_provenance_on_disk"
   ],
   "note": "Under library_ok: fmt prints and streams read back finite floating-point values exactly; build constants are non-empty single-line strings. The reader keeps only some members; for those that it validates but drops (desired counts, alpha, passes ...) the accepted text is characterised by C42."
  },
  {
   "property": "C42",
   "status": "proved",
   "theorems": [
    "C42_sidecars_accepted",
    "C42_others_rejected"
   ],
   "note": ""
  },
  {
   "property": "C43",
   "status": "proved",
   "theorems": [
    "C43_corruption_detected",
    "C43_intact_passes",
    "C43_digest_separates"
   ],
   "note": ""
  },
  {
   "property": "C44",
   "status": "proved",
   "theorems": [
    "C44_crash_states",
    "C44_crash_reads",
    "C44_crash_reads_differ"
   ],
   "note": "The only undetected mixture is a 64-bit digest collision of equal length between old and new payload (explicit disjunct); excluded for contents that differ in length or one byte. Crash = process crash; no loss of data after close/rename (the code never calls fsync)."
  },
  {
   "property": "C45",
   "status": "proved",
   "theorems": [
    "C45_failed_write",
    "C45_returned_write"
   ],
   "note": ""
  },
  {
   "property": "C46",
   "status": "proved",
   "theorems": [
    "C46_exclusive",
    "C46_changes_need_the_lock",
    "C46_nested_refused",
    "C46_nested_write",
    "C46_no_self_deadlock",
    "C46_released",
    "C46_no_deadlock"
   ],
   "note": "Threads of one process; the two mutexes and the thread_local flag. No-deadlock excludes executions in which some thread ran into undefined behaviour."
  },
  {
   "property": "C47",
   "status": "proved",
   "theorems": [
    "C47_read_back",
    "C47_written_counts",
    "C47_read_iff"
   ],
   "note": "Equality needs CGAL's operator<< and >> to round-trip (hypothesis cgal_round_trip); without it C47_written_counts gives equal counts and topology fingerprint. A payload-only write whose removal of an old sidecar fails can return while a later read errors."
  },
  {
   "property": "C48",
   "status": "proved",
   "theorems": [
    "C48_refused_on_write",
    "C48_unnamed_refused",
    "C48_refused_on_read",
    "C48_checkpoint_records_pass",
    "C48_artifact_records_pass",
    "C48_metropolis_checkpoints"
   ],
   "note": ""
  },
  {
   "property": "C49",
   "status": "proved",
   "theorems": [
    "C49_placement_any_order",
    "C49_topology_any_order"
   ],
   "note": ""
  },
  {
   "property": "C50",
   "status": "proved",
   "theorems": [
    "C50_accepted_iff_valid",
    "C50_exact_arithmetic",
    "C50_ieee",
    "C50_nearest",
    "C50_overflow",
    "C50_accepted_ieee"
   ],
   "note": ""
  },
  {
   "property": "C51",
   "status": "proved",
   "theorems": [
    "C51_accepted_iff_valid"
   ],
   "note": ""
  },
  {
   "property": "C52",
   "status": "proved",
   "theorems": [
    "C52_exact"
   ],
   "note": ""
  },
  {
   "property": "C53",
   "status": "proved",
   "theorems": [
    "C53_value",
    "C53_monotone",
    "C53_fewer_simplices_accepted",
    "C53_within_limits",
    "C53_no_overflow"
   ],
   "note": ""
  },
  {
   "property": "C54",
   "status": "proved",
   "theorems": [
    "C54_vertex_repair_exact",
    "C54_vertex_repair_idempotent"
   ],
   "note": ""
  },
  {
   "property": "C55",
   "status": "proved",
   "theorems": [
    "C55_cell_repair_exact",
    "C55_acausal_reported_forever",
    "C55_check_cells",
    "C55_overflow"
   ],
   "note": ""
  },
  {
   "property": "C56",
   "status": "partial",
   "theorems": [
    "C56_repair_partial",
    "C56_bounded_passes_refuted"
   ],
   "note": "False of the code as stated: repair stops after 50 passes and only an assert checks the result. Proved: right times and classes, causal unless 50 vertex-removing passes were used up (needs at least 54 vertices), and an assertion-enabled build then aborts; C56_bounded_passes_refuted exhibits a retriangulation within CGAL's remove() contract that leaves acausal cells."
  },
  {
   "property": "C57",
   "status": "proved",
   "theorems": [
    "C57_max_time",
    "C57_min_time",
    "C57_empty",
    "C57_slice_volume",
    "C57_slice_members",
    "C57_outside",
    "C57_volumes_sum",
    "C57_printed"
   ],
   "note": ""
  },
  {
   "property": "C58",
   "status": "proved",
   "theorems": [
    "C58_ownership",
    "C58_never_destroyed",
    "C58_nothing_undefined",
    "C58_binding_check",
    "C58_binding_check_exact",
    "C58_sequential_build"
   ],
   "note": ""
  },
  {
   "property": "C59",
   "status": "proved",
   "theorems": [
    "C59_make_causal_vertices"
   ],
   "note": ""
  },
  {
   "property": "C60",
   "status": "proved",
   "theorems": [
    "C60_success_is_truthful",
    "C60_failure_is_truthful",
    "C60_only_a_failing_step_fails"
   ],
   "note": ""
  },
  {
   "property": "C61",
   "status": "proved",
   "theorems": [
    "C61_output_does_not_influence_chain"
   ],
   "note": ""
  },
  {
   "property": "C62",
   "status": "proved",
   "theorems": [
    "C62_accepted_configuration_populates"
   ],
   "note": ""
  },
  {
   "property": "C63",
   "status": "proved",
   "theorems": [
    "C63_nearest_slice",
    "C63_monotone",
    "C63_layer_label"
   ],
   "note": ""
  },
  {
   "property": "C64",
   "status": "proved",
   "theorems": [
    "C64_structurally_correct_iff_causal",
    "C64_is_foliated_iff_causal",
    "C64_nothing_to_fix_in_vertices",
    "C64_check_vertices",
    "C64_fix_vertices_member",
    "C64_fix_cells_member",
    "C64_fix_cells_altered",
    "C64_is_fixed_member"
   ],
   "note": ""
  },
  {
   "property": "C65",
   "status": "proved",
   "theorems": [
    "C65_reader_sees_whole_files"
   ],
   "note": ""
  },
  {
   "property": "C66",
   "status": "proved",
   "theorems": [
    "C66_initializer_is_truthful"
   ],
   "note": ""
  },
  {
   "property": "C67",
   "status": "proved",
   "theorems": [
    "C67_simulation_replays",
    "C67_initializer_replays",
    "C67_files_carry_the_seed"
   ],
   "note": ""
  },
  {
   "property": "C68",
   "status": "proved",
   "theorems": [
    "C68_run_files_have_different_names",
    "C68_name_identifies",
    "C68_name_tells_the_counts",
    "C68_paths_never_collide"
   ],
   "note": ""
  },
  {
   "property": "C69",
   "status": "proved",
   "theorems": [
    "C69_move_always_outputs",
    "C69_metropolis_outputs"
   ],
   "note": ""
  },
  {
   "property": "C70",
   "status": "proved",
   "theorems": [
    "C70_accepted_iff_declared",
    "C70_refusals",
    "C70_one_meaning",
    "C70_frame_bounded"
   ],
   "note": ""
  },
  {
   "property": "C71",
   "status": "proved",
   "theorems": [
    "C71_gate",
    "C71_validated_line",
    "C71_passing_is_announced",
    "C71_other_invocations",
    "C71_rendered_bytes_are_hashed_bytes_refuted"
   ],
   "note": ""
  },
  {
   "property": "C72",
   "status": "proved",
   "theorems": [
    "C72_outline",
    "C72_outline_keeps_transparent",
    "C72_foreground",
    "C72_outline_keeps_foreground"
   ],
   "note": ""
  },
  {
   "property": "C73",
   "status": "proved",
   "theorems": [
    "C73_outward_ieee",
    "C73_faces",
    "C73_faces_canonical",
    "C73_colour_canonical",
    "C73_vertices",
    "C73_scene",
    "C73_outward"
   ],
   "note": ""
  },
  {
   "property": "C74",
   "status": "proved",
   "theorems": [
    "C74_success_means_artifact",
    "C74_every_headless_run",
    "C74_success",
    "C74_success_after_quit_refuted",
    "C74_new_picture_refuted",
    "C74_failure_leaves_no_artifact_refuted"
   ],
   "note": ""
  },
  {
   "property": "C75",
   "status": "proved",
   "theorems": [
    "C75_containers",
    "C75_geometry",
    "C75_times",
    "C75_checks",
    "C75_counts"
   ],
   "note": "Containers are handles into a heap; CGAL is an arbitrary function meeting cgal_ok (fresh cells for copies and insertions, edits confined to the edited triangulation). Agreement with the complex (geometry, times, slices) needs a triangulation of dimension three. Lock grids are C58."
  },
  {
   "property": "C76",
   "status": "proved",
   "theorems": [
    "C76_isolated"
   ],
   "note": "Reading a moved-from object is the client's error (`allowed`)."
  },
  {
   "property": "C77",
   "status": "proved",
   "theorems": [
    "C77_copy",
    "C77_snapshot",
    "C77_updated",
    "C77_move",
    "C77_swap",
    "C77_repair",
    "C77_is_fixed",
    "C77_wrap",
    "C77_of_plain",
    "C77_of_points"
   ],
   "note": "updated() of an empty manifold drops radius and spacing (default object), so C77_updated asks for a vertex."
  },
  {
   "property": "C78",
   "status": "proved",
   "theorems": [
    "C78_exact",
    "C78_total",
    "C78_effect"
   ],
   "note": ""
  },
  {
   "property": "C79",
   "status": "proved",
   "theorems": [
    "C79_refused",
    "C79_incident",
    "C79_incident_cells",
    "C79_prepare_32",
    "C79_prepare_44",
    "C79_pivot",
    "C79_vertices",
    "C79_cells_of_vertex"
   ],
   "note": ""
  },
  {
   "property": "C80",
   "status": "proved",
   "theorems": [
    "C80_flip",
    "C80_four_four",
    "C80_six_two",
    "C80_six_two_is",
    "C80_two_six",
    "C80_in_place_23",
    "C80_in_place_32",
    "C80_in_place_26"
   ],
   "note": ""
  },
  {
   "property": "C81",
   "status": "proved",
   "theorems": [
    "C81_move",
    "C81_command",
    "C81_move_always",
    "C81_metropolis"
   ],
   "note": ""
  },
  {
   "property": "C82",
   "status": "proved",
   "theorems": [
    "C82_two_three",
    "C82_three_two",
    "C82_two_six",
    "C82_six_two",
    "C82_four_four",
    "C82_search_fails"
   ],
   "note": ""
  },
  {
   "property": "C83",
   "status": "proved",
   "theorems": [
    "C83_distinct_sequences",
    "C83_split",
    "C83_split_distinct",
    "C83_draws",
    "C83_period",
    "C83_uniform",
    "C83_range"
   ],
   "note": ""
  },
  {
   "property": "C84",
   "status": "proved",
   "theorems": [
    "C84_returns",
    "C84_even",
    "C84_skipped",
    "C84_empty",
    "C84_die",
    "C84_timeslice",
    "C84_point_seed",
    "C84_move",
    "C84_site",
    "C84_contract",
    "C84_entropy"
   ],
   "note": ""
  },
  {
   "property": "C85",
   "status": "proved",
   "theorems": [
    "C85_trial",
    "C85_even",
    "C85_rate"
   ],
   "note": ""
  },
  {
   "property": "C86",
   "status": "proved",
   "theorems": [
    "C86_orders",
    "C86_permutes"
   ],
   "note": ""
  },
  {
   "property": "C87",
   "status": "proved",
   "theorems": [
    "C87_label",
    "C87_sphere",
    "C87_ieee",
    "C87_every_spacing_refuted"
   ],
   "note": "The bound of 2^36 spacings is part of the property; C87_every_spacing_refuted shows that the unrestricted claim is false of the code. Sine and cosine are assumed to have squares adding up to 1 within 2^-50."
  },
  {
   "property": "C88",
   "status": "proved",
   "theorems": [
    "C88_generated",
    "C88_decides",
    "C88_sound",
    "C88_late_refuted",
    "C88_negative_refuted",
    "C88_smallest"
   ],
   "note": "C88_late_refuted and C88_negative_refuted show that the documented reading (true iff the radius matches the label) is false far out and for label -1."
  },
  {
   "property": "C89",
   "status": "proved",
   "theorems": [
    "C89_contains",
    "C89_strict",
    "C89_exact",
    "C89_empty"
   ],
   "note": ""
  },
  {
   "property": "C90",
   "status": "proved",
   "theorems": [
    "C90_move_always",
    "C90_move_always_interrupted",
    "C90_metropolis",
    "C90_metropolis_interrupted",
    "C90_same_run"
   ],
   "note": ""
  },
  {
   "property": "C91",
   "status": "proved",
   "theorems": [
    "C91_command",
    "C91_execution",
    "C91_manifold"
   ],
   "note": ""
  },
  {
   "property": "C92",
   "status": "proved",
   "theorems": [
    "C92_stays",
    "C92_falls",
    "C92_exact",
    "C92_small_faces",
    "C92_large_faces",
    "C92_face"
   ],
   "note": ""
  },
  {
   "property": "C93",
   "status": "proved",
   "theorems": [
    "C93_move_always_accepts",
    "C93_move_always_settings",
    "C93_move_always_rebuilt",
    "C93_used_stream_differs",
    "C93_metropolis_accepts",
    "C93_metropolis_settings",
    "C93_metropolis_rebuilt",
    "C93_metropolis_rebuilt_from_stream",
    "C93_provenance_is_the_run"
   ],
   "note": ""
  },
  {
   "property": "C94",
   "status": "proved",
   "theorems": [
    "C94_simulation_output_is_a_recipe",
    "C94_initializer_output_is_a_recipe",
    "C94_warning",
    "C94_count"
   ],
   "note": ""
  },
  {
   "property": "C95",
   "status": "proved",
   "theorems": [
    "C95_cells",
    "C95_vertices",
    "C95_vertices_altered",
    "C95_edges",
    "C95_volumes",
    "C95_totals",
    "C95_edge",
    "C95_neighbors"
   ],
   "note": ""
  },
  {
   "property": "C96",
   "status": "proved",
   "theorems": [
    "C96_types",
    "C96_range",
    "C96_spread",
    "C96_below",
    "C96_exclusive_refuted",
    "C96_domain",
    "C96_trial"
   ],
   "note": "C96_exclusive_refuted: the documented exclusive upper bound is false of the code (libstdc++'s distribution). Targets without FMA contraction."
  },
  {
   "property": "C97",
   "status": "proved",
   "theorems": [
    "C97_placement",
    "C97_placement_text",
    "C97_placement_tells",
    "C97_topology",
    "C97_topology_text",
    "C97_topology_tells"
   ],
   "note": ""
  },
  {
   "property": "C98",
   "status": "proved",
   "theorems": [
    "C98_draws",
    "C98_transition",
    "C98_probabilities",
    "C98_one_index",
    "C98_possible",
    "C98_balance",
    "C98_balance_of_kinds",
    "C98_balance_of_32_refuted",
    "C98_balance_of_62_refuted"
   ],
   "note": "C98_balance holds for pairs reachable both ways or neither, C98_balance_of_kinds for (2,3), (2,6), (4,4); the refuted theorems show (3,2) and (6,2) steps without a way back, where balance fails."
  },
  {
   "property": "C99",
   "status": "proved",
   "theorems": [
    "C99_slice",
    "C99_unchanged",
    "C99_one",
    "C99_volumes",
    "C99_command",
    "C99_move_always",
    "C99_metropolis",
    "C99_same",
    "C99_paths"
   ],
   "note": ""
  },
  {
   "property": "C100",
   "status": "proved",
   "theorems": [
    "C100_step",
    "C100_steps",
    "C100_stationary",
    "C100_equilibrium",
    "C100_unique",
    "C100_converges",
    "C100_stays"
   ],
   "note": "On finite sets with two-way steps (hypotheses closed, two_way, linked); C98 shows that two_way fails for some manifolds."
  },
  {
   "property": "C101",
   "status": "proved",
   "theorems": [
    "C101_always",
    "C101_metropolis",
    "C101_always_determined",
    "C101_metropolis_determined",
    "C101_split_always",
    "C101_split_metropolis",
    "C101_always_thrown",
    "C101_metropolis_thrown",
    "C101_object"
   ],
   "note": ""
  },
  {
   "property": "C102",
   "status": "proved",
   "theorems": [
    "C102_likelihood",
    "C102_expected",
    "C102_likely"
   ],
   "note": ""
  },
  {
   "property": "C103",
   "status": "proved",
   "theorems": [
    "C103_pass",
    "C103_alike",
    "C103_attempts",
    "C103_ends_are_equilibrium_refuted"
   ],
   "note": "C103_ends_are_equilibrium_refuted: the manifolds at the ends of passes (what checkpoints and the final output show) are in general not distributed as exp(-S), because the length of a pass depends on its first manifold."
  },
  {
   "property": "C104",
   "status": "partial",
   "theorems": [
    "C104_way_back",
    "C104_lost",
    "C104_weightless",
    "C104_ergodicity_refuted"
   ],
   "note": "False of the code as stated: C104_ergodicity_refuted (a (3,2) step without any way back). Proved: the way back for (2,3), (2,6), (4,4) steps, and what long runs do where there is none."
  },
  {
   "property": "C105",
   "status": "proved",
   "theorems": [
    "C105_cell",
    "C105_point",
    "C105_lists",
    "C105_changes",
    "C105_local",
    "C105_run",
    "C105_always",
    "C105_metropolis"
   ],
   "note": ""
  },
  {
   "property": "C106",
   "status": "proved",
   "theorems": [
    "C106_determined",
    "C106_always",
    "C106_metropolis",
    "C106_command",
    "C106_command_thrown"
   ],
   "note": ""
  }
 ]
}