{"id": "C01", "title": "Move kinds, indices and counters agree", "statement": "Converting an index to a move kind succeeds exactly for 0..4, is the inverse of reading the kind's integer value, and the counter slot read through a kind, through its index and through the kind's named accessor is the same slot; incrementing one kind changes that slot only.", "quantifier": "every index (any size_t), every move kind, every counter content", "why_tests_cant": "tests enumerate a few indices; the claim covers every index and every counter state", "anchors": ["include/Move_tracker.hpp:move_from_index", "include/Move_tracker.hpp:MoveTracker::operator[]", "include/Move_tracker.hpp:as_integer"]}
{"id": "C02", "title": "Counter addition and totals are exact", "statement": "Adding one move tracker to another adds every kind separately, and the reported total is the exact sum of the five kinds, whenever the true values fit in 32 bits; outside that range the C++ arithmetic is undefined and the model says so.", "quantifier": "every pair of trackers", "why_tests_cant": "finite examples cannot cover all 32-bit values nor the overflow boundary", "anchors": ["include/Move_tracker.hpp:MoveTracker::operator+=", "include/Move_tracker.hpp:MoveTracker::total"]}
{"id": "C03", "title": "Failure categories route to exactly one accounting outcome", "statement": "A move error is reported as INAPPLICABLE exactly when no site existed, the site was not in the triangulation, or it was causally invalid; every other failure is EXECUTION_FAILED; no error is ever reported as accepted, rejected by Metropolis, or succeeded; and a transition is successful iff it is ACCEPTED, REJECTED or SUCCEEDED.", "quantifier": "every error category and requested move", "why_tests_cant": "small enumeration but must survive every new category; stated for all values", "anchors": ["include/Move_outcome.hpp:outcome_from", "include/Move_outcome.hpp:MetropolisTransition::successful"]}
{"id": "C04", "title": "Queued moves run in FIFO order, each exactly once", "statement": "When a command's execute() returns, the queue is empty and the moves were attempted exactly once each, in the order they were enqueued.", "quantifier": "every sequence of enqueue calls, every manifold, every behaviour of the move functions and of the random engine", "why_tests_cant": "queue contents and move behaviour range over unbounded histories", "anchors": ["include/Move_command.hpp:MoveCommand::enqueue", "include/Move_command.hpp:MoveCommand::execute"]}
{"id": "C05", "title": "attempted = succeeded + failed", "statement": "After any number of enqueue/execute calls that return normally, for every move kind attempted = succeeded + failed, attempted counts exactly the moves of that kind that were queued, and no counter is negative.", "quantifier": "every command history and kind", "why_tests_cant": "holds for every history, not for the sampled ones", "anchors": ["include/Move_command.hpp:MoveCommand::execute", "include/Move_command.hpp:MoveCommand::attempted"]}
{"id": "C06", "title": "A command's manifold only changes through validated moves", "statement": "The manifold after execute() is reached from the manifold before by a chain of candidates, each produced by a move function on the preceding manifold and each passing the move check for its kind; the chain has exactly total-succeeded steps; a failed or invalid candidate changes nothing.", "quantifier": "every queue, manifold, move-function behaviour", "why_tests_cant": "all interleavings of success and failure", "anchors": ["include/Move_command.hpp:MoveCommand::execute", "include/Ergodic_moves_3.hpp:check_move"]}
{"id": "C07", "title": "Exception in the middle of a queue commits a prefix", "statement": "If a move function throws during execute(), the moves before it are committed with their counters, the throwing move is still at the head of the queue, its attempted counter is one more than succeeded+failed, no other counter changed, and the later moves remain queued in order.", "quantifier": "every queue, every throwing position", "why_tests_cant": "every crash point of every queue", "anchors": ["include/Move_command.hpp:MoveCommand::execute"]}
{"id": "C08", "title": "Run cadence accepts exactly positive pass and checkpoint counts", "statement": "A cadence is produced iff both counts are positive, and then reports these counts; otherwise the pass-count error is reported whenever the pass count is nonpositive, else the checkpoint error; strategy constructors throw invalid_argument in exactly these cases.", "quantifier": "every pair of 32-bit integers", "why_tests_cant": "2^64 inputs", "anchors": ["include/Move_run.hpp:MoveRunCadence::parse", "include/Move_run.hpp:parse_move_run_cadence"]}
{"id": "C09", "title": "Checkpoints happen exactly at multiples of the interval", "statement": "A run of p passes with interval c reports exactly floor(p/c) checkpoint events, writes files (when enabled) at exactly passes c,2c,... and never when disabled, shows a report at each of these passes and one final report.", "quantifier": "every p,c>0, every manifold and strategy behaviour", "why_tests_cant": "unbounded run lengths", "anchors": ["include/Move_run.hpp:execute_move_run", "include/Move_always.hpp:operator()", "include/Metropolis.hpp:operator()"]}
{"id": "C10", "title": "Each pass makes as many attempts as there are simplices at its start", "statement": "In MoveAlways and Metropolis runs every pass performs exactly N3 move attempts, N3 being the simplex count of the state with which the pass starts, so total attempts of a run equal the sum over passes of starting simplex counts.", "quantifier": "every run", "why_tests_cant": "depends on the whole evolution of the run", "anchors": ["include/Move_run.hpp:execute_move_run", "include/Move_always.hpp:execute_pass", "include/Metropolis.hpp:execute_pass"]}
{"id": "C11", "title": "Published totals are the sum of the pass deltas of the last run only", "statement": "The counters published by a completed run equal the kind-wise sum of its own pass results; counts of earlier runs never leak into it.", "quantifier": "every sequence of runs on a reused strategy object", "why_tests_cant": "histories of reuse are unbounded", "anchors": ["include/Move_run.hpp:accumulate_command_results", "include/Move_run.hpp:consume_command_results", "include/Metropolis.hpp:operator()"]}
{"id": "C12", "title": "Run results are published all or nothing", "statement": "If a run throws at any point (move function, validation, checkpoint write), the strategy's published counters, statistics and checkpoint count are exactly those before the call; the input manifold is never modified; only the random stream may have advanced.", "quantifier": "every exception point of every run", "why_tests_cant": "every crash point", "anchors": ["include/Move_always.hpp:operator()", "include/Metropolis.hpp:operator()"]}
{"id": "C13", "title": "Runs replay from seed and stream", "statement": "Two strategies built with equal parameters and equal seed/stream and run on equal manifolds return equal manifolds, counters, traces, checkpoint sequences; the transition stream obtained by split() does not depend on how many draws initialization consumed.", "quantifier": "every seed, stream, manifold, parameter set, number of initialization draws", "why_tests_cant": "all seeds and all histories", "anchors": ["include/Random.hpp:Random::split", "include/Metropolis.hpp:MoveStrategy", "include/Move_always.hpp:operator()"]}
{"id": "C14", "title": "Metropolis counter identities", "statement": "After any sequence of transitions that return normally, for every move kind proposed = accepted + rejected and attempted = succeeded + failed = proposed, every failure is a rejection (failed <= rejected), accepted <= succeeded, and the transition count equals total proposed.", "quantifier": "every sequence of transitions from a fresh run, every trial value and candidate behaviour", "why_tests_cant": "unbounded histories", "anchors": ["include/Metropolis.hpp:resolve_transition", "include/Metropolis.hpp:attempt_transition", "docs/metropolis-hastings.md"]}
{"id": "C15", "title": "The Markov state changes only on acceptance", "statement": "A transition whose report is not accepted leaves the canonical manifold identical; an accepted one replaces it by a candidate that was produced from the previous state and passed the move check; the reported outcome is accepted iff the acceptance probability is at least the trial value.", "quantifier": "every state, move kind, trial value, candidate", "why_tests_cant": "all states and draws", "anchors": ["include/Metropolis.hpp:resolve_transition"]}
{"id": "C16", "title": "Invalid trial values and unsupported moves have no effect", "statement": "attempt_transition with a non-finite or out-of-[0,1] trial value throws and changes neither manifold, counters, statistics nor trace; with an unsupported move kind it reports EXECUTION_FAILED and changes nothing.", "quantifier": "every floating trial value (incl. NaN, infinities), every enum value", "why_tests_cant": "uncountably many bad values", "anchors": ["include/Metropolis.hpp:resolve_transition", "include/Metropolis.hpp:attempt_transition"]}
{"id": "C17", "title": "The transition trace is the FNV-1a hash of the ordered outcome history", "statement": "The published trace equals FNV-1a 64 over the bytes (move,outcome) of every recorded transition in order, the count is the number of recorded transitions; two histories of equal length that differ in exactly one recorded byte have different traces.", "quantifier": "every history", "why_tests_cant": "unbounded histories; collision freedom for one-byte differences cannot be sampled", "anchors": ["include/Metropolis.hpp:record_transition", "include/Metropolis.hpp:transition_trace"]}
{"id": "C18", "title": "Acceptance probability is a probability", "statement": "For every pair of geometries with nonzero forward and reverse site counts the acceptance probability equals min(1, Hastings ratio * exp(-dS)), hence lies in (0,1]; with any correct rounding it is a number in [0,1] (0 only when the action rise is so large that the value underflows), never NaN, and a trial value 0 always accepts.", "quantifier": "every geometry pair, move kind and coupling", "why_tests_cant": "real-valued parameters", "anchors": ["include/Metropolis.hpp:acceptance_probability"]}
{"id": "C19", "title": "Hastings ratio is the ratio of raw site counts", "statement": "The Hastings ratio of a move equals (sites of the move before)/(sites of the inverse move after); the 1/5 cancels; ratio of the inverse move is its reciprocal; it is refused exactly when one of both counts is nonpositive.", "quantifier": "every geometry pair and move kind", "why_tests_cant": "all counts", "anchors": ["include/Metropolis.hpp:hastings_ratio", "include/Metropolis.hpp:proposal_probability", "include/Metropolis.hpp:proposal_site_count", "include/Metropolis.hpp:reverse_move"]}
{"id": "C20", "title": "The acceptance rule satisfies detailed balance for the documented kernel", "statement": "With target weight exp(-S) and documented proposal probabilities 1/(5*sites), weight*proposal*acceptance of a move equals that of the inverse move.", "quantifier": "every geometry pair, couplings, move kind", "why_tests_cant": "real-valued identity", "anchors": ["include/Metropolis.hpp:acceptance_probability", "include/Metropolis.hpp:action_ratio", "docs/metropolis-hastings.md"]}
{"id": "C21", "title": "A validated candidate never makes the acceptance computation fail", "statement": "For any candidate that a proposal returns and the move check accepts, both raw-site counts are positive, so acceptance_probability does not throw and a sampled transition always ends in an outcome.", "quantifier": "every well-formed causal manifold, move kind, site and draw", "why_tests_cant": "requires all reachable manifolds", "anchors": ["include/Metropolis.hpp:resolve_transition", "include/Metropolis.hpp:hastings_ratio", "include/Ergodic_moves_3.hpp:check_move"]}
{"id": "C22", "title": "Every proposal has probability 1/(5*sites) and a unique inverse site", "statement": "For every successful proposal T->T' by a raw site, there is exactly one raw site of the inverse move in T' that proposes T, and T' is proposed by exactly one raw site of T, so the documented q(T'|T) is the actual proposal probability.", "quantifier": "every manifold, move kind and site", "why_tests_cant": "a violation needs a special local configuration; tests do not search for it", "anchors": ["include/Ergodic_moves_3.hpp:prepare_two_three", "docs/metropolis-hastings.md", "include/Metropolis.hpp:hastings_ratio"]}
{"id": "C23", "title": "Cell classification is exact", "statement": "A cell is reported (3,1), (2,2) or (1,3) iff its four vertices lie on exactly two adjacent slices with 3/2/1 of them on the lower one; otherwise it is acausal; after construction of a foliated triangulation each cell carries exactly its own class, so N3 = N3_31+N3_22+N3_13 iff no cell is acausal.", "quantifier": "every assignment of time labels", "why_tests_cant": "all labelings", "anchors": ["include/Foliated_triangulation.hpp:expected_cell_type", "include/Foliated_triangulation.hpp:classify_cells", "include/Geometry.hpp:Geometry"]}
{"id": "C24", "title": "Edge classification is exact and a partition", "statement": "Every finite edge is counted exactly once as timelike (different slices) or spacelike (same slice), N1 = N1_TL + N1_SL, and in a causal triangulation the ends of a timelike edge lie on adjacent slices.", "quantifier": "every triangulation", "why_tests_cant": "all triangulations", "anchors": ["include/Foliated_triangulation.hpp:classify_edge", "include/Foliated_triangulation.hpp:filter_edges", "include/Geometry.hpp:Geometry"]}
{"id": "C25", "title": "(2,3) move effect", "statement": "A successful (2,3) move replaces exactly two cells sharing a facet by the three cells around the new timelike edge, keeps all vertices and labels, produces only causal cells, and changes counts by N3+1, N3_22+1, N2+2, N1+1, N1_TL+1 and nothing else; the source manifold is unchanged.", "quantifier": "every well-formed causal manifold, every site", "why_tests_cant": "all triangulations and sites", "anchors": ["include/Ergodic_moves_3.hpp:do_23_move", "include/Ergodic_moves_3.hpp:propose_23_move", "include/Ergodic_moves_3.hpp:prepare_two_three"]}
{"id": "C26", "title": "(3,2) move effect", "statement": "A successful (3,2) move replaces exactly the three cells around a timelike edge by two cells sharing the opposite facet, with the inverse count changes of (2,3), preserving causality, vertices and labels.", "quantifier": "every well-formed causal manifold, every site", "why_tests_cant": "all triangulations and sites", "anchors": ["include/Ergodic_moves_3.hpp:do_32_move", "include/Ergodic_moves_3.hpp:is_32_movable"]}
{"id": "C27", "title": "(2,6) move effect", "statement": "A successful (2,6) move inserts one vertex in the spacelike facet between a (1,3) and a (3,1) cell, replacing both by three (1,3) and three (3,1) cells; counts change by N3+4, N3_31+2, N3_13+2, N2+8, N1+5, N1_TL+2, N1_SL+3, N0+1, all cells stay causal.", "quantifier": "every well-formed causal manifold and site whose new vertex is labelled with its facet's slice", "why_tests_cant": "all triangulations and sites", "anchors": ["include/Ergodic_moves_3.hpp:do_26_move", "include/Ergodic_moves_3.hpp:find_adjacent_31_cell", "include/Ergodic_moves_3.hpp:prepare_two_six"]}
{"id": "C28", "title": "(6,2) move effect", "statement": "A successful (6,2) move removes one vertex with exactly three (3,1) and three (1,3) cells, leaving one (3,1) and one (1,3) cell glued on the opposite triangle, with the inverse count changes of (2,6), for either choice of the internal flip edge.", "quantifier": "every well-formed causal manifold, site, internal edge order", "why_tests_cant": "all triangulations, sites and orders", "anchors": ["include/Ergodic_moves_3.hpp:do_62_move", "include/Ergodic_moves_3.hpp:is_62_movable"]}
{"id": "C29", "title": "(4,4) move effect", "statement": "A successful (4,4) move exchanges the spacelike diagonal of the two adjacent spacelike triangles, replacing four cells by four, leaving all counts unchanged and all cells causal.", "quantifier": "every well-formed causal manifold and site", "why_tests_cant": "all triangulations and sites", "anchors": ["include/Ergodic_moves_3.hpp:do_44_move", "include/Ergodic_moves_3.hpp:prepare_four_four", "include/Ergodic_moves_3.hpp:find_bistellar_flip_location"]}
{"id": "C30", "title": "A (2,6) move returned as success is a causal manifold", "statement": "The public (2,6) move promises that a returned manifold is a valid causal triangulation (its new vertex stays on the slice of its facet).", "quantifier": "every causal manifold and site, real vertex coordinates", "why_tests_cant": "depends on slice geometry; unit tests use fine slices or check only counts", "anchors": ["include/Ergodic_moves_3.hpp:do_26_move", "include/Foliated_triangulation.hpp:classify_vertices", "include/Foliated_triangulation.hpp:expected_timevalue"]}
{"id": "C31", "title": "Moves are reversible", "statement": "After (2,3) the inverse (3,2) at the new edge restores the triangulation; after (2,6) the (6,2) at the new vertex restores it; after (4,4) the (4,4) at the new diagonal restores it.", "quantifier": "every manifold and site", "why_tests_cant": "all triangulations", "anchors": ["include/Ergodic_moves_3.hpp:execute", "include/Metropolis.hpp:reverse_move"]}
{"id": "C32", "title": "The move check accepts only exact deltas, and every genuine move passes it", "statement": "check_move returns true only if the after-state is structurally correct, keeps bit-identical foliation parameters and time bounds, and differs by the documented count deltas for that kind; and each successful causal move passes.", "quantifier": "every pair of manifolds", "why_tests_cant": "all pairs", "anchors": ["include/Ergodic_moves_3.hpp:check_move", "include/Ergodic_moves_3.hpp:same_configuration_value"]}
{"id": "C33", "title": "Euler characteristic and slice bounds are conserved", "statement": "N0-N1+N2-N3, min time and max time, initial radius and spacing never change during any command, MoveAlways or Metropolis run.", "quantifier": "every run", "why_tests_cant": "unbounded runs", "anchors": ["include/Ergodic_moves_3.hpp:check_move", "include/Move_command.hpp:execute", "include/Metropolis.hpp:resolve_transition"]}
{"id": "C34", "title": "do_* moves try every site and fail only if all fail", "statement": "do_23/32/62/44 return success iff some site in the shuffled order can be prepared and executed, reporting the last site's error otherwise; NO_CANDIDATE iff there is no site; do_26 stops at the first prepared site.", "quantifier": "every site list, order and per-site behaviour", "why_tests_cant": "all orders", "anchors": ["include/Ergodic_moves_3.hpp:do_23_move", "include/Ergodic_moves_3.hpp:do_32_move", "include/Ergodic_moves_3.hpp:do_26_move_impl", "include/Ergodic_moves_3.hpp:do_62_move", "include/Ergodic_moves_3.hpp:do_44_move"]}
{"id": "C35", "title": "Site selection does not depend on storage order", "statement": "The proposed site is a function of the set of candidate sites and the random draw only: for any two storage orders of the same candidates the same draw selects the same site, and every site is selected by exactly one draw value.", "quantifier": "every candidate list, permutation and draw", "why_tests_cant": "all permutations", "anchors": ["include/Ergodic_moves_3.hpp:canonical_random_element", "include/Ergodic_moves_3.hpp:canonicalize"]}
{"id": "C36", "title": "The bulk action is well defined on its documented domain and equals its closed form", "statement": "For alpha > 1/2 no square root, arccosine or division in the evaluation leaves its domain and the evaluated expression equals the published formula; outside the domain construction is refused.", "quantifier": "every real alpha > 1/2, k, lambda and counts", "why_tests_cant": "real domain", "anchors": ["include/S3Action.hpp:s3_bulk_action", "include/S3Action.hpp:make_physical_parameters"]}
{"id": "C37", "title": "Action change of a move is state independent", "statement": "The action difference caused by a move depends only on the move kind and couplings; (4,4) has none, so a validated (4,4) candidate is accepted for every trial value.", "quantifier": "every state and coupling", "why_tests_cant": "real-valued and over all states", "anchors": ["include/S3Action.hpp:s3_bulk_action", "include/Metropolis.hpp:action_ratio", "include/Metropolis.hpp:resolve_transition"]}
{"id": "C38", "title": "Physical parameters are validated", "statement": "Parameters are accepted iff alpha,k,lambda are finite and alpha > 1/2; non-finite values are reported as invalid_argument before the domain check (domain_error).", "quantifier": "every floating value incl. NaN and infinities", "why_tests_cant": "all values", "anchors": ["include/S3Action.hpp:make_physical_parameters", "include/Runtime_config.hpp:make_simulation"]}
{"id": "C39", "title": "Causal info survives a write/read round trip", "statement": "Reading back the causal-info block written for a triangulation yields exactly the same vertex and cell labels, for any labels.", "quantifier": "every label assignment", "why_tests_cant": "all labels and sizes", "anchors": ["include/Utilities.hpp:write_causal_info", "include/Utilities.hpp:read_causal_info"]}
{"id": "C40", "title": "Indexed label sections accept exactly the complete ones", "statement": "A section is accepted iff it has exactly count records, each with an index below count, no index repeated; then label i is the one recorded for i, in any record order.", "quantifier": "every text section", "why_tests_cant": "all texts and orders", "anchors": ["include/Utilities.hpp:read_indexed_info", "include/Utilities.hpp:parse_record"]}
{"id": "C41", "title": "Metadata survives a write/read round trip", "statement": "Metadata written by the program and accepted on reading is recovered field for field (integers, seeds, traces, optional fields present/absent).", "quantifier": "every metadata value", "why_tests_cant": "all field values", "anchors": ["include/Utilities.hpp:metadata_text", "include/Utilities.hpp:read_persistence_metadata"]}
{"id": "C42", "title": "Malformed metadata is rejected", "statement": "Metadata text with a wrong header, a line without key and value, a duplicate key, a missing required key, an inconsistent optional group, or out-of-range numbers is refused.", "quantifier": "every text", "why_tests_cant": "all texts", "anchors": ["include/Utilities.hpp:read_persistence_metadata", "include/Utilities.hpp:parse_unsigned"]}
{"id": "C43", "title": "Payload corruption is detected", "statement": "A payload differing from the recorded one in length or in exactly one byte fails the integrity check; an unchanged payload passes.", "quantifier": "every payload, position and byte value", "why_tests_cant": "all payloads", "anchors": ["include/Utilities.hpp:payload_integrity", "include/Utilities.hpp:validate_payload_integrity"]}
{"id": "C44", "title": "A crash during a write never yields an undetected mixture", "statement": "At every crash point of a write, a later read returns the complete old artifact, the complete new one, or reports an error; never new labels with old payload or a truncated payload as success.", "quantifier": "every crash point, old and new content", "why_tests_cant": "all crash points", "anchors": ["include/Utilities.hpp:write_payload", "include/Utilities.hpp:read_file", "include/Utilities.hpp:replace_file"]}
{"id": "C45", "title": "A failing write leaves the previous artifact in place", "statement": "If serialization, validation or any step before the first rename fails, the previously written payload and metadata files are unchanged and no temporary remains.", "quantifier": "every failure point", "why_tests_cant": "all failure points", "anchors": ["include/Utilities.hpp:write_payload"]}
{"id": "C46", "title": "Writes are mutually exclusive and not re-entrant", "statement": "In every interleaving of threads at most one write operation is active, a thread starting a write inside its own write gets logic_error instead of deadlocking, and the guard is released on every exit.", "quantifier": "every number of threads and schedule", "why_tests_cant": "all schedules", "anchors": ["include/Utilities.hpp:WriteFileOperation"]}
{"id": "C47", "title": "Written files read back", "statement": "After write_file returns, read_file on the same path yields an equal triangulation.", "quantifier": "every triangulation and metadata", "why_tests_cant": "all contents", "anchors": ["include/Utilities.hpp:write_file", "include/Utilities.hpp:read_file"]}
{"id": "C48", "title": "Checkpoint artifacts always carry the completed pass count", "statement": "A CHECKPOINT artifact without a nonnegative completed-pass count is refused on write and on read, and Metropolis checkpoints record the pass at which they were taken.", "quantifier": "every metadata value and pass", "why_tests_cant": "all values", "anchors": ["include/Utilities.hpp:write_file", "include/Utilities.hpp:read_persistence_metadata", "include/Metropolis.hpp:make_reproducibility_metadata"]}
{"id": "C49", "title": "Fingerprints do not depend on storage order", "statement": "Placement fingerprint and topology fingerprint are equal for any two storage orders of the same labelled triangulation.", "quantifier": "every permutation of vertices and cells", "why_tests_cant": "all permutations", "anchors": ["include/Utilities.hpp:canonical_topology_fingerprint", "include/Utilities.hpp:fingerprint_records"]}
{"id": "C50", "title": "Triangulation configuration is accepted iff valid", "statement": "make_triangulation succeeds iff spherical-only topology is selected, the counts fit 32 bits, dimension is 3, simplices and timeslices >= 2, radius and spacing finite and positive, the population is feasible and threads are valid; the result carries exactly the inputs.", "quantifier": "every input tuple", "why_tests_cant": "all 64-bit and floating inputs", "anchors": ["include/Runtime_config.hpp:make_triangulation", "include/Runtime_config.hpp:select_topology", "include/Runtime_config.hpp:checked_int"]}
{"id": "C51", "title": "Simulation configuration is accepted iff valid, with documented error precedence", "statement": "make_simulation succeeds iff couplings are finite, alpha>1/2 and passes/checkpoint are positive 32-bit; the first violated check determines the error kind.", "quantifier": "every input tuple", "why_tests_cant": "all inputs", "anchors": ["include/Runtime_config.hpp:make_simulation"]}
{"id": "C52", "title": "Tetrahedron upper bound is exact and overflow free", "statement": "The reported bound equals n(n-3)/2-1 for n>=4, 0 below, and absence is reported exactly when it does not fit; no intermediate overflow.", "quantifier": "every 64-bit n", "why_tests_cant": "2^64 inputs", "anchors": ["include/Utilities.hpp:delaunay_tetrahedron_upper_bound"]}
{"id": "C53", "title": "Population estimate is monotone and within limits", "statement": "Estimated points per timeslice is monotone in requested simplices, at least the documented minimum and at most the capacity maximum, with no integer overflow.", "quantifier": "every simplices, timeslices", "why_tests_cant": "all inputs", "anchors": ["include/Utilities.hpp:expected_points_per_timeslice", "include/Utilities.hpp:generated_population_bounds"]}
{"id": "C54", "title": "Vertex repair is exact and idempotent", "statement": "fix_vertices sets exactly the wrongly labelled vertices to their geometric slice, reports whether any was wrong, and a second call changes nothing.", "quantifier": "every vertex set", "why_tests_cant": "all vertex sets", "anchors": ["include/Foliated_triangulation.hpp:fix_vertices", "include/Foliated_triangulation.hpp:is_vertex_timevalue_correct"]}
{"id": "C55", "title": "Cell repair is exact; acausal cells are never repaired", "statement": "fix_cells writes the expected class into exactly the mislabelled cells, is stable afterwards for causal cells, and reports an acausal cell as incorrect forever.", "quantifier": "every cell set", "why_tests_cant": "all cell sets", "anchors": ["include/Foliated_triangulation.hpp:fix_cells", "include/Foliated_triangulation.hpp:is_cell_type_correct", "include/Foliated_triangulation.hpp:check_cells"]}
{"id": "C56", "title": "Constructed triangulation after repair is causal", "statement": "A triangulation returned by the generator has only causal cells.", "quantifier": "every random point set", "why_tests_cant": "repair is bounded by 50 passes; only an assert checks the result", "anchors": ["include/Foliated_triangulation.hpp:make_triangulation", "include/Foliated_triangulation.hpp:fix_timevalues"]}
{"id": "C57", "title": "Time bounds and per-slice volumes are exact", "statement": "min/max time are attained bounds of the vertex labels; the volume of a slice is the number of spacelike facets on it and volumes sum to the number of spacelike facets.", "quantifier": "every triangulation", "why_tests_cant": "all triangulations", "anchors": ["include/Foliated_triangulation.hpp:find_max_timevalue", "include/Foliated_triangulation.hpp:find_min_timevalue", "include/Foliated_triangulation.hpp:volume_per_timeslice", "include/Foliated_triangulation.hpp:collect_spacelike_facets"]}
{"id": "C58", "title": "Lock grid ownership is consistent", "statement": "After any sequence of construction, copy, move, assignment, swap and detaching, a triangulation refers to the lock grid owned by the same object (or to none), never to a destroyed one.", "quantifier": "every operation sequence", "why_tests_cant": "all histories", "anchors": ["include/Foliated_triangulation.hpp:Delaunay_state", "include/Foliated_triangulation.hpp:has_consistent_lock_binding"]}
{"id": "C59", "title": "Causal vertices construction is total on valid input", "statement": "make_causal_vertices pairs i-th point with i-th time iff lengths agree and all times fit 32 bits; otherwise length_error takes precedence over out_of_range.", "quantifier": "every pair of sequences", "why_tests_cant": "all inputs", "anchors": ["include/Foliated_triangulation.hpp:make_causal_vertices"]}
{"id": "C60", "title": "Exit status of the simulator is truthful", "statement": "cdt exits with success without --help/--version only after a completed run whose result is valid and, when output is enabled, after every due checkpoint and the final file were written, each with the state after its pass and truthful metadata; a failure exit never leaves a final file of this run; if no step fails the exit is a success.", "quantifier": "every argument set and failure point", "why_tests_cant": "every failure point", "anchors": ["src/cdt.cpp:main"]}
{"id": "C61", "title": "Reports, checkpoints and cadence never influence the chain", "statement": "For the same strategy, state and seed, changing the checkpoint interval, enabling or disabling file output, or changing what reports print leaves the resulting manifold, counters, statistics and generator state unchanged.", "quantifier": "every pass function, report/checkpoint effect and pair of cadences", "why_tests_cant": "all schedules of side effects", "anchors": ["include/Move_run.hpp:execute_move_run"]}
{"id": "C62", "title": "An accepted configuration always populates the generator", "statement": "A configuration accepted by make_triangulation never fails the layered generator's own checks: every slice i gets floor(points*radius_i) >= 2 points labelled i+1, in slice order, and the total equals the predicted input vertex count.", "quantifier": "every accepted configuration", "why_tests_cant": "all 64-bit and floating inputs", "anchors": ["include/Runtime_config.hpp:make_triangulation", "include/Foliated_triangulation.hpp:make_foliated_ball", "include/Utilities.hpp:generated_input_vertex_count"]}
{"id": "C63", "title": "Vertex times are the nearest slice and monotone in the radius", "statement": "The time computed for a vertex is the slice whose radius is nearest to the vertex's (ties upward); it never decreases with the radius whatever the rounding; with IEEE doubles a vertex within a quarter spacing of layer i always gets time i+1.", "quantifier": "every radius, initial radius, spacing and rounding", "why_tests_cant": "all floating-point inputs", "anchors": ["include/Foliated_triangulation.hpp:expected_timevalue"]}
{"id": "C64", "title": "A constructed triangulation is already repaired; correctness means causality", "statement": "After construction, is_structurally_correct and is_foliated are true iff every cell is causal, fix_vertices reports nothing to fix, fix_cells reports true iff some cell is acausal and leaves the same contents, and is_fixed is false and leaves the object alone exactly when every cell is causal.", "quantifier": "every triangulation and labelling", "why_tests_cant": "all triangulations", "anchors": ["include/Foliated_triangulation.hpp:FoliatedTriangulation", "include/Foliated_triangulation.hpp:is_structurally_correct", "include/Foliated_triangulation.hpp:is_fixed", "include/Foliated_triangulation.hpp:fix_vertices", "include/Foliated_triangulation.hpp:fix_cells"]}
{"id": "C65", "title": "A concurrent reader only sees whole files", "statement": "Whatever other threads of the process write or read at the same time, a triangulation returned by read_file is parsed from the complete old contents of the file or from the complete contents of one write of that file; never from a partial or mixed file.", "quantifier": "every number of threads, schedule and failure", "why_tests_cant": "all schedules", "anchors": ["include/Utilities.hpp:read_file", "include/Utilities.hpp:write_payload"]}
{"id": "C66", "title": "Exit status of the initializer is truthful", "statement": "initialize exits with success without --help/--version only after the configuration was accepted and the triangulation was generated from the initialization stream of the effective seed; with --output it has then written exactly one file whose metadata describes the triangulation; a failure exit leaves no file of this run.", "quantifier": "every argument set and failure point", "why_tests_cant": "every failure point", "anchors": ["src/initialize.cpp:main", "include/Utilities.hpp:make_reproducibility_metadata"]}
{"id": "C67", "title": "A run is repeated by its recorded seed", "statement": "Running cdt or initialize again with the same options and --seed set to the effective seed of an earlier run gives the same exit status, output and files, independent of the entropy drawn; every file of a run records that seed.", "quantifier": "every option set and seed", "why_tests_cant": "all seeds and histories", "anchors": ["src/cdt.cpp:main", "src/initialize.cpp:main", "include/Random.hpp:Random", "include/Metropolis.hpp:MoveStrategy"]}
{"id": "C68", "title": "No artifact of a run overwrites another", "statement": "The files of one run (checkpoints and final triangulation) have pairwise different names whatever the clock says, the name tells seed, pass, slices and simplices, contains no colon or directory, and payload, sidecar and temporary paths never coincide.", "quantifier": "every run, clock reading, seed and pass", "why_tests_cant": "all runs and clock readings", "anchors": ["include/Utilities.hpp:make_filename", "include/Utilities.hpp:metadata_filename", "include/Utilities.hpp:write_file"]}
{"id": "C69", "title": "Everything a run outputs is what a shorter run would return", "statement": "The report after pass n shows the counters (and statistics), and the checkpoint file after pass n holds the state and trace, that a run of n passes of the same strategy from the same state would have returned; checkpoint files carry the strategy's seed and the pass number; a run that throws has produced an initial part of this output.", "quantifier": "every strategy, cadence, pass, random stream and failing output", "why_tests_cant": "all runs and failure points", "anchors": ["include/Move_run.hpp:execute_move_run", "include/Move_always.hpp:operator()", "include/Metropolis.hpp:operator()"]}
{"id": "C70", "title": "A render manifest is accepted iff it declares a complete, in-range rendering", "statement": "cdt-viewer accepts a manifest exactly when schema, fixture, topology, renderer versions, geometry, camera, style and comparison entries are all present with the right JSON types and in range; the accepted configuration is exactly what is declared; anything else is refused with an exception, never by an undefined conversion; an accepted picture has at most 2^28 pixels and its required foreground fits.", "quantifier": "every JSON document and rounding of long double", "why_tests_cant": "all documents and numbers", "anchors": ["src/cdt-viewer.cpp:parse_manifest", "src/cdt-viewer.cpp:require_integer", "src/cdt-viewer.cpp:require_color"]}
{"id": "C71", "title": "Nothing is shown unless the fixture passes every check", "statement": "cdt-viewer shows, writes or announces something only if the manifest is accepted, the fixture's bytes have the declared SHA-256, the CGAL and Qt versions agree, the fixture loads and it has exactly the declared topology and time slices; otherwise it exits with failure and touches nothing. (Refuted for files changed between hashing and loading.)", "quantifier": "every command line, file contents and interference", "why_tests_cant": "all file contents and histories", "anchors": ["src/cdt-viewer.cpp:main", "src/cdt-viewer.cpp:sha256", "src/cdt-viewer.cpp:validate_fixture", "src/cdt-viewer.cpp:topology_counts"]}
{"id": "C72", "title": "The outline pass is pixel exact and memory safe", "statement": "Drawing face boundaries gives the edge colour to exactly the pixels where two visible neighbours differ by more than the threshold (and, for wide lines, the pixels across, and the rim of vertex marks), keeps all other pixels, never accesses memory outside the picture and does not change the number of visible pixels; the foreground count is exact.", "quantifier": "every picture, colours and thresholds", "why_tests_cant": "all pictures of all sizes", "anchors": ["src/cdt-viewer.cpp:outline_face_boundaries", "src/cdt-viewer.cpp:foreground_pixels", "src/cdt-viewer.cpp:rgba_pixel"]}
{"id": "C73", "title": "The scene depends on the triangulation only", "statement": "Every finite facet is drawn once with its corners in a palette colour determined by the three vertices alone, whatever the order of storage, the side from which the facet is seen or the sorting algorithm; faces are wound outward up to a rounding margin; the vertices drawn are exactly those asked for (all, or those of boundary facets).", "quantifier": "every triangulation, storage order, sorting function and rounding", "why_tests_cant": "all storage orders", "anchors": ["src/cdt-viewer.cpp:make_scene", "src/cdt-viewer.cpp:facet_vertices", "src/cdt-viewer.cpp:facet_hash", "src/cdt-viewer.cpp:orient_outward", "src/cdt-viewer.cpp:convex_hull_vertices"]}
{"id": "C74", "title": "A successful headless rendering has produced the declared picture", "statement": "With --output, exit status 0 means that the callback ran before the watchdog fired and the output file is the finished snapshot, decodes to the declared size and has the required foreground; only that file changed; a fired watchdog always means failure; no schedule of events leads to undefined behaviour. (Refuted when the event loop is quit from outside, when saving fails silently over an old picture, and for removal of rejected pictures.)", "quantifier": "every event schedule, failure and file content", "why_tests_cant": "all schedules and failures", "anchors": ["src/cdt-viewer.cpp:run_viewer", "src/cdt-viewer.cpp:validate_image", "src/cdt-viewer.cpp:main"]}
{"id": "C75", "title": "An object describes its own triangulation after any history", "statement": "After any sequence of constructions, copies, moves, assignments, swaps, repairs, snapshots, edits of plain triangulations, destructions and failures, every FoliatedTriangulation and Manifold that was not moved from reports times, cell types, slice volumes, edge classes, counts and geometry that are exactly those of the triangulation it owns; is_correct means a valid triangulation with causal cells, and the thorough check never disagrees with the fast one.", "quantifier": "every history of statements, every CGAL meeting its contract, every failure point", "why_tests_cant": "all histories and failures", "anchors": ["include/Foliated_triangulation.hpp:FoliatedTriangulation", "include/Foliated_triangulation.hpp:has_consistent_derived_state", "include/Foliated_triangulation.hpp:is_correct_with_diagnostics", "include/Manifold.hpp:Manifold", "include/Geometry.hpp:Geometry"]}
{"id": "C76", "title": "Objects never interfere, and failure leaves every object as it was", "statement": "No two live objects share a vertex or a cell; a statement changes only the variables it names as targets, whatever happens to the vertices and cells of snapshots; a statement that throws changes no object (a plain triangulation passed by move is consumed); no allowed statement is undefined.", "quantifier": "every history, statement and failure point", "why_tests_cant": "all histories and failures", "anchors": ["include/Foliated_triangulation.hpp:delaunay_snapshot", "include/Foliated_triangulation.hpp:operator=", "include/Foliated_triangulation.hpp:swap", "include/Foliated_triangulation.hpp:is_fixed", "include/Manifold.hpp:updated"]}
{"id": "C77", "title": "Copies, moves, swaps and repairs give the documented values", "statement": "A copy or copy assignment reads like its source (counts, times, slices, geometry, checks, labelled vertices and cells); a snapshot holds the source's labelled vertices and cells; updated() of a nonempty manifold reads like it; moves hand over the very object; swap and move assignment exchange; fix_vertices and fix_cells do not change the reading; is_fixed keeps radius and spacing and leaves a foliated object alone; wrapping and building on a plain triangulation keep points and cells.", "quantifier": "every history and pair of objects", "why_tests_cant": "all histories", "anchors": ["include/Foliated_triangulation.hpp:FoliatedTriangulation", "include/Foliated_triangulation.hpp:swap", "include/Foliated_triangulation.hpp:fix_vertices", "include/Foliated_triangulation.hpp:fix_cells", "include/Foliated_triangulation.hpp:is_fixed", "include/Foliated_triangulation.hpp:delaunay_snapshot", "include/Manifold.hpp:updated", "include/Manifold.hpp:swap"]}
{"id": "C78", "title": "The generic bistellar flip succeeds exactly on four-cell rings and changes nothing else", "statement": "detail::bistellar_flip returns a triangulation exactly when the edge handle names an edge with exactly four finite cells around it, top and bottom are two different vertices of the ring, CGAL finds the points and no cell already joins the two ring neighbours of bottom; the edge is then replaced by the one between these neighbours, all other cells, the vertices and all counts are kept, the result is a valid triangulation; for every other combination of handles (null, foreign, infinite, out of range) it returns nullopt.", "quantifier": "every valid triangulation, edge handle, pair of vertex handles and validator", "why_tests_cant": "all triangulations and handles", "anchors": ["include/Ergodic_moves_3.hpp:bistellar_flip", "include/Ergodic_moves_3.hpp:bistellar_flip_impl", "include/Ergodic_moves_3.hpp:prepare_bistellar_flip", "include/Ergodic_moves_3.hpp:execute"]}
{"id": "C79", "title": "Raw handles are checked before use and circulation is exact", "statement": "Functions on edge handles refuse every handle that names no edge of the triangulation without following it; the cells around an edge are returned each exactly once in cyclic order, or none if one is infinite, and the circulation ends; the (3,2) and (4,4) preparations depend only on the edge the handle names; the pivot edge is the first with four finite cells around it; vertices of a list of cells and cells of a vertex are collected exactly.", "quantifier": "every triangulation, every handle", "why_tests_cant": "all triangulations and handles", "anchors": ["include/Ergodic_moves_3.hpp:is_well_formed_edge", "include/Ergodic_moves_3.hpp:finite_incident_cells", "include/Ergodic_moves_3.hpp:incident_cells_from_edge", "include/Ergodic_moves_3.hpp:find_pivot_edge", "include/Ergodic_moves_3.hpp:get_vertices", "include/Ergodic_moves_3.hpp:prepare_three_two", "include/Ergodic_moves_3.hpp:prepare_four_four", "include/Foliated_triangulation.hpp:get_vertices_from_cells"]}
{"id": "C80", "title": "Validators only restrict; in-place moves are all or nothing", "statement": "With a post-mutation validator the (2,6), (6,2), (4,4) moves and the flip give the answer they give without it if the validator accepts the new triangulation and an invariant violation (or nullopt) otherwise; try_23_move and try_32_move leave the triangulation as it was when they return false and have made the documented move at that cell or edge when they return true.", "quantifier": "every validator, triangulation and handle", "why_tests_cant": "all validators are arbitrary predicates", "anchors": ["include/Ergodic_moves_3.hpp:accept_post_mutation", "include/Ergodic_moves_3.hpp:try_62_move_impl", "include/Ergodic_moves_3.hpp:do_26_move_impl", "include/Ergodic_moves_3.hpp:bistellar_flip_impl", "include/Ergodic_moves_3.hpp:try_23_move", "include/Ergodic_moves_3.hpp:try_32_move"]}
{"id": "C81", "title": "Moves and runs keep the triangulation connected around every face", "statement": "If the triangulation is valid, connected, and the cells around every vertex and edge hang together through facets, then so is the result of every successful move, queue of moves, always-accept run and Metropolis run.", "quantifier": "every triangulation, random stream and length of run", "why_tests_cant": "all histories", "anchors": ["include/Ergodic_moves_3.hpp:do_23_move", "include/Ergodic_moves_3.hpp:do_44_move", "include/Move_command.hpp:execute", "include/Move_always.hpp:operator()", "include/Metropolis.hpp:operator()"]}
{"id": "C82", "title": "Each move applies exactly where its documented local pattern is present", "statement": "On a valid triangulation, preparing and executing a (2,3), (3,2), (2,6), (6,2) or (4,4) move at a given cell, edge or vertex succeeds if and only if the documented configuration of cells and times surrounds it, the new face is not already present, and CGAL locates the points and accepts the flip; the result is then determined. A do_*_move search that reports failure therefore means that no place of the manifold has the pattern.", "quantifier": "every valid triangulation, labelling, site, random order and answers of CGAL", "why_tests_cant": "must hold for all configurations; tests use a few small complexes", "anchors": ["include/Ergodic_moves_3.hpp:prepare_two_three", "include/Ergodic_moves_3.hpp:prepare_three_two", "include/Ergodic_moves_3.hpp:prepare_two_six", "include/Ergodic_moves_3.hpp:prepare_six_two", "include/Ergodic_moves_3.hpp:prepare_four_four", "include/Ergodic_moves_3.hpp:do_32_move"]}
{"id": "C83", "title": "Distinct seeds or streams give distinct, uniform sequences", "statement": "Two cdt::Random objects made from different (seed, stream) pairs return different sequences; split gives the beginning of the stream of the recorded seed whatever was drawn or split before, and draws change neither recorded seed nor stream; the returned values repeat exactly after 2^128 calls, and in every 2^128 consecutive calls each 64-bit value is returned exactly 2^64 times.", "quantifier": "every pair of 64-bit seeds and streams, every position in the sequence", "why_tests_cant": "2^256 pairs and sequences of length 2^128", "anchors": ["include/Random.hpp:Random", "include/Random.hpp:split", "include/Random.hpp:operator()"]}
{"id": "C84", "title": "Random choices are exactly even", "statement": "generate_random_int (and die_roll, generate_random_timeslice, the choice of a move type and of a proposal site) on a cdt::Random returns after finitely many words with a value in the requested range; over one cycle of the generator every value is chosen by exactly the same number of calls, the remaining words are skipped and the draw repeated; an entropy seed can be any 64-bit value, each from exactly one pair of device words.", "quantifier": "every generator state, range, list of candidates and device", "why_tests_cant": "2^128 states and all ranges", "anchors": ["include/Utilities.hpp:generate_random_int", "include/Utilities.hpp:generate_random_timeslice", "include/Utilities.hpp:die_roll", "include/Move_tracker.hpp:generate_random_move_3", "include/Ergodic_moves_3.hpp:canonical_random_element", "include/Random.hpp:entropy_seed"]}
{"id": "C85", "title": "Trials accept with the computed probability", "statement": "generate_probability returns one word over 2^64, at least 0 and below 1; over one cycle of the generator each such value comes up equally often, and the share of trials that accept a candidate of acceptance probability x is at least x and at most x + 2^-64.", "quantifier": "every generator state and probability", "why_tests_cant": "2^128 states and all reals", "anchors": ["include/Utilities.hpp:generate_probability", "include/Metropolis.hpp:resolve_transition"]}
{"id": "C86", "title": "Shuffled orders are complete and unbiased", "statement": "The shuffle used by the move searches keeps exactly the elements, consumes a fixed list of bounded draws that depends on the length only, and gives every order of the elements from exactly one outcome of those draws.", "quantifier": "every container length up to 2^64, every generator state", "why_tests_cant": "n! orders", "anchors": ["include/Ergodic_moves_3.hpp:do_23_move", "include/Ergodic_moves_3.hpp:do_32_move", "include/Ergodic_moves_3.hpp:do_26_move_impl", "include/Ergodic_moves_3.hpp:do_62_move", "include/Ergodic_moves_3.hpp:do_44_move"]}
{"id": "C87", "title": "The label of a generated point is the one its radius gives", "statement": "In double arithmetic, every point the foliation generator produces for a slice gets exactly that slice's time from the radius formula, whenever the slice's radius is at most 2^36 spacings; for finer spacings an accepted configuration exists in which it does not.", "quantifier": "every radius, spacing, slice, point and rounding error", "why_tests_cant": "floating point error for every radius and spacing", "anchors": ["include/Foliated_triangulation.hpp:expected_timevalue", "include/Foliated_triangulation.hpp:make_foliated_ball", "include/Foliated_triangulation.hpp:squared_radius"]}
{"id": "C88", "title": "The radius check is a one percent band", "statement": "The check of a vertex's radius against its label accepts every generated point, accepts and refuses as the squared distance is within or outside one percent of the slice's, and near the first slices (24 spacings) accepts only the right label; from 250 spacings on it also accepts the next slice's label.", "quantifier": "every vertex, label, radius, spacing and rounding error", "why_tests_cant": "wrong labels on far slices pass too", "anchors": ["include/Foliated_triangulation.hpp:does_vertex_radius_match_timevalue", "include/Foliated_triangulation.hpp:expected_radius"]}
{"id": "C89", "title": "The lock grid covers all vertices", "statement": "The box given to the lock grid contains every vertex, strictly and with non-zero extent for coordinates up to 2^52, and in exact arithmetic is the bounding box enlarged by the larger of 1 and one percent of its longest edge.", "quantifier": "every list of points, including overflow of the extents", "why_tests_cant": "all coordinates and their rounding", "anchors": ["include/Foliated_triangulation.hpp:locking_box", "include/Foliated_triangulation.hpp:pad_locking_box", "include/Foliated_triangulation.hpp:default_locking_box"]}
{"id": "C90", "title": "The output of a run tells exactly what the run did", "statement": "The standard output of a MoveAlways or Metropolis run can be read back: it names the seed and stream, numbers the passes, after every checkpoint-th pass and at the end gives totals and per-move numbers equal to the numbers of moves attempted, successful, failed (proposed, accepted, rejected) in all passes so far, and announces each file before it is written; a run that throws has printed the same up to the pass that threw or the file that could not be written.", "quantifier": "every strategy, cadence, random stream, manifold and failure", "why_tests_cant": "all runs and failure points", "anchors": ["include/Move_run.hpp:execute_move_run", "include/Move_always.hpp:print_results", "include/Metropolis.hpp:print_results"]}
{"id": "C91", "title": "Printed counters and counts are the counters and counts", "statement": "print_attempts, print_successful and print_errors of a command print, after any execution, the numbers of moves of each kind that were attempted, succeeded and failed, and say that none failed exactly if none failed; Manifold::print and print_details print the manifold's counts in the order they name.", "quantifier": "every queue, move outcome and manifold", "why_tests_cant": "all histories and values", "anchors": ["include/Move_command.hpp:print_attempts", "include/Move_command.hpp:print_errors", "include/Manifold.hpp:print", "include/Manifold.hpp:print_details"]}
{"id": "C92", "title": "A (2,6) move keeps the foliation exactly when its new vertex stays on the slice", "statement": "A successful (2,6) move has inserted the centroid of a face of a slice; its result is sound if and only if that vertex gets the slice's time, and otherwise has an acausal cell and is refused by the move check. In double arithmetic the vertex stays on the slice of radius R when the squared edges of the face sum to at most 9 (0.99 R S - S^2/4), S the spacing, and falls to an earlier slice when they sum to at least 9 (1.01 R S - S^2/4).", "quantifier": "every manifold, face, radius, spacing and rounding error up to radii of 2^20 spacings", "why_tests_cant": "floating point error and every face", "anchors": ["include/Ergodic_moves_3.hpp:do_26_move_impl", "include/Ergodic_moves_3.hpp:execute", "include/Foliated_triangulation.hpp:expected_timevalue", "include/Ergodic_moves_3.hpp:check_move"]}
{"id": "C93", "title": "A strategy reports what it was built from and can be rebuilt from it", "statement": "A strategy object is built exactly for admissible settings (both cadence values positive; for Metropolis also finite couplings with alpha above one half). After any calls, returning or throwing, its getters still report the constructor's arguments, and an object built from the reported seed, stream and settings gives the same answers, the same final state and the same output, provided the first was not built on a stream already drawn from. The provenance it hands out names the effective run and the manifold asked about, whatever the provenance it was given said.", "quantifier": "every constructor, setting, seed, stream and history of public calls, including those that throw", "why_tests_cant": "every history of calls", "anchors": ["include/Move_always.hpp:MoveStrategy", "include/Metropolis.hpp:MoveStrategy", "include/Metropolis.hpp:reproducibility_metadata"]}
{"id": "C94", "title": "The output of a run is a recipe for it", "statement": "A run of cdt or initialize without --help/--version either prints nothing and fails because its options were not accepted, or begins its output with lines from which the options can be read back: run with them, the program behaves identically (output, files, exit status) whatever entropy it draws.", "quantifier": "every option set, seed, failure point and clock", "why_tests_cant": "all option sets and seeds", "anchors": ["src/cdt.cpp:main", "src/initialize.cpp:main", "include/Utilities.hpp:topology_to_str"]}
{"id": "C95", "title": "The listings of a triangulation are the triangulation", "statement": "print_cells, print_vertices, print_edges, print_volume_per_timeslice and print of a constructed triangulation list every cell, vertex, edge and slice exactly once, in order, with the times and classes that hold: the class printed for a cell is the one its printed times call for, actual and expected time agree, and the rows of each kind number what the triangulation reports.", "quantifier": "every triangulation, radius and spacing", "why_tests_cant": "all triangulations", "anchors": ["include/Foliated_triangulation.hpp:print_cell", "include/Foliated_triangulation.hpp:print_cells", "include/Foliated_triangulation.hpp:print_vertices", "include/Foliated_triangulation.hpp:print_edges", "include/Foliated_triangulation.hpp:print_edge", "include/Foliated_triangulation.hpp:print_neighboring_cells", "include/Foliated_triangulation.hpp:print_volume_per_timeslice"]}
{"id": "C96", "title": "Random reals stay in their range and are evenly spread", "statement": "generate_random_real on a cdt::Random uses one word and returns a value of the type between the two bounds, both included, whenever the bounds are values of the type in order with finite width; over one cycle of the generator the share of values up to x is the share of the range below x, up to rounding. The upper bound, documented as exclusive, is not returned if the lower bound is at most 0, the width is exact and the upper bound is above the least normal value; it is returned for some words in general, for instance for the range from 1 to 2.", "quantifier": "every floating-point type, range, generator state and rounding error", "why_tests_cant": "2^128 states, all ranges and floating point error", "anchors": ["include/Utilities.hpp:generate_random_real", "include/Utilities.hpp:generate_random", "include/Utilities.hpp:generate_probability"]}
{"id": "C97", "title": "Fingerprints tell triangulations apart up to digest collisions", "statement": "The placement and topology fingerprints are FNV-1a digests of a byte text that determines the labelled points, and the labelled triangulation up to storage order. Two triangulations with the same topology fingerprint therefore have the same labelled points and the same labelled cells on them, also when points coincide, unless two different texts have the same 64-bit digest; likewise for the placement fingerprint and the labelled points.", "quantifier": "every pair of triangulations, any coordinates the 17-digit printing tells apart", "why_tests_cant": "all pairs of triangulations, and every gluing on coincident points", "anchors": ["include/Utilities.hpp:canonical_topology_fingerprint", "include/Utilities.hpp:canonical_placement_fingerprint", "include/Utilities.hpp:point_key", "include/Utilities.hpp:incidence_records_for_coloring", "include/Utilities.hpp:fingerprint_records"]}
{"id": "C98", "title": "Steps that can be undone are in detailed balance with exp(-S)", "statement": "The probability that one Metropolis step turns a manifold m into m' (a kind with probability 1/5, every raw site with the same probability, then the modelled proposal, check and acceptance test) satisfies exp(-S(m)) P(m,m') = exp(-S(m')) P(m',m) for all structurally correct manifolds each of which can be turned into the other, or neither; a step by (2,3), (2,6) or (4,4) can always be undone if CGAL locates the points and accepts the flip. Some (3,2) and (6,2) steps cannot, and there the equation is false.", "quantifier": "every pair of manifolds, every choice of couplings, every generator", "why_tests_cant": "all pairs of manifolds and real couplings; probabilities are not observable in a test", "anchors": ["include/Metropolis.hpp:resolve_transition", "include/Metropolis.hpp:propose_candidate", "include/Metropolis.hpp:acceptance_probability", "include/Metropolis.hpp:proposal_site_count", "include/Ergodic_moves_3.hpp:canonical_random_element", "include/Ergodic_moves_3.hpp:check_move"]}
{"id": "C99", "title": "Every time slice keeps its topology", "statement": "A successful (2,3) or (3,2) move changes no time slice; an accepted (2,6), (6,2) or (4,4) move changes exactly one, by one two-dimensional bistellar move (a vertex put into a triangle, taken out of three, an edge flipped), so that the volume of that slice grows by 2, shrinks by 2 or stays. After any queue of moves and any MoveAlways or Metropolis run every slice is therefore the same surface up to bistellar moves: same Euler characteristic, closed iff it was closed, connected iff it was connected, volume of the same parity.", "quantifier": "every valid triangulation, slice, random stream and length of run", "why_tests_cant": "all histories and all triangulations", "anchors": ["include/Ergodic_moves_3.hpp:do_26_move", "include/Ergodic_moves_3.hpp:do_62_move", "include/Ergodic_moves_3.hpp:do_44_move", "include/Ergodic_moves_3.hpp:check_move", "include/Foliated_triangulation.hpp:spacelike_face_count", "include/Foliated_triangulation.hpp:volume_per_timeslice", "include/Move_command.hpp:execute", "include/Metropolis.hpp:operator()"]}
{"id": "C100", "title": "Long Metropolis runs sample exp(-S) where every step can be undone", "statement": "Seen as a random process, one Metropolis step leaves the distribution proportional to exp(-S) unchanged at every structurally correct manifold whose possible steps all have a way back. On a finite set of manifolds that steps do not leave, with two-way steps and every manifold reachable from every other, it is the only distribution left unchanged, and if some manifold can stay as it is in a step, the distribution after n steps from any start tends to it.", "quantifier": "every closed finite set of manifolds, start, number of steps, choice of couplings", "why_tests_cant": "a statement about the limit of all runs; probabilities are not observable in a test", "anchors": ["include/Metropolis.hpp:resolve_transition", "include/Metropolis.hpp:sample_transition", "include/Metropolis.hpp:propose_candidate", "include/Metropolis.hpp:acceptance_probability", "docs/metropolis-hastings.md"]}
{"id": "C101", "title": "A run is one uninterrupted sequence of draws", "statement": "A run that returns has made its transitions one after another with one generator: the manifold and the generator state are handed from pass to pass, a MoveAlways pass drawing all its move types before its sites and making the moves in the order drawn, a Metropolis transition drawing type, trial, then site. The strategy keeps the generator as the last draw left it, also when a run or a single transition throws. So the start, the generator and the number of passes fix the history, and a run of p+q passes equals one of p followed by one of q with the generator kept: same manifold, same generator, counters that add up, whatever is printed, checkpointed or written in between.", "quantifier": "every start, generator, split of the passes, checkpoint interval, failing callback, and every sequence of calls on one object", "why_tests_cant": "all generators, all histories of calls, every point at which a run can throw", "anchors": ["include/Move_always.hpp:execute_pass", "include/Move_run.hpp:execute_move_run", "include/Move_command.hpp:execute", "include/Metropolis.hpp:sample_transition", "include/Metropolis.hpp:operator()"]}
{"id": "C102", "title": "Averages over long Metropolis runs approach the averages weighted with exp(-S)", "statement": "On a finite set of manifolds that steps do not leave, with two-way steps, every manifold reachable from every other and one that can stay as it is, the average of any real observable over the manifolds after each of n transitions tends to its mean in the distribution proportional to exp(-S): its expected value does, and the probability that one run's average is further away than a given distance tends to 0, uniformly over the start.", "quantifier": "every observable, closed finite set of manifolds, start, distance and probability, choice of couplings", "why_tests_cant": "a limit over all runs; no number of runs shows it", "anchors": ["include/Metropolis.hpp:sample_transition", "include/Metropolis.hpp:attempt_transition", "include/Metropolis.hpp:resolve_transition", "docs/metropolis-hastings.md"]}
{"id": "C103", "title": "What the manifolds at the ends of passes sample", "statement": "A pass makes as many attempts as its first manifold has simplices. On a set as in C102 all of whose manifolds have the same number of simplices, the ends of passes tend to exp(-S). In general they do not: passes from large manifolds are longer, so the limit differs from exp(-S) (for every choice of couplings a set of two manifolds exists where the larger is too rare). What always holds is that in a pass started from a distribution that passes leave unchanged, the expected number of attempts made at a manifold is proportional to exp(-S).", "quantifier": "every closed finite set of manifolds, start, number of passes, choice of couplings", "why_tests_cant": "a statement about the limit of all runs; probabilities are not observable in a test", "anchors": ["include/Move_run.hpp:execute_move_run", "include/Metropolis.hpp:execute_pass", "docs/metropolis-hastings.md", "docs/reproducibility.md"]}
{"id": "C104", "title": "A run can come back to what it has left", "statement": "The moves a Metropolis run draws should connect the manifolds they can reach. If CGAL locates the points and accepts the flips, this holds for everything reached by (2,3), (2,6) and (4,4) steps: there is a way back. In general it is false: a run can leave a manifold for good. Where some manifold is within reach of all others, the probability of being at one that cannot be reached from it tends to 0, and no distribution that gives it weight is left unchanged; a set of six manifolds with exact geometry shows that this happens for every choice of couplings, so long runs need not sample exp(-S) on the manifolds within their reach.", "quantifier": "every manifold, path of steps of any length, closed finite set, number of steps, choice of couplings", "why_tests_cant": "paths of every length; that there is no way back is a statement about all of them", "anchors": ["include/Metropolis.hpp:sample_transition", "include/Metropolis.hpp:propose_candidate", "include/Ergodic_moves_3.hpp:propose_32_move", "include/Ergodic_moves_3.hpp:propose_62_move", "docs/metropolis-hastings.md"]}
{"id": "C105", "title": "Looking up answers for what is there, and moves are local", "statement": "Asking for the cell of four vertices finds it exactly if these four are the vertices of a cell, in whatever order they are given, and every cell can be found; a point that is found is stored in the triangulation, and is found if CGAL locates it. The lists of finite edges and cells have no repetitions, nothing infinite, nothing missing, and the lengths the geometry reports. After a successful move exactly as many cells can no longer be found, and as many new ones can, as the kind of the move says; look-ups that are not confined to the five or six points of one site answer as before, and after any number of moves those not confined to six points per move. A MoveAlways run reaches no further than six points for every success its counters show, a Metropolis run no further than six for every acceptance, however long it was and whatever it drew.", "quantifier": "every triangulation, point, four vertices in every order, kind of move, run of any length", "why_tests_cant": "look-ups not made by a test, orders of arguments, and what a move must leave alone are unbounded families", "anchors": ["include/Foliated_triangulation.hpp:find_vertex", "include/Foliated_triangulation.hpp:find_cell", "include/Foliated_triangulation.hpp:collect_edges", "include/Foliated_triangulation.hpp:collect_cells"]}
{"id": "C106", "title": "The final counts follow from the first counts and the counters", "statement": "When a run returns, each of the ten counts of its manifold is that of the manifold it was given, changed by the documented amount for every success (MoveAlways) or acceptance (Metropolis) its published counters show, and first and last slice are the same; for a command object the same holds of the growth of its success counters during a call, also when a move function throws. So counters and counts can be checked against each other, for any number of moves and whatever the move functions do.", "quantifier": "every run, any number of passes, any move functions, every generator, every command and queue", "why_tests_cant": "an agreement between two independent kinds of bookkeeping after histories of every length", "anchors": ["include/Move_always.hpp:operator()", "include/Metropolis.hpp:operator()", "include/Move_command.hpp:execute", "include/Ergodic_moves_3.hpp:check_move"]}
