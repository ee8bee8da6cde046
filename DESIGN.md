# DESIGN — a Rocq (Coq 8.16.1) model of CDT-plusplus

## Method

Everything is a Gallina model of the C++ in `/repo`, read as text, with theorems
checked by Coq's kernel. Each definition carries a comment with the file and the
lines it models, and says where it simplifies. Outcomes of C++ are explicit: a
computation returns, throws a named exception, terminates (`Abort`: the contract
violation of `gsl::at`, a failed `assert`, `std::terminate`) or is undefined
(`UB`: signed 32-bit overflow, use of a freed grid, `value()` without a value).
Random engines, CGAL's geometric predicates, client callbacks, the thread
schedule, the point of a crash, failing system calls, file contents and the
rounding of floating-point operations are universally quantified, subject only to
the contracts named below.

Specifications live in small files of their own (`MoveSpec.v`, `MoveTools.v`,
`ConfigSpec.v`, `FoliationSpec.v`, `PersistSpec.v`, `MetaSpec.v`, `FsSpec.v`,
`FingerprintSpec.v`, `LockSpec.v`, `ProgramSpec.v`, `Viewer*Spec.v`); the short relations used by
C04–C17 (`history`, `validated_chain`, `commanded`, `calls`) stand at the top of
`Command.v`, `Run.v` and `Metropolis.v`. `Props*.v` contain only the theorems,
each closed by a lemma, with `Print Assumptions` and an `Example` meeting the
hypotheses with concrete data. A claim that is false of the code is stated and
refuted (`_refuted`) with a concrete witness; a provable part of a claim that is
not provable in full is named `_partial` or stated as its own theorem, and the
property has status `partial` in MANIFEST.json.

## Files (`rocq/theories/`)

| model | of |
| --- | --- |
| `Base.v` | int32/int64/uint64 arithmetic, floating values (`NaN`, `±inf`, rational), results |
| `Tracker.v` | Move_tracker.hpp, Move_outcome.hpp |
| `Command.v` | Move_command.hpp |
| `Run.v` | Move_run.hpp, Random.hpp, Move_always.hpp |
| `Pcg.v` | pcg64, the engine inside Random.hpp's `Random` |
| `Geom.v` | Geometry.hpp, run metadata record |
| `Fnv.v` | FNV-1a folds (Metropolis.hpp, Utilities.hpp) |
| `Metropolis.v` | Metropolis.hpp: transition machine, statistics, runs |
| `Mp.v`, `Action.v`, `Acceptance.v` | Mpfr_value.hpp, S3Action.hpp, Metropolis.hpp acceptance |
| `Simplex.v`, `Pachner.v` | CGAL TDS as a finite simplicial complex; its two flips |
| `Foliation.v` | times, classes and counts of Foliated_triangulation.hpp |
| `Moves.v` | Ergodic_moves_3.hpp: preparation, execution, proposals, check_move |
| `Select.v` | canonical site selection (nth_element, sort) |
| `Manifold.v` | Manifold.hpp, structural validity, do_\*/propose_\* on manifolds |
| `Config.v` | Runtime_config.hpp, population estimates (Utilities.hpp), generator |
| `Repair.v` | Foliated_triangulation.hpp: labels, repair, make_triangulation, containers |
| `Radii.v` (spec `RadiiSpec.v`) | Foliated_triangulation.hpp: radii, labels and the radius check in double; the lock grid's box |
| `Centroid.v` (spec `CentroidSpec.v`) | Ergodic_moves_3.hpp 1015-1018: CGAL::centroid in double |
| `Locks.v` | Foliated_triangulation.hpp: Delaunay_state, FoliatedTriangulation lifetime |
| `Seams.v` (specs `SeamSpec.v`, `StarSpec.v`) | Ergodic_moves_3.hpp: raw handles, the circulator around an edge, generic bistellar flip, functions with validators, in-place moves, pivot edge |
| `ApplySpec.v` (specification only) | where each of the five moves applies |
| `Objects.v` (spec `ObjectsSpec.v`) | Foliated_triangulation.hpp, Manifold.hpp, Geometry.hpp: objects as handles into CGAL's cells, all special members, snapshots, repairs, checks |
| `Announce.v` (spec `AnnounceSpec.v`) | src/cdt.cpp 163-188, 225-230; src/initialize.cpp 128-138, 146; Utilities.hpp 81-90, 2385-2391: the printed job parameters |
| `DrawReal.v` (spec `DrawRealSpec.v`) | Utilities.hpp 1983-1991, 2036-2045: random reals through libstdc++'s real distribution |
| `Listing.v` (spec `ListingSpec.v`) | Foliated_triangulation.hpp 935-1014, 1931-1966, 1988-2021: the printed listings |
| `Strategy.v` (spec `StrategySpec.v`) | Move_always.hpp 94-168; Metropolis.hpp 132-301: constructors, getters, provenance, histories of public calls |
| `Transcript.v` (spec `TranscriptSpec.v`) | the standard output of both strategies: Move_run.hpp 192-229, Move_always.hpp 67-91, Metropolis.hpp 565-628; Move_command.hpp 213-264; Manifold.hpp 341-364 |
| `Text.v`, `Persist.v` | Utilities.hpp: text, label sections, metadata, integrity, fingerprints |
| `FileSys.v`, `FileIO.v` | file system with failures/crashes/threads; write_file, read_file |
| `RunCheckpoint.v`, `CheckpointState.v` | provenance of checkpoints written during a run |
| `Names.v` | Utilities.hpp: file names |
| `Program.v` | src/cdt.cpp, src/initialize.cpp |
| `Viewer.v`, `ViewerImage.v`, `ViewerScene.v`, `ViewerMain.v` | src/cdt-viewer.cpp: manifest, picture passes, scene, event loop and main |
| `Toy.v`, `Samples.v`, `SampleFacts.v`, `RepairSample.v`, `CentroidSamples.v`, `FsSample.v`, `ViewerSample.v` | concrete instances for examples and refutations |

Proof files: `PropsRunLemmas`, `MpFlocq`, `HastingsError`, `NoThrow`, `Links`,
`MoveCore`, `Move23`, `Move26`, `Move26Site`, `Move44`, `Move62Site`, `MoveSound`,
`MoveProps`, `ManifoldFacts`, `ManifoldMoves`, `ClassFacts`, `Loops`, `Reverse`,
`Reverse44`, `Undo`, `ConfigFacts`, `ConfigProps`, `RepairFacts`,
`FoliationFacts`, `FoliationProps`, `FoliationProps2`, `TextFacts`,
`PersistFacts`, `MetaFacts`, `MetaRound`, `MetaLook`, `MetaRoundTrip`, `FsLogic`,
`FsFacts`, `FsProps`, `FsThreads`, `FsCheckpoint`, `FingerprintFacts`, `Canon`,
`CanonRelabel`, `LockFacts`, `ProgramFacts`, `ProgramNames`, `ViewerFacts`,
`ViewerFrame`, `ViewerImageFacts`, `ViewerSceneFacts`, `ViewerOutward`,
`ViewerMainFacts`, `ViewerSampleFacts`, `ObjectsFacts`, `ObjectsRuns`,
`ObjectsReads`, `ObjectsWorld`, `ObjectsLemmas`, `ObjectsExample`,
`ObjectsGeometry`, `StarFacts`, `Circulator`, `Incident`, `Flip`, `FlipFacts`,
`SeamFacts`, `SeamMoves`, `SeamValid`, `SeamSample`, `Apply`, `ApplyDo`,
`PcgFacts`, `PcgProps`, `Ieee`, `IeeeRadii`, `RadiiFacts`, `RadiiProps`,
`BoxFacts`, `IeeeDouble`, `TranscriptFacts`, `TranscriptLines`, `TranscriptProps`,
`TranscriptRuns`, `TranscriptCounts`, `CentroidFacts`, `CentroidMoves`, `StrategyFacts`,
`AnnounceFacts`, `ListingFacts`, `DrawRealFacts`.

## Plan per property

Status and theorem names are in MANIFEST.json; the full English statements in
properties.jsonl.

* C01–C03 enums and five counters over Z with int32 range; case analysis.
* C04–C07 `execute` as a loop over the queue, for an arbitrary move API that may
  succeed, fail or throw, and an arbitrary check; induction on the queue, against
  an inductive `history`.
* C08–C13, C61 `execute_move_run` as recursion over passes with an arbitrary pass
  callable; event log; MoveAlways and Metropolis as instances. Replay is
  functional determinism plus independence from checkpoints and reports.
* C14–C17 transition machine on (manifold, counters, statistics, engine);
  invariants over arbitrary sequences of calls of the strategy.
* C18–C20, C36–C38 MPFR values over R with an arbitrary rounding satisfying the
  contract `rounding` (met by 256-bit round-to-nearest-even, `MpFlocq.v`).
* C21, C23–C35 triangulation = finite simplicial complex with infinite vertex and
  time labels; moves guarded by the same tests as the code; CGAL's geometric
  decisions arbitrary. Effects proved against `MoveSpec.v`.
* C22 sites per result counted; two documented uniqueness claims refuted.
* C30 refuted. C56 refuted, with the exact conditional statement proved.
* C39–C43 byte-level text functions, exact acceptance (iff) and round trips.
* C44–C48, C65 programs over a file system whose every call may fail, with a
  crash possible after every step and other threads interfering at every step;
  weakest preconditions with interference (`FsLogic.v`).
* C49 two triangulations in memory representing the same labelled triangulation
  in different storage orders; the canonical search is order independent, with
  coinciding points included.
* C50–C53, C62 ordered validation checks; 32/64-bit ranges explicit; floating
  operations through roundings satisfying `fp_contract` (IEEE 754 does, `Ieee.v`).
* C54–C57, C59, C63, C64 the repair functions on the mutable vertex/cell data;
  CGAL's `remove()` contract is an arbitrary retriangulation keeping the other
  vertices.
* C58 transition system of a client acting on any number of objects, with every
  allocation and CGAL call allowed to throw; ownership invariant.
* C69 one loop lemma over all outputs of a run, compared with silent shorter runs.
* C60, C66–C68 both `main` functions as ordered effect sequences with exceptions
  and file-system effects; exit status, artifacts, replay, distinct names.
* C70 the manifest parser on JSON values against `declares` (iff), any rounding.
* C71, C74 the viewer's `main` with arbitrary Qt, files and event schedules;
  other processes may act between its file accesses.
* C72 the scan-line loops over byte rows, each access checked.
* C73 facets as (cell, index) in any order; any sorting function; rounding errors
  of the orientation test bounded.
* C75–C77 a heap of CGAL vertices and cells; objects hold handles; CGAL copies,
  insertions and removals are arbitrary functions meeting `cgal_ok` (new cells for
  new triangulations, writes confined to the edited one); any allocation may
  throw. A client history over any number of variables; invariant: every object
  coherent with its own triangulation, no cell shared. Then a frame argument.
* C78–C80 handles are null, foreign or own (four vertices in CGAL's order, two
  indices); following an unchecked handle, an index outside 0..3 or an endless
  circulation is the outcome `Dangling`, proved unreachable. The circulator walks
  through neighbours; that it visits every cell once uses `joined_stars` (cells
  around a face hang together), which C81 proves preserved by all moves and runs.
  Handles to erased cells are not represented.
* C82 `ApplySpec.v` states the five local patterns with cells and times only; each
  move is proved equivalent to its pattern plus CGAL's consent, with the exact
  result; lifted through the search loops to "failure means no place".
* C83 pcg64 as published (it is not in /repo; the model reproduces the published
  test vector): closed form of the congruential step, sums of powers of the
  multiplier reach every residue, and an affine map of the 128-bit states that the
  output function does not reveal is the identity.
* C84–C86 the distributions of GNU libstdc++ 13 (`uniform_int_distribution` with its
  rejection loop, `generate_canonical`, `shuffle` with its paired draws), read from
  the installed headers, on the engine of C83; sample values agree with g++ 13. The
  loop is followed for 2^128 words and proved to end; counting arguments over the
  cycle of the engine; shuffles by induction on the last element. That successive
  words are independent is not claimed.
* C87, C88 forward error analysis over Q with one rounding per operation, the
  contracts `ieee_double`, `sqrt_ok`, `square_ok` proved of IEEE 754 in `Ieee.v`,
  `IeeeRadii.v`; CGAL's sphere generator modelled from its published source with
  sine and cosine assumed accurate to 2^-50 (sum of squares). Refutations by witness.
* C89 monotone rounding; folds over the points.
* C90, C91 the printed bytes, read back by a small independent reader; invariant over
  the passes that ties the counters to the moves made. fmt::print is taken not to
  fail and the moves not to print.
* C92 case analysis of the six new cells; error analysis as for C87 of the centroid,
  its squared radius and its label. The bound comes from |centroid|^2 = R^2 - e/9, e the
  sum of the squared edges, against (R - S/2)^2; 1 % covers the rounding for radii up
  to 2^20 spacings.
* C93 invariant over the history of public calls: settings fixed, the object a function
  of the reported seed, stream and settings. The engine is any function of seed and
  stream; `C93_used_stream_differs` shows why a stream already drawn from is excluded.
* C94 the announced lines as bytes and a small reader of them; C67 for the replay. The
  decimals fmt prints for a double or long double are taken to read back as the same
  value; parsing the command line itself is Boost's.
* C95 the printed bytes on the objects of C54–C57, read back by a small reader. Points
  print without line breaks and closing brackets (CGAL prints three decimals); they
  need not identify the vertex.
* C96 libstdc++ 13's `generate_canonical` and real distribution in IEEE arithmetic
  (Flocq), for float, double and x87 long double without contraction to FMA. The
  documented exclusive upper bound is refuted for [1, 2) and proved under conditions.
* C97 the bytes hashed by both fingerprints are written out in `SeparateSpec.v` from
  the triangulation (records in some order, or for coincident points with some
  numbering of vertices and cells) and shown injective up to `reordered` by parsing at
  the separators; the canonical search is shown to end in such a numbering. Assumes of
  "{:.17g}" that it tells the coordinates apart and prints none of `,` `:` `;` 0xFF.
* C98 `KernelSpec.v` computes the probability of a step from the modelled program
  itself, run once for every index it can draw (C84: all equally likely; C85: a trial
  accepts with the computed probability up to 2^-64, taken as exact here); that the
  program's own draws are these is `C98_draws` and `C98_transition`. Balance combines
  C20 with one site per result and the symmetry of the move check. The acceptance
  probability is taken in exact arithmetic. The unrestricted claim is refuted.
* C99 `SliceSpec.v` defines a slice as a 2-dimensional complex cut out of the cells and
  the bistellar moves of surfaces; the moves of C24–C28 are read on a slice, and the
  invariants of bistellar moves (Euler characteristic, boundary, components) are proved
  once for arbitrary 2-complexes. (2,6) results are those that pass the move check.
* C100 `ChainSpec.v` adds to C98 the probability of staying and the probabilities of n
  steps. Stationarity follows from C98's balance; uniqueness from the maximum principle
  for w(m)-normalized distributions; convergence from the contraction of the range of
  n-step probabilities towards one state. All on finite sets of manifolds; the two-way
  hypothesis is needed because C98 refutes it in general.
* C101 `EngineSpec.v` hands manifold and generator from pass to pass (`passes`), says
  what a pass draws (`always_pass`, `metropolis_pass`), where an exception can end one
  (`stopped`) and what each call of a Metropolis object takes (`takes`). Induction
  over the run loop; determinism of the relations gives the splitting of runs. The
  generator and the distributions are arbitrary functions; only the range 0..4 of the
  type draw is assumed.
* C102, C103 `PassSpec.v` adds expectations over the paths of C100's chain and passes,
  as long as the simplex count at their start (that a pass makes so many attempts is
  C10 and C101). The weak law of large numbers by a bound on the second moment of the
  sum that uses C100's convergence; the occupation of passes by telescoping and C100's
  uniqueness; the refutation by the closed form of a chain of two states.
* C104 the same chain without the two-way hypothesis. Ways back by (2,3), (2,6), (4,4)
  by induction on C98's result; vanishing of what cannot be reached again by a
  geometric bound. The refutation computes, inside Coq, all steps of the six manifolds
  that can be reached from the five-point example of C98.
* C105 the functions that look points and cells up and list edges and cells, over the
  complex of Moves.v (`Lookup.v`; CGAL's `is_cell` and `is_vertex` by contract). Exact
  answers by set reasoning; what a move changes from the site theorems of C25-C29, runs
  by induction on the number of steps; the strategies' counters from C101's histories.
* C106 counts and counters: the exact difference that the move check demands (C32), summed
  along the histories of C06 and C101 by induction; nothing is asked of the move functions.

## Trusted base

* Coq 8.16.1's kernel.
* The correspondence between the model and the C++, established by reading.
* Axioms. Of the theorems in `Props*.v`, all but 55 are closed under the global
  context. The exceptions, all about real numbers:
  * `C18_exact`, `C18_any_rounding`, `C18_positive`, `C19_mpfr_error`,
    `C20_detailed_balance`, `C36_closed_form`, `C36_finite_with_rounding`,
    `C37_state_independent`, `C37_values`, `C37_four_four_always_accepted`,
    `C21_acceptance_defined`, `C21_transition_never_throws`, `C50_ieee`,
    `C50_nearest`, `C50_overflow`, `C50_accepted_ieee`, `C73_outward_ieee`,
    `C87_ieee`, `C87_every_spacing_refuted`, `C96_range`, `C96_spread`, `C96_below`,
    `C96_exclusive_refuted`, `C96_domain`, `C96_trial`, `C98_probabilities`,
    `C98_possible`, `C98_balance`, `C98_balance_of_kinds`,
    `C98_balance_of_32_refuted`, `C98_balance_of_62_refuted`, `C100_step`,
    `C100_steps`, `C100_stationary`, `C100_equilibrium`, `C100_unique`,
    `C100_converges`, `C100_stays`, `C102_likelihood`, `C102_expected`,
    `C102_likely`, `C103_pass`, `C103_alike`, `C103_attempts`,
    `C103_ends_are_equilibrium_refuted`, `C104_way_back`, `C104_lost`,
    `C104_weightless`, `C104_ergodicity_refuted`:
    `ClassicalDedekindReals.sig_forall_dec`, `ClassicalDedekindReals.sig_not_dec`,
    `FunctionalExtensionality.functional_extensionality_dep`,
    `Classical_Prop.classic`;
  * `C36_alpha_one`, `C36_alpha_minus_one`: the same without `classic`;
  * `C18_zero_trial`, `C19_exact`, `C19_refusal`, `C85_rate`: `sig_forall_dec` and
    `functional_extensionality_dep`.
  All four are axioms of Coq's standard library. None of our own.

### Contracts assumed of what is not modelled

* CGAL: flips replace exactly the cells of the flipped edge/facet; a flip whose
  new edge or facet already exists, or a centroid coinciding with a vertex, is
  "unmodelled" and the theorems about effects exclude it explicitly (the program
  escapes arbitrarily there); predicates (`orientation`, `locate`, `is_valid`)
  are arbitrary. `remove()` keeps all other vertices. Stream operators of a
  triangulation are arbitrary functions on bytes, with `cgal_round_trip` assumed
  only where C47 says so. Lock grids: assumptions at the top of `Locks.v`.
* Vertices are ranks of their points in lexicographic order; the time of a vertex
  is a fixed function of its point for given radius and spacing. Info fields of
  infinite cells, which the code never initialises, are an arbitrary oracle.
* MPFR/hardware floats: the contracts `rounding`, `fp_contract` and `rounds`; IEEE
  754 round-to-nearest-even (double, x87 long double; `Ieee.v`) is proved to meet
  the last two. fmt and iostream number formatting: `library_ok` (MetaSpec.v).
* Distributions, `std::shuffle` and the engine are arbitrary, except in C83 (pcg64 is
  the published algorithm) and C84–C86, C96 (libstdc++ 13 on a platform with 128-bit
  integers and 64-digit `long double`).
* File system: rename is atomic; a crash stops the process, data already written
  is not lost (the code never calls `fsync`).
* spdlog calls in catch handlers do not throw; `std::to_string(double)` contains
  neither `/` nor `:`; the printed date has the format of line 1623.

* Viewer: QJsonDocument yields a JSON value; a decoded QImage in RGBA8888 has
  `height` lines of `4 * width` bytes; CGAL's vertex count agrees with its vertex
  list; `weakly_canonical` returns or throws; SHA-256, Qt's rendering and PNG
  coding are arbitrary functions.

### Not modelled

In cdt-viewer.cpp the OpenGL drawing itself; Formatters.hpp, Torus_d.hpp, Periodic_3_\*.hpp, locking_box
(the size of lock grids), logging and the prints of single simplices, GPU/TBB internals, the Qt/gnuplot parts, and
the contents of debug-only log messages.

## Findings (behaviour a reader may not expect, each visible in a theorem or example)

* (2,6) moves can return an acausal manifold as success (C30_refuted; C92: exactly when the face is too large for its radius).
* After (3,2) and (6,2) the documented "unique inverse site" does not exist in
  general (C22 refutations).
* Generation stops repairing after 50 passes and only an `assert` notices (C56).
* `cdt` checks only TDS validity of its final state, not causality.
* A payload-only `write_file` whose removal of an old sidecar fails can return
  success, and a later read of that file is refused; a failing second rename
  leaves an old payload with a new sidecar, which reads refuse (C45 example).
* `read_file` has its own mutex and opens the payload twice, so a read that runs
  during a write may fail although both old and new artifacts are sound (C65).
* Acausal cells stay "incorrect" for ever in `fix_cells` (C55).
* The moved-from local in `is_fixed` keeps a pointer to a freed lock grid until
  it is destroyed (never used; C58).
* `cdt-viewer` opens the fixture once to hash it and again to load it (C71); it
  reports success if the event loop is quit from outside before rendering, accepts
  a stale picture if saving fails silently, and leaves a rejected picture (C74).
* `print_volume_per_timeslice` overflows if the last slice is INT_MAX (C57).
