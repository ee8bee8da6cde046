(** C101: a run is one sequence of draws from one generator; names of the move
    kinds (C01) and the default cadence (C08). *)
From Verif Require Import Base Tracker Command Run Fnv Geom Metropolis RunCheckpoint Toy Strategy StrategySpec EngineSpec EngineFacts EngineProps EngineThrown EngineCalls MoveSpec NameProps.
From Verif Require Action.
From stdpp Require Import strings.
From Verif Require Import Base Tracker Command Run Fnv Geom Metropolis EngineSpec.
Open Scope Z_scope.

(** What a MoveAlways run that returns has done, from the first draw to the
    last: [passes] hands the generator and the manifold from pass to pass. *)
Theorem C101_always :
  forall (M G W : Type) N3 api check draw print write s (w : W) (man : M) s' w' man',
  @ma_run M G W N3 api check draw print write s w man = Ret (s', w') man' ->
  exists hs : list (list (MoveType * bool)),
    length hs = Z.to_nat (cad_passes (ma_cadence s)) /\
    passes (always_pass N3 api check draw) man (rnd_engine (ma_random s)) hs man' (rnd_engine (ma_random s')) /\
    rnd_seed (ma_random s') = rnd_seed (ma_random s) /\ rnd_stream (ma_random s') = rnd_stream (ma_random s) /\
    forall k, supported k ->
      slot (attempted (ma_results s')) k = tally k true (concat hs) + tally k false (concat hs) /\
      slot (succeeded (ma_results s')) k = tally k true (concat hs) /\
      slot (failed (ma_results s')) k = tally k false (concat hs).
Proof. exact @always_engine. Qed.
Print Assumptions C101_always.

Theorem C101_metropolis :
  forall (M G P W : Type) geometry propose check accept at_least draw_int draw_p max_time update print write,
  (forall g k g', draw_int 0 4 g = (k, g') -> supported k) ->
  forall (x : metropolis G) (w : W) (man : M) x' w' man',
  @mh_run M G P W geometry propose check accept at_least draw_int draw_p max_time update print write x w man
    = Ret (x', w') man' ->
  exists hs : list (list (MoveType * MoveOutcome)),
    length hs = Z.to_nat (cad_passes (mh_cadence x)) /\
    passes (metropolis_pass geometry propose check accept at_least draw_int draw_p)
      man (rnd_engine (mh_generator x)) hs man' (rnd_engine (mh_generator x')) /\
    rnd_seed (mh_generator x') = rnd_seed (mh_generator x) /\ rnd_stream (mh_generator x') = rnd_stream (mh_generator x) /\
    results_reflect (mh_results x') (concat hs) /\ stats_reflect (mh_stats x') (concat hs).
Proof. exact @metropolis_engine. Qed.
Print Assumptions C101_metropolis.

(** Nothing else is possible: the start, the generator and the number of passes
    leave one history, one final manifold and one final generator. *)
Theorem C101_always_determined :
  forall (M G : Type) (N3 : M -> Z) (api : move_api M G) check draw m g hs m' g' ks m'' g'',
  length ks = length hs ->
  passes (always_pass N3 api check draw) m g hs m' g' -> passes (always_pass N3 api check draw) m g ks m'' g'' ->
  hs = ks /\ m' = m'' /\ g' = g''.
Proof. intros M G N3 api check draw m g hs m' g' ks m'' g'' L A. exact (passes_determined _ (always_pass_determined N3 api check draw) _ _ _ _ _ A _ _ _ L). Qed.
Print Assumptions C101_always_determined.

Theorem C101_metropolis_determined :
  forall (M G P : Type) geometry propose check (accept : Geometry -> Geometry -> MoveType -> P + exn) at_least draw_int draw_p
    (m : M) (g : G) hs m' g' ks m'' g'',
  length ks = length hs ->
  passes (metropolis_pass geometry propose check accept at_least draw_int draw_p) m g hs m' g' ->
  passes (metropolis_pass geometry propose check accept at_least draw_int draw_p) m g ks m'' g'' ->
  hs = ks /\ m' = m'' /\ g' = g''.
Proof. intros M G P geometry propose check accept at_least draw_int draw_p m g hs m' g' ks m'' g'' L A.
  exact (passes_determined _ (metropolis_pass_determined geometry propose check accept at_least draw_int draw_p) _ _ _ _ _ A _ _ _ L). Qed.
Print Assumptions C101_metropolis_determined.

(** A run of p + q passes, and a run of p passes followed by one of q passes
    with the generator the first kept: same manifold, same generator, counters
    that add up; whatever is printed, written or checkpointed in between. *)
Theorem C101_split_always :
  forall (M G W W' W'' : Type) N3 api check draw print1 write1 print2 write2 print3 write3
    (whole first second : move_always G) (w1 : W) (w2 : W') (w3 : W'') (m : M)
    whole' first' second' w1' w2' w3' m1 m2 m3,
  0 < cad_passes (ma_cadence first) -> 0 < cad_passes (ma_cadence second) ->
  cad_passes (ma_cadence whole) = cad_passes (ma_cadence first) + cad_passes (ma_cadence second) ->
  ma_random first = ma_random whole -> ma_random second = ma_random first' ->
  ma_run N3 api check draw print1 write1 whole w1 m = Ret (whole', w1') m1 ->
  ma_run N3 api check draw print2 write2 first w2 m = Ret (first', w2') m2 ->
  ma_run N3 api check draw print3 write3 second w3 m2 = Ret (second', w3') m3 ->
  m3 = m1 /\ ma_random second' = ma_random whole' /\
  forall k, supported k ->
    slot (attempted (ma_results whole')) k = slot (attempted (ma_results first')) k + slot (attempted (ma_results second')) k /\
    slot (succeeded (ma_results whole')) k = slot (succeeded (ma_results first')) k + slot (succeeded (ma_results second')) k /\
    slot (failed (ma_results whole')) k = slot (failed (ma_results first')) k + slot (failed (ma_results second')) k.
Proof. exact @split_always. Qed.
Print Assumptions C101_split_always.

Theorem C101_split_metropolis :
  forall (M G P W W' W'' : Type) geometry propose check accept at_least draw_int draw_p max_time
    update1 print1 write1 update2 print2 write2 update3 print3 write3
    (whole first second : metropolis G) (w1 : W) (w2 : W') (w3 : W'') (m : M)
    whole' first' second' w1' w2' w3' m1 m2 m3,
  (forall g k g', draw_int 0 4 g = (k, g') -> supported k) ->
  0 < cad_passes (mh_cadence first) -> 0 < cad_passes (mh_cadence second) ->
  cad_passes (mh_cadence whole) = cad_passes (mh_cadence first) + cad_passes (mh_cadence second) ->
  mh_generator first = mh_generator whole -> mh_generator second = mh_generator first' ->
  @mh_run M G P W geometry propose check accept at_least draw_int draw_p max_time update1 print1 write1 whole w1 m = Ret (whole', w1') m1 ->
  @mh_run M G P W' geometry propose check accept at_least draw_int draw_p max_time update2 print2 write2 first w2 m = Ret (first', w2') m2 ->
  @mh_run M G P W'' geometry propose check accept at_least draw_int draw_p max_time update3 print3 write3 second w3 m2 = Ret (second', w3') m3 ->
  m3 = m1 /\ mh_generator second' = mh_generator whole' /\
  exists h1 h2,
    results_reflect (mh_results first') h1 /\ stats_reflect (mh_stats first') h1 /\
    results_reflect (mh_results second') h2 /\ stats_reflect (mh_stats second') h2 /\
    results_reflect (mh_results whole') (h1 ++ h2) /\ stats_reflect (mh_stats whole') (h1 ++ h2).
Proof. exact @split_metropolis. Qed.
Print Assumptions C101_split_metropolis.

(** A run that throws keeps the generator as the last draw left it: it is not
    rewound to the start of the run or of the pass. *)
Theorem C101_always_thrown :
  forall (M G W : Type) N3 api check draw print write s (w : W) (man : M) s' w' x,
  0 < cad_passes (ma_cadence s) ->
  @ma_run M G W N3 api check draw print write s w man = Thr (s', w') x ->
  stopped (always_pass N3 api check draw) (always_interrupted N3 api check draw)
    (Z.to_nat (cad_passes (ma_cadence s))) man (rnd_engine (ma_random s)) x (rnd_engine (ma_random s')).
Proof. exact @always_stopped. Qed.
Print Assumptions C101_always_thrown.
Theorem C101_metropolis_thrown :
  forall (M G P W : Type) geometry propose check accept at_least draw_int draw_p max_time update print write,
  (forall g k g', draw_int 0 4 g = (k, g') -> supported k) ->
  forall (x : metropolis G) (w : W) (man : M) x' w' e,
  0 < cad_passes (mh_cadence x) ->
  @mh_run M G P W geometry propose check accept at_least draw_int draw_p max_time update print write x w man = Thr (x', w') e ->
  stopped (metropolis_pass geometry propose check accept at_least draw_int draw_p)
    (metropolis_interrupted geometry propose check accept at_least draw_int draw_p)
    (Z.to_nat (cad_passes (mh_cadence x))) man (rnd_engine (mh_generator x)) e (rnd_engine (mh_generator x')).
Proof. exact @metropolis_stopped. Qed.
Print Assumptions C101_metropolis_thrown.

(** One object through any calls, returning or throwing: each call takes the
    generator from where the call before it left it, starting from the one given
    to the constructor. *)
Theorem C101_object :
  forall (M G P W : Type) geometry propose check
    (accept : Action.PhysicalParameters -> Geometry -> Geometry -> MoveType -> P + exn) at_least draw_int draw_p
    (facts : manifold_facts M) print write,
  (forall g k g', draw_int 0 4 g = (k, g') -> supported k) ->
  forall alpha k lambda p c wf (rnd : Random G) given s (w : W) calls s' w' answers,
  mh_owned alpha k lambda p c wf rnd given = inl s ->
  mh_history geometry propose check accept at_least draw_int draw_p facts print write s w calls = Some (s', w', answers) ->
  takes_all geometry propose check (accept (sg_parameters s)) at_least draw_int draw_p
    (Z.to_nat p) (rnd_engine rnd) calls answers (rnd_engine (mh_generator (sg_rest s'))).
Proof. exact @owned_history_takes. Qed.
Print Assumptions C101_object.

(** The printed name of a kind says how many tetrahedra the move replaces by how
    many; no two kinds share a name. *)
Theorem C01_names :
  (forall k d, move_delta k = Some d -> exists before after, 1 <= before <= 9 /\ 1 <= after <= 9 /\
     format_as k = String.append "(" (String.append (digit before) (String.append "," (String.append (digit after) ")"))) /\
     after - before = gN3 d) /\
  (forall k k', supported k -> supported k' -> format_as k = format_as k' -> k = k') /\
  (forall k, ~ supported k -> format_as k = "unknown"%string) /\
  (forall k, supported k -> format_as k <> "unknown"%string).
Proof. exact move_names. Qed.
Print Assumptions C01_names.
Example C01_names_example : format_as TWO_SIX = "(2,6)"%string /\ (exists d, move_delta TWO_SIX = Some d /\ gN3 d = 4).
Proof. split; [reflexivity|]. eexists. split; reflexivity. Qed.

(** The cadence nobody chose is one that could have been chosen: one pass. *)
Theorem C08_default :
  cadence_parse (cad_passes cadence_default) (cad_checkpoint cadence_default) = inl cadence_default /\
  cad_passes cadence_default = 1 /\ 0 < cad_checkpoint cadence_default.
Proof. exact default_cadence. Qed.
Print Assumptions C08_default.

(** Five passes, and two followed by three, with different checkpointing; a
    small congruential generator. *)
Definition lcg (g : Z) : Z := (g * 5 + 3) mod 1024.
Definition lcg_draw (lo hi g : Z) : Z * Z := (lo + (g / 8) mod (hi - lo + 1), lcg g).
Definition lcg_trial (g : Z) : fp * Z := (Fin (QArith_base.Qmake (g / 8) 128), lcg g).
Definition toy_strategy (p c : Z) (r : Random Z) : move_always Z := mkMoveAlways (mkCadence p c) r (p =? 3) results_zero 0.
Example C101_example_always : exists s1 s2 s3 m1 m2,
  ma_run toy_N3 (toy_api false) toy_check lcg_draw toy_print toy_write (toy_strategy 5 2 toy_random) [] 10 = Ret (s1, []) m1 /\
  ma_run toy_N3 (toy_api false) toy_check lcg_draw toy_print toy_write (toy_strategy 2 1 toy_random) [] 10 = Ret (s2, []) m2 /\
  ma_run toy_N3 (toy_api false) toy_check lcg_draw toy_print toy_write (toy_strategy 3 2 (ma_random s2)) [] m2 = Ret (s3, [2]) m1 /\
  10 < m2 < m1 /\ ma_random s3 = ma_random s1.
Proof. do 5 eexists. do 3 (split; [vm_compute; reflexivity|]). split; [split; reflexivity|reflexivity]. Qed.

Definition toy_metropolis (p c : Z) (r : Random Z) : metropolis Z :=
  mkMetropolis (mkCadence p c) false r toy_metadata results_zero stats_zero 0.
Notation toy_mh := (mh_run toy_geometry (toy_api false) toy_check toy_accept toy_at_least lcg_draw lcg_trial (fun _ => 4)
    toy_update toy_print2 toy_write2).
Example C101_example_metropolis : exists s1 s2 s3 m1 m2,
  toy_mh (toy_metropolis 5 2 toy_random) [] 10 = Ret (s1, []) m1 /\
  toy_mh (toy_metropolis 2 1 toy_random) [] 10 = Ret (s2, []) m2 /\
  toy_mh (toy_metropolis 3 2 (mh_generator s2)) [] m2 = Ret (s3, []) m1 /\
  mh_generator s3 = mh_generator s1 /\
  slot (st_accepted (mh_stats s2)) TWO_THREE = 1 /\ slot (st_accepted (mh_stats s3)) FOUR_FOUR = 1.
Proof. do 5 eexists. do 3 (split; [vm_compute; reflexivity|]). vm_compute. auto. Qed.

(** A run whose third move function throws, and an object that runs, throws, runs. *)
Example C101_example_thrown : exists s' w',
  ma_run toy_N3 (toy_api true) toy_check lcg_draw toy_print toy_write (toy_strategy 5 2 toy_random) [] 10
    = Thr (s', w') (ForeignException 7) /\
  rnd_engine (ma_random s') <> rnd_engine toy_random.
Proof. do 2 eexists. split; [vm_compute; reflexivity|]. discriminate. Qed.
Example C101_example_object : exists s s' w' answers g,
  mh_owned (Fin (QArith_base.Qmake 3 5)) (Fin (QArith_base.Qmake 1 1)) (Fin (QArith_base.Qmake 1 10)) 2 1 true
    (make_random (fun seed stream => seed + stream) 4 1) (Some toy_metadata) = inl s /\
  mh_history toy_geometry (toy_api true) toy_check (fun _ => toy_accept) toy_at_least lcg_draw lcg_trial
    toy_facts toy_print2 toy_write2 s [] [CRun 10; CAttempt 10 TWO_SIX (Fin (QArith_base.Qmake 1 2)); CSample 5] = Some (s', w', answers) /\
  nth_error answers 1 = Some (Throws (ForeignException 7), 10) /\
  rnd_engine (mh_generator (sg_rest s')) = g /\ g <> 5.
Proof. do 5 eexists. do 4 (split; [vm_compute; reflexivity|]). discriminate. Qed.
