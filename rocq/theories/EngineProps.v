(** Lemmas in the exact form used by PropsEngine.v (C101). *)
From Verif Require Import Base Tracker Command Run Fnv Geom Metropolis EngineSpec EngineFacts.

Lemma split_always {M G W W' W'' : Type} N3 api check draw print1 write1 print2 write2 print3 write3
    (whole first second : move_always G) (w1 : W) (w2 : W') (w3 : W'') (m : M)
    whole' first' second' w1' w2' w3' m1 m2 m3 :
  0 < cad_passes (ma_cadence first) -> 0 < cad_passes (ma_cadence second) ->
  cad_passes (ma_cadence whole) = cad_passes (ma_cadence first) + cad_passes (ma_cadence second) ->
  ma_random first = ma_random whole -> ma_random second = ma_random first' ->
  ma_run N3 api check draw print1 write1 whole w1 m = Ret (whole', w1') m1 ->
  ma_run N3 api check draw print2 write2 first w2 m = Ret (first', w2') m2 ->
  ma_run N3 api check draw print3 write3 second w3 m2 = Ret (second', w3') m3 ->
  m3 = m1 /\ ma_random second' = ma_random whole' /\
  forall k, supported k ->
    slot (attempted (ma_results whole')) k = slot (attempted (ma_results first')) k + slot (attempted (ma_results second')) k /\
    slot (succeeded (ma_results whole')) k = slot (succeeded (ma_results first')) k + slot (succeeded (ma_results second')) k /\
    slot (failed (ma_results whole')) k = slot (failed (ma_results first')) k + slot (failed (ma_results second')) k.
Proof.
  intros C1 C2 Hc R1 R2 A B C.
  apply always_engine in A as (ha & La & Pa & Sa & Ta & Ka).
  apply always_engine in B as (hb & Lb & Pb & Sb & Tb & Kb).
  apply always_engine in C as (hc & Lc & Pc & Sc & Tc & Kc).
  rewrite R1 in Pb. rewrite R2 in Pc.
  pose proof (passes_app _ _ _ _ _ _ _ _ _ Pb Pc) as Pbc.
  assert (L : length (hb ++ hc) = length ha) by (rewrite app_length, Lb, Lc, La, Hc; lia).
  destruct (passes_determined _ (always_pass_determined N3 api check draw) _ _ _ _ _ Pa _ _ _ L Pbc) as (-> & -> & E).
  split; [reflexivity|]. split.
  { destruct (ma_random second') as [a1 a2 a3], (ma_random whole') as [b1 b2 b3]. cbn in *.
    rewrite Sc, Tc, R2, Sa, Ta, Sb, Tb, R1 in *. congruence. }
  intros k Hk. destruct (Ka k Hk) as (-> & -> & ->). destruct (Kb k Hk) as (-> & -> & ->). destruct (Kc k Hk) as (-> & -> & ->).
  rewrite concat_app, !tally_app. lia.
Qed.

Lemma split_metropolis {M G P W W' W'' : Type} geometry propose check accept at_least draw_int draw_p max_time
    update1 print1 write1 update2 print2 write2 update3 print3 write3
    (whole first second : metropolis G) (w1 : W) (w2 : W') (w3 : W'') (m : M)
    whole' first' second' w1' w2' w3' m1 m2 m3 :
  (forall g k g', draw_int 0 4 g = (k, g') -> supported k) ->
  0 < cad_passes (mh_cadence first) -> 0 < cad_passes (mh_cadence second) ->
  cad_passes (mh_cadence whole) = cad_passes (mh_cadence first) + cad_passes (mh_cadence second) ->
  mh_generator first = mh_generator whole -> mh_generator second = mh_generator first' ->
  @mh_run M G P W geometry propose check accept at_least draw_int draw_p max_time update1 print1 write1 whole w1 m = Ret (whole', w1') m1 ->
  @mh_run M G P W' geometry propose check accept at_least draw_int draw_p max_time update2 print2 write2 first w2 m = Ret (first', w2') m2 ->
  @mh_run M G P W'' geometry propose check accept at_least draw_int draw_p max_time update3 print3 write3 second w3 m2 = Ret (second', w3') m3 ->
  m3 = m1 /\ mh_generator second' = mh_generator whole' /\
  exists h1 h2,
    results_reflect (mh_results first') h1 /\ stats_reflect (mh_stats first') h1 /\
    results_reflect (mh_results second') h2 /\ stats_reflect (mh_stats second') h2 /\
    results_reflect (mh_results whole') (h1 ++ h2) /\ stats_reflect (mh_stats whole') (h1 ++ h2).
Proof.
  intros DR C1 C2 Hc R1 R2 A B C.
  apply (metropolis_engine _ _ _ _ _ _ _ _ _ _ _ DR) in A as (ha & La & Pa & Sa & Ta & Ka & Ka').
  apply (metropolis_engine _ _ _ _ _ _ _ _ _ _ _ DR) in B as (hb & Lb & Pb & Sb & Tb & Kb & Kb').
  apply (metropolis_engine _ _ _ _ _ _ _ _ _ _ _ DR) in C as (hc & Lc & Pc & Sc & Tc & Kc & Kc').
  rewrite R1 in Pb. rewrite R2 in Pc.
  pose proof (passes_app _ _ _ _ _ _ _ _ _ Pb Pc) as Pbc.
  assert (L : length (hb ++ hc) = length ha) by (rewrite app_length, Lb, Lc, La, Hc; lia).
  destruct (passes_determined _ (metropolis_pass_determined geometry propose check accept at_least draw_int draw_p) _ _ _ _ _ Pa _ _ _ L Pbc) as (-> & -> & E).
  split; [reflexivity|]. split.
  { destruct (mh_generator second') as [a1 a2 a3], (mh_generator whole') as [b1 b2 b3]. cbn in *.
    rewrite Sc, Tc, R2, Sa, Ta, Sb, Tb, R1 in *. congruence. }
  exists (concat hb), (concat hc). rewrite concat_app in Ka, Ka'. auto 10.
Qed.
