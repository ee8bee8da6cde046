(** Lemmas in the exact form used by PropsRun.v and PropsMetropolis.v. *)
From Verif Require Import Base Tracker Command Run Fnv Geom Metropolis.

Lemma index_conversion :
  (forall i, 0 <= i -> (exists m, move_from_index i = Some m) <-> i < 5) /\
  (forall i m, 0 <= i -> move_from_index i = Some m -> as_integer m = i) /\
  (forall m, supported m -> move_from_index (as_integer m) = Some m).
Proof.
  assert (C : forall m, supported m -> move_from_index (as_integer m) = Some m).
  { intros m Hm. destruct (supported_cases m Hm) as [->|[->|[->|[->| ->]]]]; reflexivity. }
  assert (N : forall i, 5 <= i -> move_from_index i = None).
  { intros i Hi. unfold move_from_index, NUMBER_OF_3D_MOVES.
    assert (E : i >=? 5 = true) by (apply Z.geb_le; lia). rewrite E. reflexivity. }
  split; [|split; [|exact C]].
  - intros i Hi. split.
    + intros [m Hm]. destruct (Z_lt_ge_dec i 5) as [|Hge]; [assumption|].
      rewrite N in Hm by lia. discriminate.
    + intros Hlt. exists i. apply C. unfold supported. lia.
  - intros i m Hi Hm. destruct (Z_lt_ge_dec i 5) as [Hlt|Hge].
    + pose proof (C i ltac:(unfold supported; lia)) as E. unfold as_integer in E. rewrite E in Hm.
      injection Hm as <-. reflexivity.
    + rewrite N in Hm by lia. discriminate.
Qed.

Lemma same_slot t : tracker_ok t ->
  at_move t TWO_THREE = two_three_moves t /\ at_move t THREE_TWO = three_two_moves t /\
  at_move t TWO_SIX = two_six_moves t /\ at_move t SIX_TWO = six_two_moves t /\
  at_move t FOUR_FOUR = four_four_moves t /\
  (forall m, supported m -> at_move t m = Some (slot t m)) /\
  (forall m, ~ supported m -> at_move t m = None).
Proof.
  intros H. repeat split; try reflexivity.
  - intros m Hm. apply at_move_ok; assumption.
  - intros m Hm. apply at_move_unsupported; assumption.
Qed.

Lemma failure_routing e :
  (outcome_from e = INAPPLICABLE <->
     category e = NO_CANDIDATE \/ category e = INVALID_TOPOLOGY \/ category e = CAUSAL_INVALIDITY) /\
  (outcome_from e = EXECUTION_FAILED <->
     ~ (category e = NO_CANDIDATE \/ category e = INVALID_TOPOLOGY \/ category e = CAUSAL_INVALIDITY)) /\
  outcome_from e <> METROPOLIS_ACCEPTED /\ outcome_from e <> METROPOLIS_REJECTED /\
  outcome_from e <> SUCCEEDED.
Proof. destruct e as [[] m]; cbn; intuition congruence. Qed.

Lemma successful_report t : successful t = true <->
  tr_outcome t = METROPOLIS_ACCEPTED \/ tr_outcome t = METROPOLIS_REJECTED \/ tr_outcome t = SUCCEEDED.
Proof. destruct t as [m []]; cbn; intuition congruence. Qed.

Section Command.
  Context {M G : Type}.
  Variable api : move_api M G.
  Variable check : M -> M -> MoveType -> bool.

  (** The dispatch of a requested kind. *)
  Lemma dispatch_table (man : M) g :
    apply_random_move api man TWO_THREE g = api_23 api man g /\
    apply_random_move api man THREE_TWO g = api_32 api man g /\
    apply_random_move api man TWO_SIX g = api_26 api man g /\
    apply_random_move api man SIX_TWO g = api_62 api man g /\
    apply_random_move api man FOUR_FOUR g = api_44 api man g /\
    forall m, ~ supported m -> apply_random_move api man m g = (Failed (mkMoveError UNKNOWN_MOVE m), g).
  Proof using api.
    repeat split. intros m Hm. unfold apply_random_move.
    repeat match goal with |- context [m =? ?k] => destruct (Z.eqb_spec m k) as [->|] end;
      try reflexivity; destruct Hm; vm_compute; repeat split; discriminate.
  Qed.

  (** After a reset the counters describe only what is executed afterwards. *)
  Lemma reset_then_execute (c : command M) g c' g' u : counters_ok c ->
    execute api check (reset_counters c) g = Ret (c', g') u ->
    exists h, map fst h = pending c /\ history api check (cm_manifold c) g h (cm_manifold c') g' /\
      forall k, supported k ->
        slot (cm_attempted c') k = occurrences k (pending c) /\
        slot (cm_succeeded c') k = tally k true h /\ slot (cm_failed c') k = tally k false h.
  Proof.
    intros (A & S & F) H.
    assert (Z0 : forall (t : tracker) (k : MoveType), tracker_ok t -> tracker_ok (reset t) /\ slot (reset t) k = 0).
    { intros t k Ht. unfold tracker_ok in *. unfold reset. rewrite Ht. split; [reflexivity|apply slot_zero]. }
    assert (Hc : counters_ok (reset_counters c)).
    { split; [exact (proj1 (Z0 _ 0 A))|split; [exact (proj1 (Z0 _ 0 S))|exact (proj1 (Z0 _ 0 F))]]. }
    destruct (execute_Ret api check _ _ _ _ _ Hc H) as (_ & _ & h & Hp & Hh & Hn).
    exists h. split; [exact Hp|]. split; [exact Hh|]. intros k Hk. destruct (Hn k Hk) as (N1 & N2 & N3).
    cbn [reset_counters cm_attempted cm_succeeded cm_failed] in N1, N2, N3.
    rewrite (proj2 (Z0 _ k A)) in N1. rewrite (proj2 (Z0 _ k S)) in N2. rewrite (proj2 (Z0 _ k F)) in N3.
    rewrite Hp in N1. change (pending (reset_counters c)) with (pending c) in N1. lia.
  Qed.
  Lemma reset_counters_spec (c : command M) : counters_ok c ->
    cm_manifold (reset_counters c) = cm_manifold c /\ pending (reset_counters c) = pending c /\
    forall k, supported k -> slot (cm_attempted (reset_counters c)) k = 0 /\
      slot (cm_succeeded (reset_counters c)) k = 0 /\ slot (cm_failed (reset_counters c)) k = 0.
  Proof using Type.
    intros (A & S & F). repeat split; cbn [reset_counters cm_attempted cm_succeeded cm_failed];
      unfold reset; [rewrite A|rewrite S|rewrite F]; apply slot_zero.
  Qed.

  Lemma fifo_each_once (man : M) ms g c' g' u :
    execute api check (enqueue_all (make_command man) ms) g = Ret (c', g') u ->
    size c' = 0%nat /\
    exists h, map fst h = ms /\ history api check man g h (cm_manifold c') g'.
  Proof.
    intros H. destruct (enqueue_all_pending ms (make_command man)) as (Hp & HM & HA & HS & HF).
    apply execute_Ret in H.
    - destruct H as (_ & Hs & h & Hf & Hh & _). split; [assumption|]. exists h.
      rewrite Hp in Hf. cbn in Hf. rewrite HM in Hh. auto.
    - unfold counters_ok. rewrite HA, HS, HF. repeat split.
  Qed.

  Lemma counter_identities (man : M) ms c :
    commanded api check man ms c ->
    forall k, supported k ->
      slot (cm_attempted c) k + occurrences k (cm_moves c) = occurrences k ms /\
      slot (cm_attempted c) k = slot (cm_succeeded c) k + slot (cm_failed c) k /\
      0 <= slot (cm_succeeded c) k /\ 0 <= slot (cm_failed c) k.
  Proof. intros H. apply (commanded_counts _ _ _ _ _ H). Qed.

  Lemma command_defined (c : command M) g n :
    counters_ok c -> Forall supported (cm_moves c) -> counters_bounded n c ->
    n + Z.of_nat (size c) <= INT32_MAX ->
    execute api check c g <> UB /\ execute api check c g <> Abort.
  Proof. intros H1 H2 H3 H4. eapply execute_loop_defined; eauto. Qed.

  Lemma exception_commits_prefix (c : command M) g c' g' x :
    counters_ok c -> execute api check c g = Thr (c', g') x ->
    exists h m rest gm,
      pending c = map fst h ++ m :: rest /\ pending c' = m :: rest /\ supported m /\
      history api check (cm_manifold c) g h (cm_manifold c') gm /\
      apply_random_move api (cm_manifold c') m gm = (Raised x, g') /\
      (forall k, supported k ->
        slot (cm_attempted c') k =
          slot (cm_attempted c) k + occurrences k (map fst h) + (if m =? k then 1 else 0) /\
        slot (cm_succeeded c') k = slot (cm_succeeded c) k + tally k true h /\
        slot (cm_failed c') k = slot (cm_failed c) k + tally k false h /\
        tally k true h + tally k false h = occurrences k (map fst h)).
  Proof.
    intros Hc H. unfold execute in H.
    destruct (execute_loop_Thr _ _ _ _ _ _ _ _ Hc eq_refl H) as (_ & h & m & r & gm & H1 & H2 & H3 & H4 & H5 & H6).
    exists h, m, r, gm. do 5 (split; [assumption|]). intros k Hk.
    destruct (H6 k Hk) as (A & B & C). repeat split; try assumption. apply tally_occurrences.
  Qed.
End Command.

Lemma cadence_accepts_positive p c :
  ((exists cad, cadence_parse p c = inl cad) <-> 0 < p /\ 0 < c) /\
  (forall cad, cadence_parse p c = inl cad -> cad_passes cad = p /\ cad_checkpoint cad = c) /\
  (cadence_parse p c = inr NONPOSITIVE_PASSES <-> p <= 0) /\
  (cadence_parse p c = inr NONPOSITIVE_CHECKPOINT <-> 0 < p /\ c <= 0).
Proof.
  unfold cadence_parse. destruct (Z.leb_spec p 0); [|destruct (Z.leb_spec c 0)].
  - split; [split; [intros [cad H1]; discriminate|lia]|]. split; [discriminate|].
    split; [tauto|]. split; [discriminate|lia].
  - split; [split; [intros [cad H1]; discriminate|lia]|]. split; [discriminate|].
    split; [split; [discriminate|lia]|]. tauto.
  - split; [split; [tauto|eauto]|]. split; [intros cad H1; injection H1 as <-; auto|].
    split; split; try discriminate; lia.
Qed.

Lemma constructors_reject (G : Type) p c (r : Random G) w :
  match make_move_always p c r w with
  | inl s => 0 < p /\ 0 < c /\ cad_passes (ma_cadence s) = p /\ cad_checkpoint (ma_cadence s) = c /\
             ma_results s = results_zero /\ ma_checkpoint_events s = 0
  | inr (e, why) => e = InvalidArgument /\ (p <= 0 \/ c <= 0) /\
             why = (if p <=? 0 then NONPOSITIVE_PASSES else NONPOSITIVE_CHECKPOINT)
  end /\
  forall base a k l, match make_metropolis p c w r base a k l with
  | inl s => 0 < p /\ 0 < c /\ cad_passes (mh_cadence s) = p /\ cad_checkpoint (mh_cadence s) = c /\
             mh_results s = results_zero /\ mh_stats s = stats_zero /\ mh_checkpoint_events s = 0
  | inr (e, why) => e = InvalidArgument /\ (p <= 0 \/ c <= 0) /\
             why = (if p <=? 0 then NONPOSITIVE_PASSES else NONPOSITIVE_CHECKPOINT)
  end.
Proof.
  unfold make_move_always, make_metropolis, parse_move_run_cadence, cadence_parse.
  destruct (Z.leb_spec p 0); [|destruct (Z.leb_spec c 0)]; split; intros; cbn; auto 10.
Qed.

Lemma checkpoint_schedule (M SS E : Type) N3 pass report checkpoint cad writes (m : M) (s : SS) (e : E) log e' rr :
  cadence_ok cad ->
  (forall m s a e0 e1 p, pass m s a e0 = Ret e1 p -> results_ok (pr_results p)) ->
  observed_run N3 pass report checkpoint cad writes m s e = Ret (log, e') rr ->
  map mark_of log =
    flat_map (fun n => MPass :: (if n mod cad_checkpoint cad =? 0
                                 then MReport :: (if writes then [MCheckpoint n] else []) else []))
             (zseq 1 (Z.to_nat (cad_passes cad))) ++ [MReport] /\
  rr_checkpoint_events rr = cad_passes cad / cad_checkpoint cad /\
  checkpoint_numbers log =
    (if writes then map (fun k => k * cad_checkpoint cad)
                        (zseq 1 (Z.to_nat (cad_passes cad / cad_checkpoint cad))) else []) /\
  list.last (reports_of log) = Some (rr_results rr).
Proof.
  intros H1 H2 H3. destruct (observed_run_log _ _ _ _ _ _ _ _ _ _ _ _ H1 H2 H3)
    as (A & B & C & _ & _ & _ & _ & D). auto.
Qed.

(** The total number of attempts of a run. *)
Definition sum_starts {M SS} (N3 : M -> Z) (ps : list (pass_record M SS)) : Z :=
  fold_right (fun x acc => Z.max 0 (N3 (rec_start x)) + acc) 0 ps.

Section Metropolis.
  Context {M G P W : Type}.
  Variable geometry : M -> Geometry.
  Variable propose : move_api M G.
  Variable check : M -> M -> MoveType -> bool.
  Variable accept : Geometry -> Geometry -> MoveType -> P + exn.
  Variable at_least : P -> fp -> bool.
  Variable draw_int : Z -> Z -> G -> Z * G.
  Variable draw_p : G -> fp * G.
  Variable max_time : M -> Z.
  Variable update : Metadata -> M -> Metadata + exn.
  Variable print : results -> stats -> W -> res W unit.
  Variable write : M -> Metadata -> W -> res W unit.

  Lemma metropolis_run (x : metropolis G) w man x' w' man' :
    (forall g m g', draw_int 0 4 g = (m, g') -> supported m) ->
    cadence_ok (mh_cadence x) ->
    mh_run geometry propose check accept at_least draw_int draw_p max_time update print write x w man
      = Ret (x', w') man' ->
    exists hs : list trecord,
      length hs = Z.to_nat (cad_passes (mh_cadence x)) /\
      Forall (fun p => supported (fst p)) (concat hs) /\
      run_chain geometry propose check accept at_least draw_int draw_p man hs man' /\
      results_reflect (mh_results x') (concat hs) /\
      stats_reflect (mh_stats x') (concat hs) /\
      mh_checkpoint_events x' = cad_passes (mh_cadence x) / cad_checkpoint (mh_cadence x).
  Proof. intros Hd. apply mh_run_Ret. exact Hd. Qed.

  Notation attempt := (attempt_transition geometry propose check accept at_least).
  Notation sampled := (attempt_sampled geometry propose check accept at_least draw_int draw_p).

  Lemma state_changes_only_on_acceptance (x : metropolis G) cur m t x' cur' r :
    attempt x cur m t = Ret (x', cur') r ->
    tr_move r = m /\
    (tr_outcome r <> METROPOLIS_ACCEPTED -> cur' = cur) /\
    (tr_outcome r = METROPOLIS_ACCEPTED ->
       exists g' p, propose_candidate propose cur m (rnd_engine (mh_generator x)) = (Moved cur', g') /\
         check cur cur' m = true /\ accept (geometry cur) (geometry cur') m = inl p /\
         at_least p t = true) /\
    (forall cand g' p, supported m ->
       propose_candidate propose cur m (rnd_engine (mh_generator x)) = (Moved cand, g') ->
       check cur cand m = true -> accept (geometry cur) (geometry cand) m = inl p ->
       (tr_outcome r = METROPOLIS_ACCEPTED <-> at_least p t = true)).
  Proof using.
    clear draw_int draw_p max_time update print write W.
    intros H. unfold attempt_transition in H.
    match type of H with context [resolve_transition ?a ?b ?c ?d ?e ?f ?g ?h] =>
      destruct (resolve_transition a b c d e f g h) as [y o| | |] eqn:E end; try discriminate.
    injection H as <- <- <-. cbn [tr_move tr_outcome].
    apply resolve_step in E as [(Hn & -> & ->)|(Hm & Hs)].
    - split; [reflexivity|]. split; [reflexivity|]. split; [discriminate|]. tauto.
    - cbn [to_mstate ms_cur ms_gen] in Hs. split; [reflexivity|].
      inversion Hs; subst.
      + split; [auto|]. split; [destruct e as [[] ?]; discriminate|]. intros; congruence.
      + split; [auto|]. split; [discriminate|]. intros; congruence.
      + split; [congruence|]. split; [intros _; eauto 8|].
        intros cand g2 p2 _ H5 H6 H7. rewrite H in H5. injection H5 as <- <-. rewrite H1 in H7.
        injection H7 as <-. tauto.
      + split; [auto|]. split; [discriminate|].
        intros cand2 g2 p2 _ H5 H6 H7. rewrite H in H5. injection H5 as <- <-. rewrite H1 in H7.
        injection H7 as <-. split; congruence.
  Qed.

  Lemma throwing_keeps_state (x : metropolis G) cur m t x' cur' e :
    attempt x cur m t = Thr (x', cur') e -> cur' = cur.
  Proof.
    intros H. unfold attempt_transition in H.
    match type of H with context [resolve_transition ?a ?b ?c ?d ?e ?f ?g ?h] =>
      destruct (resolve_transition a b c d e f g h) as [y o|y o| |] eqn:E end; try discriminate.
    injection H as <- <- <-. apply resolve_Thr in E. exact E.
  Qed.

  Lemma invalid_trial (x : metropolis G) cur m t : trial_invalid t = true ->
    attempt x cur m t = Thr (with_mstate x (to_mstate x cur), cur) InvalidArgument /\
    with_mstate x (to_mstate x cur) = x.
  Proof.
    intros H. unfold attempt_transition. rewrite resolve_bad_trial by assumption.
    split; [reflexivity|]. destruct x as [a b [c d e] f g h i]. reflexivity.
  Qed.

  Lemma no_effect (x : metropolis G) cur m t :
    (trial_invalid t = true -> attempt x cur m t = Thr (x, cur) InvalidArgument) /\
    (trial_invalid t = false -> ~ supported m ->
       attempt x cur m t = Ret (x, cur) (mkTransition m EXECUTION_FAILED)).
  Proof.
    split.
    - intros H. destruct (invalid_trial x cur m t H) as [E1 E2]. rewrite E2 in E1. exact E1.
    - intros H Hm. unfold attempt_transition. rewrite resolve_unsupported by assumption.
      destruct x as [a b [c d e] f g h i]. reflexivity.
  Qed.

  Lemma trial_invalid_iff t : trial_invalid t = false <->
    exists q, t = Fin q /\ QArith_base.Qle (QArith_base.Qmake 0 1) q /\ QArith_base.Qle q (QArith_base.Qmake 1 1).
  Proof.
    unfold trial_invalid. destruct t as [|s|q]; cbn; [split; [discriminate|intros (q & H & _); discriminate]..|].
    rewrite !orb_false_iff, !negb_false_iff, !QArith_base.Qle_bool_iff. split.
    - intros [A B]. eauto.
    - intros (q' & E & A & B). injection E as <-. auto.
  Qed.

  (** Any history of calls starting from a newly constructed strategy. *)
  Lemma history_identities passes checkpoint writes (r : Random G) base a k l x0 cur0 x cur :
    (forall g m g', draw_int 0 4 g = (m, g') -> supported m) ->
    make_metropolis passes checkpoint writes r base a k l = inl x0 ->
    passes <= INT32_MAX -> checkpoint <= INT32_MAX ->
    calls geometry propose check accept at_least draw_int draw_p max_time update print write x0 cur0 x cur ->
    exists h, Forall (fun p => supported (fst p)) h /\
      results_reflect (mh_results x) h /\ stats_reflect (mh_stats x) h /\
      (forall k, supported k ->
       slot (st_proposed (mh_stats x)) k
         = slot (st_accepted (mh_stats x)) k + slot (st_rejected (mh_stats x)) k /\
       slot (attempted (mh_results x)) k
         = slot (succeeded (mh_results x)) k + slot (failed (mh_results x)) k /\
       slot (attempted (mh_results x)) k = slot (st_proposed (mh_stats x)) k /\
       0 <= slot (failed (mh_results x)) k <= slot (st_rejected (mh_stats x)) k /\
       0 <= slot (st_accepted (mh_stats x)) k <= slot (succeeded (mh_results x)) k) /\
      st_count (mh_stats x) = wrap64 (slot_sum (st_proposed (mh_stats x))).
  Proof.
    intros Hd Hm Hp Hc Hcalls.
    assert (Hcad : cadence_ok (mh_cadence x0)).
    { unfold make_metropolis, parse_move_run_cadence, cadence_parse in Hm.
      destruct (Z.leb_spec passes 0); [discriminate|]. destruct (Z.leb_spec checkpoint 0); [discriminate|].
      injection Hm as <-. cbn. unfold cadence_ok. cbn. lia. }
    assert (Hx0 : consistent x0).
    { exists []. unfold make_metropolis in Hm. destruct (parse_move_run_cadence passes checkpoint); [|discriminate].
      injection Hm as <-. cbn. split; [constructor|]. split; [apply results_reflect_nil|].
      apply (stats_reflect_nil geometry_zero). }
    pose proof (calls_consistent _ _ _ _ _ _ _ _ _ _ _ Hd _ _ _ _ Hcad Hx0 Hcalls) as H.
    destruct (consistent_identities _ H) as [I1 I2]. destruct H as (h & H1 & H2 & H3).
    exists h. auto.
  Qed.

  Lemma one_byte_changes_trace (h1 h2 : trecord) :
    Forall (fun p => supported (fst p)) h1 -> Forall (fun p => supported (fst p)) h2 ->
    (exists pre a b post, history_bytes h1 = pre ++ a :: post /\ history_bytes h2 = pre ++ b :: post /\ a <> b) ->
    fnv1a (history_bytes h1) <> fnv1a (history_bytes h2).
  Proof.
    intros S1 S2 (pre & a & b & post & E1 & E2 & Hne). rewrite E1, E2.
    assert (B : forall h, Forall byte (history_bytes h)).
    { induction h as [|[m o] h IH]; [constructor|]. unfold history_bytes in *. cbn [flat_map app fst snd].
      constructor; [|constructor; [|exact IH]].
      - unfold byte, move_byte. apply Z.mod_pos_bound. lia.
      - unfold byte. destruct o; cbn; lia. }
    pose proof (B h1) as B1. pose proof (B h2) as B2. rewrite E1 in B1. rewrite E2 in B2.
    apply Forall_app in B1 as [_ B1]. apply Forall_app in B2 as [_ B2].
    destruct (Forall_cons_1 _ _ _ B1) as [Ba Bp]. destruct (Forall_cons_1 _ _ _ B2) as [Bb _].
    apply fnv1a_one_byte; assumption.
  Qed.
End Metropolis.

Lemma split_forgets_draws (G : Type) (seed_engine : Z -> Z -> G) r r' s :
  reaches seed_engine r r' -> split seed_engine r' s = split seed_engine r s.
Proof. intros H. unfold split. rewrite (reaches_seed _ _ _ H). reflexivity. Qed.

Lemma decoupled_run (M SS G W : Type) N3 pass rep1 rep2 chk1 chk2 passes c1 c2 w1 w2
    (m : M) (s : SS) (g : G) (wa wb : W) g1 g2 wa' wb' r1 r2 :
  execute_move_run N3 (pass_env pass) (rep_env rep1) (chk_env chk1) (mkCadence passes c1) w1 m s (g, wa)
    = Ret (g1, wa') r1 ->
  execute_move_run N3 (pass_env pass) (rep_env rep2) (chk_env chk2) (mkCadence passes c2) w2 m s (g, wb)
    = Ret (g2, wb') r2 ->
  g1 = g2 /\ rr_manifold r1 = rr_manifold r2 /\ rr_results r1 = rr_results r2 /\ rr_state r1 = rr_state r2.
Proof. intros H1 H2. unfold execute_move_run in *. cbn in *. eapply decoupled_loop; eassumption. Qed.

Lemma reflection_meaning r s h :
  (results_reflect r h <->
   results_ok r /\ forall k, supported k ->
     slot (attempted r) k = count_of k (fun _ => true) h /\
     slot (succeeded r) k = count_of k (fun o => match o with METROPOLIS_ACCEPTED | METROPOLIS_REJECTED => true | _ => false end) h /\
     slot (failed r) k = count_of k (fun o => match o with METROPOLIS_ACCEPTED | METROPOLIS_REJECTED => false | _ => true end) h) /\
  (stats_reflect s h ->
   (forall k, supported k ->
     slot (st_proposed s) k = count_of k (fun _ => true) h /\
     slot (st_accepted s) k = count_of k (fun o => match o with METROPOLIS_ACCEPTED => true | _ => false end) h /\
     slot (st_rejected s) k = count_of k (fun o => match o with METROPOLIS_ACCEPTED => false | _ => true end) h) /\
   st_trace s = fnv1a (flat_map (fun p => [fst p mod 256; outcome_byte (snd p)]) h) /\
   st_count s = Z.of_nat (length h) mod 2 ^ 64).
Proof.
  assert (E : forall k f g hh, (forall o, f o = g o) -> count_of k f hh = count_of k g hh).
  { intros k f g hh Hfg. unfold count_of. do 2 f_equal. induction hh as [|[m o] hh IH]; [reflexivity|].
    cbn [List.filter fst snd]. rewrite Hfg, IH. reflexivity. }
  split.
  - unfold results_reflect.
    split; intros [H1 H2]; (split; [assumption|]); intros k Hk; destruct (H2 k Hk) as (A & B & C);
      rewrite A, B, C; (split; [|split]); apply E; intros []; reflexivity.
  - intros (H1 & H2 & H3 & H4). split; [|split; [exact H3|exact H4]].
    intros k Hk. destruct (H2 k Hk) as (A & B & C). rewrite A, B, C.
    (split; [|split]); apply E; intros []; reflexivity.
Qed.

(** The dispatch of a proposal. *)
Lemma proposal_dispatch (M G : Type) (propose : move_api M G) (cur : M) g :
  propose_candidate propose cur TWO_THREE g = api_23 propose cur g /\
  propose_candidate propose cur THREE_TWO g = api_32 propose cur g /\
  propose_candidate propose cur TWO_SIX g = api_26 propose cur g /\
  propose_candidate propose cur SIX_TWO g = api_62 propose cur g /\
  propose_candidate propose cur FOUR_FOUR g = api_44 propose cur g /\
  forall m, ~ supported m -> propose_candidate propose cur m g = (Failed (mkMoveError UNKNOWN_MOVE m), g).
Proof. exact (dispatch_table propose cur g). Qed.

(** FNV-1a with 64 bits, and the two byte codes. *)
Lemma fnv_meaning :
  fnv1a [] = 14695981039346656037 /\
  (forall bs b, fnv1a (bs ++ [b]) = (Z.lxor (fnv1a bs) b * 1099511628211) mod 2 ^ 64) /\
  outcome_byte INAPPLICABLE = 0 /\ outcome_byte METROPOLIS_ACCEPTED = 1 /\ outcome_byte METROPOLIS_REJECTED = 2 /\
  outcome_byte EXECUTION_FAILED = 3 /\ outcome_byte SUCCEEDED = 4.
Proof.
  split; [reflexivity|]. split; [|repeat split].
  intros bs b. unfold fnv1a, fnv_from. rewrite fold_left_app. reflexivity.
Qed.
