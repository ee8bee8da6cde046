(** Proofs about the executables. *)
From Verif Require Import Base Tracker Command Run Fnv Geom Metropolis RunCheckpoint Program ProgramSpec.
From Verif Require Config Action.
Local Open Scope Z_scope.
Local Open Scope list_scope.

(** * The run loop: files and states *)
Section Loop.
  Context {M SS E G X : Type}.
  Variable N3 : M -> Z.
  Variable pass : M -> SS -> Z -> E -> res E (pass_result M SS).
  Variable report : M -> results -> SS -> E -> res E unit.
  Variable checkpoint : M -> results -> SS -> Z -> E -> res E unit.
  Variable proj : E -> list X.
  Variable eng : E -> G.
  Variable step : M -> SS -> G -> M -> SS -> G -> Prop.
  Variable made : M -> SS -> Z -> X -> Prop.
  Hypothesis pass_keeps : forall m s e, match pass m s (N3 m) e with
    | Ret e' p => proj e' = proj e /\ step m s (eng e) (pr_manifold p) (pr_state p) (eng e')
    | Thr e' _ => proj e' = proj e | _ => True end.
  Hypothesis report_keeps : forall m r s e, match report m r s e with
    | Ret e' _ | Thr e' _ => proj e' = proj e /\ eng e' = eng e | _ => True end.
  Hypothesis checkpoint_adds : forall m r s n e, match checkpoint m r s n e with
    | Ret e' _ => eng e' = eng e /\ exists x, proj e' = proj e ++ [x] /\ made m s n x
    | Thr e' _ => proj e' = proj e
    | _ => True end.

  (** File of pass [n], when [states] are the states after passes i+1, i+2, .... *)
  Definition made_at (i : Z) (states : list (M * SS * G)) (n : Z) (x : X) : Prop :=
    exists m s g, nth_error states (Z.to_nat (n - i - 1)) = Some (m, s, g) /\ made m s n x.

  Lemma zseq_ge n : forall len k, In n (zseq k len) -> k <= n.
  Proof. induction len as [|len IH]; intros k H; [contradiction|]. destruct H as [->|H]; [lia|]. apply IH in H. lia. Qed.

  Lemma made_shift i st0 states l : forall ns, Forall (fun n => i + 2 <= n) ns ->
    Forall2 (made_at (i + 1) states) ns l -> Forall2 (made_at i (st0 :: states)) ns l.
  Proof.
    intros ns A B. induction B as [|n x ns l H B IH]; [constructor|].
    apply Forall_cons_1 in A. destruct A as [A0 A]. constructor; [|auto].
    destruct H as (m & s & g & H1 & H2). exists m, s, g. split; [|exact H2].
    replace (Z.to_nat (n - i - 1)) with (S (Z.to_nat (n - (i + 1) - 1))) by lia. exact H1.
  Qed.
  Lemma due_ge c writes len k : Forall (fun n => k <= n) (due c writes (zseq k len)).
  Proof.
    unfold due. destruct writes; [|constructor]. apply List.Forall_forall. intros n H.
    apply List.filter_In in H. destruct H as [H _]. exact (zseq_ge _ _ _ H).
  Qed.

  Lemma run_loop_files fuel cad writes : forall i cur tot st ev e,
    match run_loop N3 pass report checkpoint fuel cad writes i cur tot st ev e with
    | Ret e' rr => exists states l, length states = fuel /\ evolves step cur st (eng e) states /\
        List.last states (cur, st, eng e) = (rr_manifold rr, rr_state rr, eng e') /\
        proj e' = proj e ++ l /\
        Forall2 (made_at i states) (due (cad_checkpoint cad) writes (zseq (i + 1) fuel)) l
    | Thr e' _ => exists states l k, (length states <= fuel)%nat /\ evolves step cur st (eng e) states /\
        proj e' = proj e ++ l /\
        Forall2 (made_at i states) (take k (due (cad_checkpoint cad) writes (zseq (i + 1) fuel))) l
    | _ => True
    end.
  Proof using pass_keeps report_keeps checkpoint_adds.
    induction fuel as [|fuel IH]; intros i cur tot st ev e; cbn [run_loop].
    - pose proof (report_keeps cur tot st e) as R. destruct (report cur tot st e) as [e1 []|e1 x| |]; auto; destruct R as [R1 R2].
      + exists [], []. rewrite app_nil_r. repeat split; auto; [constructor| |]. { cbn. rewrite R2. reflexivity. }
        unfold due. destruct writes; constructor.
      + exists [], [], 0%nat. rewrite app_nil_r. repeat split; auto; constructor.
    - pose proof (pass_keeps cur st e) as P. destruct (pass cur st (N3 cur) e) as [e1 p|e1 x| |]; auto.
      2:{ exists [], [], 0%nat. rewrite app_nil_r. repeat split; auto; [cbn; lia|constructor|constructor]. }
      destruct P as [P1 P2].
      destruct (accumulate_results tot (pr_results p)) as [tot'|]; auto.
      unfold checkpoint_event. cbn [zseq].
      assert (D : due (cad_checkpoint cad) writes (i + 1 :: zseq (i + 1 + 1) fuel) =
        (if writes then (if (i + 1) mod cad_checkpoint cad =? 0 then [i + 1] else []) else [])
        ++ due (cad_checkpoint cad) writes (zseq (i + 1 + 1) fuel)).
      { unfold due. destruct writes; [|reflexivity]. cbn [List.filter]. destruct (_ =? 0); reflexivity. }
      rewrite D. clear D.
      pose proof (due_ge (cad_checkpoint cad) writes fuel (i + 1 + 1)) as Dg.
      assert (Dg' : Forall (fun n => i + 2 <= n) (due (cad_checkpoint cad) writes (zseq (i + 1 + 1) fuel))).
      { eapply List.Forall_impl; [|exact Dg]. cbn. intros. lia. }
      assert (Dt : forall k, Forall (fun n => i + 2 <= n) (take k (due (cad_checkpoint cad) writes (zseq (i + 1 + 1) fuel)))).
      { intros k. apply Forall_take. exact Dg'. }
      assert (early : forall e', proj e' = proj e -> exists states l k, (length states <= S fuel)%nat /\ evolves step cur st (eng e) states /\
        proj e' = proj e ++ l /\ Forall2 (made_at i states) (take k ((if writes then (if (i + 1) mod cad_checkpoint cad =? 0 then [i + 1] else []) else [])
        ++ due (cad_checkpoint cad) writes (zseq (i + 1 + 1) fuel))) l).
      { intros e' He. exists [], [], 0%nat. rewrite app_nil_r. repeat split; auto; [cbn; lia|constructor|constructor]. }
      assert (rest : forall e2 tt' ev', proj e2 = proj e -> eng e2 = eng e1 ->
        (if writes then (if (i + 1) mod cad_checkpoint cad =? 0 then [i + 1] else []) else []) = [] ->
        match run_loop N3 pass report checkpoint fuel cad writes (i + 1) (pr_manifold p) tt' (pr_state p) ev' e2 with
        | Ret e' rr => exists states l, length states = S fuel /\ evolves step cur st (eng e) states /\
            List.last states (cur, st, eng e) = (rr_manifold rr, rr_state rr, eng e') /\
            proj e' = proj e ++ l /\
            Forall2 (made_at i states) (due (cad_checkpoint cad) writes (zseq (i + 1 + 1) fuel)) l
        | Thr e' _ => exists states l k, (length states <= S fuel)%nat /\ evolves step cur st (eng e) states /\
            proj e' = proj e ++ l /\
            Forall2 (made_at i states) (take k (due (cad_checkpoint cad) writes (zseq (i + 1 + 1) fuel))) l
        | _ => True
        end).
      { intros e2 tt' ev' Pe Ee _. specialize (IH (i + 1) (pr_manifold p) tt' (pr_state p) ev' e2).
        destruct (run_loop _ _ _ _ _ _ _ _ _ _ _ _ _) as [e4 rr|e4 y| |]; auto.
        - destruct IH as (states & l & H1 & H2 & H3 & H4 & H5).
          exists ((pr_manifold p, pr_state p, eng e1) :: states), l. repeat split.
          + cbn. lia.
          + constructor; [exact P2|]. rewrite <- Ee. exact H2.
          + rewrite Ee in H3. destruct states as [|a states]; [exact H3|].
            change (List.last (a :: states) (cur, st, eng e) = (rr_manifold rr, rr_state rr, eng e4)).
            rewrite <- H3. clear. revert a. induction states as [|b states IH]; intros a; [reflexivity|]. apply (IH b).
          + congruence.
          + apply made_shift; auto.
        - destruct IH as (states & l & k & H1 & H2 & H4 & H5).
          exists ((pr_manifold p, pr_state p, eng e1) :: states), l, k. repeat split.
          + cbn. lia.
          + constructor; [exact P2|]. rewrite <- Ee. exact H2.
          + congruence.
          + apply made_shift; auto. }
      destruct ((i + 1) mod cad_checkpoint cad =? 0) eqn:Em.
      + destruct (add32 ev 1) as [ev'|]; auto.
        pose proof (report_keeps (pr_manifold p) tot' (pr_state p) e1) as R.
        destruct (report (pr_manifold p) tot' (pr_state p) e1) as [e2 []|e2 x| |]; auto; destruct R as [R1 R2].
        2:{ apply early. congruence. }
        destruct writes.
        * pose proof (checkpoint_adds (pr_manifold p) tot' (pr_state p) (i + 1) e2) as C.
          destruct (checkpoint (pr_manifold p) tot' (pr_state p) (i + 1) e2) as [e3 []|e3 x| |]; auto.
          2:{ apply early. congruence. }
          destruct C as (Ce & x & C & Cm). specialize (IH (i + 1) (pr_manifold p) tot' (pr_state p) ev' e3).
          assert (here : forall states, made_at i ((pr_manifold p, pr_state p, eng e1) :: states) (i + 1) x).
          { intros states. exists (pr_manifold p), (pr_state p), (eng e1). replace (Z.to_nat (i + 1 - i - 1)) with 0%nat by lia. split; [reflexivity|exact Cm]. }
          destruct (run_loop _ _ _ _ _ _ _ _ _ _ _ _ _) as [e4 rr|e4 y| |]; auto.
          -- destruct IH as (states & l & H1 & H2 & H3 & H4 & H5).
             assert (Ee : eng e3 = eng e1) by congruence.
             exists ((pr_manifold p, pr_state p, eng e1) :: states), (x :: l). repeat split.
             ++ cbn. lia.
             ++ constructor; [exact P2|]. rewrite <- Ee. exact H2.
             ++ rewrite Ee in H3. destruct states as [|a states]; [exact H3|].
                change (List.last (a :: states) (cur, st, eng e) = (rr_manifold rr, rr_state rr, eng e4)).
                rewrite <- H3. clear. revert a. induction states as [|b states IH]; intros a; [reflexivity|]. apply (IH b).
             ++ rewrite H4, C, <- app_assoc, R1, P1. reflexivity.
             ++ cbn [app]. constructor; [apply here|]. apply made_shift; auto.
          -- destruct IH as (states & l & k & H1 & H2 & H4 & H5).
             assert (Ee : eng e3 = eng e1) by congruence.
             exists ((pr_manifold p, pr_state p, eng e1) :: states), (x :: l), (S k). repeat split.
             ++ cbn. lia.
             ++ constructor; [exact P2|]. rewrite <- Ee. exact H2.
             ++ rewrite H4, C, <- app_assoc, R1, P1. reflexivity.
             ++ cbn [app take]. constructor; [apply here|]. apply made_shift; auto.
        * apply (rest e2 tot' ev'); [congruence|exact R2|reflexivity].
      + assert (W0 : (if writes then [] else []) = @nil Z) by (destruct writes; reflexivity).
        rewrite W0 in *. cbn [app] in *. apply (rest e1 tot' ev); [exact P1|reflexivity|reflexivity].
  Qed.
End Loop.

(** * The executables with a record of the files written *)
Section Exec.
  Context {M G P W : Type}.
  Variable rd rl : QArith_base.Q -> fp.
  Variable parallel_build : bool.
  Variable seed_engine : Z -> Z -> G.
  Variable geometry : M -> Geometry.
  Variable propose : move_api M G.
  Variable check : M -> M -> MoveType -> bool.
  Variable accept : Action.PhysicalParameters -> Geometry -> Geometry -> MoveType -> P + exn.
  Variable at_least : P -> fp -> bool.
  Variable draw_int : Z -> Z -> G -> Z * G.
  Variable draw_p : G -> fp * G.
  Variable facts : manifold_facts M.
  Variable construct : Z -> Z -> Random G -> fp -> fp -> W -> res W M.
  Variable is_valid : M -> bool.
  Variable say : line M -> W -> res W unit.
  Variable print : results -> stats -> W -> res W unit.
  Variable write : M -> Metadata -> W -> res W unit.
  Notation files := (list (M * Metadata)).
  Notation pass pp := (mh_pass geometry propose check (accept pp) at_least draw_int draw_p).

  Definition rooted (c : Config.Simulation) (x : metropolis G) : Prop :=
    let base := mh_reproducibility x in let tr := Config.sim_triangulation c in
    md_seed base = Config.tr_seed tr /\ md_initialization_stream base = 0 /\ md_transition_stream base = 1 /\
    md_desired_simplices base = Config.tr_simplices tr /\ md_desired_timeslices base = Config.tr_timeslices tr /\
    md_alpha base = Some (Config.sim_alpha c) /\ md_k base = Some (Config.sim_k c) /\
    md_lambda base = Some (Config.sim_lambda c) /\ md_configured_passes base = Some (Config.sim_passes c) /\
    md_checkpoint_interval base = Some (Config.sim_checkpoint c) /\ md_max_threads base = Some (Config.tr_threads tr) /\
    Config.tr_simplices tr <> 0 /\ Config.tr_timeslices tr <> 0 /\
    cad_passes (mh_cadence x) = Config.sim_passes c /\ cad_checkpoint (mh_cadence x) = Config.sim_checkpoint c /\
    mh_write_files x = Config.sim_write_files c.

  Lemma rooted_describes c x m kind n s d : rooted c x ->
    make_metadata geometry (mf_max_time facts) (update_reproducibility_state facts) (mh_reproducibility x) m kind n s = inl d ->
    describes facts c kind n (st_trace s) (st_count s) m d.
  Proof using.
    intros (R1 & R2 & R3 & R4 & R5 & R6 & R7 & R8 & R9 & R10 & R11 & Z1 & Z2 & _).
    unfold make_metadata, update_reproducibility_state.
    destruct (mf_placement facts m) as [p|] eqn:Ep; [|discriminate].
    destruct (mf_fingerprint facts m) as [t|] eqn:Et; [|discriminate].
    intros [= <-]. cbn [md_desired_simplices md_desired_timeslices]. rewrite R4, R5.
    destruct (Z.eqb_spec (Config.tr_simplices (Config.sim_triangulation c)) 0) as [|_]; [contradiction|].
    destruct (Z.eqb_spec (Config.tr_timeslices (Config.sim_triangulation c)) 0) as [|_]; [contradiction|].
    constructor; cbn; auto. exists p, t. auto.
  Qed.

  Lemma cdt_run_files c pp x universe w l0 : rooted c x ->
    match cdt_run geometry propose check accept at_least draw_int draw_p facts (recording_print print) (recording write)
            pp x universe (w, l0) with
    | Ret (w', l') (x', result) => exists states cks g,
        length states = Z.to_nat (Config.sim_passes c) /\
        evolves (pass pp) universe (set_geometry stats_zero (geometry universe)) (rnd_engine (mh_generator x)) states /\
        List.last states (universe, set_geometry stats_zero (geometry universe), rnd_engine (mh_generator x))
          = (result, mh_stats x', g) /\
        mh_reproducibility x' = mh_reproducibility x /\
        l' = l0 ++ cks /\
        Forall2 (checkpoint_file facts c states)
          (if Config.sim_write_files c then checkpoint_passes (Config.sim_passes c) (Config.sim_checkpoint c) else []) cks
    | Thr (w', l') _ => exists states cks k,
        (length states <= Z.to_nat (Config.sim_passes c))%nat /\
        evolves (pass pp) universe (set_geometry stats_zero (geometry universe)) (rnd_engine (mh_generator x)) states /\
        l' = l0 ++ cks /\
        Forall2 (checkpoint_file facts c states)
          (take k (if Config.sim_write_files c then checkpoint_passes (Config.sim_passes c) (Config.sim_checkpoint c) else [])) cks
    | _ => True
    end.
  Proof using.
    intros R. unfold cdt_run, mh_run, execute_move_run.
    set (base := mh_reproducibility x) in *.
    pose proof (run_loop_files (G := G) (fun m => gN3 (geometry m))
      (pass_env (W := W * files) (mh_execute_pass geometry propose check (accept pp) at_least draw_int draw_p))
      (rep_env (fun _ r s => recording_print print r s))
      (chk_env (mh_checkpoint geometry (mf_max_time facts) (update_reproducibility_state facts) (recording write) base))
      (fun e : G * (W * files) => snd (snd e)) (fun e => fst e) (pass pp)
      (fun m s n y => fst y = m /\ describes facts c CHECKPOINT n (st_trace s) (st_count s) m (snd y))) as H.
    assert (A1 : forall m s (e : G * (W * files)),
      match pass_env (W := W * files) (mh_execute_pass geometry propose check (accept pp) at_least draw_int draw_p) m s (gN3 (geometry m)) e with
      | Ret e' p => snd (snd e') = snd (snd e) /\ pass pp m s (fst e) (pr_manifold p) (pr_state p) (fst e')
      | Thr e' _ => snd (snd e') = snd (snd e) | _ => True end).
    { intros m s [g0 w0]. unfold pass_env, on_engine. cbn [fst snd].
      destruct (mh_execute_pass _ _ _ _ _ _ _ _ _ _ _) as [g1 p|g1 e1| |] eqn:E; auto. cbn. split; [reflexivity|].
      exists (pr_results p). rewrite E. destruct p; reflexivity. }
    assert (A2 : forall (m : M) r s (e : G * (W * files)),
      match rep_env (fun (_ : M) r s => recording_print print r s) m r s e with
      | Ret e' _ | Thr e' _ => snd (snd e') = snd (snd e) /\ fst e' = fst e | _ => True end).
    { intros m r s [g0 [w0 l1]]. unfold rep_env, on_world, recording_print. cbn [fst snd]. destruct (print r s w0); auto. }
    assert (A3 : forall (m : M) (r : results) s n (e : G * (W * files)),
      match chk_env (mh_checkpoint geometry (mf_max_time facts) (update_reproducibility_state facts) (recording write) base) m r s n e with
      | Ret e' _ => fst e' = fst e /\ exists y, snd (snd e') = snd (snd e) ++ [y] /\ (fst y = m /\ describes facts c CHECKPOINT n (st_trace s) (st_count s) m (snd y))
      | Thr e' _ => snd (snd e') = snd (snd e) | _ => True end).
    { intros m r s n [g0 [w0 l1]]. unfold chk_env, on_world, mh_checkpoint. cbn [fst snd].
      destruct (make_metadata _ _ _ _ _ _ _ _) as [d|e0] eqn:Ed; [|reflexivity]. apply (rooted_describes c x) in Ed; [|exact R].
      unfold recording. cbn [fst snd]. destruct (write m d w0); auto. cbn. split; [reflexivity|]. exists (m, d). auto. }
    specialize (H A1 A2 A3 (Z.to_nat (cad_passes (mh_cadence x))) (mh_cadence x) (mh_write_files x) 0 universe results_zero
      (set_geometry stats_zero (geometry universe)) 0 (rnd_engine (mh_generator x), (w, l0))). clear A1 A2 A3.
    destruct R as (_ & _ & _ & _ & _ & _ & _ & _ & _ & _ & _ & _ & _ & Rp & Rc & Rw).
    cbn [fst snd] in H. change (0 + 1) with 1 in H. rewrite Rp, Rw in *.
    assert (D : due (cad_checkpoint (mh_cadence x)) (Config.sim_write_files c) (zseq 1 (Z.to_nat (Config.sim_passes c))) =
      if Config.sim_write_files c then checkpoint_passes (Config.sim_passes c) (Config.sim_checkpoint c) else []).
    { rewrite Rc. reflexivity. }
    rewrite D in H. clear D.
    assert (L : forall (states : list (M * stats * G)) k l, Forall2 (made_at (fun m s n y => fst y = m /\ describes facts c CHECKPOINT n (st_trace s) (st_count s) m (snd y)) 0 states) k l ->
      Forall2 (checkpoint_file facts c states) k l).
    { intros states k l F. eapply Forall2_impl; [exact F|]. intros n y (m & s & g & K1 & K2 & K3). exists m, s, g.
      replace (n - 0 - 1) with (n - 1) in K1 by lia. auto. }
    destruct (run_loop _ _ _ _ _ _ _ _ _ _ _ _ _) as [[g [w' l]] rr|[g [w' l]] e| |]; auto; cbn [fst snd mh_stats mh_reproducibility] in *.
    - destruct H as (states & l1 & H1 & H2 & H3 & H4 & H5). exists states, l1, g. repeat split; auto.
    - destruct H as (states & l1 & k & H1 & H2 & H4 & H5). exists states, l1, k. repeat split; auto.
  Qed.
  Lemma config_facts a seed n t alpha k lambda tr c :
    Config.make_triangulation rd rl parallel_build (a_spherical a) (a_toroidal a) n t (a_dimensions a)
      (a_radius a) (a_spacing a) seed (a_threads a) = Config.Val tr ->
    Config.make_simulation tr alpha k lambda (a_passes a) (a_checkpoint a) (negb (a_no_output a)) = Config.Val c ->
    c = Config.MkSimulation tr alpha k lambda (a_passes a) (a_checkpoint a) (negb (a_no_output a)) /\
    Config.tr_seed tr = seed /\ Config.tr_simplices tr = n /\ Config.tr_timeslices tr = t /\ 2 <= n /\ 2 <= t /\
    0 < a_passes a /\ 0 < a_checkpoint a /\
    exists qa qk ql, alpha = Fin qa /\ k = Fin qk /\ lambda = Fin ql /\
      QArith_base.Qle_bool qa (QArith_base.Qmake 1 2) = false.
  Proof using.
    unfold Config.make_triangulation, Config.make_simulation, Config.bind, Config.checked_int, Config.checked_finite.
    intros H1 H2.
    destruct (Config.select_topology _ _); try discriminate.
    destruct (in_int32b n); try discriminate. destruct (in_int32b t); try discriminate.
    destruct (in_int32b (a_dimensions a)); try discriminate. destruct (negb _); try discriminate.
    destruct ((n <? 2) || (t <? 2)) eqn:E1; try discriminate. apply orb_false_iff in E1. destruct E1 as [E1 E2].
    apply Z.ltb_ge in E1, E2.
    destruct (isfinite (a_radius a)); try discriminate. destruct (isfinite (a_spacing a)); try discriminate.
    destruct (Config.fp_le (a_radius a) _); try discriminate. destruct (Config.fp_le (a_spacing a) _); try discriminate.
    destruct (Config.make_generated_population _ _ _ _ _ _); try discriminate.
    destruct (Config.checked_threads _ _); try discriminate. injection H1 as <-.
    destruct alpha as [| |qa]; try discriminate. destruct k as [| |qk]; try discriminate. destruct lambda as [| |ql]; try discriminate.
    cbn [isfinite] in H2. destruct (Config.fp_le (Fin qa) Config.half) eqn:E3; try discriminate.
    destruct (in_int32b (a_passes a)); try discriminate. destruct (in_int32b (a_checkpoint a)); try discriminate.
    destruct (a_passes a <=? 0) eqn:E4; try discriminate. destruct (a_checkpoint a <=? 0) eqn:E5; try discriminate.
    apply Z.leb_gt in E4, E5. injection H2 as <-.
    repeat split; auto. exists qa, qk, ql. auto.
  Qed.

  Lemma strategy_rooted c tr r base x pp universe : Config.sim_triangulation c = tr ->
    rnd_seed r = Config.tr_seed tr -> rnd_stream r = 1 -> Config.tr_simplices tr <> 0 -> Config.tr_timeslices tr <> 0 ->
    cdt_provenance facts c universe = inl base -> cdt_strategy c r base = inl (pp, x) ->
    rooted c x /\ mh_generator x = r /\ Config.sim_alpha c = Fin (Action.pp_alpha pp) /\
    Config.sim_k c = Fin (Action.pp_k pp) /\ Config.sim_lambda c = Fin (Action.pp_lambda pp).
  Proof using.
    intros <- Hs Ht Z1 Z2 Hb Hx. unfold cdt_provenance, new_metadata in Hb.
    destruct (mf_placement facts universe); [|discriminate]. destruct (mf_fingerprint facts universe); [|discriminate].
    injection Hb as <-. unfold cdt_strategy, make_metropolis, parse_move_run_cadence, cadence_parse in Hx.
    destruct (Action.make_physical_parameters _ _ _) as [q|] eqn:Eq; [|discriminate].
    assert (Q : Config.sim_alpha c = Fin (Action.pp_alpha q) /\ Config.sim_k c = Fin (Action.pp_k q) /\ Config.sim_lambda c = Fin (Action.pp_lambda q)).
    { unfold Action.make_physical_parameters in Eq. destruct (Config.sim_alpha c); try discriminate.
      destruct (Config.sim_k c); try discriminate. destruct (Config.sim_lambda c); try discriminate.
      destruct (QArith_base.Qle_bool _ _); try discriminate. injection Eq as <-. auto. }
    destruct (Config.sim_passes c <=? 0) eqn:E1; [discriminate|]. destruct (Config.sim_checkpoint c <=? 0) eqn:E2; [discriminate|].
    injection Hx as <- <-. destruct Q as (Q1 & Q2 & Q3).
    unfold rooted. cbn. rewrite Hs, Ht, Q1, Q2, Q3. auto 25.
  Qed.

  Lemma of_checked_Ret {A S} (x : Config.checked A) (w : S) w' y : of_checked x w = Ret w' y -> w' = w /\ x = Config.Val y.
  Proof using. destruct x; cbn; intros [= <- <-]; auto. Qed.

  Notation main := (cdt_main rd rl parallel_build seed_engine geometry propose check accept at_least draw_int draw_p
    facts (recording_construct construct) is_valid (recording_say say) (recording_print print) (recording write)).
  Notation simulate := (cdt_simulate rd rl parallel_build seed_engine geometry propose check accept at_least draw_int draw_p
    facts (recording_construct construct) is_valid (recording_say say) (recording_print print) (recording write)).

  Notation accepted := (accepted rd rl parallel_build).
  Lemma simulate_files a entropy w :
    match simulate a entropy (w, []) with
    | Ret (w', l) code => code = EXIT_SUCCESS /\
        exists c pp w1 w2 universe states cks result s g,
        let seed := effective_seed (a_seed a) entropy in
        let s0 := set_geometry stats_zero (geometry universe) in
        let g0 := seed_engine seed 1 in
        accepted a seed c /\ parameters_of c pp /\
        construct (Config.tr_simplices (Config.sim_triangulation c)) (Config.tr_timeslices (Config.sim_triangulation c))
          (mkRandom seed 0 (seed_engine seed 0)) (Config.tr_initial_radius (Config.sim_triangulation c))
          (Config.tr_foliation_spacing (Config.sim_triangulation c)) w1 = Ret w2 universe /\
        evolves (pass pp) universe s0 g0 states /\ length states = Z.to_nat (Config.sim_passes c) /\
        List.last states (universe, s0, g0) = (result, s, g) /\
        is_valid result = true /\
        Forall2 (checkpoint_file facts c states)
          (if a_no_output a then [] else checkpoint_passes (Config.sim_passes c) (Config.sim_checkpoint c)) cks /\
        (if a_no_output a then l = [] else exists d, l = cks ++ [(result, d)] /\
           describes facts c FINAL_TRIANGULATION (Config.sim_passes c) (st_trace s) (st_count s) result d)
    | Thr (w', l) _ => l = [] \/
        exists c pp w1 w2 universe states k,
        let seed := effective_seed (a_seed a) entropy in
        accepted a seed c /\ parameters_of c pp /\ a_no_output a = false /\
        construct (Config.tr_simplices (Config.sim_triangulation c)) (Config.tr_timeslices (Config.sim_triangulation c))
          (mkRandom seed 0 (seed_engine seed 0)) (Config.tr_initial_radius (Config.sim_triangulation c))
          (Config.tr_foliation_spacing (Config.sim_triangulation c)) w1 = Ret w2 universe /\
        evolves (pass pp) universe (set_geometry stats_zero (geometry universe)) (seed_engine seed 1) states /\
        (length states <= Z.to_nat (Config.sim_passes c))%nat /\
        Forall2 (checkpoint_file facts c states) (take k (checkpoint_passes (Config.sim_passes c) (Config.sim_checkpoint c))) l
    | _ => True
    end.
  Proof using.
    unfold cdt_simulate, andthen at 1.
    destruct (a_alpha a) as [alpha|] eqn:Ea; cbn [of_option]; [|left; reflexivity].
    unfold andthen at 1. destruct (a_k a) as [k|] eqn:Ek; cbn [of_option]; [|left; reflexivity].
    unfold andthen at 1. destruct (a_lambda a) as [lambda|] eqn:El; cbn [of_option]; [|left; reflexivity].
    unfold andthen at 1. destruct (a_simplices a) as [n|] eqn:En; cbn [of_option]; [|left; reflexivity].
    unfold andthen at 1. destruct (a_timeslices a) as [t|] eqn:Et; cbn [of_option]; [|left; reflexivity].
    set (root := root_random seed_engine (a_seed a) entropy). cbv zeta.
    unfold andthen at 1. destruct (cdt_config rd rl parallel_build a root n t alpha k lambda) as [c|e|] eqn:Ec; cbn [of_checked]; [|left; reflexivity|exact I].
    unfold cdt_config, Config.bind in Ec.
    destruct (Config.make_triangulation _ _ _ _ _ _ _ _ _ _ _ _) as [tr| |] eqn:Etr; try discriminate.
    pose proof (config_facts _ _ _ _ _ _ _ _ _ Etr Ec) as (Cc & C1 & C2 & C3 & C4 & C5 & C6 & C7 & qa & qk & ql & Ca & Ck & Cl & Cq).
    assert (Ac : accepted a (effective_seed (a_seed a) entropy) c).
    { exists n, t, alpha, k, lambda, tr. repeat split; auto. }
    assert (Ctr : Config.sim_triangulation c = tr) by (rewrite Cc; reflexivity).
    assert (Cw : Config.sim_write_files c = negb (a_no_output a)) by (rewrite Cc; reflexivity).
    unfold andthen at 1. unfold recording_say at 1. cbn [fst snd].
    destruct (say (Job c) w) as [w1 []|w1 e| |]; auto.
    unfold andthen at 1. unfold recording_construct at 1. cbn [fst snd].
    change (split seed_engine root initialization_stream) with
      (mkRandom (effective_seed (a_seed a) entropy) 0 (seed_engine (effective_seed (a_seed a) entropy) 0)).
    destruct (construct _ _ _ _ _ w1) as [w2 universe|w2 e| |] eqn:Eu; auto.
    unfold andthen at 1. destruct (cdt_provenance facts c universe) as [base|e] eqn:Eb; cbn [of_sum]; auto.
    unfold andthen at 1. destruct (cdt_strategy c _ base) as [[pp x]|e] eqn:Ex; cbn [of_sum fst snd]; auto.
    assert (RR : rooted c x /\ mh_generator x = split seed_engine root transitions_stream /\ parameters_of c pp).
    { apply (strategy_rooted c tr (split seed_engine root transitions_stream) base x pp universe); auto; try lia; try (symmetry; exact C1). }
    destruct RR as (R & Rg & Rpp).
    unfold andthen at 1. unfold recording_say at 1. cbn [fst snd].
    destruct (say (Shown universe) w2) as [w3 []|w3 e| |]; auto.
    pose proof (cdt_run_files c pp x universe w3 [] R) as H.
    assert (Rgen : rnd_engine (mh_generator x) = seed_engine (effective_seed (a_seed a) entropy) 1) by (rewrite Rg; reflexivity).
    rewrite Rgen in H. rewrite Cw in H.
    unfold andthen at 1.
    destruct (cdt_run _ _ _ _ _ _ _ _ _ _ _ _ _ _) as [[w4 l] [x' result]|[w4 l] e| |]; auto.
    2:{ destruct H as (states & cks & j & H1 & H2 & H3 & H4). cbn [app] in H3. subst cks.
        destruct (a_no_output a) eqn:Eo; cbn [negb] in H4.
        - left. rewrite take_nil in H4. inversion H4. reflexivity.
        - right. exists c, pp, w1, w2, universe, states, j. repeat split; auto; try apply Rpp. }
    destruct H as (states & cks & g & H1 & H2 & H3 & H4 & H5 & H6). cbn [app] in H5. subst cks.
    cbn [fst snd].
    set (fail := fun l => l = [] \/
        exists c pp w1 w2 universe states k,
        let seed := effective_seed (a_seed a) entropy in
        accepted a seed c /\ parameters_of c pp /\ a_no_output a = false /\
        construct (Config.tr_simplices (Config.sim_triangulation c)) (Config.tr_timeslices (Config.sim_triangulation c))
          (mkRandom seed 0 (seed_engine seed 0)) (Config.tr_initial_radius (Config.sim_triangulation c))
          (Config.tr_foliation_spacing (Config.sim_triangulation c)) w1 = Ret w2 universe /\
        evolves (pass pp) universe (set_geometry stats_zero (geometry universe)) (seed_engine seed 1) states /\
        (length states <= Z.to_nat (Config.sim_passes c))%nat /\
        Forall2 (checkpoint_file facts c states) (take k (checkpoint_passes (Config.sim_passes c) (Config.sim_checkpoint c))) l).
    assert (F : fail l).
    { unfold fail. destruct (a_no_output a) eqn:Eo; cbn [negb] in H6; [left; inversion H6; reflexivity|].
      right. exists c, pp, w1, w2, universe, states, (length (checkpoint_passes (Config.sim_passes c) (Config.sim_checkpoint c))).
      rewrite take_ge by lia. repeat split; auto; try apply Rpp. lia. }
    unfold andthen at 1.
    destruct (mf_max_time facts result <? _).
    1: unfold recording_say at 1; cbn [fst snd]; destruct (say (TooFewSlices _ _) w4) as [w5 []|w5 e| |]; auto.
    all: destruct (is_valid result) eqn:Ev; cbn [negb]; [|exact F].
    all: unfold andthen at 1; unfold recording_say at 1; cbn [fst snd].
    1: destruct (say (Shown result) w5) as [w6 []|w6 e| |]; [|exact F|exact I|exact I].
    2: destruct (say (Shown result) w4) as [w6 []|w6 e| |]; [|exact F|exact I|exact I].
    all: rewrite Cw; destruct (a_no_output a) eqn:Eo; cbn [negb] in *;
      [ unfold andthen; split; [reflexivity|]; exists c, pp, w1, w2, universe, states, [], result, (mh_stats x'), g;
        cbv zeta; repeat split; auto; try apply Rpp; try constructor; try (inversion H6; reflexivity) | ].
    all: unfold andthen at 1; unfold andthen at 1;
      destruct (make_metadata _ _ _ _ _ _ _ _) as [d|e] eqn:Ed; cbn [of_sum]; [|exact F];
      unfold recording; cbn [fst snd]; destruct (write result d w6) as [w7 []|w7 e| |]; [|exact F|exact I|exact I];
      split; [reflexivity|]; exists c, pp, w1, w2, universe, states, l, result, (mh_stats x'), g; cbv zeta;
      repeat split; auto; try apply Rpp; exists d; split; [reflexivity|];
      rewrite H4 in Ed; exact (rooted_describes c x _ _ _ _ _ R Ed).
  Qed.
  Lemma main_files parsed entropy w w' l code :
    main parsed entropy (w, []) = Ret (w', l) code ->
    (code = 0 \/ code = 1) /\
    (code = 0 ->
       exists a, parsed = inl a /\
       ((a_help a || a_version a = true /\ l = []) \/
        (a_help a = false /\ a_version a = false /\
         exists c pp w1 w2 universe states cks result s g,
         let seed := effective_seed (a_seed a) entropy in
         let s0 := set_geometry stats_zero (geometry universe) in
         let g0 := seed_engine seed 1 in
         accepted a seed c /\ parameters_of c pp /\
         construct (Config.tr_simplices (Config.sim_triangulation c)) (Config.tr_timeslices (Config.sim_triangulation c))
           (mkRandom seed 0 (seed_engine seed 0)) (Config.tr_initial_radius (Config.sim_triangulation c))
           (Config.tr_foliation_spacing (Config.sim_triangulation c)) w1 = Ret w2 universe /\
         evolves (pass pp) universe s0 g0 states /\ length states = Z.to_nat (Config.sim_passes c) /\
         List.last states (universe, s0, g0) = (result, s, g) /\
         is_valid result = true /\
         Forall2 (checkpoint_file facts c states)
           (if a_no_output a then [] else checkpoint_passes (Config.sim_passes c) (Config.sim_checkpoint c)) cks /\
         (if a_no_output a then l = [] else exists d, l = cks ++ [(result, d)] /\
            describes facts c FINAL_TRIANGULATION (Config.sim_passes c) (st_trace s) (st_count s) result d)))) /\
    (code = 1 -> l = [] \/
       exists a c pp w1 w2 universe states k, parsed = inl a /\
       let seed := effective_seed (a_seed a) entropy in
       accepted a seed c /\ parameters_of c pp /\ a_no_output a = false /\
       construct (Config.tr_simplices (Config.sim_triangulation c)) (Config.tr_timeslices (Config.sim_triangulation c))
         (mkRandom seed 0 (seed_engine seed 0)) (Config.tr_initial_radius (Config.sim_triangulation c))
         (Config.tr_foliation_spacing (Config.sim_triangulation c)) w1 = Ret w2 universe /\
       evolves (pass pp) universe (set_geometry stats_zero (geometry universe)) (seed_engine seed 1) states /\
       (length states <= Z.to_nat (Config.sim_passes c))%nat /\
       Forall2 (checkpoint_file facts c states) (take k (checkpoint_passes (Config.sim_passes c) (Config.sim_checkpoint c))) l).
  Proof using.
    unfold cdt_main, try_main. destruct parsed as [a|e].
    2:{ intros [= <- <- <-]. repeat split; auto; discriminate. }
    destruct (a_help a) eqn:Eh; [|destruct (a_version a) eqn:Ev].
    1,2: unfold andthen, recording_say; cbn [fst snd].
    - destruct (say Help w) as [w1 []|w1 e| |]; intros [= <- <- <-].
      + split; [auto|]. split; [|discriminate]. intros _. exists a. rewrite Eh. auto.
      + split; [auto|]. split; [discriminate|auto].
    - destruct (say Version w) as [w1 []|w1 e| |]; intros [= <- <- <-].
      + split; [auto|]. split; [|discriminate]. intros _. exists a. rewrite Eh, Ev. auto.
      + split; [auto|]. split; [discriminate|auto].
    - pose proof (simulate_files a entropy w) as H. destruct (simulate a entropy (w, [])) as [[w1 l1] c1|[w1 l1] e| |]; intros [= <- <- <-].
      + destruct H as [-> H]. split; [auto|]. split; [|discriminate]. intros _. exists a. split; [reflexivity|]. right. auto.
      + split; [auto|]. split; [discriminate|]. intros _. destruct H as [H|H]; [auto|]. right. exists a.
        destruct H as (c & pp & w2 & w3 & universe & states & k & H). exists c, pp, w2, w3, universe, states, k. auto.
  Qed.

  Lemma files_seed a entropy w w' l code :
    main (inl a) entropy (w, []) = Ret (w', l) code ->
    Forall (fun f => md_seed (snd f) = effective_seed (a_seed a) entropy) l.
  Proof using.
    intros H. apply main_files in H. destruct H as (Hc & H0 & H1). destruct Hc as [Hc|Hc]; rewrite Hc in *.
    - specialize (H0 eq_refl). destruct H0 as (a' & Ha & H0). injection Ha as <-. destruct H0 as [(_ & E0)|H0]; [rewrite E0; constructor|].
      destruct H0 as (_ & _ & c & pp & w1 & w2 & universe & states & cks & result & s & g & Ac & _ & _ & _ & _ & _ & _ & F & E).
      destruct (a_no_output a); [subst l; constructor|]. destruct E as (d & -> & Dd).
      assert (Sd : Config.tr_seed (Config.sim_triangulation c) = effective_seed (a_seed a) entropy).
      { destruct Ac as (n & t & alpha & k & lambda & tr & _ & _ & _ & _ & _ & Etr & Ec).
        destruct (config_facts _ _ _ _ _ _ _ _ _ Etr Ec) as (-> & C1 & _). exact C1. }
      apply List.Forall_app. split; [|constructor; [|constructor]; cbn; rewrite (d_seed _ _ _ _ _ _ _ _ Dd); exact Sd].
      clear - F Sd. induction F as [|n f ns fs (m & s & g & _ & _ & D) F IH]; constructor; [|exact IH].
      rewrite (d_seed _ _ _ _ _ _ _ _ D). exact Sd.
    - specialize (H1 eq_refl). destruct H1 as [->|H1]; [constructor|].
      destruct H1 as (a' & c & pp & w1 & w2 & universe & states & k & Ha & Ac & _ & _ & _ & _ & _ & F). injection Ha as <-.
      assert (Sd : Config.tr_seed (Config.sim_triangulation c) = effective_seed (a_seed a) entropy).
      { destruct Ac as (n & t & alpha & k' & lambda & tr & _ & _ & _ & _ & _ & Etr & Ec).
        destruct (config_facts _ _ _ _ _ _ _ _ _ Etr Ec) as (-> & C1 & _). exact C1. }
      clear - F Sd. induction F as [|n f ns fs (m & s & g & _ & _ & D) F IH]; constructor; [|exact IH].
      rewrite (d_seed _ _ _ _ _ _ _ _ D). exact Sd.
  Qed.

  (** ** The converse: nothing else makes the program fail *)
  Lemma main_succeeds a entropy w c pp base x universe result :
    let seed := effective_seed (a_seed a) entropy in
    a_help a = false -> a_version a = false -> accepted a seed c ->
    (forall y v, exists v', say y v = Ret v' tt) ->
    (forall v, exists v', construct (Config.tr_simplices (Config.sim_triangulation c)) (Config.tr_timeslices (Config.sim_triangulation c))
       (mkRandom seed 0 (seed_engine seed 0)) (Config.tr_initial_radius (Config.sim_triangulation c))
       (Config.tr_foliation_spacing (Config.sim_triangulation c)) v = Ret v' universe) ->
    cdt_provenance facts c universe = inl base ->
    cdt_strategy c (mkRandom seed 1 (seed_engine seed 1)) base = inl (pp, x) ->
    (forall v, exists v' x', cdt_run geometry propose check accept at_least draw_int draw_p facts print write pp x universe v = Ret v' (x', result)) ->
    is_valid result = true ->
    (exists p t, mf_placement facts result = inl p /\ mf_fingerprint facts result = inl t) ->
    (forall d v, exists v', write result d v = Ret v' tt) ->
    exists w', cdt_main rd rl parallel_build seed_engine geometry propose check accept at_least draw_int draw_p
      facts construct is_valid say print write (inl a) entropy w = Ret w' 0.
  Proof using.
    cbv zeta. intros Hh Hv (n & t & alpha & k & lambda & tr & En & Et & Ea & Ek & El & Etr & Ec) Hsay Hcon Hb Hx Hrun Hval (p & fi & Hp & Hf) Hw.
    pose proof (config_facts _ _ _ _ _ _ _ _ _ Etr Ec) as (Cc & C1 & _).
    unfold cdt_main. rewrite Hh, Hv. unfold try_main, cdt_simulate. rewrite Ea, Ek, El, En, Et. cbn [of_option andthen].
    unfold cdt_config. cbn [root_random make_random rnd_seed].
    change (match a_seed a with Some s => s | None => entropy end) with (effective_seed (a_seed a) entropy).
    rewrite Etr. cbn [Config.bind]. rewrite Ec. cbn [of_checked andthen].
    destruct (Hsay (Job c) w) as [w1 ->]. cbn [andthen].
    change (split seed_engine (root_random seed_engine (a_seed a) entropy) initialization_stream) with
      (mkRandom (effective_seed (a_seed a) entropy) 0 (seed_engine (effective_seed (a_seed a) entropy) 0)).
    change (split seed_engine (root_random seed_engine (a_seed a) entropy) transitions_stream) with
      (mkRandom (effective_seed (a_seed a) entropy) 1 (seed_engine (effective_seed (a_seed a) entropy) 1)).
    destruct (Hcon w1) as [w2 ->]. cbn [andthen]. rewrite Hb. cbn [of_sum andthen]. rewrite Hx. cbn [of_sum andthen fst snd].
    destruct (Hsay (Shown universe) w2) as [w3 ->]. cbn [andthen].
    destruct (Hrun w3) as (w4 & x' & ->). cbn [andthen fst snd].
    assert (T : exists w5, (if mf_max_time facts result <? Config.tr_timeslices (Config.sim_triangulation c)
      then say (TooFewSlices (Config.tr_timeslices (Config.sim_triangulation c)) (mf_max_time facts result)) w4 else Ret w4 tt) = Ret w5 tt).
    { destruct (_ <? _); [apply Hsay|eauto]. }
    destruct T as [w5 ->]. cbn [andthen]. rewrite Hval. cbn [negb].
    destruct (Hsay (Shown result) w5) as [w6 ->]. cbn [andthen].
    destruct (Config.sim_write_files c); [|cbn [andthen]; eauto].
    unfold make_metadata, update_reproducibility_state. rewrite Hp, Hf. cbn [of_sum andthen].
    match goal with |- context [write result ?d w6] => destruct (Hw d w6) as [w7 ->] end. cbn [andthen]. eauto.
  Qed.

  (** ** Replay from the recorded seed *)
  Definition with_seed (a : cdt_args) (s : Z) : cdt_args :=
    mkCdtArgs (a_help a) (a_version a) (a_spherical a) (a_toroidal a) (a_simplices a) (a_timeslices a) (a_dimensions a)
      (a_radius a) (a_spacing a) (a_no_output a) (Some s) (a_threads a) (a_alpha a) (a_k a) (a_lambda a) (a_passes a) (a_checkpoint a).
  Definition init_with_seed (a : init_args) (s : Z) : init_args :=
    mkInitArgs (i_help a) (i_version a) (i_spherical a) (i_toroidal a) (i_simplices a) (i_timeslices a) (i_dimensions a)
      (i_radius a) (i_spacing a) (Some s) (i_threads a) (i_output a).
  Lemma main_replays a e1 e2 w :
    cdt_main rd rl parallel_build seed_engine geometry propose check accept at_least draw_int draw_p
      facts construct is_valid say print write (inl (with_seed a (effective_seed (a_seed a) e1))) e2 w =
    cdt_main rd rl parallel_build seed_engine geometry propose check accept at_least draw_int draw_p
      facts construct is_valid say print write (inl a) e1 w.
  Proof using. reflexivity. Qed.
  Lemma init_replays a e1 e2 w :
    init_main rd rl parallel_build seed_engine facts construct say write (inl (init_with_seed a (effective_seed (i_seed a) e1))) e2 w =
    init_main rd rl parallel_build seed_engine facts construct say write (inl a) e1 w.
  Proof using. reflexivity. Qed.

  (** ** The initializer *)
  Lemma init_files parsed entropy w w' l code :
    init_main rd rl parallel_build seed_engine facts (recording_construct construct) (recording_say say) (recording write)
      parsed entropy (w, []) = Ret (w', l) code ->
    (code = 0 \/ code = 1) /\
    (code = 0 ->
       exists a, parsed = inl a /\
       ((i_help a || i_version a = true /\ l = []) \/
        (i_help a = false /\ i_version a = false /\
         exists c w1 w2 universe,
         let seed := effective_seed (i_seed a) entropy in
         accepted_initial rd rl parallel_build a seed c /\
         construct (Config.tr_simplices c) (Config.tr_timeslices c) (mkRandom seed 0 (seed_engine seed 0))
           (Config.tr_initial_radius c) (Config.tr_foliation_spacing c) w1 = Ret w2 universe /\
         (if i_output a then exists d, l = [(universe, d)] /\ describes_initial facts c universe d else l = [])))) /\
    (code = 1 -> l = []).
  Proof using.
    unfold init_main, try_main. destruct parsed as [a|e].
    2:{ intros [= <- <- <-]. repeat split; auto; discriminate. }
    destruct (i_help a) eqn:Eh; [|destruct (i_version a) eqn:Ev].
    1,2: unfold andthen, recording_say; cbn [fst snd].
    - destruct (say Help w) as [w1 []|w1 e| |]; intros [= <- <- <-].
      + split; [auto|]. split; [|discriminate]. intros _. exists a. rewrite Eh. auto.
      + split; [auto|]. split; [discriminate|auto].
    - destruct (say Version w) as [w1 []|w1 e| |]; intros [= <- <- <-].
      + split; [auto|]. split; [|discriminate]. intros _. exists a. rewrite Eh, Ev. auto.
      + split; [auto|]. split; [discriminate|auto].
    - intros H.
      assert (K : match init_generate rd rl parallel_build seed_engine facts (recording_construct construct) (recording_say say) (recording write) a entropy (w, []) with
        | Ret (w', l) code => code = 0 /\ exists c w1 w2 universe,
            let seed := effective_seed (i_seed a) entropy in
            accepted_initial rd rl parallel_build a seed c /\
            construct (Config.tr_simplices c) (Config.tr_timeslices c) (mkRandom seed 0 (seed_engine seed 0))
              (Config.tr_initial_radius c) (Config.tr_foliation_spacing c) w1 = Ret w2 universe /\
            (if i_output a then exists d, l = [(universe, d)] /\ describes_initial facts c universe d else l = [])
        | Thr (w', l) _ => l = [] | _ => True end).
      { clear H. unfold init_generate. unfold andthen at 1.
        destruct (i_simplices a) as [n|] eqn:En; cbn [of_option]; [|reflexivity].
        unfold andthen at 1. destruct (i_timeslices a) as [t|] eqn:Et; cbn [of_option]; [|reflexivity].
        cbv zeta. unfold andthen at 1. cbn [root_random make_random rnd_seed].
        change (match i_seed a with Some s => s | None => entropy end) with (effective_seed (i_seed a) entropy).
        destruct (Config.make_triangulation _ _ _ _ _ _ _ _ _ _ _ _) as [c| |] eqn:Ec; cbn [of_checked]; auto.
        unfold andthen at 1. unfold recording_say at 1. cbn [fst snd]. destruct (say _ w) as [w1 []|w1 e| |]; auto.
        unfold andthen at 1. unfold recording_construct at 1. cbn [fst snd].
        change (split seed_engine (root_random seed_engine (i_seed a) entropy) initialization_stream) with
          (mkRandom (effective_seed (i_seed a) entropy) 0 (seed_engine (effective_seed (i_seed a) entropy) 0)).
        destruct (construct _ _ _ _ _ w1) as [w2 universe|w2 e| |] eqn:Eu; auto.
        unfold andthen at 1. unfold recording_say at 1. cbn [fst snd]. destruct (say _ w2) as [w3 []|w3 e| |]; auto.
        unfold andthen at 1. unfold recording_say at 1. cbn [fst snd]. destruct (say _ w3) as [w4 []|w4 e| |]; auto.
        assert (A : accepted_initial rd rl parallel_build a (effective_seed (i_seed a) entropy) c) by (exists n, t; auto).
        destruct (i_output a) eqn:Eo.
        2:{ unfold andthen. split; [reflexivity|]. exists c, w1, w2, universe. auto. }
        unfold andthen at 1. unfold andthen at 1. unfold init_metadata, new_metadata.
        destruct (mf_placement facts universe) as [p|] eqn:Ep; cbn [of_sum]; [|reflexivity].
        destruct (mf_fingerprint facts universe) as [q|] eqn:Eq; cbn [of_sum]; [|reflexivity].
        unfold recording. cbn [fst snd]. destruct (write universe _ w4) as [w5 []|w5 e| |]; auto.
        split; [reflexivity|]. exists c, w1, w2, universe. cbv zeta. repeat split; auto.
        eexists. split; [reflexivity|]. constructor; cbn; auto 10. exists p, q. auto. }
      destruct (init_generate _ _ _ _ _ _ _ _ _ _ _) as [[w1 l1] c1|[w1 l1] e| |]; try discriminate H; injection H as <- <- <-.
      + destruct K as [-> K]. split; [auto|]. split; [|discriminate]. intros _. exists a. split; [reflexivity|]. right. auto.
      + split; [auto|]. split; [discriminate|auto].
  Qed.
End Exec.
