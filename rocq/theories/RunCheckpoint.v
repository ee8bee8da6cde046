(** The provenance of checkpoint files written during a run. *)
From Verif Require Import Base Tracker Command Run Fnv Geom Metropolis.
Local Open Scope Z_scope.
Local Open Scope list_scope.

(** include/Utilities.hpp:1837-1853 [update_reproducibility_state]: the members
    read off the manifold; the two fingerprints may throw. *)
Record manifold_facts (M : Type) : Type := mkFacts {
  mf_topology : Topology; mf_dimension : Z;
  mf_N0 : M -> Z; mf_N1 : M -> Z; mf_N2 : M -> Z; mf_N3 : M -> Z;
  mf_min_time : M -> Z; mf_max_time : M -> Z; mf_radius : M -> fp; mf_spacing : M -> fp;
  mf_placement : M -> Z + exn; mf_fingerprint : M -> Z + exn }.
Arguments mf_topology {M}. Arguments mf_dimension {M}. Arguments mf_N0 {M}. Arguments mf_N1 {M}.
Arguments mf_N2 {M}. Arguments mf_N3 {M}. Arguments mf_min_time {M}. Arguments mf_max_time {M}.
Arguments mf_radius {M}. Arguments mf_spacing {M}. Arguments mf_placement {M}. Arguments mf_fingerprint {M}.
Definition update_reproducibility_state {M} (x : manifold_facts M) (d : Metadata) (m : M) : Metadata + exn :=
  match mf_placement x m with
  | inr e => inr e
  | inl pl =>
      match mf_fingerprint x m with
      | inr e => inr e
      | inl fi =>
          inl (mkMetadata (md_artifact d) (md_seed d) (md_initialization_stream d) (md_transition_stream d)
            (mf_topology x) (mf_dimension x) (md_desired_simplices d) (md_desired_timeslices d)
            (mf_N0 x m) (mf_N1 x m) (mf_N2 x m) (mf_N3 x m) (mf_min_time x m) (mf_max_time x m)
            (mf_radius x m) (mf_spacing x m) (md_alpha d) (md_k d) (md_lambda d)
            (md_configured_passes d) (md_configured_attempts d) (md_checkpoint_interval d)
            (md_completed_passes d) (md_max_threads d) (md_transition_trace d) (md_transition_count d)
            (Some pl) (Some fi))
      end
  end.

(** A writer that also keeps a list of the files it wrote, in order. *)
Definition recording {M W} (write : M -> Metadata -> W -> res W unit)
  (m : M) (d : Metadata) (wl : W * list (M * Metadata)) : res (W * list (M * Metadata)) unit :=
  match write m d (fst wl) with
  | Ret w u => Ret (w, snd wl ++ [(m, d)]) u
  | Thr w e => Thr (w, snd wl) e
  | UB => UB | Abort => Abort
  end.
Definition recording_print {W X Y Z} (print : X -> Y -> W -> res W unit)
  (r : X) (s : Y) (wl : W * list Z) : res (W * list Z) unit :=
  match print r s (fst wl) with
  | Ret w u => Ret (w, snd wl) u
  | Thr w e => Thr (w, snd wl) e
  | UB => UB | Abort => Abort
  end.

(** * The run loop with a projection of its environment *)
Section Loop.
  Context {M SS E X : Type}.
  Variable N3 : M -> Z.
  Variable pass : M -> SS -> Z -> E -> res E (pass_result M SS).
  Variable report : M -> results -> SS -> E -> res E unit.
  Variable checkpoint : M -> results -> SS -> Z -> E -> res E unit.
  Variable proj : E -> list X.
  Variable made : M -> results -> SS -> Z -> X -> Prop.
  Hypothesis pass_keeps : forall m s a e, match pass m s a e with Ret e' _ | Thr e' _ => proj e' = proj e | _ => True end.
  Hypothesis report_keeps : forall m r s e, match report m r s e with Ret e' _ | Thr e' _ => proj e' = proj e | _ => True end.
  Hypothesis checkpoint_adds : forall m r s n e, match checkpoint m r s n e with
    | Ret e' _ => exists x, proj e' = proj e ++ [x] /\ made m r s n x
    | Thr e' _ => proj e' = proj e
    | _ => True end.

  Definition due (c : Z) (writes : bool) (l : list Z) : list Z :=
    if writes then List.filter (fun n => n mod c =? 0) l else [].
  Definition made_for (n : Z) (x : X) : Prop := exists m r s, made m r s n x.

  Lemma run_loop_made fuel cad writes : forall i cur tot st ev e,
    match run_loop N3 pass report checkpoint fuel cad writes i cur tot st ev e with
    | Ret e' _ => exists l, proj e' = proj e ++ l /\ Forall2 made_for (due (cad_checkpoint cad) writes (zseq (i + 1) fuel)) l
    | Thr e' _ => exists l k, proj e' = proj e ++ l /\ Forall2 made_for (take k (due (cad_checkpoint cad) writes (zseq (i + 1) fuel))) l
    | _ => True
    end.
  Proof using pass_keeps report_keeps checkpoint_adds.
    induction fuel as [|fuel IH]; intros i cur tot st ev e; cbn [run_loop].
    - pose proof (report_keeps cur tot st e) as R. destruct (report cur tot st e) as [e1 []|e1 x| |]; auto.
      + exists []. rewrite app_nil_r. split; [exact R|]. unfold due. destruct writes; constructor.
      + exists [], 0%nat. rewrite app_nil_r. split; [exact R|constructor].
    - pose proof (pass_keeps cur st (N3 cur) e) as P. destruct (pass cur st (N3 cur) e) as [e1 p|e1 x| |]; auto.
      2:{ exists [], 0%nat. rewrite app_nil_r. split; [exact P|constructor]. }
      destruct (accumulate_results tot (pr_results p)) as [tot'|]; auto.
      unfold checkpoint_event. cbn [zseq].
      assert (D : due (cad_checkpoint cad) writes (i + 1 :: zseq (i + 1 + 1) fuel) =
        (if writes then (if (i + 1) mod cad_checkpoint cad =? 0 then [i + 1] else []) else [])
        ++ due (cad_checkpoint cad) writes (zseq (i + 1 + 1) fuel)).
      { unfold due. destruct writes; [|reflexivity]. cbn [List.filter]. destruct (_ =? 0); reflexivity. }
      rewrite D. clear D.
      destruct ((i + 1) mod cad_checkpoint cad =? 0) eqn:Em.
      + destruct (add32 ev 1) as [ev'|]; auto.
        pose proof (report_keeps (pr_manifold p) tot' (pr_state p) e1) as R.
        destruct (report (pr_manifold p) tot' (pr_state p) e1) as [e2 []|e2 x| |]; auto.
        2:{ exists [], 0%nat. rewrite app_nil_r. split; [congruence|constructor]. }
        destruct writes.
        * pose proof (checkpoint_adds (pr_manifold p) tot' (pr_state p) (i + 1) e2) as C.
          destruct (checkpoint (pr_manifold p) tot' (pr_state p) (i + 1) e2) as [e3 []|e3 x| |]; auto.
          2:{ exists [], 0%nat. rewrite app_nil_r. split; [congruence|constructor]. }
          destruct C as (x & C & Cm). specialize (IH (i + 1) (pr_manifold p) tot' (pr_state p) ev' e3).
          destruct (run_loop _ _ _ _ _ _ _ _ _ _ _ _ _) as [e4 rr|e4 y| |]; auto.
          -- destruct IH as (l & H1 & H2). exists (x :: l). split; [rewrite H1, C, <- app_assoc, R, P; reflexivity|].
             cbn [app]. constructor; [|exact H2]. do 3 eexists. exact Cm.
          -- destruct IH as (l & k & H1 & H2). exists (x :: l), (S k). split; [rewrite H1, C, <- app_assoc, R, P; reflexivity|].
             cbn [app take]. constructor; [|exact H2]. do 3 eexists. exact Cm.
        * specialize (IH (i + 1) (pr_manifold p) tot' (pr_state p) ev' e2).
          destruct (run_loop _ _ _ _ _ _ _ _ _ _ _ _ _) as [e4 rr|e4 y| |]; auto; rewrite <- P, <- R; exact IH.
      + specialize (IH (i + 1) (pr_manifold p) tot' (pr_state p) ev e1).
        destruct writes; destruct (run_loop _ _ _ _ _ _ _ _ _ _ _ _ _) as [e4 rr|e4 y| |]; auto; rewrite <- P; exact IH.
  Qed.
End Loop.

(** * Metropolis checkpoints *)
Section Mh.
  Context {M G P W : Type}.
  Variable geometry : M -> Geometry.
  Variable propose : move_api M G.
  Variable check : M -> M -> MoveType -> bool.
  Variable accept : Geometry -> Geometry -> MoveType -> P + exn.
  Variable at_least : P -> fp -> bool.
  Variable draw_int : Z -> Z -> G -> Z * G.
  Variable draw_p : G -> fp * G.
  Variable facts : manifold_facts M.
  Variable print : results -> stats -> W -> res W unit.
  Variable write : M -> Metadata -> W -> res W unit.
  Notation run := (mh_run geometry propose check accept at_least draw_int draw_p (mf_max_time facts)
    (update_reproducibility_state facts) (recording_print print) (recording write)).

  (** What a checkpoint of pass [n] says. *)
  Definition says_pass (base : Metadata) (n : Z) (x : M * Metadata) : Prop :=
    md_artifact (snd x) = CHECKPOINT /\ md_completed_passes (snd x) = Some n /\
    md_seed (snd x) = md_seed base /\ md_initialization_stream (snd x) = md_initialization_stream base /\
    md_transition_stream (snd x) = md_transition_stream base /\
    md_actual_vertices (snd x) = mf_N0 facts (fst x) /\ md_actual_edges (snd x) = mf_N1 facts (fst x) /\
    md_actual_faces (snd x) = mf_N2 facts (fst x) /\ md_actual_simplices (snd x) = mf_N3 facts (fst x) /\
    md_minimum_timeslice (snd x) = mf_min_time facts (fst x) /\ md_maximum_timeslice (snd x) = mf_max_time facts (fst x).

  Lemma make_metadata_says base m n s d :
    make_metadata geometry (mf_max_time facts) (update_reproducibility_state facts) base m CHECKPOINT n s = inl d ->
    says_pass base n (m, d) /\ md_transition_trace d = Some (st_trace s) /\ md_transition_count d = Some (st_count s).
  Proof using.
    unfold make_metadata, update_reproducibility_state.
    destruct (mf_placement facts m); [|discriminate]. destruct (mf_fingerprint facts m); [|discriminate].
    intros [= <-]. repeat split.
  Qed.

  Lemma mh_run_checkpoints (x : metropolis G) w man : 
    match run x (w, []) man with
    | Ret (x', (w', l)) _ => Forall2 (says_pass (mh_reproducibility x))
        (due (cad_checkpoint (mh_cadence x)) (mh_write_files x) (zseq 1 (Z.to_nat (cad_passes (mh_cadence x))))) l
    | Thr (x', (w', l)) _ => exists k, Forall2 (says_pass (mh_reproducibility x))
        (take k (due (cad_checkpoint (mh_cadence x)) (mh_write_files x) (zseq 1 (Z.to_nat (cad_passes (mh_cadence x)))))) l
    | _ => True
    end.
  Proof using.
    unfold mh_run, execute_move_run.
    set (base := mh_reproducibility x).
    pose proof (run_loop_made (fun m => gN3 (geometry m))
      (pass_env (W := W * list (M * Metadata)) (mh_execute_pass geometry propose check accept at_least draw_int draw_p))
      (rep_env (fun _ r s => recording_print print r s))
      (chk_env (mh_checkpoint geometry (mf_max_time facts) (update_reproducibility_state facts) (recording write) base))
      (fun e : G * (W * list (M * Metadata)) => snd (snd e))
      (fun _ _ _ n y => says_pass base n y)) as H.
    specialize (fun A B C => H A B C (Z.to_nat (cad_passes (mh_cadence x))) (mh_cadence x) (mh_write_files x) 0 man results_zero
      (set_geometry stats_zero (geometry man)) 0 (rnd_engine (mh_generator x), (w, []))).
    assert (L : forall l k, Forall2 (made_for (fun (_ : M) (_ : results) (_ : stats) n y => says_pass base n y)) k l ->
      Forall2 (says_pass base) k l).
    { intros l k F. eapply Forall2_impl; [exact F|]. intros n y (m & r & s & K). exact K. }
    cbn [snd app] in H. change (0 + 1) with 1 in H.
    destruct (run_loop _ _ _ _ _ _ _ _ _ _ _ _ _) as [[g [w' l]] rr|[g [w' l]] e| |]; auto.
    - destruct H as (l' & E & F).
      + intros m s a [g0 w0]. unfold pass_env, on_engine. cbn [fst snd]. destruct (mh_execute_pass _ _ _ _ _ _ _ _ _ _ _); auto.
      + intros m r s [g0 [w0 l0]]. unfold rep_env, on_world, recording_print. cbn [fst snd]. destruct (print r s w0); auto.
      + intros m r s n [g0 [w0 l0]]. unfold chk_env, on_world, mh_checkpoint. cbn [fst snd].
        destruct (make_metadata _ _ _ _ _ _ _ _) as [d|e0] eqn:Ed; [|reflexivity]. apply make_metadata_says in Ed. destruct Ed as [Ed _].
        unfold recording. cbn [fst snd]. destruct (write m d w0); auto. cbn. eauto.
      + cbn in E. subst l'. auto.
    - destruct H as (l' & k & E & F).
      + intros m s a [g0 w0]. unfold pass_env, on_engine. cbn [fst snd]. destruct (mh_execute_pass _ _ _ _ _ _ _ _ _ _ _); auto.
      + intros m r s [g0 [w0 l0]]. unfold rep_env, on_world, recording_print. cbn [fst snd]. destruct (print r s w0); auto.
      + intros m r s n [g0 [w0 l0]]. unfold chk_env, on_world, mh_checkpoint. cbn [fst snd].
        destruct (make_metadata _ _ _ _ _ _ _ _) as [d|e0] eqn:Ed; [|reflexivity]. apply make_metadata_says in Ed. destruct Ed as [Ed _].
        unfold recording. cbn [fst snd]. destruct (write m d w0); auto. cbn. eauto.
      + cbn in E. subst l'. eauto.
  Qed.
End Mh.
