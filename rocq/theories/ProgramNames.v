(** The files of one run have different names. *)
From Verif Require Import Base Tracker Command Run Fnv Geom Metropolis RunCheckpoint Program ProgramSpec ProgramFacts.
From Verif Require Import Text Names.
From Verif Require Config Action.
Local Open Scope Z_scope.
Local Open Scope list_scope.

Lemma zseq_nodup len : forall k, List.NoDup (zseq k len).
Proof.
  induction len as [|len IH]; intros k; cbn; [constructor|]. constructor; [|apply IH].
  intros H. apply zseq_ge in H. lia.
Qed.
Lemma checkpoint_passes_nodup p c : List.NoDup (checkpoint_passes p c).
Proof. unfold checkpoint_passes. apply List.NoDup_filter, zseq_nodup. Qed.
Lemma nodup_take {A} (l : list A) k : List.NoDup l -> List.NoDup (take k l).
Proof.
  revert k. induction l as [|a l IH]; intros k H; [rewrite take_nil; constructor|]. destruct k; cbn; [constructor|].
  inversion H as [|? ? Hn Hl]. subst. constructor; [|auto]. intros I. apply Hn.
  clear - I. revert k I. induction l as [|b l IH]; intros k I; [rewrite take_nil in I; contradiction|].
  destruct k; cbn in I; [contradiction|]. destruct I as [->|I]; [left; reflexivity|right; eauto].
Qed.

(** A sequence of artifacts: checkpoints of different passes, then at most one
    final triangulation. *)
Definition run_files {M} (l : list (M * Metadata)) : Prop :=
  exists ns cks fin, l = cks ++ fin /\ List.NoDup ns /\
    Forall2 (fun n f => md_artifact (snd f) = CHECKPOINT /\ md_completed_passes (snd f) = Some n) ns cks /\
    (fin = [] \/ exists f, fin = [f] /\ md_artifact (snd f) = FINAL_TRIANGULATION).

Lemma checkpoint_file_kind {M G} (facts : manifold_facts M) c (states : list (M * stats * G)) ns cks :
  Forall2 (checkpoint_file facts c states) ns cks ->
  Forall2 (fun n f => md_artifact (snd f) = CHECKPOINT /\ md_completed_passes (snd f) = Some n) ns cks.
Proof.
  intros F. eapply Forall2_impl; [exact F|]. intros n f (m & s & g & _ & _ & D). split; [exact (d_kind _ _ _ _ _ _ _ _ D)|exact (d_completed _ _ _ _ _ _ _ _ D)].
Qed.

Section Distinct.
  Variable to_string : fp -> text.
  Hypothesis to_string_plain : forall v, ~ In SLASH (to_string v) /\ ~ In COLON (to_string v).
  Context {M : Type}.
  Variable x : manifold_facts M.
  Lemma run_files_distinct l seed : run_files l -> Forall (fun f => md_seed (snd f) = seed) l -> seed_ok seed ->
    forall i j f f' s s' p, nth_error l i = Some f -> nth_error l j = Some f' -> i <> j -> plain s -> plain s' ->
    artifact_name to_string x s f = Some p -> artifact_name to_string x s' f' <> Some p.
  Proof using to_string_plain.
    intros (ns & cks & fin & -> & Nd & F & Fin) Sd So i j f f' s s' p Hi Hj Hne P P' H H'.
    rewrite List.Forall_forall in Sd.
    assert (S1 : md_seed (snd f) = seed) by (apply Sd; eapply nth_error_In; exact Hi).
    assert (S2 : md_seed (snd f') = seed) by (apply Sd; eapply nth_error_In; exact Hj).
    destruct (names_injective to_string to_string_plain x s f s' f' p P P') as (_ & K1 & K2 & _); auto; try (rewrite ?S1, ?S2; exact So).
    assert (Lc : forall k g, nth_error cks k = Some g -> exists n, nth_error ns k = Some n /\ md_artifact (snd g) = CHECKPOINT /\ md_completed_passes (snd g) = Some n).
    { clear - F. induction F as [|n a ns cks Ha F IH]; intros k g Hk; [destruct k; discriminate|].
      destruct k; cbn in *; [injection Hk as <-; exists n; tauto|eauto]. }
    assert (W : forall k g, nth_error (cks ++ fin) k = Some g ->
      ((k < length cks)%nat /\ nth_error cks k = Some g) \/ (k = length cks /\ md_artifact (snd g) = FINAL_TRIANGULATION)).
    { intros k g Hk. destruct (Nat.ltb_spec k (length cks)) as [L|L].
      - left. split; [exact L|]. rewrite nth_error_app1 in Hk by exact L. exact Hk.
      - right. rewrite nth_error_app2 in Hk by exact L. destruct Fin as [->|(fn & -> & Hf)]; [destruct (k - length cks)%nat; discriminate|].
        destruct (k - length cks)%nat as [|z] eqn:Ek; cbn in Hk; [|destruct z; discriminate]. injection Hk as <-. split; [lia|exact Hf]. }
    destruct (W _ _ Hi) as [[Li Ci]|[Li Ci]], (W _ _ Hj) as [[Lj Cj]|[Lj Cj]].
    - destruct (Lc _ _ Ci) as (n & N1 & A1 & B1). destruct (Lc _ _ Cj) as (n' & N1' & A1' & B1').
      specialize (K2 A1). rewrite B1, B1' in K2. injection K2 as ->.
      apply Hne. apply (List.NoDup_nth_error ns); [exact Nd| |congruence]. apply nth_error_Some. congruence.
    - destruct (Lc _ _ Ci) as (n & N1 & A1 & B1). apply K1 in A1. congruence.
    - destruct (Lc _ _ Cj) as (n & N1 & A1 & B1). apply K1 in A1. congruence.
    - lia.
  Qed.
  Lemma run_files_named l s : run_files l -> Forall (fun f => exists p, artifact_name to_string x s f = Some p) l.
  Proof using.
    intros (ns & cks & fin & -> & Nd & F & Fin). apply List.Forall_app. split.
    - clear - F. induction F as [|n f ns cks [A1 A2] F IH]; constructor; [|exact IH]. unfold artifact_name. rewrite A1, A2. eauto.
    - destruct Fin as [->|(f & -> & A)]; constructor; [|constructor]. unfold artifact_name. rewrite A. eauto.
  Qed.
End Distinct.

Section Main.
  Context {M G P W : Type}.
  Variable rd rl : QArith_base.Q -> fp.
  Variable parallel_build : bool.
  Variable seed_engine : Z -> Z -> G.
  Variable geometry : M -> Geometry.
  Variable propose : move_api M G.
  Variable check : M -> M -> MoveType -> bool.
  Variable accept : Action.PhysicalParameters -> Geometry -> Geometry -> MoveType -> P + exn.
  Variable at_least : P -> fp -> bool.
  Variable draw_int : Z -> Z -> G -> Z * G.
  Variable draw_p : G -> fp * G.
  Variable facts : manifold_facts M.
  Variable construct : Z -> Z -> Random G -> fp -> fp -> W -> res W M.
  Variable is_valid : M -> bool.
  Variable say : line M -> W -> res W unit.
  Variable print : results -> stats -> W -> res W unit.
  Variable write : M -> Metadata -> W -> res W unit.
  Notation main := (cdt_main rd rl parallel_build seed_engine geometry propose check accept at_least draw_int draw_p
    facts (recording_construct construct) is_valid (recording_say say) (recording_print print) (recording write)).

  Lemma main_run_files parsed entropy w w' l code : main parsed entropy (w, []) = Ret (w', l) code -> run_files l.
  Proof using.
    intros H. apply main_files in H. destruct H as (Hc & H0 & H1).
    assert (Nil : run_files (@nil (M * Metadata))).
    { exists [], [], []. repeat split; auto; constructor. }
    destruct Hc as [-> | ->].
    - destruct (H0 eq_refl) as (a & _ & K). destruct K as [(_ & ->)|K]; [exact Nil|].
      destruct K as (_ & _ & c & pp & w1 & w2 & universe & states & cks & result & s & g & _ & _ & _ & _ & _ & _ & _ & F & E).
      destruct (a_no_output a); [subst l; exact Nil|]. destruct E as (d & -> & D).
      exists (checkpoint_passes (Config.sim_passes c) (Config.sim_checkpoint c)), cks, [(result, d)].
      repeat split; [apply checkpoint_passes_nodup|eapply checkpoint_file_kind; exact F|].
      right. eexists. split; [reflexivity|]. exact (d_kind _ _ _ _ _ _ _ _ D).
    - destruct (H1 eq_refl) as [->|K]; [exact Nil|].
      destruct K as (a & c & pp & w1 & w2 & universe & states & k & _ & _ & _ & _ & _ & _ & _ & F).
      exists (take k (checkpoint_passes (Config.sim_passes c) (Config.sim_checkpoint c))), l, [].
      rewrite app_nil_r. repeat split; [apply nodup_take, checkpoint_passes_nodup|eapply checkpoint_file_kind; exact F|auto].
  Qed.

  Lemma main_names_distinct to_string (Hs : forall v, ~ In SLASH (to_string v) /\ ~ In COLON (to_string v))
      a entropy w w' l code :
    main (inl a) entropy (w, []) = Ret (w', l) code -> seed_ok (effective_seed (a_seed a) entropy) ->
    (forall s, Forall (fun f => exists p, artifact_name to_string facts s f = Some p) l) /\
    forall i j f f' s s' p, nth_error l i = Some f -> nth_error l j = Some f' -> i <> j -> plain s -> plain s' ->
    artifact_name to_string facts s f = Some p -> artifact_name to_string facts s' f' <> Some p.
  Proof using.
    intros H So. pose proof (main_run_files _ _ _ _ _ _ H) as R. split.
    - intros s. apply run_files_named. exact R.
    - eapply run_files_distinct; eauto. eapply files_seed. exact H.
  Qed.
End Main.

Lemma name_identifies (to_string : fp -> text) (Hs : forall v, ~ In SLASH (to_string v) /\ ~ In COLON (to_string v))
  {M : Type} (facts : manifold_facts M) stamp f stamp' f' p :
  plain stamp -> plain stamp' -> seed_ok (md_seed (snd f)) -> seed_ok (md_seed (snd f')) ->
  artifact_name to_string facts stamp f = Some p -> artifact_name to_string facts stamp' f' = Some p ->
  md_seed (snd f) = md_seed (snd f') /\
  (md_artifact (snd f) = CHECKPOINT <-> md_artifact (snd f') = CHECKPOINT) /\
  (md_artifact (snd f) = CHECKPOINT -> md_completed_passes (snd f) = md_completed_passes (snd f')) /\
  ~ In SLASH p /\ ~ In COLON p /\ exists q, p = q ++ B ".off".
Proof.
  intros P P' S1 S2 H H'. destruct (names_injective to_string Hs facts stamp f stamp' f' p P P' S1 S2 H H') as (A1 & A2 & A3 & _).
  destruct (name_shape to_string Hs facts stamp f p P S1 H) as (A4 & A5 & A6). repeat split; auto; apply A2.
Qed.
Lemma name_tells_counts (to_string : fp -> text) (Hs : forall v, ~ In SLASH (to_string v) /\ ~ In COLON (to_string v))
  (Hm : forall v, ~ In MINUS (to_string v))
  {M : Type} (facts : manifold_facts M) stamp f stamp' f' p :
  plain stamp -> plain stamp' -> seed_ok (md_seed (snd f)) -> seed_ok (md_seed (snd f')) ->
  0 <= mf_dimension facts -> (forall m, 0 <= mf_max_time facts m /\ 0 <= mf_N3 facts m) ->
  artifact_name to_string facts stamp f = Some p -> artifact_name to_string facts stamp' f' = Some p ->
  mf_max_time facts (fst f) = mf_max_time facts (fst f') /\ mf_N3 facts (fst f) = mf_N3 facts (fst f').
Proof.
  intros P P' S1 S2 D N H H'. destruct (names_injective to_string Hs facts stamp f stamp' f' p P P' S1 S2 H H') as (_ & _ & _ & E).
  apply base_stem_tells in E; auto; try apply N. tauto.
Qed.
