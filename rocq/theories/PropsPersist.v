(** Theorems about persisted files (C39-C48, C65). Vocabulary: PersistSpec.v
    (text formats), MetaSpec.v (sidecars), FsSpec.v (disks, writes, threads).
    [runs i p w tr p' w'] is an execution of any length of program [p] by thread
    [i], so [w'] is the world at any crash point; every operation may fail. *)
From Verif Require Import Base Config Fnv Text Persist PersistSpec PersistFacts MetaSpec MetaRound MetaRoundTrip FileSys FileIO
  FsSpec FsFacts FsProps FsThreads FsCheckpoint FsSample.
From Verif Require Geom Run Metropolis RunCheckpoint Toy.
Local Open Scope Z_scope.
Local Open Scope list_scope.

(** ** C39 *)
Theorem C39_labels_survive : forall t raw,
  Z.of_nat (length (t_verts t)) < two64 -> Z.of_nat (length (t_cells t)) < two64 ->
  Forall (fun v => in_int32 (snd v)) (t_verts t) -> Forall (fun c => in_int32 (snd c)) (t_cells t) ->
  length (t_verts raw) = length (t_verts t) -> length (t_cells raw) = length (t_cells t) ->
  read_causal_info (skip_ws (write_causal_info t)) raw
  = Val (with_labels raw (map snd (t_verts t)) (map snd (t_cells t)), []).
Proof. exact causal_round_trip. Qed.
Print Assumptions C39_labels_survive.
Example C39_example : exists raw, map snd (t_verts raw) = [0; 0; 0; 0; 0] /\
  read_causal_info (skip_ws (write_causal_info two_cells)) raw = Val (two_cells, []).
Proof.
  exists (with_labels two_cells [0; 0; 0; 0; 0] [0; 0]). split; [reflexivity|]. vm_compute. reflexivity.
Qed.

(** ** C40 *)
Theorem C40_sections_accepted : forall input prefix count vals rest, 0 <= count ->
  read_indexed_info input prefix count = Val (vals, rest) <-> label_section prefix input count vals rest.
Proof. exact read_indexed_info_spec. Qed.
Print Assumptions C40_sections_accepted.
Definition lines_of (ls : list text) : text := put_lines ls.
Example C40_example :
  read_indexed_info (lines_of [B "v=1|-7"; B "v=0|9"]) (B "v=") 2 = Val ([9; -7], []) /\
  read_indexed_info (lines_of [B "v=1|-7"; B "v=1|9"]) (B "v=") 2 = Throws FilesystemError /\
  read_indexed_info (lines_of [B "v=1|-7"; B "v=2|9"]) (B "v=") 2 = Throws FilesystemError /\
  read_indexed_info (lines_of [B "v=1|-7"]) (B "v=") 2 = Throws FilesystemError.
Proof. vm_compute. repeat split. Qed.

(** ** C41: what is read from written provenance: nothing unless it is valid,
    and then every member that is read is the one written. *)
Theorem C41_provenance_survives : forall dbl ldbl L, library_ok dbl ldbl L -> forall m pay, 
  0 <= i_size pay < two64 -> 0 <= i_digest pay < two64 -> metadata_in_range dbl ldbl m -> forall p,
  read_persistence_metadata (l_scan_double L) (l_scan_long_double L)
    (metadata_text (l_print_double L) (l_print_long_double L) (l_build L) m pay) = Val p <->
  metadata_valid m /\ exists pl fi, m_placement m = Some pl /\ m_fingerprint m = Some fi /\ p = recovered m pay pl fi.
Proof.
  exact (fun dbl ldbl L H m pay S D R p => metadata_round_trip dbl ldbl _ _ _ _ (proj1 H) (proj1 (proj2 H)) (l_build L) m pay
    (proj2 (proj2 H)) (conj S D) R p).
Qed.
Print Assumptions C41_provenance_survives.
(** On disk: the sidecar of a returned write. *)
Theorem C41_provenance_on_disk : forall dbl ldbl L, library_ok dbl ldbl L ->
  forall Wr i ser n t m w, client L Wr unit ser -> idle w -> metadata_in_range dbl ldbl m ->
  Forall (fun v => in_int32 (snd v)) (t_verts t) ->
  forall tr w', runs i (write_payload L ser n t (Some m)) w tr (Ret_ tt) w' ->
  exists s fields p, w_files w' (n, Sidecar) = Some s /\ sidecar_fields s fields /\
    accepted (l_scan_double L) (l_scan_long_double L) fields p /\ tells m t (stored L t) p /\
    (forall k, m_completed m = Some k -> int_is fields (B "completed_passes") k).
Proof. exact provenance_written. Qed.
Print Assumptions C41_provenance_on_disk.
Example C41_example :
  library_ok toy_float toy_float toy_library /\
  metadata_in_range toy_float toy_float (sample_meta CHECKPOINT (Some 5)) /\
  ended (write_two no_faults 100) = Some (Returned tt).
Proof.
  split; [exact toy_library_ok|]. split; [|vm_compute; reflexivity].
  apply sample_meta_range. unfold in_int32, INT32_MIN, INT32_MAX. lia.
Qed.

(** ** C42 *)
Theorem C42_sidecars_accepted : forall scan_double scan_long_double t p,
  read_persistence_metadata scan_double scan_long_double t = Val p <-> sidecar scan_double scan_long_double t p.
Proof. exact read_metadata_spec. Qed.
Print Assumptions C42_sidecars_accepted.
Theorem C42_others_rejected : forall scan_double scan_long_double t, (forall p, ~ sidecar scan_double scan_long_double t p) ->
  read_persistence_metadata scan_double scan_long_double t = Throws FilesystemError.
Proof. exact read_metadata_rejects. Qed.
Print Assumptions C42_others_rejected.
Definition sidecar_one : text := match disk_one (7, Sidecar) with Some s => s | None => [] end.
Example C42_example :
  (exists p, sidecar toy_scan toy_scan sidecar_one p) /\
  read_persistence_metadata toy_scan toy_scan (sidecar_one ++ B "dimension=3") = Throws FilesystemError /\
  read_persistence_metadata toy_scan toy_scan (sidecar_one ++ B "novalue=") = Throws FilesystemError /\
  read_persistence_metadata toy_scan toy_scan (sidecar_one ++ B "alpha=1") = Throws FilesystemError.
Proof.
  split.
  - eexists. apply read_metadata_spec. vm_compute. reflexivity.
  - repeat split; vm_compute; reflexivity.
Qed.

(** ** C43 *)
Theorem C43_corruption_detected : forall L f n s b c i w tr v w',
  f (n, Sidecar) = Some s -> records L s b -> f (n, Payload) = Some c -> differ_once c b ->
  w_files w = f -> idle w -> ~ runs i (read_file L n) w tr (Ret_ v) w'.
Proof. exact corruption_raises. Qed.
Print Assumptions C43_corruption_detected.
Theorem C43_intact_passes : forall L f n s c i w, f (n, Sidecar) = Some s -> f (n, Payload) = Some c -> w_files w = f ->
  forall p, sidecar (l_scan_double L) (l_scan_long_double L) s p -> p_payload p = payload_integrity c ->
  exists tr, runs i (validate_payload_integrity L n) w tr (Ret_ (Some p)) w.
Proof. exact intact_passes. Qed.
Print Assumptions C43_intact_passes.
Theorem C43_digest_separates : forall a b, differ_once a b -> payload_integrity a <> payload_integrity b.
Proof. exact differ_integrity. Qed.
Print Assumptions C43_digest_separates.
Example C43_example :
  disk_flipped (7, Sidecar) = Some sidecar_one /\ records toy_library sidecar_one (stored toy_library one_cell) /\
  disk_flipped (7, Payload) = Some flipped /\ differ_once flipped (stored toy_library one_cell) /\
  ended (reading disk_flipped) = Some (Raised FilesystemError) /\ ended (reading disk_one) = Some (Returned one_cell).
Proof.
  split; [vm_compute; reflexivity|]. split.
  { eexists. split; [apply read_metadata_spec; vm_compute; reflexivity|vm_compute; reflexivity]. }
  split; [vm_compute; reflexivity|]. split.
  { right. exists [], 4, 3, (tail flipped). split; [vm_compute; reflexivity|]. split; [vm_compute; reflexivity|]. split; [lia|].
    split; [constructor|]. split; [unfold octet; lia|]. split; [unfold octet; lia|].
    apply List.Forall_forall. intros x Hx.
    assert (E : forallb (fun y => (0 <=? y) && (y <? 256)) (tail flipped) = true) by (vm_compute; reflexivity).
    rewrite forallb_forall in E. specialize (E x Hx). unfold octet. lia. }
  split; vm_compute; reflexivity.
Qed.

(** ** C44: the disk at every crash point of a write, and what a later read gives. *)
Theorem C44_crash_states : forall L Wr i ser n t md w, client L Wr unit ser -> idle w ->
  forall tr p' w', runs i (write_payload L ser n t md) w tr p' w' ->
  during L n (stored L t) (match md with Some _ => true | None => false end) (w_files w) (w_files w').
Proof. exact crash_states. Qed.
Print Assumptions C44_crash_states.
(** The only other possibility is a collision of the 64-bit digest between the
    old and the new bytes of the same length. *)
Theorem C44_crash_reads : forall L Wr i ser n t md w, client L Wr unit ser -> idle w ->
  forall tr p' w' v, runs i (write_payload L ser n t md) w tr p' w' -> reads L (w_files w') n v ->
  reads L (w_files w) n v \/
  (w_files w' (n, Payload) = Some (stored L t) /\ parse_payload (l_cgal_read L) (stored L t) = Val v) \/
  (exists c, w_files w (n, Payload) = Some c /\ c <> stored L t /\ payload_integrity c = payload_integrity (stored L t)).
Proof. exact crash_reads. Qed.
Print Assumptions C44_crash_reads.
Theorem C44_crash_reads_differ : forall L Wr i ser n t md w, client L Wr unit ser -> idle w ->
  forall tr p' w' v c, w_files w (n, Payload) = Some c -> differ_once c (stored L t) ->
  runs i (write_payload L ser n t md) w tr p' w' -> reads L (w_files w') n v ->
  reads L (w_files w) n v \/
  (w_files w' (n, Payload) = Some (stored L t) /\ parse_payload (l_cgal_read L) (stored L t) = Val v).
Proof. exact crash_reads_differ. Qed.
Print Assumptions C44_crash_reads_differ.
(** A write over an old artifact stopped after 16, 22, 23 and 25 operations. *)
Example C44_example :
  client toy_library anything unit nothing /\ idle (at_rest disk_one) /\
  map (fun k => ended (reading (disk_after (write_two no_faults k)))) [16; 22; 23; 25]%nat =
  [Some (Returned one_cell); Some (Raised FilesystemError); Some (Returned two_cells); Some (Returned two_cells)].
Proof. split; [apply nothing_client|]. split; [apply at_rest_idle|]. vm_compute. reflexivity. Qed.

(** ** C45 *)
Theorem C45_failed_write : forall L Wr i ser n t md w, client L Wr unit ser -> idle w ->
  forall tr e w', runs i (write_payload L ser n t md) w tr (Throw e) w' ->
  write_ends L n t (match md with Some _ => true | None => false end) (w_files w) (Raised e) tr (w_files w') /\
  (forall m r, m <> n -> w_files w' (m, r) = w_files w (m, r)).
Proof. exact write_raises. Qed.
Print Assumptions C45_failed_write.
Theorem C45_returned_write : forall L Wr i ser n t md w, client L Wr unit ser -> idle w ->
  forall tr w', runs i (write_payload L ser n t md) w tr (Ret_ tt) w' ->
  write_ends L n t (match md with Some _ => true | None => false end) (w_files w) (Returned tt) tr (w_files w') /\
  (forall m r, m <> n -> w_files w' (m, r) = w_files w (m, r)).
Proof. exact write_returns. Qed.
Print Assumptions C45_returned_write.
(** The k-th operation fails. The last case is a failure of the second rename:
    the old bytes are left under the new sidecar, and reading reports an error. *)
Definition fault_at (k j : nat) : bool := Nat.eqb k j.
Example C45_example :
  map (fun k => (ended (write_two (fault_at k) 100), ended (reading (disk_after (write_two (fault_at k) 100))),
                 disk_after (write_two (fault_at k) 100) (7, PayloadTmp), disk_after (write_two (fault_at k) 100) (7, SidecarTmp)))
    [6; 8; 10; 11; 21; 22]%nat =
  [(Some (Raised FilesystemError), Some (Returned one_cell), None, None);
   (Some (Raised FilesystemError), Some (Returned one_cell), None, None);
   (Some (Raised FilesystemError), Some (Returned one_cell), None, None);
   (Some (Raised FilesystemError), Some (Returned one_cell), None, None);
   (Some (Raised FilesystemError), Some (Returned one_cell), None, None);
   (Some (Raised FilesystemError), Some (Raised FilesystemError), None, None)].
Proof. vm_compute. reflexivity. Qed.

(** ** C46: any number of threads running any clients of the library. [holds]
    and [in_write] are read off each thread's own operations. *)
Theorem C46_exclusive : forall (A : Type) (ps : pool A) w, idle w ->
  forall tr ps' w' i j m, steps ps w tr ps' w' -> holds i m tr = true -> holds j m tr = true -> i = j.
Proof. exact @exclusive. Qed.
Print Assumptions C46_exclusive.
Theorem C46_changes_need_the_lock : forall (A : Type) L Wr (ps : pool A) w, (forall i, client L Wr A (ps i)) -> idle w ->
  forall tr1 tr2 i o a ps' w', steps ps w (tr1 ++ (i, (o, a)) :: tr2) ps' w' ->
  changes_files o = true -> holds i WriteMutex tr1 = true.
Proof. exact @change_needs_lock. Qed.
Print Assumptions C46_changes_need_the_lock.
Theorem C46_nested_refused : forall (A : Type) L Wr (ps : pool A) w, (forall i, client L Wr A (ps i)) -> idle w ->
  forall tr1 tr2 i o a ps' w', steps ps w (tr1 ++ (i, (o, a)) :: tr2) ps' w' ->
  o = OBegin -> a = if in_write i tr1 then AFail LogicError else AOk.
Proof. exact @begin_answer. Qed.
Print Assumptions C46_nested_refused.
Theorem C46_nested_write : forall L i ser n t md w tr p' w', w_active w i = true ->
  runs i (write_payload L ser n t md) w tr p' w' ->
  w' = w /\ (p' = write_payload L ser n t md /\ tr = [] \/ p' = Throw LogicError).
Proof. exact nested_write. Qed.
Print Assumptions C46_nested_write.
Theorem C46_no_self_deadlock : forall (A : Type) L Wr (ps : pool A) w, (forall i, client L Wr A (ps i)) -> idle w ->
  forall tr1 tr2 i o a ps' w', steps ps w (tr1 ++ (i, (o, a)) :: tr2) ps' w' ->
  forall m, o = OLock m -> holds i m tr1 = false.
Proof. exact @no_self_lock. Qed.
Print Assumptions C46_no_self_deadlock.
Theorem C46_released : forall (A : Type) L Wr (ps : pool A) w, (forall i, client L Wr A (ps i)) -> idle w ->
  forall tr ps' w' i, steps ps w tr ps' w' -> finished (ps' i) ->
  in_write i tr = false /\ forall m, holds i m tr = false.
Proof. exact @released. Qed.
Print Assumptions C46_released.
Theorem C46_no_deadlock : forall (A : Type) L Wr (ps : pool A) w, (forall i, client L Wr A (ps i)) -> idle w ->
  forall tr ps' w' i, steps ps w tr ps' w' -> (forall j, ps' j <> Stuck) -> ~ finished (ps' i) -> can_move ps' w'.
Proof. exact @no_deadlock. Qed.
Print Assumptions C46_no_deadlock.
Example C46_example :
  (forall i, client toy_library writers_write unit (writers i)) /\ idle (at_rest empty_disk) /\
  exists tr ps w, steps writers (at_rest empty_disk) tr ps w /\
    holds 0%nat WriteMutex tr = true /\ in_write 0%nat tr = true /\ in_write 1%nat tr = true /\
    exists k, ps 1%nat = Do (OLock WriteMutex) k /\ w_owner w WriteMutex = Some 0%nat.
Proof. split; [exact writers_clients|]. split; [apply at_rest_idle|exact writers_wait]. Qed.

(** ** C47 *)
Theorem C47_read_back : forall L Wr i ser n t md w tr w',
  client L Wr unit ser -> idle w -> cgal_round_trip L t -> storable t ->
  runs i (write_payload L ser n t md) w tr (Ret_ tt) w' ->
  (forall v, reads L (w_files w') n v -> v = t) /\
  (md <> None \/ w_files w (n, Sidecar) = None \/ ~ removal_failed (n, Sidecar) tr -> reads L (w_files w') n t).
Proof. exact read_back. Qed.
Print Assumptions C47_read_back.
(** Without the assumption on CGAL's streams. *)
Theorem C47_written_counts : forall L Wr i ser n t md w tr w',
  client L Wr unit ser -> idle w ->
  runs i (write_payload L ser n t md) w tr (Ret_ tt) w' ->
  exists v, parse_payload (l_cgal_read L) (stored L t) = Val v /\ t_dim v = t_dim t /\
    length (t_verts v) = length (t_verts t) /\ t_edges v = t_edges t /\ t_facets v = t_facets t /\
    length (t_cells v) = length (t_cells t) /\
    topology_fingerprint (l_fmt17g L) v = topology_fingerprint (l_fmt17g L) t.
Proof. exact written_counts. Qed.
Print Assumptions C47_written_counts.
Example C47_example : cgal_round_trip toy_library two_cells /\ storable two_cells /\
  ended (write_two no_faults 100) = Some (Returned tt) /\
  ended (reading (disk_after (write_two no_faults 100))) = Some (Returned two_cells).
Proof. split; [exact two_cells_cgal|]. split; [exact two_cells_storable|]. split; vm_compute; reflexivity. Qed.

(** Exactly when a file is read, and what its sidecar then says of the
    triangulation: true counts, time span and fingerprints. *)
Theorem C47_read_iff : forall L f n v, reads L f n v <->
  exists c, f (n, Payload) = Some c /\ parse_payload (l_cgal_read L) c = Val v /\
    forall s, f (n, Sidecar) = Some s -> exists p, sidecar (l_scan_double L) (l_scan_long_double L) s p /\
      p_payload p = payload_integrity c /\ describes L p v /\ counts_fit v.
Proof. exact reads_iff. Qed.
Print Assumptions C47_read_iff.

(** ** C48 *)
Theorem C48_refused_on_write : forall dbl ldbl L, library_ok dbl ldbl L ->
  forall Wr i ser n t m w, client L Wr unit ser -> idle w -> metadata_in_range dbl ldbl m ->
  Forall (fun v => in_int32 (snd v)) (t_verts t) ->
  forall tr p' w', no_pass_count m -> runs i (write_payload L ser n t (Some m)) w tr p' w' ->
  p' <> Ret_ tt /\ w_files w' (n, Payload) = w_files w (n, Payload) /\ w_files w' (n, Sidecar) = w_files w (n, Sidecar).
Proof. exact checkpoint_refused. Qed.
Print Assumptions C48_refused_on_write.
Theorem C48_unnamed_refused : forall L ser n nm t m, m_artifact m = CHECKPOINT -> m_completed m = None ->
  write_artifact L ser n nm t m = Throw InvalidArgument.
Proof. exact checkpoint_needs_name. Qed.
Print Assumptions C48_unnamed_refused.
Theorem C48_refused_on_read : forall L f n s fields v, f (n, Sidecar) = Some s -> sidecar_fields s fields ->
  In (B "artifact", B "checkpoint") fields -> ~ (exists z, int_is fields (B "completed_passes") z /\ 0 <= z) ->
  ~ reads L f n v.
Proof. exact checkpoint_unreadable. Qed.
Print Assumptions C48_refused_on_read.
(** A checkpoint that was written, by either overload, is under the name made
    from its pass count, holds the triangulation, and its sidecar is accepted and
    records the same pass count; no other name is touched. *)
Theorem C48_checkpoint_records_pass : forall dbl ldbl L, library_ok dbl ldbl L ->
  forall Wr i ser (name : Z -> Z) t m k w, client L Wr unit ser -> idle w -> metadata_in_range dbl ldbl m -> in_int32 k ->
  Forall (fun v => in_int32 (snd v)) (t_verts t) ->
  forall tr w', runs i (write_checkpoint L ser name t m k) w tr (Ret_ tt) w' ->
  checkpoint_stored L (w_files w') (name k) t (m_seed m) k /\
  (forall n r, n <> name k -> w_files w' (n, r) = w_files w (n, r)).
Proof. exact checkpoint_written. Qed.
Print Assumptions C48_checkpoint_records_pass.
Theorem C48_artifact_records_pass : forall dbl ldbl L, library_ok dbl ldbl L ->
  forall Wr i ser n (name : Z -> Z) t m k w, client L Wr unit ser -> idle w -> metadata_in_range dbl ldbl m ->
  Forall (fun v => in_int32 (snd v)) (t_verts t) -> m_artifact m = CHECKPOINT -> m_completed m = Some k ->
  forall tr w', runs i (write_artifact L ser n name t m) w tr (Ret_ tt) w' ->
  checkpoint_stored L (w_files w') (name k) t (m_seed m) k /\
  (forall n r, n <> name k -> w_files w' (n, r) = w_files w (n, r)).
Proof. exact artifact_written. Qed.
Print Assumptions C48_artifact_records_pass.
(** Files written by a Metropolis run: one for each pass due, in order, each
    naming its pass; a run that throws wrote an initial part of them. *)
Theorem C48_metropolis_checkpoints : forall (M G P W : Type) geometry propose check accept at_least draw_int draw_p
  (facts : RunCheckpoint.manifold_facts M) print write (x : Metropolis.metropolis G) (w : W) (man : M),
  match @Metropolis.mh_run M G P (W * list (M * Geom.Metadata)) geometry propose check accept at_least draw_int draw_p
          (RunCheckpoint.mf_max_time facts) (RunCheckpoint.update_reproducibility_state facts)
          (RunCheckpoint.recording_print print) (RunCheckpoint.recording write) x (w, []) man with
  | Ret (x', (w', l)) _ => Forall2 (RunCheckpoint.says_pass facts (Metropolis.mh_reproducibility x))
      (RunCheckpoint.due (Run.cad_checkpoint (Metropolis.mh_cadence x)) (Metropolis.mh_write_files x)
         (Run.zseq 1 (Z.to_nat (Run.cad_passes (Metropolis.mh_cadence x))))) l
  | Thr (x', (w', l)) _ => exists k, Forall2 (RunCheckpoint.says_pass facts (Metropolis.mh_reproducibility x))
      (take k (RunCheckpoint.due (Run.cad_checkpoint (Metropolis.mh_cadence x)) (Metropolis.mh_write_files x)
         (Run.zseq 1 (Z.to_nat (Run.cad_passes (Metropolis.mh_cadence x)))))) l
  | _ => True
  end.
Proof. exact @RunCheckpoint.mh_run_checkpoints. Qed.
Print Assumptions C48_metropolis_checkpoints.
Example C48_example :
  no_pass_count (sample_meta CHECKPOINT (Some (-1))) /\
  ended (exec 100 0 no_faults 0 (write_payload toy_library nothing 7 two_cells (Some (sample_meta CHECKPOINT (Some (-1))))) (at_rest disk_one))
    = Some (Raised FilesystemError) /\
  RunCheckpoint.due 3 true (Run.zseq 1 10) = [3; 6; 9] /\
  ended (exec 100 0 no_faults 0 (write_checkpoint toy_library nothing (fun k => k + 10) two_cells
    (sample_meta FINAL_TRIANGULATION None) 4) (at_rest disk_one)) = Some (Returned tt) /\
  ended (exec 100 0 no_faults 0 (write_checkpoint toy_library nothing (fun k => k + 10) two_cells
    (sample_meta FINAL_TRIANGULATION None) (-4)) (at_rest disk_one)) = Some (Raised FilesystemError).
Proof.
  split; [split; [reflexivity|intros k [= <-]; lia]|]. split; [|split; [|split]]; vm_compute; reflexivity.
Qed.

(** ** C65: a reader among any other threads. *)
Theorem C65_reader_sees_whole_files : forall L Wr (ps : pool tri) w r n,
  ps r = read_file L n -> (forall i, i <> r -> client L Wr tri (ps i)) -> idle w ->
  forall tr ps' w' v, steps ps w tr ps' w' -> ps' r = Ret_ v ->
  exists c, parse_payload (l_cgal_read L) c = Val v /\
    (w_files w (n, Payload) = Some c \/ exists t, Wr n t /\ c = stored L t).
Proof. exact reader_result. Qed.
Print Assumptions C65_reader_sees_whole_files.
Definition readers : pool tri := fun i =>
  match i with
  | O => read_file toy_library 7
  | S O => after (write_payload toy_library nothing 7 two_cells None) (fun _ => Ret_ one_cell)
  | _ => Ret_ one_cell
  end.
Example C65_example : (forall i, i <> 0%nat -> client toy_library writers_write tri (readers i)) /\
  ended (exec 100 0 no_faults 0 (readers 0%nat) (at_rest disk_one)) = Some (Returned one_cell).
Proof.
  split; [|vm_compute; reflexivity]. intros [|[|i]] H; [congruence| |constructor].
  cbn [readers]. apply client_write; [split; auto|apply nothing_client|intros o; constructor].
Qed.
