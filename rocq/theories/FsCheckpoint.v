(** Provenance on disk, refused provenance and checkpoints. *)
From Verif Require Import Base Config Fnv Text TextFacts Persist PersistFacts MetaSpec MetaFacts MetaRound MetaRoundTrip FileSys FileIO FsLogic FsSpec FsFacts FsProps.
Local Open Scope Z_scope.
Local Open Scope list_scope.

Lemma integrity_ok c : pay_ok (payload_integrity c).
Proof. split; [apply wrap64_u64|]. cbn. apply fnv_from_u64, fnv_offset_u64. Qed.
Lemma fingerprint_u64 r : 0 <= fingerprint_records r < two64.
Proof.
  unfold fingerprint_records. assert (H : u64 fnv_offset) by apply fnv_offset_u64. revert H.
  generalize fnv_offset. induction r as [|x r IH]; intros h Hh; [exact Hh|]. cbn [fold_left].
  apply IH. apply wrap64_u64.
Qed.

(** * Reconciliation *)
Lemma min_max_bounds r : forall x, 
  (fold_left Z.min r x <= x <= fold_left Z.max r x) /\ Forall (fun y => fold_left Z.min r x <= y <= fold_left Z.max r x) r /\
  In (fold_left Z.min r x) (x :: r) /\ In (fold_left Z.max r x) (x :: r).
Proof.
  assert (G : forall r x y, Forall (fun z => fold_left Z.min r x <= z) r /\ fold_left Z.min r x <= x /\
     Forall (fun z => z <= fold_left Z.max r y) r /\ y <= fold_left Z.max r y /\
     In (fold_left Z.min r x) (x :: r) /\ In (fold_left Z.max r y) (y :: r)).
  { clear r. induction r as [|a r IH]; intros x y; cbn [fold_left].
    - repeat split; try constructor; try lia; reflexivity.
    - destruct (IH (Z.min x a) (Z.max y a)) as (A1 & A2 & A3 & A4 & A5 & A6). repeat split; try lia.
      + constructor; [lia|exact A1].
      + constructor; [lia|exact A3].
      + destruct A5 as [A5|A5]; [|right; right; exact A5].
        destruct (Z.min_spec x a) as [[_ E]|[_ E]]; rewrite E in A5 |- *; [left; exact A5|right; left; exact A5].
      + destruct A6 as [A6|A6]; [|right; right; exact A6].
        destruct (Z.max_spec y a) as [[_ E]|[_ E]]; rewrite E in A6 |- *; [right; left; exact A6|left; exact A6]. }
  intros x. destruct (G r x x) as (A1 & A2 & A3 & A4 & A5 & A6). split; [lia|]. split; [|split; assumption].
  rewrite List.Forall_forall in A1, A3 |- *. intros y Hy. split; [apply A1, Hy|apply A3, Hy].
Qed.
Lemma time_bounds_span t : label_span t (fst (time_bounds t)) (snd (time_bounds t)).
Proof.
  unfold label_span, time_bounds. destruct (map snd (t_verts t)) as [|x r] eqn:E.
  - left. destruct (t_verts t); [auto|discriminate].
  - right. cbn [fst snd]. destruct (min_max_bounds r x) as (A & B & C & D).
    split; [exact C|]. split; [exact D|]. constructor; [exact A|exact B].
Qed.
Lemma span_int32 t lo hi : Forall (fun v => in_int32 (snd v)) (t_verts t) -> label_span t lo hi -> in_int32 lo /\ in_int32 hi.
Proof.
  intros F. rewrite List.Forall_forall in F. intros [(_ & -> & ->)|(H1 & H2 & _)].
  - split; vm_compute; split; congruence.
  - apply in_map_iff in H1 as (a & <- & I1). apply in_map_iff in H2 as (b & <- & I2). auto.
Qed.
Lemma narrow_val z y : narrow z = Val y -> y = z /\ in_int32 z.
Proof. unfold narrow. destruct (in_int32b z) eqn:E; [|discriminate]. intros [= <-]. split; [reflexivity|apply in_int32b_spec, E]. Qed.

Lemma topology_fingerprint_u64 fmt t x : topology_fingerprint fmt t = Val x -> 0 <= x < two64.
Proof.
  unfold topology_fingerprint. destruct (has_coincident_vertices fmt t).
  - destruct (incidence_topology_records fmt t); cbn; [|discriminate|discriminate]. intros [= <-]. apply fingerprint_u64.
  - destruct (mapM _ _); cbn; [|discriminate|discriminate]. intros [= <-]. apply fingerprint_u64.
Qed.

Record reconciled (fmt : fp -> text) (m : metadata) (t : tri) (m' : metadata) : Prop := {
  rc_artifact : m_artifact m' = m_artifact m; rc_completed : m_completed m' = m_completed m;
  rc_seed : m_seed m' = m_seed m; rc_init : m_init_stream m' = m_init_stream m;
  rc_trans : m_trans_stream m' = m_trans_stream m; rc_topology : m_topology m' = m_topology m;
  rc_threads : m_threads m' = m_threads m;
  rc_dim : m_dimension m' = t_dim t /\ in_int32 (t_dim t);
  rc_v : m_vertices m' = number_of_vertices t /\ in_int32 (number_of_vertices t);
  rc_e : m_edges m' = t_edges t /\ in_int32 (t_edges t);
  rc_f : m_faces m' = t_facets t /\ in_int32 (t_facets t);
  rc_c : m_simplices m' = number_of_finite_cells t /\ in_int32 (number_of_finite_cells t);
  rc_times : m_min_time m' = fst (time_bounds t) /\ m_max_time m' = snd (time_bounds t);
  rc_range : forall dbl ldbl, metadata_in_range dbl ldbl m -> Forall (fun v => in_int32 (snd v)) (t_verts t) -> metadata_in_range dbl ldbl m'
}.
Lemma reconcile_spec fmt m t m' : reconcile fmt m t = Val m' -> reconciled fmt m t m'.
Proof.
  unfold reconcile.
  destruct (narrow (t_dim t)) as [d| |] eqn:E1; cbn [bind]; try discriminate.
  destruct (narrow (number_of_vertices t)) as [nv| |] eqn:E2; cbn [bind]; try discriminate.
  destruct (narrow (t_edges t)) as [ne| |] eqn:E3; cbn [bind]; try discriminate.
  destruct (narrow (t_facets t)) as [nf| |] eqn:E4; cbn [bind]; try discriminate.
  destruct (narrow (number_of_finite_cells t)) as [nc| |] eqn:E5; cbn [bind]; try discriminate.
  destruct (topology_fingerprint fmt t) as [tf| |] eqn:E6; cbn [bind]; try discriminate.
  intros [= <-]. apply narrow_val in E1 as [-> R1], E2 as [-> R2], E3 as [-> R3], E4 as [-> R4], E5 as [-> R5].
  constructor; cbn; auto.
  intros dbl ldbl (Rd & Rs & Rl & A1 & A2 & A3 & A4 & A5 & A6 & A7 & A8 & A9 & A10 & A11 & A12 & Ri & Ru) F.
  destruct (span_int32 t _ _ F (time_bounds_span t)) as [T1 T2].
  unfold metadata_in_range. cbn. do 15 (split; [assumption|]). split; [assumption|].
  intros n [H|[H|[H|[H|H]]]]; try (apply Ru; tauto).
  - injection H as <-. apply fingerprint_u64.
  - injection H as <-. eapply topology_fingerprint_u64, E6.
Qed.

(** * Provenance on disk *)
Section Prov.
Variables dbl ldbl : fp -> Prop.
Variable L : library.
Hypothesis HL : library_ok dbl ldbl L.

Lemma good_told t m s : metadata_in_range dbl ldbl m -> Forall (fun v => in_int32 (snd v)) (t_verts t) ->
  good_sidecar L t (Some m) s ->
  exists m' p fields, reconciled (l_fmt17g L) m t m' /\ metadata_valid m' /\ sidecar_fields s fields /\
    accepted (l_scan_double L) (l_scan_long_double L) fields p /\ tells m t (stored L t) p /\
    (forall k, m_completed m = Some k -> int_is fields (B "completed_passes") k).
Proof using HL.
  intros Hm Ht (p & Hp & Hpay & _ & m0 & m' & [= <-] & Hr & ->). apply reconcile_spec in Hr.
  pose proof (rc_range _ _ _ _ Hr dbl ldbl Hm Ht) as Hm'. destruct HL as (Id & Il & Hb).
  pose proof (integrity_ok (stored L t)) as Hi.
  apply (metadata_round_trip dbl ldbl _ _ _ _ Id Il _ _ _ Hb Hi Hm') in Hp.
  destruct Hp as (V & pl & fi & E1 & E2 & ->).
  exists m', (recovered m' (payload_integrity (stored L t)) pl fi),
    (metadata_fields (l_print_double L) (l_print_long_double L) (l_build L) m' (payload_integrity (stored L t))).
  split; [exact Hr|]. split; [exact V|]. split; [apply (written_lines dbl ldbl _ _ _ _ Id Il); assumption|].
  split; [apply (accepted_written dbl ldbl _ _ _ _ Id Il); [assumption|assumption|]; split; [exact V|]; exists pl, fi; auto|].
  split.
  - destruct Hr. unfold tells, recovered.
    cbn [p_payload p_artifact p_seed p_init_stream p_trans_stream p_topology p_dimension p_vertices p_edges p_faces p_simplices p_min_time p_max_time p_threads].
    destruct rc_times0 as [-> ->]. destruct rc_dim0 as [-> _], rc_v0 as [-> _], rc_e0 as [-> _], rc_f0 as [-> _], rc_c0 as [-> _].
    repeat (split; [first [reflexivity|assumption]|]). split; [apply time_bounds_span|]. split; reflexivity.
  - intros k Ek. rewrite <- (rc_completed _ _ _ _ Hr) in Ek. exists (print_int k). split.
    + unfold metadata_fields. rewrite Ek. apply in_or_app. right. do 6 (apply in_or_app; right). apply in_or_app. left. left. reflexivity.
    + apply print_int_numeral. destruct Hm' as (_ & _ & _ & _ & _ & _ & _ & _ & _ & _ & _ & _ & _ & _ & _ & Ri & _). apply Ri. tauto.
Qed.

Section W.
Variable Wr : Z -> tri -> Prop.
Variables (i : nat) (ser : prog unit) (n : Z) (t : tri) (m : metadata) (w : world).
Hypothesis Hser : client L Wr unit ser.
Hypothesis Hidle : idle w.
Hypothesis Hm : metadata_in_range dbl ldbl m.
Hypothesis Ht : Forall (fun v => in_int32 (snd v)) (t_verts t).

(** What a returned write leaves in the sidecar. *)
Lemma provenance_written tr w' : runs i (write_payload L ser n t (Some m)) w tr (Ret_ tt) w' ->
  exists s fields p, w_files w' (n, Sidecar) = Some s /\ sidecar_fields s fields /\
    accepted (l_scan_double L) (l_scan_long_double L) fields p /\ tells m t (stored L t) p /\
    (forall k, m_completed m = Some k -> int_is fields (B "completed_passes") k).
Proof using HL Hser Hidle Hm Ht.
  intros H. destruct (write_run L Wr i ser n t (Some m) w Hser Hidle _ _ _ H) as [_ E].
  destruct (E (Returned tt)) as (_ & _ & _ & _ & _ & (s & E3 & G) & _); [discriminate|reflexivity|].
  destruct (good_told _ _ _ Hm Ht G) as (m' & p & fields & _ & _ & S & A & T & K). exists s, fields, p. auto 10.
Qed.
(** Provenance the reader would refuse is never published. *)
Lemma invalid_refused tr p' w' :
  (forall m', reconciled (l_fmt17g L) m t m' -> ~ metadata_valid m') ->
  runs i (write_payload L ser n t (Some m)) w tr p' w' ->
  p' <> Ret_ tt /\ w_files w' (n, Payload) = w_files w (n, Payload) /\ w_files w' (n, Sidecar) = w_files w (n, Sidecar).
Proof using HL Hser Hidle Hm Ht.
  intros HN H. destruct (write_run L Wr i ser n t (Some m) w Hser Hidle _ _ _ H) as [[_ D] E].
  assert (NG : forall s, ~ good_sidecar L t (Some m) s).
  { intros s G. destruct (good_told _ _ _ Hm Ht G) as (m' & p & fields & R & V & _). exact (HN m' R V). }
  split.
  - intros ->. destruct (E (Returned tt)) as (_ & _ & _ & _ & _ & (s & _ & G) & _); [discriminate|reflexivity|]. exact (NG s G).
  - destruct D as [[D1 [D2|(_ & s & _ & G)]]|[_ (s & _ & G)]]; [auto|elim (NG s G)|elim (NG s G)].
Qed.
Lemma checkpoint_refused tr p' w' : no_pass_count m ->
  runs i (write_payload L ser n t (Some m)) w tr p' w' ->
  p' <> Ret_ tt /\ w_files w' (n, Payload) = w_files w (n, Payload) /\ w_files w' (n, Sidecar) = w_files w (n, Sidecar).
Proof using HL Hser Hidle Hm Ht.
  intros [Ha Hn]. apply invalid_refused. intros m' R V.
  destruct V as (_ & _ & _ & _ & _ & _ & _ & _ & _ & _ & _ & _ & _ & Vc & Vk & _).
  rewrite (rc_artifact _ _ _ _ R), (rc_completed _ _ _ _ R) in *. specialize (Vc Ha).
  destruct (m_completed m) as [k|]; [|congruence]. specialize (Vk k eq_refl). specialize (Hn k eq_refl). lia.
Qed.
(** A checkpoint that was written says which pass it follows. *)
Lemma checkpoint_payload k tr w' : m_artifact m = CHECKPOINT -> m_completed m = Some k ->
  runs i (write_payload L ser n t (Some m)) w tr (Ret_ tt) w' -> checkpoint_stored L (w_files w') n t (m_seed m) k.
Proof using HL Hser Hidle Hm Ht.
  intros Ha Hk H. split.
  - exact (proj1 (proj1 (write_returns _ _ _ _ _ _ _ _ Hser Hidle _ _ H))).
  - destruct (provenance_written _ _ H) as (s & fields & p & Hs & Hf & A & T & K). exists s, fields, p.
    specialize (K k Hk). pose proof (ac_artifact _ _ _ _ A) as P. destruct T as (Ta & Ts & _). rewrite Ta, Ha in P.
    destruct (ac_completed _ _ _ _ A) as (z & Hz & Hz0); [apply (ac_checkpoint _ _ _ _ A); congruence|].
    assert (z = k) as ->.
    { apply (int_field_val _ (ac_no_duplicate _ _ _ _ A)) in K. apply (int_field_val _ (ac_no_duplicate _ _ _ _ A)) in Hz.
      congruence. }
    auto 12.
Qed.
End W.

Lemma checkpoint_written Wr i ser (nm : Z -> Z) t m k w : client L Wr unit ser -> idle w -> metadata_in_range dbl ldbl m -> in_int32 k ->
  Forall (fun v => in_int32 (snd v)) (t_verts t) ->
  forall tr w', runs i (write_checkpoint L ser nm t m k) w tr (Ret_ tt) w' ->
  checkpoint_stored L (w_files w') (nm k) t (m_seed m) k /\
  (forall n r, n <> nm k -> w_files w' (n, r) = w_files w (n, r)).
Proof using HL.
  intros Hs Hi Hm Hk Ht tr w' H. unfold write_checkpoint in H.
  split; [|exact (proj2 (write_returns _ _ _ _ _ _ _ _ Hs Hi _ _ H))].
  refine (checkpoint_payload _ _ _ _ _ _ _ Hs Hi _ Ht _ _ _ _ _ H); [|reflexivity|reflexivity].
  unfold metadata_in_range in *; cbn [m_radius m_spacing m_alpha m_k m_lambda m_seed m_init_stream m_trans_stream m_dimension
    m_desired_simplices m_desired_timeslices m_vertices m_edges m_faces m_simplices m_min_time m_max_time m_passes m_attempts
    m_interval m_completed m_threads m_trace m_count m_placement m_fingerprint].
  destruct Hm as (A1 & A2 & A3 & A4 & A5 & A6 & A7 & A8 & A9 & A10 & A11 & A12 & A13 & A14 & A15 & A16 & A17).
  repeat (split; [assumption|]). split; [|exact A17].
  intros z [K|[K|[K|K]]]; [apply A16; auto|apply A16; auto|apply A16; auto|congruence].
Qed.
Lemma artifact_written Wr i ser n (nm : Z -> Z) t m k w : client L Wr unit ser -> idle w -> metadata_in_range dbl ldbl m ->
  Forall (fun v => in_int32 (snd v)) (t_verts t) -> m_artifact m = CHECKPOINT -> m_completed m = Some k ->
  forall tr w', runs i (write_artifact L ser n nm t m) w tr (Ret_ tt) w' ->
  checkpoint_stored L (w_files w') (nm k) t (m_seed m) k /\
  (forall n r, n <> nm k -> w_files w' (n, r) = w_files w (n, r)).
Proof using HL.
  intros Hs Hi Hm Ht Ha Hk tr w' H. unfold write_artifact in H. rewrite Ha, Hk in H.
  split; [|exact (proj2 (write_returns _ _ _ _ _ _ _ _ Hs Hi _ _ H))].
  exact (checkpoint_payload _ _ _ _ _ _ _ Hs Hi Hm Ht _ _ _ Ha Hk H).
Qed.
End Prov.

(** Reading. *)
Lemma checkpoint_unreadable L f n s fields v : f (n, Sidecar) = Some s -> sidecar_fields s fields ->
  In (B "artifact", B "checkpoint") fields -> ~ (exists z, int_is fields (B "completed_passes") z /\ 0 <= z) ->
  ~ reads L f n v.
Proof.
  intros Hs Hf Ha Hn Hr. apply reads_spec in Hr. destruct Hr as (c & _ & _ & Hm). rewrite Hs in Hm.
  destruct Hm as (p & (fields' & Hf' & Hacc) & _). rewrite <- (sidecar_fields_fun _ _ _ Hf Hf') in Hacc.
  apply Hn. apply (ac_completed _ _ _ _ Hacc), (ac_checkpoint _ _ _ _ Hacc).
  pose proof (ac_artifact _ _ _ _ Hacc) as Hb. pose proof (ac_no_duplicate _ _ _ _ Hacc) as ND.
  assert (E : B "checkpoint" = match p_artifact p with
     | INITIAL_TRIANGULATION => B "initial-triangulation" | CHECKPOINT => B "checkpoint" | FINAL_TRIANGULATION => B "final-triangulation" end).
  { apply (get_in _ _ _ ND) in Ha. apply (get_in _ _ _ ND) in Hb. congruence. }
  destruct (p_artifact p); [vm_compute in E; discriminate|reflexivity|vm_compute in E; discriminate].
Qed.
(** Naming a checkpoint. *)
Lemma checkpoint_needs_name L ser n nm t m : m_artifact m = CHECKPOINT -> m_completed m = None ->
  write_artifact L ser n nm t m = Throw InvalidArgument.
Proof. intros H1 H2. unfold write_artifact. rewrite H1, H2. reflexivity. Qed.

(** * What a sidecar that was read says *)
Lemma span_unique t lo hi lo' hi' : label_span t lo hi -> label_span t lo' hi' -> lo = lo' /\ hi = hi'.
Proof.
  intros [(E & -> & ->)|(A & B & F)] [(E' & -> & ->)|(A' & B' & F')]; [auto|rewrite E in A'; destruct A'|rewrite E' in A; destruct A|].
  rewrite List.Forall_forall in F, F'. pose proof (F _ A'). pose proof (F _ B'). pose proof (F' _ A). pose proof (F' _ B). lia.
Qed.
Lemma narrow_val_iff z y : narrow z = Val y <-> in_int32 z /\ y = z.
Proof.
  unfold narrow. destruct (in_int32b z) eqn:E.
  - apply in_int32b_spec in E. split; [intros [= <-]; auto|intros [_ ->]; reflexivity].
  - split; [discriminate|]. intros [H _]. apply in_int32b_spec in H. congruence.
Qed.
Lemma validate_describes L p t : validate_persistence_metadata (l_fmt17g L) p t = Val tt <-> describes L p t /\ counts_fit t.
Proof.
  unfold validate_persistence_metadata, reconcile, describes, counts_fit, number_of_vertices, number_of_finite_cells.
  pose proof (time_bounds_span t) as S.
  split.
  - intros H.
    destruct (narrow (t_dim t)) as [a| |] eqn:N1; try discriminate. apply narrow_val_iff in N1 as [R1 ->]. cbn [bind] in H.
    destruct (narrow (Z.of_nat (length (t_verts t)))) as [a| |] eqn:N2; try discriminate. apply narrow_val_iff in N2 as [R2 ->]. cbn [bind] in H.
    destruct (narrow (t_edges t)) as [a| |] eqn:N3; try discriminate. apply narrow_val_iff in N3 as [R3 ->]. cbn [bind] in H.
    destruct (narrow (t_facets t)) as [a| |] eqn:N4; try discriminate. apply narrow_val_iff in N4 as [R4 ->]. cbn [bind] in H.
    destruct (narrow (Z.of_nat (length (t_cells t)))) as [a| |] eqn:N5; try discriminate. apply narrow_val_iff in N5 as [R5 ->]. cbn [bind] in H.
    destruct (topology_fingerprint (l_fmt17g L) t) as [a| |] eqn:Ft; try discriminate. cbn [bind] in H.
    apply require_val in H. cbn [m_dimension m_vertices m_edges m_faces m_simplices m_min_time m_max_time m_placement m_fingerprint oZ_eqb] in H.
    rewrite !andb_true_iff, !Z.eqb_eq in H. destruct H as ((((((((-> & ->) & ->) & ->) & ->) & ->) & ->) & ->) & ->). auto 20.
  - intros ((E1 & E2 & E3 & E4 & E5 & Sp & E6 & E7) & R1 & R2 & R3 & R4 & R5). rewrite E7.
    rewrite (proj2 (narrow_val_iff _ _) (conj R1 eq_refl)), (proj2 (narrow_val_iff _ _) (conj R2 eq_refl)), (proj2 (narrow_val_iff _ _) (conj R3 eq_refl)),
      (proj2 (narrow_val_iff _ _) (conj R4 eq_refl)), (proj2 (narrow_val_iff _ _) (conj R5 eq_refl)). cbn [bind]. apply require_val.
    cbn [m_dimension m_vertices m_edges m_faces m_simplices m_min_time m_max_time m_placement m_fingerprint oZ_eqb].
    destruct (span_unique _ _ _ _ _ Sp S) as [-> ->]. rewrite !andb_true_iff, !Z.eqb_eq. auto 20.
Qed.
Lemma reads_iff L f n v : reads L f n v <->
  exists c, f (n, Payload) = Some c /\ parse_payload (l_cgal_read L) c = Val v /\
    forall s, f (n, Sidecar) = Some s -> exists p, sidecar (l_scan_double L) (l_scan_long_double L) s p /\
      p_payload p = payload_integrity c /\ describes L p v /\ counts_fit v.
Proof.
  rewrite reads_spec. unfold readable. split.
  - intros (c & Hc & Hv & Hm). exists c. split; [exact Hc|]. split; [exact Hv|]. intros s Hs. rewrite Hs in Hm.
    destruct Hm as (p & A & B & D). exists p. apply validate_describes in D. tauto.
  - intros (c & Hc & Hv & Hm). exists c. split; [exact Hc|]. split; [exact Hv|]. destruct (f (n, Sidecar)) as [s|]; [|exact I].
    destruct (Hm s eq_refl) as (p & A & B & D). exists p. split; [exact A|]. split; [exact B|]. apply validate_describes, D.
Qed.
