(** The key=value fields of the sidecar the program writes. *)
From Verif Require Import Base Config Text PersistSpec TextFacts Persist PersistFacts MetaSpec MetaFacts MetaRound.
From Coq Require Import QArith_base.
Local Open Scope Z_scope.
Local Open Scope list_scope.

(** * The written sidecar *)
Lemma get_miss k k' v r : text_eqb k k' = false -> get ((k', v) :: r) k = get r k.
Proof. intros H. cbn. rewrite H. reflexivity. Qed.
Lemma get_hit k v r : get ((k, v) :: r) k = Some v.
Proof. cbn. rewrite (proj2 (text_eqb_spec _ _) eq_refl). reflexivity. Qed.
Lemma get_opt_miss {A} k k' (f : A -> text) o r : text_eqb k k' = false -> get (optional_field k' f o ++ r) k = get r k.
Proof. intros H. destruct o; cbn; [rewrite H|]; reflexivity. Qed.
Lemma get_opt_hit {A} k (f : A -> text) o r : get r k = None -> get (optional_field k f o ++ r) k = option_map f o.
Proof. intros H. destruct o; cbn; [rewrite (proj2 (text_eqb_spec _ _) eq_refl)|rewrite H]; reflexivity. Qed.

(** Every key the writer can use, in order. *)
Definition written_keys : list text :=
  [ B "payload.size"; B "payload.fnv1a64"; B "artifact"; B "resume_supported";
    B "fresh_topology_replay_supported"; B "transition_replay_requires_identical_start";
    B "cdt.version"; B "build.compiler_id"; B "build.compiler_version"; B "build.configuration";
    B "build.system"; B "build.processor"; B "build.cxx_standard"; B "build.standard_library";
    B "dependency.cgal_version"; B "random.engine"; B "random.seed"; B "random.initialization_stream";
    B "random.transition_stream"; B "topology"; B "dimension"; B "desired.simplices";
    B "desired.timeslices"; B "actual.vertices"; B "actual.edges"; B "actual.faces";
    B "actual.simplices"; B "actual.minimum_timeslice"; B "actual.maximum_timeslice";
    B "initial_radius"; B "foliation_spacing"; B "alpha"; B "k"; B "lambda"; B "configured_passes";
    B "configured_attempts"; B "checkpoint_interval"; B "completed_passes"; B "parallel.max_threads";
    B "transition_trace.fnv1a64"; B "transition_trace.count"; B "placement.fnv1a64"; B "topology.fnv1a64" ].
Lemma written_keys_nodup : NoDup written_keys.
Proof. apply (bool_decide_unpack _). vm_compute. exact I. Qed.
Lemma written_keys_plain : Forall (fun k => k <> [] /\ ~ In EQ k /\ ~ In NL k) written_keys.
Proof.
  apply List.Forall_forall. intros k H.
  assert (K : forallb (fun k => negb (bool_decide (k = [])) && negb (bool_decide (EQ ∈ k)) && negb (bool_decide (NL ∈ k))) written_keys = true)
    by (vm_compute; reflexivity).
  rewrite forallb_forall in K. apply K in H. rewrite !andb_true_iff, !negb_true_iff, !bool_decide_eq_false in H.
  rewrite !elem_of_list_In in H. tauto.
Qed.

Lemma optional_sublist {A} k (f : A -> text) o : map fst (optional_field k f o) `sublist_of` [k].
Proof. destruct o; cbn; [reflexivity|apply sublist_nil_l]. Qed.

Lemma sublist_nodup {A} (l k : list A) : l `sublist_of` k -> NoDup k -> NoDup l.
Proof.
  induction 1 as [|x l k S IH|x l k S IH]; intros N; [constructor| |].
  - apply stdpp.list.NoDup_cons in N as [N1 N2]. apply stdpp.list.NoDup_cons. split; [|auto].
    intros K. apply N1. eapply elem_of_submseteq; [exact K|]. apply sublist_submseteq, S.
  - apply stdpp.list.NoDup_cons in N as [N1 N2]. auto.
Qed.

Section Round.
Variable fmt17g : fp -> text.
Variables print_double print_long_double : fp -> text.
Variables scan_double scan_long_double : text -> option (fp * text).
Notation fields := (metadata_fields print_double print_long_double).

Lemma fields_sublist b m pay : map fst (fields b m pay) `sublist_of` written_keys.
Proof.
  unfold metadata_fields. rewrite !map_app. cbn [map fst]. unfold written_keys.
  change [B "payload.size"; B "payload.fnv1a64"; B "artifact"; B "resume_supported";
    B "fresh_topology_replay_supported"; B "transition_replay_requires_identical_start";
    B "cdt.version"; B "build.compiler_id"; B "build.compiler_version"; B "build.configuration";
    B "build.system"; B "build.processor"; B "build.cxx_standard"; B "build.standard_library";
    B "dependency.cgal_version"; B "random.engine"; B "random.seed"; B "random.initialization_stream";
    B "random.transition_stream"; B "topology"; B "dimension"; B "desired.simplices";
    B "desired.timeslices"; B "actual.vertices"; B "actual.edges"; B "actual.faces";
    B "actual.simplices"; B "actual.minimum_timeslice"; B "actual.maximum_timeslice";
    B "initial_radius"; B "foliation_spacing"; B "alpha"; B "k"; B "lambda"; B "configured_passes";
    B "configured_attempts"; B "checkpoint_interval"; B "completed_passes"; B "parallel.max_threads";
    B "transition_trace.fnv1a64"; B "transition_trace.count"; B "placement.fnv1a64"; B "topology.fnv1a64" ]
  with ([B "payload.size"; B "payload.fnv1a64"; B "artifact"; B "resume_supported";
    B "fresh_topology_replay_supported"; B "transition_replay_requires_identical_start";
    B "cdt.version"; B "build.compiler_id"; B "build.compiler_version"; B "build.configuration";
    B "build.system"; B "build.processor"; B "build.cxx_standard"; B "build.standard_library";
    B "dependency.cgal_version"; B "random.engine"; B "random.seed"; B "random.initialization_stream";
    B "random.transition_stream"; B "topology"; B "dimension"; B "desired.simplices";
    B "desired.timeslices"; B "actual.vertices"; B "actual.edges"; B "actual.faces";
    B "actual.simplices"; B "actual.minimum_timeslice"; B "actual.maximum_timeslice";
    B "initial_radius"; B "foliation_spacing"] ++ [B "alpha"] ++ [B "k"] ++ [B "lambda"] ++ [B "configured_passes"]
    ++ [B "configured_attempts"] ++ [B "checkpoint_interval"] ++ [B "completed_passes"] ++ [B "parallel.max_threads"]
    ++ [B "transition_trace.fnv1a64"] ++ [B "transition_trace.count"] ++ [B "placement.fnv1a64"] ++ [B "topology.fnv1a64" ]).
  apply sublist_app; [reflexivity|].
  repeat (apply sublist_app; [apply optional_sublist|]). apply optional_sublist.
Qed.

Lemma fields_nodup b m pay : NoDup (map fst (fields b m pay)).
Proof.
  eapply sublist_nodup; [apply fields_sublist|apply written_keys_nodup].
Qed.
Lemma fields_keys b m pay k : In k (map fst (fields b m pay)) -> k <> [] /\ ~ In EQ k /\ ~ In NL k.
Proof.
  intros H. assert (K := written_keys_plain). rewrite List.Forall_forall in K. apply K.
  apply elem_of_list_In. apply elem_of_list_In in H. eapply elem_of_submseteq; [exact H|].
  apply sublist_submseteq, fields_sublist.
Qed.

Lemma metadata_fields_nil b m pay : fields b m pay = fields b m pay ++ [].
Proof. symmetry. apply app_nil_r. Qed.

(** What each key holds. *)
Ltac look :=
  rewrite metadata_fields_nil; unfold metadata_fields; rewrite <- ?app_assoc; cbn [app];
  repeat first
    [ rewrite get_hit; reflexivity
    | rewrite get_miss by (vm_compute; reflexivity)
    | rewrite get_opt_miss by (vm_compute; reflexivity)
    | apply get_opt_hit
    | reflexivity ].

Record looked (b : build_info) (m : metadata) (pay : integrity) : Prop := {
  k_size : get (fields b m pay) (B "payload.size") = Some (print_unsigned (i_size pay));
  k_digest : get (fields b m pay) (B "payload.fnv1a64") = Some (print_hex16 (i_digest pay));
  k_artifact : get (fields b m pay) (B "artifact") = Some (artifact_name (m_artifact m));
  k_resume : get (fields b m pay) (B "resume_supported") = Some (B "false");
  k_fresh : get (fields b m pay) (B "fresh_topology_replay_supported") = Some (B "false");
  k_start : get (fields b m pay) (B "transition_replay_requires_identical_start") = Some (B "true");
  k_version : get (fields b m pay) (B "cdt.version") = Some (b_version b);
  k_cid : get (fields b m pay) (B "build.compiler_id") = Some (b_compiler_id b);
  k_cv : get (fields b m pay) (B "build.compiler_version") = Some (b_compiler_version b);
  k_conf : get (fields b m pay) (B "build.configuration") = Some (b_configuration b);
  k_sys : get (fields b m pay) (B "build.system") = Some (b_system b);
  k_proc : get (fields b m pay) (B "build.processor") = Some (b_processor b);
  k_std : get (fields b m pay) (B "build.cxx_standard") = Some (B "23");
  k_lib : get (fields b m pay) (B "build.standard_library") = Some (b_library b);
  k_cgal : get (fields b m pay) (B "dependency.cgal_version") = Some (b_cgal b);
  k_engine : get (fields b m pay) (B "random.engine") = Some (B "pcg64");
  k_seed : get (fields b m pay) (B "random.seed") = Some (print_unsigned (m_seed m));
  k_init : get (fields b m pay) (B "random.initialization_stream") = Some (print_unsigned (m_init_stream m));
  k_trans : get (fields b m pay) (B "random.transition_stream") = Some (print_unsigned (m_trans_stream m));
  k_topology : get (fields b m pay) (B "topology")
               = Some (match m_topology m with SPHERICAL => B "spherical" | TOROIDAL => B "toroidal" end);
  k_dim : get (fields b m pay) (B "dimension") = Some (print_int (m_dimension m));
  k_ds : get (fields b m pay) (B "desired.simplices") = Some (print_int (m_desired_simplices m));
  k_dt : get (fields b m pay) (B "desired.timeslices") = Some (print_int (m_desired_timeslices m));
  k_nv : get (fields b m pay) (B "actual.vertices") = Some (print_int (m_vertices m));
  k_ne : get (fields b m pay) (B "actual.edges") = Some (print_int (m_edges m));
  k_nf : get (fields b m pay) (B "actual.faces") = Some (print_int (m_faces m));
  k_nc : get (fields b m pay) (B "actual.simplices") = Some (print_int (m_simplices m));
  k_mn : get (fields b m pay) (B "actual.minimum_timeslice") = Some (print_int (m_min_time m));
  k_mx : get (fields b m pay) (B "actual.maximum_timeslice") = Some (print_int (m_max_time m));
  k_rad : get (fields b m pay) (B "initial_radius") = Some (print_double (m_radius m));
  k_spa : get (fields b m pay) (B "foliation_spacing") = Some (print_double (m_spacing m));
  k_alpha : get (fields b m pay) (B "alpha") = option_map print_long_double (m_alpha m);
  k_k : get (fields b m pay) (B "k") = option_map print_long_double (m_k m);
  k_lambda : get (fields b m pay) (B "lambda") = option_map print_long_double (m_lambda m);
  k_passes : get (fields b m pay) (B "configured_passes") = option_map print_int (m_passes m);
  k_attempts : get (fields b m pay) (B "configured_attempts") = option_map print_int (m_attempts m);
  k_interval : get (fields b m pay) (B "checkpoint_interval") = option_map print_int (m_interval m);
  k_completed : get (fields b m pay) (B "completed_passes") = option_map print_int (m_completed m);
  k_threads : get (fields b m pay) (B "parallel.max_threads") = option_map print_unsigned (m_threads m);
  k_trace : get (fields b m pay) (B "transition_trace.fnv1a64") = option_map print_hex16 (m_trace m);
  k_count : get (fields b m pay) (B "transition_trace.count") = option_map print_unsigned (m_count m);
  k_placement : get (fields b m pay) (B "placement.fnv1a64") = option_map print_hex16 (m_placement m);
  k_finger : get (fields b m pay) (B "topology.fnv1a64") = option_map print_hex16 (m_fingerprint m)
}.
Lemma looked_all b m pay : looked b m pay.
Proof. constructor; look. Qed.
End Round.
