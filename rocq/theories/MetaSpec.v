(** What a provenance sidecar (".meta" file) must contain to be accepted, and
    what is recovered from it, said without the model's functions. *)
From Verif Require Import Base Text PersistSpec Persist.
From Coq Require Import QArith_base.
Local Open Scope Z_scope.
Local Open Scope list_scope.

(** The text is the header line followed by key=value lines: key and value not
    empty, the key without '='. *)
Definition key_value_line (line : text) (kv : text * text) : Prop :=
  line = fst kv ++ EQ :: snd kv /\ fst kv <> [] /\ snd kv <> [] /\ ~ In EQ (fst kv).
Definition sidecar_fields (t : text) (fields : list (text * text)) : Prop :=
  exists rest ls, first_line t (B "cdt-plusplus-metadata-v1") rest /\ lines rest ls []
                  /\ Forall2 key_value_line ls fields.

Section Accepted.
(** Extraction of a double and of a long double from a stream. *)
Variables scan_double scan_long_double : text -> option (fp * text).
Variable fields : list (text * text).

Definition has (k : text) : Prop := In k (map fst fields).
Definition int_is (k : text) (z : Z) : Prop := exists v, In (k, v) fields /\ signed_numeral v z.
Definition dec_is (k : text) (n : Z) : Prop := exists v, In (k, v) fields /\ unsigned_numeral 10 v n.
Definition hex_is (k : text) (n : Z) : Prop := exists v, In (k, v) fields /\ unsigned_numeral 16 v n.
(** The value is the finite number [q], followed by nothing but white space. *)
Definition float_is (scan : text -> option (fp * text)) (k : text) (q : Q) : Prop :=
  exists v rest, In (k, v) fields /\ scan v = Some (Fin q, rest) /\ blank rest.
(** Two optional fields come together or not at all. *)
Definition together (a b : text) : Prop := has a <-> has b.

(** Everything demanded of the fields, and what each recovered member is. *)
Record accepted (p : parsed) : Prop := {
  ac_no_duplicate : NoDup (map fst fields);
  ac_build : Forall has [B "cdt.version"; B "build.compiler_id"; B "build.compiler_version";
                         B "build.configuration"; B "build.system"; B "build.processor";
                         B "build.standard_library"; B "dependency.cgal_version"];
  ac_resume : In (B "resume_supported", B "false") fields;
  ac_replay : In (B "fresh_topology_replay_supported", B "false") fields;
  ac_start : In (B "transition_replay_requires_identical_start", B "true") fields;
  ac_engine : In (B "random.engine", B "pcg64") fields;
  ac_standard : In (B "build.cxx_standard", B "23") fields;
  ac_artifact : In (B "artifact", match p_artifact p with
                                  | INITIAL_TRIANGULATION => B "initial-triangulation"
                                  | CHECKPOINT => B "checkpoint"
                                  | FINAL_TRIANGULATION => B "final-triangulation"
                                  end) fields;
  ac_topology : In (B "topology", match p_topology p with
                                  | SPHERICAL => B "spherical" | TOROIDAL => B "toroidal" end) fields;
  ac_size : dec_is (B "payload.size") (i_size (p_payload p));
  ac_digest : hex_is (B "payload.fnv1a64") (i_digest (p_payload p));
  ac_seed : dec_is (B "random.seed") (p_seed p);
  ac_init : dec_is (B "random.initialization_stream") (p_init_stream p);
  ac_trans : dec_is (B "random.transition_stream") (p_trans_stream p);
  ac_dimension : int_is (B "dimension") (p_dimension p) /\ 0 < p_dimension p;
  ac_vertices : int_is (B "actual.vertices") (p_vertices p) /\ 0 <= p_vertices p;
  ac_edges : int_is (B "actual.edges") (p_edges p) /\ 0 <= p_edges p;
  ac_faces : int_is (B "actual.faces") (p_faces p) /\ 0 <= p_faces p;
  ac_simplices : int_is (B "actual.simplices") (p_simplices p) /\ 0 <= p_simplices p;
  ac_times : int_is (B "actual.minimum_timeslice") (p_min_time p)
             /\ int_is (B "actual.maximum_timeslice") (p_max_time p) /\ p_min_time p <= p_max_time p;
  ac_desired_simplices : exists z, int_is (B "desired.simplices") z /\ 0 <= z;
  ac_desired_timeslices : exists z, int_is (B "desired.timeslices") z /\ 0 <= z;
  ac_radius : exists q, float_is scan_double (B "initial_radius") q /\ (0 <= q)%Q;
  ac_spacing : exists q, float_is scan_double (B "foliation_spacing") q /\ (0 < q)%Q;
  ac_action : together (B "alpha") (B "k") /\ together (B "k") (B "lambda");
  ac_alpha : has (B "alpha") -> exists q, float_is scan_long_double (B "alpha") q /\ (1 # 2 < q)%Q;
  ac_k : has (B "k") -> exists q, float_is scan_long_double (B "k") q;
  ac_lambda : has (B "lambda") -> exists q, float_is scan_long_double (B "lambda") q;
  ac_run : together (B "configured_passes") (B "checkpoint_interval");
  ac_passes : has (B "configured_passes") -> exists z, int_is (B "configured_passes") z /\ 0 < z;
  ac_interval : has (B "checkpoint_interval") -> exists z, int_is (B "checkpoint_interval") z /\ 0 < z;
  ac_attempts : has (B "configured_attempts") -> exists z, int_is (B "configured_attempts") z /\ 0 < z;
  ac_checkpoint : p_artifact p = CHECKPOINT -> has (B "completed_passes");
  ac_completed : has (B "completed_passes") -> exists z, int_is (B "completed_passes") z /\ 0 <= z;
  ac_threads : match p_threads p with
               | Some n => dec_is (B "parallel.max_threads") n /\ 0 < n
               | None => ~ has (B "parallel.max_threads")
               end;
  ac_transition : together (B "transition_trace.fnv1a64") (B "transition_trace.count");
  ac_trace : has (B "transition_trace.fnv1a64") -> exists n, hex_is (B "transition_trace.fnv1a64") n;
  ac_count : has (B "transition_trace.count") -> exists n, dec_is (B "transition_trace.count") n;
  ac_placement : hex_is (B "placement.fnv1a64") (p_placement p);
  ac_fingerprint : hex_is (B "topology.fnv1a64") (p_fingerprint p)
}.
End Accepted.

(** [t] is an acceptable sidecar from which [p] is recovered. *)
Definition sidecar (scan_double scan_long_double : text -> option (fp * text)) (t : text) (p : parsed) : Prop :=
  exists fields, sidecar_fields t fields /\ accepted scan_double scan_long_double fields p.

(** Provenance a program can hold: members in the range of their C++ types;
    [dbl] and [ldbl] are the values of double and long double. *)
Definition metadata_in_range (dbl ldbl : fp -> Prop) (m : metadata) : Prop :=
  dbl (m_radius m) /\ dbl (m_spacing m) /\
  (forall x, m_alpha m = Some x \/ m_k m = Some x \/ m_lambda m = Some x -> ldbl x) /\
  0 <= m_seed m < two64 /\ 0 <= m_init_stream m < two64 /\ 0 <= m_trans_stream m < two64 /\
  in_int32 (m_dimension m) /\ in_int32 (m_desired_simplices m) /\ in_int32 (m_desired_timeslices m) /\
  in_int32 (m_vertices m) /\ in_int32 (m_edges m) /\ in_int32 (m_faces m) /\ in_int32 (m_simplices m) /\
  in_int32 (m_min_time m) /\ in_int32 (m_max_time m) /\
  (forall z, m_passes m = Some z \/ m_attempts m = Some z \/ m_interval m = Some z \/ m_completed m = Some z -> in_int32 z) /\
  (forall n, m_threads m = Some n \/ m_trace m = Some n \/ m_count m = Some n \/ m_placement m = Some n
             \/ m_fingerprint m = Some n -> 0 <= n < two64).

(** Provenance the reader is meant to accept. *)
Definition metadata_valid (m : metadata) : Prop :=
  0 < m_dimension m /\ 0 <= m_desired_simplices m /\ 0 <= m_desired_timeslices m /\
  0 <= m_vertices m /\ 0 <= m_edges m /\ 0 <= m_faces m /\ 0 <= m_simplices m /\
  m_min_time m <= m_max_time m /\
  (exists q, m_radius m = Fin q /\ (0 <= q)%Q) /\ (exists q, m_spacing m = Fin q /\ (0 < q)%Q) /\
  match m_alpha m, m_k m, m_lambda m with
  | Some a, Some k, Some l => (exists q, a = Fin q /\ (1 # 2 < q)%Q) /\ isfinite k = true /\ isfinite l = true
  | None, None, None => True
  | _, _, _ => False
  end /\
  match m_passes m, m_interval m with
  | Some a, Some b => 0 < a /\ 0 < b
  | None, None => True
  | _, _ => False
  end /\
  (forall z, m_attempts m = Some z -> 0 < z) /\
  (m_artifact m = CHECKPOINT -> m_completed m <> None) /\
  (forall z, m_completed m = Some z -> 0 <= z) /\
  (forall n, m_threads m = Some n -> 0 < n) /\
  (m_trace m = None <-> m_count m = None) /\
  m_placement m <> None /\ m_fingerprint m <> None.

(** What reading gives back of written provenance. *)
Definition recovered (m : metadata) (payload : integrity) (placement fingerprint : Z) : parsed :=
  Parsed payload (m_artifact m) (m_seed m) (m_init_stream m) (m_trans_stream m) (m_topology m)
    (m_dimension m) (m_vertices m) (m_edges m) (m_faces m) (m_simplices m) (m_min_time m) (m_max_time m)
    (m_threads m) placement fingerprint.

(** Strings that can stand as a value: not empty, no newline. *)
Definition value_text (v : text) : Prop := v <> [] /\ ~ In NL v.
Definition build_ok (b : build_info) : Prop :=
  value_text (b_version b) /\ value_text (b_compiler_id b) /\ value_text (b_compiler_version b) /\
  value_text (b_configuration b) /\ value_text (b_system b) /\ value_text (b_processor b) /\
  value_text (b_library b) /\ value_text (b_cgal b).

(** What is assumed of fmt's floating-point formatting and of stream
    extraction: finite values come back exactly, other values do not come back
    as numbers. *)
Definition float_io (values : fp -> Prop) (print : fp -> text) (scan : text -> option (fp * text)) : Prop :=
  (forall x, values x -> value_text (print x)) /\
  (forall q, values (Fin q) -> scan (print (Fin q)) = Some (Fin q, [])) /\
  (forall x y rest, values x -> isfinite x = false -> scan (print x) = Some (y, rest) -> isfinite y = false).
