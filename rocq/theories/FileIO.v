(** write_file and read_file (include/Utilities.hpp:1204-1221, 1477-1592,
    1733-1951) as programs over the file system. *)
From Verif Require Import Base Config Text Persist FileSys.
Local Open Scope Z_scope.
Local Open Scope list_scope.

(** The libraries' formatting and parsing, and the build constants: see Persist.v. *)
Record library := Library {
  l_fmt17g : fp -> text;
  l_print_double : fp -> text; l_print_long_double : fp -> text;
  l_scan_double : text -> option (fp * text); l_scan_long_double : text -> option (fp * text);
  l_cgal_write : tri -> text; l_cgal_read : text -> option (tri * text);
  l_build : build_info
}.

Section IO.
Variable L : library.
Notation metadata_text_ := (metadata_text (l_print_double L) (l_print_long_double L) (l_build L)).
Notation read_metadata_ := (read_persistence_metadata (l_scan_double L) (l_scan_long_double L)).
Notation reconcile_ := (reconcile (l_fmt17g L)).
Notation validate_metadata_ := (validate_persistence_metadata (l_fmt17g L)).
Notation parse_payload_ := (parse_payload (l_cgal_read L)).
Notation payload_text_ := (payload_text (l_cgal_write L)).
Notation validate_payload_ := (validate_serialized_payload (l_fmt17g L) (l_cgal_read L)).

Definition same_integrity (a b : integrity) : bool := (i_size a =? i_size b) && (i_digest a =? i_digest b).

(** The stream opened on [p] receives [bytes]; when something throws before the
    stream is closed its destructor runs during unwinding (1533-1562 and
    1477-1510). [serialize] is the code operator<< runs besides formatting. *)
Definition write_stream (p : path) (bytes : text) (serialize : prog unit) : prog unit :=
  do _u <- act (OOpen p) ;
  on_exception
    (do _u <- serialize ;
     do _u <- act (OPut p bytes) ;
     do _u <- act (OFlush p bytes) ;
     act (OClose p bytes))
    (ignoring (OUnwind p bytes)).

(** include/Utilities.hpp:1485-1516 [write_text]. *)
Definition write_text (p : path) (contents : text) : prog unit := write_stream p contents (Ret_ tt).

(** The body of the try block, 1533-1601. *)
Definition publish (serialize : prog unit) (n : Z) (t : tri) (md : option metadata) : prog unit :=
  do _u <- write_stream (n, PayloadTmp) (payload_text_ t) serialize ;
  do c <- read_all (n, PayloadTmp) ;
  do _u <- calc (validate_payload_ c t) ;
  do _u <- (match md with
            | Some m =>
                do c <- read_all (n, PayloadTmp) ;
                do _u <- act OCompute ;
                do _u <- write_text (n, SidecarTmp) (metadata_text_ m (payload_integrity c)) ;
                do s <- read_all (n, SidecarTmp) ;
                do recorded <- calc (read_metadata_ s) ;
                if negb (same_integrity (p_payload recorded) (payload_integrity c)) then Throw FilesystemError
                else do _u <- calc (validate_metadata_ recorded t) ;
                     act (ORename (n, SidecarTmp) (n, Sidecar))
            | None => Ret_ tt
            end) ;
  do _u <- act (ORename (n, PayloadTmp) (n, Payload)) ;
  match md with Some _ => Ret_ tt | None => ignoring (ORemove (n, Sidecar)) end.

(** The temporaries are removed, errors ignored (1529-1531, 1604-1606). *)
Definition clean_up (n : Z) : prog unit :=
  do _u <- ignoring (ORemove (n, PayloadTmp)) ; ignoring (ORemove (n, SidecarTmp)).

(** include/Utilities.hpp:1519-1609: [write_payload] once the lock is held. *)
Definition write_locked (serialize : prog unit) (n : Z) (t : tri) (md : option metadata) : prog unit :=
  do resolved <- (match md with
                  | Some m => do m' <- calc (reconcile_ m t) ; Ret_ (Some m')
                  | None => Ret_ None
                  end) ;
  do _u <- clean_up n ;
  on_exception (publish serialize n t resolved) (clean_up n).

(** include/Utilities.hpp:1518-1608 [write_payload]; also write_file with an
    explicit filename (1751-1779). *)
Definition write_payload (serialize : prog unit) (n : Z) (t : tri) (md : option metadata) : prog unit :=
  guarded OBegin OEnd
    (do _u <- act OPrint ;
     guarded (OLock WriteMutex) (OUnlock WriteMutex) (write_locked serialize n t md)).

(** include/Utilities.hpp:1204-1221 [validate_payload_integrity]. *)
Definition validate_payload_integrity (n : Z) : prog (option parsed) :=
  do present <- file_exists (n, Sidecar) ;
  if present then
    do s <- read_all (n, Sidecar) ;
    do expected <- calc (read_metadata_ s) ;
    do c <- read_all (n, Payload) ;
    if same_integrity (p_payload expected) (payload_integrity c) then Ret_ (Some expected)
    else Throw FilesystemError
  else Ret_ None.

(** include/Utilities.hpp:1937-1951 [read_file]. *)
Definition read_file (n : Z) : prog tri :=
  do _u <- act OPrint ;
  guarded (OLock ReadMutex) (OUnlock ReadMutex)
    (do md <- validate_payload_integrity n ;
     do c <- read_all (n, Payload) ;
     do t <- calc (parse_payload_ c) ;
     match md with
     | Some p => do _u <- calc (validate_metadata_ p t) ; Ret_ t
     | None => Ret_ t
     end).

(** include/Utilities.hpp:1912-1928 [write_file(universe, metadata)]; the name
    is the one make_filename gives ([n], or [checkpoint_name k] when the
    artifact is a checkpoint after [k] passes). *)
Definition write_artifact (serialize : prog unit) (n : Z) (checkpoint_name : Z -> Z) (t : tri) (m : metadata)
  : prog unit :=
  match m_artifact m with
  | CHECKPOINT => match m_completed m with
                  | None => Throw InvalidArgument
                  | Some k => write_payload serialize (checkpoint_name k) t (Some m)
                  end
  | _ => write_payload serialize n t (Some m)
  end.
(** include/Utilities.hpp:1893-1902 [write_file(universe, seed, completed)]:
    the metadata [m] is made by make_reproducibility_metadata. *)
Definition write_checkpoint (serialize : prog unit) (checkpoint_name : Z -> Z) (t : tri) (m : metadata) (k : Z)
  : prog unit :=
  write_payload serialize (checkpoint_name k) t
    (Some (Metadata CHECKPOINT (m_seed m) (m_init_stream m) (m_trans_stream m) (m_topology m) (m_dimension m)
       (m_desired_simplices m) (m_desired_timeslices m) (m_vertices m) (m_edges m) (m_faces m) (m_simplices m)
       (m_min_time m) (m_max_time m) (m_radius m) (m_spacing m) (m_alpha m) (m_k m) (m_lambda m) (m_passes m)
       (m_attempts m) (m_interval m) (Some k) (m_threads m) (m_trace m) (m_count m) (m_placement m) (m_fingerprint m))).

(** Code that uses the library: any mixture of computation, writes and reads,
    whatever it does with their outcomes. The serialization code inside a write
    may itself use the library. [may_write] says what it writes where. *)
Inductive client (may_write : Z -> tri -> Prop) : forall A, prog A -> Prop :=
| client_ret A a : client may_write A (Ret_ a)
| client_throw A e : client may_write A (Throw e)
| client_compute A k : (forall a, client may_write A (k a)) -> client may_write A (Do OCompute k)
| client_write A serialize n t md k : may_write n t ->
    client may_write unit serialize -> (forall o, client may_write A (k o)) ->
    client may_write A (after (write_payload serialize n t md) k)
| client_read A n k : (forall o, client may_write A (k o)) -> client may_write A (after (read_file n) k).
End IO.
