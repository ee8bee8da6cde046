(** What is promised about written files, said without the model's programs. *)
From Verif Require Import Base Config Text Persist MetaSpec FileSys FileIO.
Local Open Scope Z_scope.
Local Open Scope list_scope.

Section Spec.
Variable L : library.

(** The bytes a triangulation is stored as: CGAL's output, then the labels. *)
Definition stored (t : tri) : text := l_cgal_write L t ++ write_causal_info t.
(** [s] is an acceptable sidecar that records the size and the FNV-1a digest of
    [bytes]. *)
Definition records (s bytes : text) : Prop :=
  exists p, sidecar (l_scan_double L) (l_scan_long_double L) s p /\ p_payload p = payload_integrity bytes.

(** The disk at any point of writing [bytes] to [n], with or without
    provenance ([good] describes a new sidecar), starting from the disk [f0]. Nothing else changes; the
    destination holds the old or the new bytes, whole; a new sidecar, whole,
    appears before the new bytes; without provenance an old sidecar may go, but
    only after the new bytes are there. *)
Definition during_with (good : text -> Prop) (n : Z) (bytes : text) (provenance : bool) (f0 f : files) : Prop :=
  (forall m r, m <> n -> f (m, r) = f0 (m, r)) /\
  ((f (n, Payload) = f0 (n, Payload) /\
    (f (n, Sidecar) = f0 (n, Sidecar) \/
     (provenance = true /\ exists s, f (n, Sidecar) = Some s /\ good s))) \/
   (f (n, Payload) = Some bytes /\
    (if provenance then exists s, f (n, Sidecar) = Some s /\ good s
     else f (n, Sidecar) = f0 (n, Sidecar) \/ f (n, Sidecar) = None))).
Definition during (n : Z) (bytes : text) : bool -> files -> files -> Prop :=
  during_with (fun s => records s bytes) n bytes.

(** Removing [p] was tried and failed. *)
Definition removal_failed (p : path) (tr : list event) : Prop := exists e, In (ORemove p, AFail e) tr.
(** [p] is gone, or could not be removed. *)
Definition gone (p : path) (tr : list event) (f : files) : Prop := f p = None \/ removal_failed p tr.

(** How a write may end. *)
Definition write_ends (n : Z) (t : tri) (provenance : bool) (f0 : files)
  (o : outcome unit) (tr : list event) (f : files) : Prop :=
  match o with
  | Returned _ =>
      f (n, Payload) = Some (stored t) /\
      (if provenance then exists s, f (n, Sidecar) = Some s /\ records s (stored t)
       else f (n, Sidecar) = None \/ (f (n, Sidecar) = f0 (n, Sidecar) /\ removal_failed (n, Sidecar) tr)) /\
      f (n, PayloadTmp) = None /\ gone (n, SidecarTmp) tr f
  | Raised _ =>
      f (n, Payload) = f0 (n, Payload) /\
      (f (n, Sidecar) = f0 (n, Sidecar) \/
       ((exists s, f (n, Sidecar) = Some s /\ records s (stored t)) /\
        In (ORename (n, SidecarTmp) (n, Sidecar), AOk) tr)) /\
      (f = f0 \/ (gone (n, PayloadTmp) tr f /\ gone (n, SidecarTmp) tr f))
  | Ill => True
  end.

(** A read of [n] alone, on a disk that stays as it is, gives [v]. *)
Definition reads (f : files) (n : Z) (v : tri) : Prop :=
  exists tr w', runs 0 (read_file L n) (World f (fun _ => None) (fun _ => false)) tr (Ret_ v) w'.
End Spec.

(** What is assumed of CGAL's operator<< and operator>>: reading back what was
    written for [t], followed by a newline and more text, gives the same
    dimension, counts, points and cells in the same order (the labels are not
    part of CGAL's format), and leaves the rest. *)
Definition cgal_round_trip (L : library) (t : tri) : Prop :=
  exists raw, (forall rest, l_cgal_read L (l_cgal_write L t ++ NL :: rest) = Some (raw, NL :: rest)) /\
    t_dim raw = t_dim t /\ t_edges raw = t_edges t /\ t_facets raw = t_facets t /\ t_valid raw = t_valid t /\
    map fst (t_verts raw) = map fst (t_verts t) /\ map fst (t_cells raw) = map fst (t_cells t).
(** A triangulation in memory: valid, labels of type int, fewer than 2^64
    vertices and cells. *)
Definition storable (t : tri) : Prop :=
  t_valid t = true /\ Z.of_nat (length (t_verts t)) < two64 /\ Z.of_nat (length (t_cells t)) < two64 /\
  Forall (fun v => in_int32 (snd v)) (t_verts t) /\ Forall (fun c => in_int32 (snd c)) (t_cells t).

(** Two texts of different length, or different in exactly one byte. *)
Definition octet (b : Z) : Prop := 0 <= b < 256.
Definition differ_once (a b : text) : Prop :=
  (length a <> length b /\ Z.of_nat (length a) < two64 /\ Z.of_nat (length b) < two64) \/
  (exists pre x y post, a = pre ++ x :: post /\ b = pre ++ y :: post /\ x <> y /\
     Forall octet pre /\ octet x /\ octet y /\ Forall octet post).

(** * Threads *)
(** Whether thread [i] holds mutex [m] after a schedule, and whether it is
    inside a write: read off its own successful operations only. *)
Definition locks (i : nat) (m : mutex) (held : bool) (e : nat * event) : bool :=
  match e with
  | (j, (OLock m', AOk)) => if Nat.eqb j i && mutex_eqb m' m then true else held
  | (j, (OUnlock m', AOk)) => if Nat.eqb j i && mutex_eqb m' m then false else held
  | _ => held
  end.
Definition holds (i : nat) (m : mutex) (tr : list (nat * event)) : bool := fold_left (locks i m) tr false.
Definition begins (i : nat) (inside : bool) (e : nat * event) : bool :=
  match e with
  | (j, (OBegin, AOk)) => if Nat.eqb j i then true else inside
  | (j, (OEnd, AOk)) => if Nat.eqb j i then false else inside
  | _ => inside
  end.
Definition in_write (i : nat) (tr : list (nat * event)) : bool := fold_left (begins i) tr false.
(** Operations that change files. *)
Definition changes_files (o : op) : bool :=
  match o with
  | ORemove _ | OOpen _ | OPut _ _ | OFlush _ _ | OClose _ _ | OUnwind _ _ | ORename _ _ => true
  | _ => false
  end.
(** A thread is done, by returning or by an exception. *)
Definition finished {A} (p : prog A) : Prop := match p with Ret_ _ | Throw _ => True | _ => False end.
(** Some thread can take a step. *)
Definition can_move {A} (ps : pool A) (w : world) : Prop :=
  exists i o k a w', ps i = Do o k /\ effect i o w a w'.

(** * Provenance *)
(** The smallest and the largest label; 0 and 0 when there is none. *)
Definition label_span (t : tri) (lo hi : Z) : Prop :=
  (t_verts t = [] /\ lo = 0 /\ hi = 0) \/
  (In lo (map snd (t_verts t)) /\ In hi (map snd (t_verts t)) /\ Forall (fun x => lo <= x <= hi) (map snd (t_verts t))).
(** [p] tells what was given as [m] about the run and what is true of the
    triangulation [t] and of the stored bytes. *)
Definition tells (m : metadata) (t : tri) (bytes : text) (p : parsed) : Prop :=
  p_artifact p = m_artifact m /\ p_seed p = m_seed m /\ p_init_stream p = m_init_stream m /\
  p_trans_stream p = m_trans_stream m /\ p_topology p = m_topology m /\ p_threads p = m_threads m /\
  p_dimension p = t_dim t /\ p_vertices p = Z.of_nat (length (t_verts t)) /\ p_edges p = t_edges t /\
  p_faces p = t_facets t /\ p_simplices p = Z.of_nat (length (t_cells t)) /\
  label_span t (p_min_time p) (p_max_time p) /\
  i_size (p_payload p) = wrap64 (Z.of_nat (length bytes)) /\ i_digest (p_payload p) = Fnv.fnv1a bytes.
(** [p] is true of the triangulation [t]: dimension, counts, time span and both
    fingerprints. *)
Definition describes (L : library) (p : parsed) (t : tri) : Prop :=
  p_dimension p = t_dim t /\ p_vertices p = Z.of_nat (length (t_verts t)) /\ p_edges p = t_edges t /\
  p_faces p = t_facets t /\ p_simplices p = Z.of_nat (length (t_cells t)) /\
  label_span t (p_min_time p) (p_max_time p) /\
  p_placement p = placement_fingerprint (l_fmt17g L) t /\ topology_fingerprint (l_fmt17g L) t = Val (p_fingerprint p).
(** The sizes fit the type int. *)
Definition counts_fit (t : tri) : Prop :=
  in_int32 (t_dim t) /\ in_int32 (Z.of_nat (length (t_verts t))) /\ in_int32 (t_edges t) /\ in_int32 (t_facets t) /\
  in_int32 (Z.of_nat (length (t_cells t))).
(** Under the name [n]: the triangulation [t], and beside it a sidecar that is
    accepted and says: a checkpoint, of the run from [seed], after [k] passes. *)
Definition checkpoint_stored (L : library) (f : files) (n : Z) (t : tri) (seed k : Z) : Prop :=
  f (n, Payload) = Some (stored L t) /\
  exists s fields p, f (n, Sidecar) = Some s /\ sidecar_fields s fields /\
    accepted (l_scan_double L) (l_scan_long_double L) fields p /\
    In (B "artifact", B "checkpoint") fields /\ int_is fields (B "completed_passes") k /\ 0 <= k /\ p_seed p = seed.
(** What is assumed of the libraries for provenance: floating-point numbers
    survive printing and reading, the build constants are plain words. *)
Definition library_ok (dbl ldbl : fp -> Prop) (L : library) : Prop :=
  float_io dbl (l_print_double L) (l_scan_double L) /\ float_io ldbl (l_print_long_double L) (l_scan_long_double L) /\
  build_ok (l_build L).
(** A checkpoint that does not say after how many passes it was taken. *)
Definition no_pass_count (m : metadata) : Prop :=
  m_artifact m = CHECKPOINT /\ forall k, m_completed m = Some k -> k < 0.
