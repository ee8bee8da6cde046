(** A file system with failures and crashes, the two mutexes and the
    thread-local guard of include/Utilities.hpp, and programs over them. *)
From Verif Require Import Base Config Text.
Local Open Scope Z_scope.
Local Open Scope list_scope.

(** The four files write_payload uses for one destination
    (include/Utilities.hpp:1526-1530, metadata_filename 145-152): the
    destination, its ".meta" sidecar, and the ".tmp" of each. Destinations are
    numbered; no destination is assumed to be the temporary or the sidecar of
    another. *)
Inductive role := Payload | Sidecar | PayloadTmp | SidecarTmp.
Definition path : Type := (Z * role)%type.
Definition role_eqb (a b : role) : bool :=
  match a, b with
  | Payload, Payload | Sidecar, Sidecar | PayloadTmp, PayloadTmp | SidecarTmp, SidecarTmp => true
  | _, _ => false
  end.
Definition path_eqb (p q : path) : bool := (fst p =? fst q) && role_eqb (snd p) (snd q).
(** What is on disk, which survives a crash of the process. No data are lost
    after a successful close or rename (the code never calls fsync). *)
Definition files : Type := path -> option text.
Definition set (f : files) (p : path) (c : option text) : files :=
  fun q => if path_eqb p q then c else f q.

(** write_file_mutex (1224-1228) and the mutex of read_file (1941). *)
Inductive mutex := WriteMutex | ReadMutex.
(** The process: the disk, the owner of each mutex, and the thread_local flag
    write_file_active (1230-1234) of each thread. *)
Record world := World { w_files : files; w_owner : mutex -> option nat; w_active : nat -> bool }.

(** Operations on the world. *)
Inductive op :=
| OCompute                      (* work in memory *)
| OPrint                        (* fmt::print *)
| OBegin | OEnd                 (* constructor and destructor of WriteFileOperation, 1236-1256 *)
| OLock (m : mutex) | OUnlock (m : mutex)
| ORemove (p : path)            (* filesystem::remove with an error_code *)
| OOpen (p : path)              (* ofstream with trunc *)
| OPut (p : path) (t : text)    (* everything streamed so far is [t] *)
| OFlush (p : path) (t : text)
| OClose (p : path) (t : text)
| OUnwind (p : path) (t : text) (* the destructor of an ofstream still open *)
| ORead (p : path)              (* the whole of a file *)
| OExists (p : path)
| ORename (p q : path).         (* filesystem::rename: atomic *)
Inductive answer := AOk | AText (t : text) | ABool (b : bool) | AFail (e : exn).

Definition with_files (w : world) (f : files) : world := World f (w_owner w) (w_active w).
Definition mutex_eqb (a b : mutex) : bool :=
  match a, b with WriteMutex, WriteMutex | ReadMutex, ReadMutex => true | _, _ => false end.
Definition with_owner (w : world) (m : mutex) (o : option nat) : world :=
  World (w_files w) (fun m' => if mutex_eqb m m' then o else w_owner w m') (w_active w).
Definition with_active (w : world) (i : nat) (b : bool) : world :=
  World (w_files w) (w_owner w) (fun j => if Nat.eqb i j then b else w_active w j).

(** What an operation of thread [i] may do. Every operation may fail, with any
    exception. Buffered output puts some initial part of the streamed bytes on
    disk, whether or not it fails; a flush or close that succeeds puts all of
    them there. A crash in the middle of buffered output leaves the same states
    as a failure of it, so crashes need only be considered between operations. *)
Inductive effect (i : nat) : op -> world -> answer -> world -> Prop :=
| e_compute w : effect i OCompute w AOk w
| e_compute_fail w e : effect i OCompute w (AFail e) w
| e_print w : effect i OPrint w AOk w
| e_print_fail w e : effect i OPrint w (AFail e) w
| e_begin w : w_active w i = false -> effect i OBegin w AOk (with_active w i true)
| e_begin_fail w : w_active w i = true -> effect i OBegin w (AFail LogicError) w
| e_end w : effect i OEnd w AOk (with_active w i false)
| e_lock w m : w_owner w m = None -> effect i (OLock m) w AOk (with_owner w m (Some i))
| e_unlock w m : w_owner w m = Some i -> effect i (OUnlock m) w AOk (with_owner w m None)
| e_remove w p : effect i (ORemove p) w AOk (with_files w (set (w_files w) p None))
| e_remove_fail w p e : effect i (ORemove p) w (AFail e) w
| e_open w p : effect i (OOpen p) w AOk (with_files w (set (w_files w) p (Some [])))
| e_open_fail w p e : effect i (OOpen p) w (AFail e) w
| e_put w p t a b x : t = a ++ b -> x = AOk \/ (exists e, x = AFail e) ->
    effect i (OPut p t) w x (with_files w (set (w_files w) p (Some a)))
| e_flush w p t : effect i (OFlush p t) w AOk (with_files w (set (w_files w) p (Some t)))
| e_flush_fail w p t a b e : t = a ++ b ->
    effect i (OFlush p t) w (AFail e) (with_files w (set (w_files w) p (Some a)))
| e_close w p t : effect i (OClose p t) w AOk (with_files w (set (w_files w) p (Some t)))
| e_close_fail w p t a b e : t = a ++ b ->
    effect i (OClose p t) w (AFail e) (with_files w (set (w_files w) p (Some a)))
| e_unwind w p t a b : t = a ++ b ->
    effect i (OUnwind p t) w AOk (with_files w (set (w_files w) p (Some a)))
| e_read w p t : w_files w p = Some t -> effect i (ORead p) w (AText t) w
| e_read_fail w p e : effect i (ORead p) w (AFail e) w
| e_exists w p : effect i (OExists p) w
    (ABool (match w_files w p with Some _ => true | None => false end)) w
| e_exists_fail w p e : effect i (OExists p) w (AFail e) w
| e_rename w p q t : w_files w p = Some t ->
    effect i (ORename p q) w AOk (with_files w (set (set (w_files w) p None) q (Some t)))
| e_rename_fail w p q e : effect i (ORename p q) w (AFail e) w.

(** Programs. *)
Inductive prog (A : Type) : Type :=
| Ret_ (a : A) | Throw (e : exn) | Stuck
| Do (o : op) (k : answer -> prog A).
Arguments Ret_ {A} a. Arguments Throw {A} e. Arguments Stuck {A}. Arguments Do {A} o k.
(** How a program ends: Ill is undefined behaviour. *)
Inductive outcome (A : Type) : Type := Returned (a : A) | Raised (e : exn) | Ill.
Arguments Returned {A} a. Arguments Raised {A} e. Arguments Ill {A}.
Definition give {A} (o : outcome A) : prog A :=
  match o with Returned a => Ret_ a | Raised e => Throw e | Ill => Stuck end.

(** Run [p], then continue according to how it ended. *)
Fixpoint after {A C} (p : prog A) (k : outcome A -> prog C) : prog C :=
  match p with
  | Ret_ a => k (Returned a)
  | Throw e => k (Raised e)
  | Stuck => Stuck
  | Do o f => Do o (fun a => after (f a) k)
  end.
(** Sequencing, try/catch(...) with rethrow after [h], and RAII. *)
Definition seqp {A C} (p : prog A) (f : A -> prog C) : prog C :=
  after p (fun o => match o with Returned a => f a | Raised e => Throw e | Ill => Stuck end).
Notation "'do' x <- p ; q" := (seqp p (fun x => q)) (at level 200, x name, p at level 100, q at level 200, right associativity).
Definition on_exception {A} (p : prog A) (h : prog unit) : prog A :=
  after p (fun o => match o with Raised e => after h (fun _ => Throw e) | o => give o end).
Definition finally {A} (p : prog A) (o : op) : prog A :=
  after p (fun r => Do o (fun _ => give r)).
Definition act (o : op) : prog unit :=
  Do o (fun a => match a with AFail e => Throw e | _ => Ret_ tt end).
Definition ignoring (o : op) : prog unit := Do o (fun _ => Ret_ tt).
Definition guarded {A} (enter leave : op) (body : prog A) : prog A :=
  seqp (act enter) (fun _ => finally body leave).
(** A computation, which may also run out of memory. *)
Definition calc {A} (c : checked A) : prog A :=
  seqp (act OCompute) (fun _ => match c with Val a => Ret_ a | Throws e => Throw e | Undef => Stuck end).
Definition read_all (p : path) : prog text :=
  Do (ORead p) (fun a => match a with AText t => Ret_ t | AFail e => Throw e | _ => Stuck end).
Definition file_exists (p : path) : prog bool :=
  Do (OExists p) (fun a => match a with ABool b => Ret_ b | AFail e => Throw e | _ => Stuck end).

(** Executions of thread [i] alone: any number of operations, so the last
    program and world are those at any crash point. *)
Definition event : Type := (op * answer)%type.
Inductive runs {A} (i : nat) : prog A -> world -> list event -> prog A -> world -> Prop :=
| runs_here p w : runs i p w [] p w
| runs_step o k w a w1 tr p' w' : effect i o w a w1 -> runs i (k a) w1 tr p' w' ->
    runs i (Do o k) w ((o, a) :: tr) p' w'.

(** Executions of several threads: at each step one of them performs its next
    operation. A pool gives each thread what it still has to do. *)
Definition pool (A : Type) : Type := nat -> prog A.
Definition update {A} (ps : pool A) (i : nat) (p : prog A) : pool A :=
  fun j => if Nat.eqb i j then p else ps j.
Inductive steps {A} : pool A -> world -> list (nat * event) -> pool A -> world -> Prop :=
| steps_here ps w : steps ps w [] ps w
| steps_more ps w i o k a w1 tr ps' w' :
    ps i = Do o k -> effect i o w a w1 ->
    steps (update ps i (k a)) w1 tr ps' w' -> steps ps w ((i, (o, a)) :: tr) ps' w'.
