(** Concrete instances for the examples: a small library, a small
    triangulation, and execution of programs step by step. *)
From Verif Require Import Base Config Fnv Text TextFacts Persist PersistFacts MetaSpec FileSys FileIO FsSpec FsFacts FsProps.
From Coq Require Import QArith_base.
Local Open Scope Z_scope.
Local Open Scope list_scope.

(** * Execution *)
(** The successful effect of an operation, or with [fault] a failing one that
    leaves the disk as it is. *)
Definition succeed (i : nat) (fault : bool) (o : op) (w : world) : option (answer * world) :=
  let put p t := Some (AOk, with_files w (FileSys.set (w_files w) p t)) in
  if fault then
    match o with
    | OCompute | OPrint | ORemove _ | OOpen _ | ORead _ | OExists _ | ORename _ _ => Some (AFail FilesystemError, w)
    | OPut p t | OFlush p t | OClose p t => Some (AFail FilesystemError, with_files w (FileSys.set (w_files w) p (Some [])))
    | _ => None
    end
  else match o with
  | OCompute | OPrint => Some (AOk, w)
  | OBegin => if w_active w i then Some (AFail LogicError, w) else Some (AOk, with_active w i true)
  | OEnd => Some (AOk, with_active w i false)
  | OLock m => match w_owner w m with None => Some (AOk, with_owner w m (Some i)) | Some _ => None end
  | OUnlock m => match w_owner w m with
                 | Some j => if Nat.eqb j i then Some (AOk, with_owner w m None) else None
                 | None => None end
  | ORemove p => put p None
  | OOpen p => put p (Some [])
  | OPut p t | OFlush p t | OClose p t | OUnwind p t => put p (Some t)
  | ORead p => match w_files w p with Some t => Some (AText t, w) | None => Some (AFail FilesystemError, w) end
  | OExists p => Some (ABool (match w_files w p with Some _ => true | None => false end), w)
  | ORename p q => match w_files w p with
                   | Some t => Some (AOk, with_files w (FileSys.set (FileSys.set (w_files w) p None) q (Some t)))
                   | None => Some (AFail FilesystemError, w) end
  end.
Lemma succeed_effect i fault o w a w' : succeed i fault o w = Some (a, w') -> effect i o w a w'.
Proof.
  destruct fault, o; cbn [succeed]; try discriminate; try (intros [= <- <-]; constructor).
  all: try (intros [= <- <-]; first [apply (e_put i w p t [] t); [reflexivity|right; eauto]
    | apply (e_flush_fail i w p t [] t); reflexivity | apply (e_close_fail i w p t [] t); reflexivity
    | apply (e_put i w p t t []); [symmetry; apply app_nil_r|left; reflexivity]
    | apply (e_unwind i w p t t []); symmetry; apply app_nil_r]).
  - destruct (w_active w i) eqn:E; intros [= <- <-]; constructor; exact E.
  - destruct (w_owner w m) eqn:E; [discriminate|]. intros [= <- <-]. constructor; exact E.
  - destruct (w_owner w m) as [j|] eqn:E; [|discriminate]. destruct (Nat.eqb_spec j i) as [->|]; [|discriminate].
    intros [= <- <-]. constructor; exact E.
  - destruct (w_files w p) eqn:E; intros [= <- <-]; constructor; exact E.
  - destruct (w_files w p) eqn:E; intros [= <- <-]; constructor; exact E.
Qed.
(** Run to the end; [faults k] makes the k-th operation fail. *)
Fixpoint exec {A} (fuel : nat) (i : nat) (faults : nat -> bool) (k : nat) (p : prog A) (w : world)
  : option (list event * prog A * world) :=
  match p with
  | Do o f =>
      match fuel with
      | O => Some ([], p, w)
      | S fuel' =>
          match succeed i (faults k) o w with
          | Some (a, w1) =>
              match exec fuel' i faults (S k) (f a) w1 with
              | Some (tr, p', w') => Some ((o, a) :: tr, p', w')
              | None => None
              end
          | None => None
          end
      end
  | _ => Some ([], p, w)
  end.
Lemma exec_runs {A} fuel i faults : forall k (p : prog A) w tr p' w',
  exec fuel i faults k p w = Some (tr, p', w') -> runs i p w tr p' w'.
Proof.
  induction fuel as [|fuel IH]; intros k p w tr p' w' H; destruct p as [a|e| |o f]; cbn in H;
    try (injection H as <- <- <-; apply runs_here).
  destruct (succeed i (faults k) o w) as [[a w1]|] eqn:E; [|discriminate].
  destruct (exec fuel i faults (S k) (f a) w1) as [[[tr1 p1] w2]|] eqn:E2; [|discriminate].
  injection H as <- <- <-. eapply runs_step; [eapply succeed_effect, E|eapply IH, E2].
Qed.

(** * A library whose floating-point numbers are small integers *)
Definition toy_float (x : fp) : Prop := exists z, in_int32 z /\ x = Fin (inject_Z z).
Definition toy_print_float (x : fp) : text := match x with Fin q => print_int (Qnum q) | _ => B "nan" end.
Definition toy_scan (t : text) : option (fp * text) :=
  match parse_int t with Val z => Some (Fin (inject_Z z), []) | _ => None end.
Lemma toy_float_io : float_io toy_float toy_print_float toy_scan.
Proof.
  split; [|split].
  - intros x (z & Hz & ->). pose proof (signed_numeral_no _ _ (print_int_numeral z Hz)) as (A & N & _). split; assumption.
  - intros q (z & Hz & [= ->]). unfold toy_print_float, toy_scan. cbn [Qnum inject_Z].
    rewrite (proj2 (parse_int_spec _ _) (print_int_numeral z Hz)). reflexivity.
  - intros x y rest (z & Hz & ->). discriminate.
Qed.
(** CGAL's format replaced by one byte per number. *)
Definition coord (x : fp) : Z := match x with Fin q => Qnum q | _ => 0 end.
Definition toy_cgal_write (t : tri) : text :=
  [t_dim t; t_edges t; t_facets t; Z.of_nat (length (t_verts t)); Z.of_nat (length (t_cells t))]
  ++ concat (map (fun v => let '(x, y, z) := fst v in [coord x; coord y; coord z]) (t_verts t))
  ++ concat (map (fun c => map Z.of_nat (fst c)) (t_cells t)).
Fixpoint read_points (n : nat) (s : text) : option (list (point * Z) * text) :=
  match n, s with
  | O, _ => Some ([], s)
  | S m, x :: y :: z :: r =>
      match read_points m r with
      | Some (l, u) => Some ((Fin (inject_Z x), Fin (inject_Z y), Fin (inject_Z z), 0) :: l, u)
      | None => None end
  | _, _ => None
  end.
Fixpoint read_cells (n : nat) (s : text) : option (list (list nat * Z) * text) :=
  match n, s with
  | O, _ => Some ([], s)
  | S m, x :: y :: z :: t :: r =>
      match read_cells m r with
      | Some (l, u) => Some (([Z.to_nat x; Z.to_nat y; Z.to_nat z; Z.to_nat t], 0) :: l, u)
      | None => None end
  | _, _ => None
  end.
Definition toy_cgal_read (s : text) : option (tri * text) :=
  match s with
  | d :: e :: f :: nv :: nc :: r =>
      match read_points (Z.to_nat nv) r with
      | Some (vs, r1) => match read_cells (Z.to_nat nc) r1 with
                         | Some (cs, r2) => Some (Tri d e f true vs cs, r2)
                         | None => None end
      | None => None end
  | _ => None
  end.
Definition toy_build : build_info :=
  Build (B "1.0.0") (B "GNU") (B "14") (B "Release") (B "Linux") (B "x86_64") (B "libstdc++") (B "6.1").
Lemma toy_build_ok : build_ok toy_build.
Proof. unfold build_ok, value_text. cbn. repeat split; try discriminate; intros H; repeat (destruct H as [H|H]; [discriminate|]); exact H. Qed.
Definition toy_library : library :=
  Library toy_print_float toy_print_float toy_print_float toy_scan toy_scan toy_cgal_write toy_cgal_read toy_build.
Lemma toy_library_ok : library_ok toy_float toy_float toy_library.
Proof. split; [exact toy_float_io|]. split; [exact toy_float_io|exact toy_build_ok]. Qed.

(** Two tetrahedra on a common facet, and one tetrahedron. *)
Definition pt (x y z : Z) : point := (Fin (inject_Z x), Fin (inject_Z y), Fin (inject_Z z)).
Definition two_cells : tri :=
  Tri 3 9 7 true
    [(pt 0 0 0, 1); (pt 2 0 0, 2); (pt 0 2 0, 2); (pt 0 0 2, 2); (pt 2 2 2, 3)]
    [([0; 1; 2; 3]%nat, 13); ([1; 2; 3; 4]%nat, 31)].
Definition one_cell : tri :=
  Tri 3 6 4 true [(pt 0 0 0, 1); (pt 2 0 0, 2); (pt 0 2 0, 2); (pt 0 0 2, 2)] [([0; 1; 2; 3]%nat, 13)].
Lemma two_cells_cgal : cgal_round_trip toy_library two_cells.
Proof. eexists. split; [intros rest; cbn; reflexivity|]. repeat split. Qed.
Lemma two_cells_storable : storable two_cells.
Proof. split; [reflexivity|]. split; [reflexivity|]. split; [reflexivity|]. split; cbn; repeat constructor; cbn; unfold in_int32, INT32_MIN, INT32_MAX; lia. Qed.

(** Provenance of a run, as given to write_file. *)
Definition one : fp := Fin (inject_Z 1).
Definition sample_meta (kind : artifact_kind) (completed : option Z) : metadata :=
  Metadata kind 42 1 2 SPHERICAL 3 2 3 0 0 0 0 0 0 one one None None None
    (Some 10) None (Some 5) completed None None None None None.
Lemma sample_meta_range kind k : in_int32 k -> metadata_in_range toy_float toy_float (sample_meta kind (Some k)).
Proof.
  intros Hk. unfold metadata_in_range. cbn.
  assert (One : toy_float one) by (exists 1; split; [unfold in_int32, INT32_MIN, INT32_MAX; lia|reflexivity]).
  split; [exact One|]. split; [exact One|]. split; [intros x [H|[H|H]]; discriminate|].
  unfold in_int32, INT32_MIN, INT32_MAX, two64 in *. do 12 (split; [lia|]).
  split; [intros z [H|[H|[H|H]]]; try discriminate; injection H as <-; lia|].
  intros z H. repeat (destruct H as [H|H]; [discriminate|]). discriminate.
Qed.

Definition empty_disk : files := fun _ => None.
Definition at_rest (f : files) : world := World f (fun _ => None) (fun _ => false).
Lemma at_rest_idle f : idle (at_rest f). Proof. split; reflexivity. Qed.
Definition no_faults (_ : nat) : bool := false.
Definition nothing : prog unit := Ret_ tt.
Definition anything (_ : Z) (_ : tri) : Prop := True.
Lemma nothing_client L Wr : client L Wr unit nothing. Proof. constructor. Qed.

Definition ended {A} (r : option (list event * prog A * world)) : option (outcome A) :=
  match r with
  | Some (_, Ret_ a, _) => Some (Returned a)
  | Some (_, Throw e, _) => Some (Raised e)
  | _ => None
  end.
Definition disk_after {A} (r : option (list event * prog A * world)) : files :=
  match r with Some (_, _, w) => w_files w | None => empty_disk end.
Definition trace_of {A} (r : option (list event * prog A * world)) : list event :=
  match r with Some (tr, _, _) => tr | None => [] end.
Definition world_after {A} (r : option (list event * prog A * world)) : world :=
  match r with Some (_, _, w) => w | None => at_rest empty_disk end.
Lemma exec_returned {A} fuel i faults (p : prog A) w a : ended (exec fuel i faults 0 p w) = Some (Returned a) ->
  runs i p w (trace_of (exec fuel i faults 0 p w)) (Ret_ a) (world_after (exec fuel i faults 0 p w)).
Proof.
  destruct (exec fuel i faults 0 p w) as [[[tr p'] w']|] eqn:E; cbn; [|discriminate].
  destruct p' as [b|e| |]; try discriminate. intros [= ->]. eapply exec_runs, E.
Qed.
Lemma exec_raised {A} fuel i faults (p : prog A) w e : ended (exec fuel i faults 0 p w) = Some (Raised e) ->
  runs i p w (trace_of (exec fuel i faults 0 p w)) (Throw e) (world_after (exec fuel i faults 0 p w)).
Proof.
  destruct (exec fuel i faults 0 p w) as [[[tr p'] w']|] eqn:E; cbn; [|discriminate].
  destruct p' as [b|e'| |]; try discriminate. intros [= ->]. eapply exec_runs, E.
Qed.

(** A first write of [one_cell], then writes of [two_cells] over it. *)
Definition write_one := exec 100 0 no_faults 0 (write_payload toy_library nothing 7 one_cell (Some (sample_meta FINAL_TRIANGULATION None))) (at_rest empty_disk).
Definition disk_one : files := disk_after write_one.
Definition write_two faults fuel := exec fuel 0 faults 0
  (write_payload toy_library nothing 7 two_cells (Some (sample_meta CHECKPOINT (Some 5)))) (at_rest disk_one).
Definition reading f := exec 100 0 no_faults 0 (read_file toy_library 7) (at_rest f).

(** A disk on which one byte of the payload of [disk_one] is different. *)
Definition flipped : text := match stored toy_library one_cell with [] => [] | x :: r => x + 1 :: r end.
Definition disk_flipped : files := FileSys.set disk_one (7, Payload) (Some flipped).

(** One thread's run is a schedule. *)
Lemma runs_steps {A} i (p : prog A) w tr p' w' : runs i p w tr p' w' -> forall ps : pool A, ps i = p ->
  exists ps', steps ps w (map (pair i) tr) ps' w' /\ ps' i = p' /\ forall j, j <> i -> ps' j = ps j.
Proof.
  intros H. induction H as [p w|o k w a w1 tr p' w' He H IH]; intros ps E.
  - exists ps. split; [apply steps_here|auto].
  - destruct (IH (update ps i (k a))) as (ps' & H1 & H2 & H3); [unfold update; rewrite Nat.eqb_refl; reflexivity|].
    exists ps'. split; [cbn; eapply steps_more; eassumption|]. split; [exact H2|].
    intros j Hj. rewrite (H3 j Hj). unfold update. destruct (Nat.eqb_spec i j); congruence.
Qed.
Lemma steps_trans {A} (ps : pool A) w tr ps1 w1 : steps ps w tr ps1 w1 -> forall tr2 ps2 w2, steps ps1 w1 tr2 ps2 w2 ->
  steps ps w (tr ++ tr2) ps2 w2.
Proof. intros H. induction H; intros tr2 ps2 w2 K; [exact K|]. cbn. eapply steps_more; eauto. Qed.

(** Two threads that write different triangulations to the same place. *)
Definition finish {A} (o : outcome A) : prog A :=
  match o with Returned a => Ret_ a | Raised e => Throw e | Ill => Throw RuntimeError end.
Definition writers : pool unit := fun i =>
  match i with
  | O => after (write_payload toy_library nothing 7 one_cell None) finish
  | S O => after (write_payload toy_library nothing 7 two_cells None) finish
  | _ => Ret_ tt
  end.
Definition writers_write (n : Z) (t : tri) : Prop := n = 7 /\ (t = one_cell \/ t = two_cells).
Lemma finish_client Wr {A} (o : outcome A) : client toy_library Wr A (finish o).
Proof. destruct o; constructor. Qed.
Lemma writers_clients i : client toy_library writers_write unit (writers i).
Proof.
  destruct i as [|[|i]]; cbn [writers]; [| |constructor];
    (apply client_write; [split; auto|apply nothing_client|apply finish_client]).
Qed.
(** Thread 0 has the mutex, thread 1 waits for it. *)
Lemma writers_wait : exists tr ps w, steps writers (at_rest empty_disk) tr ps w /\
  holds 0%nat WriteMutex tr = true /\ in_write 0%nat tr = true /\ in_write 1%nat tr = true /\
  exists k, ps 1%nat = Do (OLock WriteMutex) k /\ w_owner w WriteMutex = Some 0%nat.
Proof.
  destruct (exec 3%nat 0%nat no_faults 0%nat (writers 0%nat) (at_rest empty_disk)) as [[[tr p] w]|] eqn:E; [|discriminate].
  pose proof E as E0. cbn in E0. injection E0 as <- <- <-.
  apply exec_runs in E. destruct (runs_steps _ _ _ _ _ _ E writers eq_refl) as (ps1 & S1 & _ & O1).
  set (w1 := with_owner _ _ _) in S1.
  destruct (exec 2%nat 1%nat no_faults 0%nat (writers 1%nat) w1) as [[[tr2 p2] w2]|] eqn:E2; [|discriminate].
  pose proof E2 as E0. cbn in E0. injection E0 as <- Ep <-.
  apply exec_runs in E2. destruct (runs_steps _ _ _ _ _ _ E2 ps1 (O1 1%nat ltac:(lia))) as (ps2 & S2 & P2 & _).
  exists (map (pair 0%nat) [(OBegin, AOk); (OPrint, AOk); (OLock WriteMutex, AOk)] ++ map (pair 1%nat) [(OBegin, AOk); (OPrint, AOk)]), ps2.
  eexists. split; [eapply steps_trans; eassumption|]. split; [reflexivity|]. split; [reflexivity|]. split; [reflexivity|].
  rewrite P2, <- Ep. eexists. split; reflexivity.
Qed.
