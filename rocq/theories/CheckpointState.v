(** Everything a run shows or writes along the way is what a shorter run would
    have returned (C69). *)
From Verif Require Import Base Tracker Command Run Fnv Geom Metropolis RunCheckpoint.
Local Open Scope Z_scope.
Local Open Scope list_scope.

(** ** Specification: what a run outputs *)

(** The output due in a run: a report or a file, for the state after [n] passes. *)
Inductive output : Type := Reported (n : Z) | Written (n : Z).
(** At every multiple of [c]: a report and, if files are written, a file; at the
    end a report. *)
Definition outputs_due (p c : Z) (writes : bool) : list output :=
  flat_map (fun n => if n mod c =? 0 then Reported n :: (if writes then [Written n] else []) else [])
           (zseq 1 (Z.to_nat p)) ++ [Reported p].

(** What was output: counters shown, or a state written with some description. *)
Inductive shown_or_written (A B : Type) : Type := Showed (a : A) | Wrote (b : B).
Arguments Showed {A B}. Arguments Wrote {A B}.

(** A printer and a writer that also keep a list of what they did, in order. *)
Definition keeping_print {A B W} (print : A -> W -> res W unit) (a : A) (wl : W * list (shown_or_written A B))
  : res (W * list (shown_or_written A B)) unit :=
  match print a (fst wl) with
  | Ret w u => Ret (w, snd wl ++ [Showed a]) u
  | Thr w e => Thr (w, snd wl) e
  | UB => UB | Abort => Abort
  end.
Definition keeping_write {A B W} (write : B -> W -> res W unit) (b : B) (wl : W * list (shown_or_written A B))
  : res (W * list (shown_or_written A B)) unit :=
  match write b (fst wl) with
  | Ret w u => Ret (w, snd wl ++ [Wrote b]) u
  | Thr w e => Thr (w, snd wl) e
  | UB => UB | Abort => Abort
  end.

(** The same strategy with another number of passes and no files. *)
Definition shorter_ma {G} (s : move_always G) (n : Z) : move_always G :=
  mkMoveAlways (mkCadence n (cad_checkpoint (ma_cadence s))) (ma_random s) false (ma_results s) (ma_checkpoint_events s).
Definition shorter_mh {G} (x : metropolis G) (n : Z) : metropolis G :=
  mkMetropolis (mkCadence n (cad_checkpoint (mh_cadence x))) false (mh_generator x) (mh_reproducibility x)
    (mh_results x) (mh_stats x) (mh_checkpoint_events x).

(** ** The loop *)
Section Loop.
  Context {M SS E X : Type}.
  Variable N3 : M -> Z.
  Variable pass : M -> SS -> Z -> E -> res E (pass_result M SS).
  Variable report : M -> results -> SS -> E -> res E unit.
  Variable checkpoint : M -> results -> SS -> Z -> E -> res E unit.
  Variable proj : E -> list X.
  Variable shown : M -> results -> SS -> X -> Prop.
  Variable wrote : M -> results -> SS -> Z -> X -> Prop.
  Variable Inv : Z -> M -> results -> SS -> E -> Prop.
  Hypothesis pass_step : forall n m tot s e, Inv n m tot s e ->
    match pass m s (N3 m) e with
    | Ret e' p => proj e' = proj e /\ forall tot', accumulate_results tot (pr_results p) = Some tot' ->
        Inv (n + 1) (pr_manifold p) tot' (pr_state p) e'
    | Thr e' _ => proj e' = proj e
    | _ => True end.
  Hypothesis report_step : forall n m r s e, Inv n m r s e ->
    match report m r s e with
    | Ret e' _ => Inv n m r s e' /\ exists x, proj e' = proj e ++ [x] /\ shown m r s x
    | Thr e' _ => proj e' = proj e
    | _ => True end.
  Hypothesis checkpoint_step : forall n m r s e, Inv n m r s e ->
    match checkpoint m r s n e with
    | Ret e' _ => Inv n m r s e' /\ exists x, proj e' = proj e ++ [x] /\ wrote m r s n x
    | Thr e' _ => proj e' = proj e
    | _ => True end.

  Definition matches (o : output) (x : X) : Prop :=
    match o with
    | Reported n => exists m r s e, Inv n m r s e /\ shown m r s x
    | Written n => exists m r s e, Inv n m r s e /\ wrote m r s n x
    end.
  Definition due_from (i : Z) (fuel : nat) (c : Z) (writes : bool) : list output :=
    flat_map (fun n => if n mod c =? 0 then Reported n :: (if writes then [Written n] else []) else [])
             (zseq (i + 1) fuel) ++ [Reported (i + Z.of_nat fuel)].

  Lemma run_loop_outputs fuel cad writes : forall i cur tot st ev e, Inv i cur tot st e ->
    match run_loop N3 pass report checkpoint fuel cad writes i cur tot st ev e with
    | Ret e' rr => (exists e0, Inv (i + Z.of_nat fuel) (rr_manifold rr) (rr_results rr) (rr_state rr) e0) /\
        exists l, proj e' = proj e ++ l /\ Forall2 matches (due_from i fuel (cad_checkpoint cad) writes) l
    | Thr e' _ => exists l k, proj e' = proj e ++ l /\ Forall2 matches (take k (due_from i fuel (cad_checkpoint cad) writes)) l
    | _ => True
    end.
  Proof using pass_step report_step checkpoint_step.
    assert (T0 : forall e e' (o : list output), proj e' = proj e ->
      exists l k, proj e' = proj e ++ l /\ Forall2 matches (take k o) l).
    { intros e e' o H. exists [], 0%nat. rewrite app_nil_r. split; [exact H|constructor]. }
    induction fuel as [|fuel IH]; intros i cur tot st ev e HI; cbn [run_loop].
    - pose proof (report_step i cur tot st e HI) as R. destruct (report cur tot st e) as [e1 []|e1 x| |]; auto.
      destruct R as (R1 & x & R2 & R3). cbn [rr_manifold rr_results rr_state].
      replace (i + Z.of_nat 0) with i by lia. split; [eauto|].
      exists [x]. split; [exact R2|]. unfold due_from. cbn [zseq flat_map app].
      replace (i + Z.of_nat 0) with i by lia. constructor; [|constructor]. red. eauto 8.
    - pose proof (pass_step i cur tot st e HI) as P. destruct (pass cur st (N3 cur) e) as [e1 p|e1 x| |]; auto.
      destruct P as [P PI].
      destruct (accumulate_results tot (pr_results p)) as [tot'|]; auto. specialize (PI tot' eq_refl).
      unfold checkpoint_event.
      assert (D : due_from i (S fuel) (cad_checkpoint cad) writes =
        (if (i + 1) mod cad_checkpoint cad =? 0 then Reported (i + 1) :: (if writes then [Written (i + 1)] else []) else [])
        ++ due_from (i + 1) fuel (cad_checkpoint cad) writes).
      { unfold due_from. cbn [zseq flat_map]. rewrite app_assoc. replace (i + Z.of_nat (S fuel)) with (i + 1 + Z.of_nat fuel) by lia. reflexivity. }
      rewrite D. clear D. replace (i + Z.of_nat (S fuel)) with (i + 1 + Z.of_nat fuel) by lia.
      destruct ((i + 1) mod cad_checkpoint cad =? 0) eqn:Em.
      + destruct (add32 ev 1) as [ev'|]; auto.
        pose proof (report_step (i + 1) (pr_manifold p) tot' (pr_state p) e1 PI) as R.
        destruct (report (pr_manifold p) tot' (pr_state p) e1) as [e2 []|e2 x| |]; auto.
        2:{ apply T0. congruence. }
        destruct R as (RI & x & R & Rs).
        assert (Mx : matches (Reported (i + 1)) x) by (red; eauto 8).
        destruct writes.
        * pose proof (checkpoint_step (i + 1) (pr_manifold p) tot' (pr_state p) e2 RI) as C.
          destruct (checkpoint (pr_manifold p) tot' (pr_state p) (i + 1) e2) as [e3 []|e3 y| |]; auto.
          2:{ exists [x], 1%nat. split; [congruence|]. cbn [app take]. constructor; [exact Mx|constructor]. }
          destruct C as (CI & y & C & Cw).
          assert (My : matches (Written (i + 1)) y) by (red; eauto 8).
          specialize (IH (i + 1) (pr_manifold p) tot' (pr_state p) ev' e3 CI).
          destruct (run_loop _ _ _ _ _ _ _ _ _ _ _ _ _) as [e4 rr|e4 z| |]; auto.
          -- destruct IH as (HF & l & H1 & H2). split; [exact HF|]. exists (x :: y :: l).
             split; [rewrite H1, C, R, P, <- !app_assoc; reflexivity|]. cbn [app]. constructor; [exact Mx|]. constructor; assumption.
          -- destruct IH as (l & k & H1 & H2). exists (x :: y :: l), (S (S k)).
             split; [rewrite H1, C, R, P, <- !app_assoc; reflexivity|]. cbn [app take]. constructor; [exact Mx|]. constructor; assumption.
        * specialize (IH (i + 1) (pr_manifold p) tot' (pr_state p) ev' e2 RI).
          destruct (run_loop _ _ _ _ _ _ _ _ _ _ _ _ _) as [e4 rr|e4 z| |]; auto.
          -- destruct IH as (HF & l & H1 & H2). split; [exact HF|]. exists (x :: l).
             split; [rewrite H1, R, P, <- !app_assoc; reflexivity|]. cbn [app]. constructor; assumption.
          -- destruct IH as (l & k & H1 & H2). exists (x :: l), (S k).
             split; [rewrite H1, R, P, <- !app_assoc; reflexivity|]. cbn [app take]. constructor; assumption.
      + specialize (IH (i + 1) (pr_manifold p) tot' (pr_state p) ev e1 PI). cbn [app].
        destruct (run_loop _ _ _ _ _ _ _ _ _ _ _ _ _) as [e4 rr|e4 z| |]; auto; rewrite <- P; exact IH.
  Qed.
End Loop.

(** ** Passes without output *)
Section Quiet.
  Context {M SS G : Type}.
  Variable N3 : M -> Z.
  Variable pass : M -> SS -> Z -> G -> res G (pass_result M SS).

  (** The state after [n] passes that all return. *)
  Inductive after_passes (m0 : M) (s0 : SS) (g0 : G) : nat -> M -> results -> SS -> G -> Prop :=
  | after_none : after_passes m0 s0 g0 0 m0 results_zero s0 g0
  | after_pass n m tot s g g' p tot' : after_passes m0 s0 g0 n m tot s g ->
      pass m s (N3 m) g = Ret g' p -> accumulate_results tot (pr_results p) = Some tot' ->
      after_passes m0 s0 g0 (S n) (pr_manifold p) tot' (pr_state p) g'.

  Definition quiet_report (m : M) (r : results) (s : SS) (w : unit) : res unit unit := Ret w tt.

  Lemma quiet_loop chk cad fuel : forall k m0 s0 g0 i m tot s g ev m' tot' s' g',
    after_passes m0 s0 g0 k m tot s g -> after_passes m0 s0 g0 (fuel + k) m' tot' s' g' ->
    0 <= ev <= i -> i + Z.of_nat fuel <= INT32_MAX ->
    exists ev', run_loop N3 (pass_env (W := unit) pass) (rep_env quiet_report) (chk_env chk) fuel cad false i m tot s ev (g, tt)
      = Ret (g', tt) (mkRun m' tot' s' ev').
  Proof.
    assert (Det : forall m0 s0 g0 k m tot s g, after_passes m0 s0 g0 k m tot s g ->
      forall m' tot' s' g', after_passes m0 s0 g0 k m' tot' s' g' -> m = m' /\ tot = tot' /\ s = s' /\ g = g').
    { intros m0 s0 g0 k m tot s g H. induction H as [|k m tot s g g1 p tot1 H IH Hp Ha]; intros m' tot' s' g' H'.
      - inversion H'; subst; auto.
      - inversion H' as [|k2 m2 tot2 s2 g2 g3 p2 tot3 H2 Hp2 Ha2]; subst.
        destruct (IH _ _ _ _ H2) as (<- & <- & <- & <-). rewrite Hp in Hp2. injection Hp2 as <- <-.
        rewrite Ha in Ha2. injection Ha2 as <-. auto. }
    assert (Step : forall m0 s0 g0 k m tot s g, after_passes m0 s0 g0 k m tot s g ->
      forall d m' tot' s' g', after_passes m0 s0 g0 (S d + k) m' tot' s' g' ->
      exists p g1 tot1, pass m s (N3 m) g = Ret g1 p /\ accumulate_results tot (pr_results p) = Some tot1 /\
        after_passes m0 s0 g0 (S k) (pr_manifold p) tot1 (pr_state p) g1).
    { intros m0 s0 g0 k m tot s g H d. induction d as [|d IH]; intros m' tot' s' g' H'.
      - inversion H' as [|k2 m2 tot2 s2 g2 g3 p2 tot3 H2 Hp2 Ha2]; subst.
        destruct (Det _ _ _ _ _ _ _ _ H _ _ _ _ H2) as (<- & <- & <- & <-).
        do 3 eexists. split; [exact Hp2|]. split; [exact Ha2|]. exact H'.
      - inversion H' as [|k2 m2 tot2 s2 g2 g3 p2 tot3 H2 Hp2 Ha2]; subst. eapply IH. exact H2. }
    induction fuel as [|fuel IH]; intros k m0 s0 g0 i m tot s g ev m' tot' s' g' H H' Hev Hi; cbn [run_loop].
    - cbn [Nat.add] in H'. destruct (Det _ _ _ _ _ _ _ _ H _ _ _ _ H') as (<- & <- & <- & <-).
      unfold rep_env, on_world, quiet_report. cbn [fst snd]. eauto.
    - destruct (Step _ _ _ _ _ _ _ _ H fuel _ _ _ _ H') as (p & g1 & tot1 & Hp & Ha & H1).
      unfold pass_env, on_engine. cbn [fst snd]. rewrite Hp, Ha. unfold checkpoint_event.
      assert (H'' : after_passes m0 s0 g0 (fuel + S k) m' tot' s' g').
      { replace (fuel + S k)%nat with (S fuel + k)%nat by lia. exact H'. }
      destruct ((i + 1) mod cad_checkpoint cad =? 0).
      + unfold add32. assert (O : in_int32b (ev + 1) = true).
        { apply in_int32b_spec. unfold in_int32, INT32_MIN, INT32_MAX in *. lia. }
        rewrite O. unfold rep_env, on_world, quiet_report. cbn [fst snd].
        eapply IH; [exact H1|exact H''|lia|lia].
      + eapply IH; [exact H1|exact H''|lia|lia].
  Qed.
End Quiet.

Lemma Forall2_refine {A C} (P : A -> Prop) (R S : A -> C -> Prop) l k :
  (forall x y, P x -> R x y -> S x y) -> Forall P l -> Forall2 R l k -> Forall2 S l k.
Proof.
  intros H F F2. induction F2 as [|x y l k Hxy F2 IH]; constructor.
  - apply H; [|exact Hxy]. inversion F; assumption.
  - apply IH. inversion F; assumption.
Qed.
Lemma Forall_taken {A} (P : A -> Prop) k l : Forall P l -> Forall P (take k l).
Proof. intros H. revert k. induction H; intros [|k]; cbn; constructor; auto. Qed.
Definition number_of (o : output) : Z := match o with Reported n | Written n => n end.
Lemma zseq_in n len : forall s, In n (zseq s len) -> s <= n < s + Z.of_nat len.
Proof. induction len as [|len IH]; intros s H; [destruct H|]. destruct H as [<-|H]; [lia|]. apply IH in H. lia. Qed.
Lemma due_range p c writes : 0 < p -> Forall (fun o => 0 < number_of o <= p) (outputs_due p c writes).
Proof.
  intros Hp. apply List.Forall_forall. intros o H. apply in_app_or in H as [H|[<-|[]]]; [|cbn; lia].
  apply in_flat_map in H as (n & Hn & H). apply zseq_in in Hn.
  destruct (n mod c =? 0); [|destruct H]. destruct H as [<-|H]; [cbn; lia|].
  destruct writes; [|destruct H]. destruct H as [<-|[]]. cbn. lia.
Qed.

(** ** MoveAlways *)
Section Ma.
  Context {M G W : Type}.
  Variable N3 : M -> Z.
  Variable api : move_api M G.
  Variable check : M -> M -> MoveType -> bool.
  Variable draw_int : Z -> Z -> G -> Z * G.
  Variable print : results -> W -> res W unit.
  Variable write : M -> Z -> Z -> W -> res W unit.
  Notation kept := (shown_or_written results (M * Z * Z)).
  Notation run := (ma_run N3 api check draw_int (keeping_print (B := M * Z * Z) print)
    (fun m seed n => keeping_write (A := results) (fun b => write (fst (fst b)) (snd (fst b)) (snd b)) (m, seed, n))).
  (** A run of the same strategy that shows and writes nothing. *)
  Notation quiet := (ma_run N3 api check draw_int (fun _ (w : unit) => Ret w tt) (fun _ _ _ (w : unit) => Ret w tt)).

  (** What is said after [n] passes is what a run of [n] passes returns. *)
  Definition ma_told (s : move_always G) (man : M) (o : output) (x : kept) : Prop :=
    match o, x with
    | Reported n, Showed r => exists s' m, quiet (shorter_ma s n) tt man = Ret (s', tt) m /\ r = ma_results s'
    | Written n, Wrote (m, seed, k) => k = n /\ seed = rnd_seed (ma_random s) /\
        exists s', quiet (shorter_ma s n) tt man = Ret (s', tt) m
    | _, _ => False
    end.

  Lemma ma_quiet_run s man n m tot g : 0 < n <= INT32_MAX ->
    after_passes N3 (ma_execute_pass api check draw_int) man tt (rnd_engine (ma_random s)) (Z.to_nat n) m tot tt g ->
    exists s', quiet (shorter_ma s n) tt man = Ret (s', tt) m /\ ma_results s' = tot.
  Proof using.
    intros Hn H. unfold ma_run, execute_move_run. cbn [shorter_ma ma_cadence ma_write_files ma_random cad_passes].
    destruct (quiet_loop N3 (ma_execute_pass api check draw_int) (fun (_ : M) (_ : results) (_ : unit) (_ : Z) (w : unit) => Ret w tt)
      (mkCadence n (cad_checkpoint (ma_cadence s))) (Z.to_nat n) 0 man tt (rnd_engine (ma_random s)) 0 man results_zero tt
      (rnd_engine (ma_random s)) 0 m tot tt g) as [ev E].
    - constructor.
    - rewrite Nat.add_0_r. exact H.
    - lia.
    - rewrite Z2Nat.id by lia. lia.
    - unfold quiet_report in E. rewrite E. eexists. split; reflexivity.
  Qed.

  Lemma ma_outputs s w man : cadence_ok (ma_cadence s) ->
    match run s (w, []) man with
    | Ret (_, (_, l)) _ => Forall2 (ma_told s man)
        (outputs_due (cad_passes (ma_cadence s)) (cad_checkpoint (ma_cadence s)) (ma_write_files s)) l
    | Thr (_, (_, l)) _ => exists k, Forall2 (ma_told s man)
        (take k (outputs_due (cad_passes (ma_cadence s)) (cad_checkpoint (ma_cadence s)) (ma_write_files s))) l
    | _ => True
    end.
  Proof using.
    intros [Hp Hc]. unfold ma_run, execute_move_run.
    pose proof (run_loop_outputs N3 (pass_env (W := W * list kept) (ma_execute_pass api check draw_int))
      (rep_env (fun _ r _ => keeping_print print r))
      (chk_env (fun m _ _ n => keeping_write (A := results) (fun b => write (fst (fst b)) (snd (fst b)) (snd b)) (m, rnd_seed (ma_random s), n)))
      (fun e : G * (W * list kept) => snd (snd e))
      (fun _ r _ x => x = Showed r) (fun m _ _ n x => x = Wrote (m, rnd_seed (ma_random s), n))
      (fun n m tot st e => 0 <= n /\ after_passes N3 (ma_execute_pass api check draw_int) man tt (rnd_engine (ma_random s)) (Z.to_nat n) m tot st (fst e))) as H.
    specialize (fun A B C => H A B C (Z.to_nat (cad_passes (ma_cadence s))) (ma_cadence s) (ma_write_files s) 0 man results_zero
      tt 0 (rnd_engine (ma_random s), (w, []))).
    match type of H with ?A -> ?B -> ?C -> ?D -> _ => assert (HA : A); [|assert (HB : B); [|assert (HC : C); [|assert (HD : D)]]] end.
    - intros n m tot st [g [w0 l0]] [Hn HI]. cbn [fst] in HI. unfold pass_env, on_engine. cbn [fst snd].
      destruct (ma_execute_pass api check draw_int m st (N3 m) g) as [g' p|g' x| |] eqn:E; auto.
      split; [reflexivity|]. intros tot' Ha. split; [lia|]. replace (Z.to_nat (n + 1)) with (S (Z.to_nat n)) by lia.
      econstructor; eassumption.
    - intros n m r st [g [w0 l0]] [Hn HI]. unfold rep_env, on_world, keeping_print. cbn [fst snd] in *.
      destruct (print r w0); auto. split; [auto|]. eexists. split; reflexivity.
    - intros n m r st [g [w0 l0]] [Hn HI]. unfold chk_env, on_world, keeping_write. cbn [fst snd] in *.
      destruct (write m (rnd_seed (ma_random s)) n w0); auto. split; [auto|]. eexists. split; reflexivity.
    - split; [lia|]. constructor.
    - specialize (H HA HB HC HD). clear HA HB HC HD. cbn [snd app] in H.
      assert (K : due_from 0 (Z.to_nat (cad_passes (ma_cadence s))) (cad_checkpoint (ma_cadence s)) (ma_write_files s) =
        outputs_due (cad_passes (ma_cadence s)) (cad_checkpoint (ma_cadence s)) (ma_write_files s)).
      { unfold due_from, outputs_due. rewrite Z2Nat.id by lia. reflexivity. }
      rewrite K in H. clear K.
      pose proof (due_range (cad_passes (ma_cadence s)) (cad_checkpoint (ma_cadence s)) (ma_write_files s) ltac:(lia)) as F.
      match type of H with context [Forall2 (matches ?a ?b ?c)] =>
        assert (T : forall o x, 0 < number_of o <= cad_passes (ma_cadence s) -> matches a b c o x -> ma_told s man o x) end.
      { intros [n|n] x Hn; cbn [number_of] in Hn; intros (m & r & [] & e & [_ HI] & ->); cbn [ma_told];
          destruct (ma_quiet_run s man n m r (fst e) ltac:(lia) HI) as (s' & E1 & E2).
        - exists s', m. auto.
        - split; [reflexivity|]. split; [reflexivity|]. eauto. }
      destruct (run_loop _ _ _ _ _ _ _ _ _ _ _ _ _) as [[g [w' l]] rr|[g [w' l]] e| |]; auto; cbn [snd] in H.
      + destruct H as (_ & l' & -> & H). eapply Forall2_refine; [exact T|exact F|exact H].
      + destruct H as (l' & k & -> & H). exists k. eapply Forall2_refine; [exact T|apply Forall_taken; exact F|exact H].
  Qed.
End Ma.

(** ** Metropolis *)
Section Mh.
  Context {M G P W : Type}.
  Variable geometry : M -> Geometry.
  Variable propose : move_api M G.
  Variable check : M -> M -> MoveType -> bool.
  Variable accept : Geometry -> Geometry -> MoveType -> P + exn.
  Variable at_least : P -> fp -> bool.
  Variable draw_int : Z -> Z -> G -> Z * G.
  Variable draw_p : G -> fp * G.
  Variable facts : manifold_facts M.
  Variable print : results -> stats -> W -> res W unit.
  Variable write : M -> Metadata -> W -> res W unit.
  Notation kept := (shown_or_written (results * stats) (M * Metadata)).
  Notation pass := (mh_execute_pass geometry propose check accept at_least draw_int draw_p).
  Notation update := (update_reproducibility_state facts).
  Notation run := (mh_run geometry propose check accept at_least draw_int draw_p (mf_max_time facts) update
    (fun r s => keeping_print (B := M * Metadata) (fun a => print (fst a) (snd a)) (r, s))
    (fun m d => keeping_write (A := results * stats) (fun b => write (fst b) (snd b)) (m, d))).
  Notation quiet := (mh_run geometry propose check accept at_least draw_int draw_p (mf_max_time facts) update
    (fun _ _ (w : unit) => Ret w tt) (fun _ _ (w : unit) => Ret w tt)).

  Definition mh_told (x : metropolis G) (man : M) (o : output) (y : kept) : Prop :=
    match o, y with
    | Reported n, Showed (r, s) => exists x' m, quiet (shorter_mh x n) tt man = Ret (x', tt) m /\
        r = mh_results x' /\ s = mh_stats x'
    | Written n, Wrote (m, d) => exists x', quiet (shorter_mh x n) tt man = Ret (x', tt) m /\
        says_pass facts (mh_reproducibility x) n (m, d) /\
        md_transition_trace d = Some (st_trace (mh_stats x')) /\ md_transition_count d = Some (st_count (mh_stats x'))
    | _, _ => False
    end.

  Lemma mh_quiet_run x man n m tot s g : 0 < n <= INT32_MAX ->
    after_passes (fun m => gN3 (geometry m)) pass man (set_geometry stats_zero (geometry man)) (rnd_engine (mh_generator x)) (Z.to_nat n) m tot s g ->
    exists x', quiet (shorter_mh x n) tt man = Ret (x', tt) m /\ mh_results x' = tot /\ mh_stats x' = s.
  Proof using.
    intros Hn H. unfold mh_run, execute_move_run. cbn [shorter_mh mh_cadence mh_write_files mh_generator mh_reproducibility cad_passes].
    edestruct (quiet_loop (fun m => gN3 (geometry m)) pass
      (mh_checkpoint geometry (mf_max_time facts) update (fun (_ : M) (_ : Metadata) (w : unit) => Ret w tt) (mh_reproducibility x))
      (mkCadence n (cad_checkpoint (mh_cadence x))) (Z.to_nat n) 0 man (set_geometry stats_zero (geometry man)) (rnd_engine (mh_generator x))
      0 man results_zero (set_geometry stats_zero (geometry man)) (rnd_engine (mh_generator x)) 0 m tot s g) as [ev E].
    - constructor.
    - rewrite Nat.add_0_r. exact H.
    - lia.
    - rewrite Z2Nat.id by lia. lia.
    - unfold quiet_report in E. rewrite E. eexists. split; [reflexivity|]. split; reflexivity.
  Qed.

  Lemma mh_outputs x w man : cadence_ok (mh_cadence x) ->
    match run x (w, []) man with
    | Ret (_, (_, l)) _ => Forall2 (mh_told x man)
        (outputs_due (cad_passes (mh_cadence x)) (cad_checkpoint (mh_cadence x)) (mh_write_files x)) l
    | Thr (_, (_, l)) _ => exists k, Forall2 (mh_told x man)
        (take k (outputs_due (cad_passes (mh_cadence x)) (cad_checkpoint (mh_cadence x)) (mh_write_files x))) l
    | _ => True
    end.
  Proof using.
    intros [Hp Hc]. unfold mh_run, execute_move_run.
    set (base := mh_reproducibility x).
    pose proof (run_loop_outputs (fun m => gN3 (geometry m)) (pass_env (W := W * list kept) pass)
      (rep_env (fun _ r s => keeping_print (B := M * Metadata) (fun a => print (fst a) (snd a)) (r, s)))
      (chk_env (mh_checkpoint geometry (mf_max_time facts) update
         (fun m d => keeping_write (A := results * stats) (fun b => write (fst b) (snd b)) (m, d)) base))
      (fun e : G * (W * list kept) => snd (snd e))
      (fun _ r s y => y = Showed (r, s))
      (fun m _ s n y => exists d, y = Wrote (m, d) /\ says_pass facts base n (m, d) /\
         md_transition_trace d = Some (st_trace s) /\ md_transition_count d = Some (st_count s))
      (fun n m tot st e => 0 <= n /\ after_passes (fun m => gN3 (geometry m)) pass man (set_geometry stats_zero (geometry man))
         (rnd_engine (mh_generator x)) (Z.to_nat n) m tot st (fst e))) as H.
    specialize (fun A B C => H A B C (Z.to_nat (cad_passes (mh_cadence x))) (mh_cadence x) (mh_write_files x) 0 man results_zero
      (set_geometry stats_zero (geometry man)) 0 (rnd_engine (mh_generator x), (w, []))).
    match type of H with ?A -> ?B -> ?C -> ?D -> _ => assert (HA : A); [|assert (HB : B); [|assert (HC : C); [|assert (HD : D)]]] end.
    - intros n m tot st [g [w0 l0]] [Hn HI]. cbn [fst] in HI. unfold pass_env, on_engine. cbn [fst snd].
      destruct (pass m st (gN3 (geometry m)) g) as [g' p|g' y| |] eqn:E; auto.
      split; [reflexivity|]. intros tot' Ha. split; [lia|]. replace (Z.to_nat (n + 1)) with (S (Z.to_nat n)) by lia.
      econstructor; eassumption.
    - intros n m r st [g [w0 l0]] [Hn HI]. unfold rep_env, on_world, keeping_print. cbn [fst snd] in *.
      destruct (print r st w0); auto. split; [auto|]. eexists. split; reflexivity.
    - intros n m r st [g [w0 l0]] [Hn HI]. unfold chk_env, on_world, mh_checkpoint. cbn [fst snd] in *.
      destruct (make_metadata _ _ _ _ _ _ _ _) as [d|e0] eqn:Ed; [|reflexivity]. apply make_metadata_says in Ed.
      unfold keeping_write. cbn [fst snd]. destruct (write m d w0); auto. split; [auto|]. eexists. split; [reflexivity|]. eauto.
    - split; [lia|]. constructor.
    - specialize (H HA HB HC HD). clear HA HB HC HD. cbn [snd app] in H.
      assert (K : due_from 0 (Z.to_nat (cad_passes (mh_cadence x))) (cad_checkpoint (mh_cadence x)) (mh_write_files x) =
        outputs_due (cad_passes (mh_cadence x)) (cad_checkpoint (mh_cadence x)) (mh_write_files x)).
      { unfold due_from, outputs_due. rewrite Z2Nat.id by lia. reflexivity. }
      rewrite K in H. clear K.
      pose proof (due_range (cad_passes (mh_cadence x)) (cad_checkpoint (mh_cadence x)) (mh_write_files x) ltac:(lia)) as F.
      match type of H with context [Forall2 (matches ?a ?b ?c)] =>
        assert (T : forall o y, 0 < number_of o <= cad_passes (mh_cadence x) -> matches a b c o y -> mh_told x man o y) end.
      { intros [n|n] y Hn; cbn [number_of] in Hn; intros (m & r & s & e & [_ HI] & Hy); cbn beta in Hy;
          destruct (mh_quiet_run x man n m r s (fst e) ltac:(lia) HI) as (x' & E1 & E2 & E3).
        - subst y. cbn [mh_told]. exists x', m. auto.
        - destruct Hy as (d & -> & Hs & Ht & Hu). cbn [mh_told]. exists x'. rewrite E3. auto. }
      destruct (run_loop _ _ _ _ _ _ _ _ _ _ _ _ _) as [[g [w' l]] rr|[g [w' l]] e| |]; auto; cbn [snd] in H.
      + destruct H as (_ & l' & -> & H). eapply Forall2_refine; [exact T|exact F|exact H].
      + destruct H as (l' & k & -> & H). exists k. eapply Forall2_refine; [exact T|apply Forall_taken; exact F|exact H].
  Qed.
End Mh.
