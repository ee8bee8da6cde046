(** Model of include/Move_run.hpp, include/Random.hpp and include/Move_always.hpp. *)
From Verif Require Import Base Tracker Command.

(** ** Cadence *)

(** include/Move_run.hpp:27-31 [enum class MoveRunCadenceError]. *)
Inductive MoveRunCadenceError : Type := NONPOSITIVE_PASSES | NONPOSITIVE_CHECKPOINT.

(** include/Move_run.hpp:36-82 [class MoveRunCadence]; only [parse] and the
    default constructor build values (private tagged constructor). *)
Record cadence : Type := mkCadence { cad_passes : Z; cad_checkpoint : Z }.

(** include/Move_run.hpp:51: default member initializers. *)
Definition cadence_default : cadence := mkCadence 1 1.

(** include/Move_run.hpp:61-75 [MoveRunCadence::parse]. *)
Definition cadence_parse (passes checkpoint : Z) : cadence + MoveRunCadenceError :=
  if passes <=? 0 then inr NONPOSITIVE_PASSES
  else if checkpoint <=? 0 then inr NONPOSITIVE_CHECKPOINT
  else inl (mkCadence passes checkpoint).

(** include/Move_run.hpp:88-105 [parse_move_run_cadence]: both errors become
    std::invalid_argument; the text after the strategy name distinguishes them
    and is represented by the error value. *)
Definition parse_move_run_cadence (passes checkpoint : Z)
  : cadence + (exn * MoveRunCadenceError) :=
  match cadence_parse passes checkpoint with
  | inl c => inl c
  | inr NONPOSITIVE_PASSES => inr (InvalidArgument, NONPOSITIVE_PASSES)
  | inr NONPOSITIVE_CHECKPOINT => inr (InvalidArgument, NONPOSITIVE_CHECKPOINT)
  end.

(** Values that a cadence object can hold. *)
Definition cadence_ok (c : cadence) : Prop :=
  0 < cad_passes c <= INT32_MAX /\ 0 < cad_checkpoint c <= INT32_MAX.

(** ** Command results *)

(** include/Move_run.hpp:107-117 [struct MoveCommandResults]. *)
Record results : Type := mkResults { attempted : tracker; succeeded : tracker; failed : tracker }.
Definition results_zero : results := mkResults tracker_zero tracker_zero tracker_zero.
Definition results_ok (r : results) : Prop :=
  tracker_ok (attempted r) /\ tracker_ok (succeeded r) /\ tracker_ok (failed r).

(** include/Move_run.hpp:119-130 [accumulate_command_results]; [None] is signed
    overflow in operator+=. *)
Definition accumulate_results (totals delta : results) : option results :=
  match tracker_add (attempted totals) (attempted delta) with
  | None => None
  | Some a =>
      match tracker_add (succeeded totals) (succeeded delta) with
      | None => None
      | Some s =>
          match tracker_add (failed totals) (failed delta) with
          | None => None
          | Some f => Some (mkResults a s f)
          end
      end
  end.

(** include/Move_run.hpp:132-143 [consume_command_results]. *)
Definition consume_results {M} (c : command M) : results * command M :=
  (mkResults (cm_attempted c) (cm_succeeded c) (cm_failed c), reset_counters c).

(** ** The shared run loop *)
Section Run.
  (** [M]: manifold; [SS]: strategy state; [E]: everything the callbacks may
      change (random engine, file system, standard output). *)
  Context {M SS E : Type}.

  (** include/Move_run.hpp:145-152 [struct MovePassResult]. *)
  Record pass_result : Type := mkPass {
    pr_manifold : M; pr_results : results; pr_state : SS }.

  (** include/Move_run.hpp:154-162 [struct MoveRunResult]. *)
  Record run_result : Type := mkRun {
    rr_manifold : M; rr_results : results; rr_state : SS; rr_checkpoint_events : Z }.

  Variable N3 : M -> Z.
  Variable execute_pass : M -> SS -> Z -> E -> res E pass_result.
  Variable report : M -> results -> SS -> E -> res E unit.
  Variable checkpoint : M -> results -> SS -> Z -> E -> res E unit.

  (** include/Move_run.hpp:211-224: the body of [if (pass_number % checkpoint == 0)]. *)
  Definition checkpoint_event (cad : cadence) (writes : bool) (n : Z)
      (cur : M) (tot : results) (st : SS) (ev : Z) (e : E) : res E Z :=
    if n mod cad_checkpoint cad =? 0 then
      match add32 ev 1 with
      | None => UB
      | Some ev' =>
          match report cur tot st e with
          | Ret e1 _ =>
              if writes then
                match checkpoint cur tot st n e1 with
                | Ret e2 _ => Ret e2 ev'
                | Thr e2 x => Thr e2 x
                | UB => UB
                | Abort => Abort
                end
              else Ret e1 ev'
          | Thr e1 x => Thr e1 x
          | UB => UB
          | Abort => Abort
          end
      end
    else Ret e ev.

  (** include/Move_run.hpp:198-233: the for loop over passes, [i] being
      pass_index. [fuel] is the number of remaining passes. The fmt::print calls
      are not modelled (a failing stdout write could throw there; such a throw
      can be attributed to the adjacent callback). *)
  Fixpoint run_loop (fuel : nat) (cad : cadence) (writes : bool) (i : Z)
      (cur : M) (tot : results) (st : SS) (ev : Z) (e : E) : res E run_result :=
    match fuel with
    | O =>
        (* final report, include/Move_run.hpp:227-233 *)
        match report cur tot st e with
        | Ret e1 _ => Ret e1 (mkRun cur tot st ev)
        | Thr e1 x => Thr e1 x
        | UB => UB
        | Abort => Abort
        end
    | S fuel' =>
        let pass_number := i + 1 in
        let attempts := N3 cur in
        match execute_pass cur st attempts e with
        | Ret e1 p =>
            match accumulate_results tot (pr_results p) with
            | None => UB
            | Some tot' =>
                match checkpoint_event cad writes pass_number
                        (pr_manifold p) tot' (pr_state p) ev e1 with
                | Ret e2 ev' =>
                    run_loop fuel' cad writes (i + 1) (pr_manifold p) tot' (pr_state p) ev' e2
                | Thr e2 x => Thr e2 x
                | UB => UB
                | Abort => Abort
                end
            end
        | Thr e1 x => Thr e1 x
        | UB => UB
        | Abort => Abort
        end
    end.

  (** include/Move_run.hpp:176-234 [execute_move_run]. *)
  Definition execute_move_run (cad : cadence) (writes : bool) (initial : M) (st0 : SS) (e : E)
    : res E run_result :=
    run_loop (Z.to_nat (cad_passes cad)) cad writes 0 initial results_zero st0 0 e.
End Run.
Arguments pass_result M SS : clear implicits.
Arguments run_result M SS : clear implicits.

(** ** Observing a run *)

(** A completed pass: where it started, with how many attempts, what it returned. *)
Record pass_record (M SS : Type) : Type := mkRecord {
  rec_start : M; rec_state : SS; rec_attempts : Z; rec_result : pass_result M SS }.
Arguments mkRecord {M SS}. Arguments rec_start {M SS}. Arguments rec_state {M SS}.
Arguments rec_attempts {M SS}. Arguments rec_result {M SS}.

(** What an outside observer of the callbacks sees. *)
Inductive event (M SS : Type) : Type :=
| EvPass (x : pass_record M SS)                              (** a completed pass *)
| EvReport (r : results)                                     (** results displayed *)
| EvCheckpoint (m : M) (r : results) (n : Z).                (** files written for pass n *)
Arguments EvPass {M SS}. Arguments EvReport {M SS}. Arguments EvCheckpoint {M SS}.

Section Observed.
  Context {M SS E : Type}.
  Notation ev := (event M SS).
  Variable N3 : M -> Z.
  Variable execute_pass : M -> SS -> Z -> E -> res E (pass_result M SS).
  Variable report : M -> results -> SS -> E -> res E unit.
  Variable checkpoint : M -> results -> SS -> Z -> E -> res E unit.

  (** The same callbacks, recording every call that returns. *)
  Definition obs_pass (m : M) (s : SS) (a : Z) (le : list ev * E) : res (list ev * E) (pass_result M SS) :=
    match execute_pass m s a (snd le) with
    | Ret e p => Ret (fst le ++ [EvPass (mkRecord m s a p)], e) p
    | Thr e x => Thr (fst le, e) x | UB => UB | Abort => Abort
    end.
  Definition obs_report (m : M) (r : results) (s : SS) (le : list ev * E) : res (list ev * E) unit :=
    match report m r s (snd le) with
    | Ret e u => Ret (fst le ++ [EvReport r], e) u
    | Thr e x => Thr (fst le, e) x | UB => UB | Abort => Abort
    end.
  Definition obs_checkpoint (m : M) (r : results) (s : SS) (n : Z) (le : list ev * E)
    : res (list ev * E) unit :=
    match checkpoint m r s n (snd le) with
    | Ret e u => Ret (fst le ++ [EvCheckpoint m r n], e) u
    | Thr e x => Thr (fst le, e) x | UB => UB | Abort => Abort
    end.

  Definition observed_run (cad : cadence) (writes : bool) (m : M) (s : SS) (e : E) :=
    execute_move_run N3 obs_pass obs_report obs_checkpoint cad writes m s ([], e).

  (** Projections of a log. *)
  Fixpoint checkpoint_numbers (l : list ev) : list Z :=
    match l with
    | [] => []
    | EvCheckpoint _ _ n :: l' => n :: checkpoint_numbers l'
    | _ :: l' => checkpoint_numbers l'
    end.
  Fixpoint passes_of (l : list ev) : list (pass_record M SS) :=
    match l with
    | [] => []
    | EvPass x :: l' => x :: passes_of l'
    | _ :: l' => passes_of l'
    end.
  Fixpoint reports_of (l : list ev) : list results :=
    match l with
    | [] => []
    | EvReport r :: l' => r :: reports_of l'
    | _ :: l' => reports_of l'
    end.

  (** Kinds of events only, to state the schedule. *)
  Inductive mark : Type := MPass | MReport | MCheckpoint (n : Z).
  Definition mark_of (x : ev) : mark :=
    match x with EvPass _ => MPass | EvReport _ => MReport | EvCheckpoint _ _ n => MCheckpoint n end.

  (** Independent description of the schedule of a run of [p] passes. *)
  Definition pass_schedule (c : Z) (writes : bool) (n : Z) : list mark :=
    MPass :: (if n mod c =? 0 then MReport :: (if writes then [MCheckpoint n] else []) else []).
  Fixpoint zseq (start : Z) (len : nat) : list Z :=
    match len with O => [] | S l => start :: zseq (start + 1) l end.
  Definition schedule (p c : Z) (writes : bool) : list mark :=
    flat_map (pass_schedule c writes) (zseq 1 (Z.to_nat p)) ++ [MReport].

  (** Logs chain passes: each pass starts where the previous one ended. *)
  Inductive chained : M -> SS -> list (pass_record M SS) -> M -> SS -> Prop :=
  | chained_nil m s : chained m s [] m s
  | chained_cons m s p l m' s' : chained (pr_manifold p) (pr_state p) l m' s' ->
      chained m s (mkRecord m s (N3 m) p :: l) m' s'.

  (** Every pass in the list is a call of the pass callable that returned. *)
  Definition all_returned (l : list (pass_record M SS)) : Prop :=
    Forall (fun x => exists e0 e1,
      execute_pass (rec_start x) (rec_state x) (rec_attempts x) e0 = Ret e1 (rec_result x)) l.

  Definition sum_slot (f : results -> tracker) (k : MoveType)
      (l : list (pass_record M SS)) : Z :=
    fold_right (fun x acc => slot (f (pr_results (rec_result x))) k + acc) 0 l.

  (** *** Proofs *)

  Lemma checkpoint_numbers_app a b :
    checkpoint_numbers (a ++ b) = checkpoint_numbers a ++ checkpoint_numbers b.
  Proof. induction a as [|[] a IH]; cbn; congruence. Qed.
  Lemma passes_of_app a b : passes_of (a ++ b) = passes_of a ++ passes_of b.
  Proof. induction a as [|[] a IH]; cbn; congruence. Qed.

  Definition marks_numbers (l : list mark) : list Z :=
    flat_map (fun x => match x with MCheckpoint n => [n] | _ => [] end) l.
  Lemma checkpoint_numbers_marks l : checkpoint_numbers l = marks_numbers (map mark_of l).
  Proof. induction l as [|[] l IH]; cbn; unfold marks_numbers in *; congruence. Qed.

  (** Number of multiples among pass numbers i+1 .. i+n. *)
  Definition mult_between (c i : Z) (n : nat) : Z :=
    (i + Z.of_nat n) / c - i / c.

  Lemma div_step c i : 0 < c -> 0 <= i ->
    (i + 1) / c = i / c + (if (i + 1) mod c =? 0 then 1 else 0).
  Proof.
    intros Hc Hi. pose proof (Z.div_mod i c ltac:(lia)) as D.
    pose proof (Z.mod_pos_bound i c Hc) as B.
    destruct (Z.eq_dec (i mod c) (c - 1)) as [E1|E1].
    - assert (Eq : i + 1 = (i / c + 1) * c) by nia.
      rewrite Eq, Z.mod_mul, Z.div_mul by lia. cbn. lia.
    - assert (Eq : i + 1 = (i mod c + 1) + (i / c) * c) by nia.
      rewrite Eq, Z.div_add, Z.mod_add by lia.
      rewrite Z.div_small, Z.mod_small by lia.
      destruct (i mod c + 1 =? 0) eqn:E2; [apply Z.eqb_eq in E2; lia|lia].
  Qed.

  (** Erasure: observing changes nothing. *)
  Definition erase {A} (r : res (list ev * E) A) : res E A :=
    match r with Ret s a => Ret (snd s) a | Thr s x => Thr (snd s) x | UB => UB | Abort => Abort end.

  Lemma erase_loop fuel : forall cad writes i cur tot st n le,
    erase (run_loop N3 obs_pass obs_report obs_checkpoint fuel cad writes i cur tot st n le) =
    run_loop N3 execute_pass report checkpoint fuel cad writes i cur tot st n (snd le).
  Proof.
    induction fuel as [|fuel IH]; intros cad writes i cur tot st n le; cbn [run_loop].
    - unfold obs_report at 1. destruct (report cur tot st (snd le)); reflexivity.
    - unfold obs_pass at 1. destruct (execute_pass cur st (N3 cur) (snd le)) as [e1 p| | |];
        try reflexivity.
      destruct (accumulate_results tot (pr_results p)) as [tot'|]; [|reflexivity].
      unfold checkpoint_event. destruct ((i + 1) mod cad_checkpoint cad =? 0).
      + destruct (add32 n 1) as [n'|]; [|reflexivity].
        unfold obs_report at 1. cbn [snd].
        destruct (report (pr_manifold p) tot' (pr_state p) e1) as [e2 u| | |]; try reflexivity.
        destruct writes.
        * unfold obs_checkpoint at 1. cbn [snd].
          destruct (checkpoint (pr_manifold p) tot' (pr_state p) (i + 1) e2) as [e3 u3| | |];
            try reflexivity.
          rewrite IH. reflexivity.
        * rewrite IH. reflexivity.
      + rewrite IH. reflexivity.
  Qed.

  Lemma observed_erase cad writes m s e :
    erase (observed_run cad writes m s e) =
    execute_move_run N3 execute_pass report checkpoint cad writes m s e.
  Proof. unfold observed_run, execute_move_run. rewrite erase_loop. reflexivity. Qed.

  Lemma observed_exists cad writes m s e e' rr :
    execute_move_run N3 execute_pass report checkpoint cad writes m s e = Ret e' rr ->
    exists log, observed_run cad writes m s e = Ret (log, e') rr.
  Proof.
    intros H. rewrite <- observed_erase in H.
    destruct (observed_run cad writes m s e) as [[log e1] r| | |]; try discriminate.
    cbn in H. injection H as -> ->. eauto.
  Qed.

  (** The main invariant of the loop. *)
  Lemma run_loop_log fuel : forall cad writes i cur tot st n log e log' e' rr,
    0 < cad_checkpoint cad -> 0 <= i -> results_ok tot ->
    (forall m s a e0 e1 p, execute_pass m s a e0 = Ret e1 p -> results_ok (pr_results p)) ->
    run_loop N3 obs_pass obs_report obs_checkpoint fuel cad writes i cur tot st n (log, e)
      = Ret (log', e') rr ->
    exists l, log' = log ++ l /\
      map mark_of l = flat_map (pass_schedule (cad_checkpoint cad) writes) (zseq (i + 1) fuel)
                      ++ [MReport] /\
      chained cur st (passes_of l) (rr_manifold rr) (rr_state rr) /\
      all_returned (passes_of l) /\
      rr_checkpoint_events rr = n + mult_between (cad_checkpoint cad) i fuel /\
      results_ok (rr_results rr) /\
      (forall k, supported k ->
         slot (attempted (rr_results rr)) k = slot (attempted tot) k + sum_slot attempted k (passes_of l) /\
         slot (succeeded (rr_results rr)) k = slot (succeeded tot) k + sum_slot succeeded k (passes_of l) /\
         slot (failed (rr_results rr)) k = slot (failed tot) k + sum_slot failed k (passes_of l)) /\
      list.last (reports_of l) = Some (rr_results rr).
  Proof.
    induction fuel as [|fuel IH];
      intros cad writes i cur tot st n log e log' e' rr Hc Hi Htot Hpass H; cbn [run_loop] in H.
    - unfold obs_report in H. cbn [fst snd] in H.
      destruct (report cur tot st e) as [e1 u| | |]; try discriminate.
      injection H as <- <- <-. exists [EvReport tot].
      split; [reflexivity|]. split; [reflexivity|]. split; [constructor|].
      split; [constructor|]. split. { unfold mult_between. cbn. rewrite Z.add_0_r. lia. }
      split; [assumption|]. split; [|reflexivity].
      intros k Hk. unfold sum_slot. cbn. lia.
    - unfold obs_pass at 1 in H. cbn [fst snd] in H.
      destruct (execute_pass cur st (N3 cur) e) as [e1 p| | |] eqn:Ep; try discriminate.
      destruct (accumulate_results tot (pr_results p)) as [tot'|] eqn:Eacc; [|discriminate].
      pose proof (Hpass _ _ _ _ _ _ Ep) as Hpok.
      destruct Htot as (Ta & Ts & Tf). destruct Hpok as (Pa & Ps & Pf).
      unfold accumulate_results in Eacc.
      destruct (tracker_add (attempted tot) (attempted (pr_results p))) as [a|] eqn:Ea; [|discriminate].
      destruct (tracker_add (succeeded tot) (succeeded (pr_results p))) as [s|] eqn:Es; [|discriminate].
      destruct (tracker_add (failed tot) (failed (pr_results p))) as [f|] eqn:Ef; [|discriminate].
      injection Eacc as <-.
      destruct (tracker_add_spec _ _ Ta Pa) as [Sa _]. destruct (Sa _ Ea) as [Oa Va]; clear Sa.
      destruct (tracker_add_spec _ _ Ts Ps) as [Sa _]. destruct (Sa _ Es) as [Os Vs]; clear Sa.
      destruct (tracker_add_spec _ _ Tf Pf) as [Sa _]. destruct (Sa _ Ef) as [Of Vf]; clear Sa.
      set (tot' := mkResults a s f) in *.
      assert (Htot' : results_ok tot') by (split; [|split]; assumption).
      assert (Step : exists l0 e2 n',
        checkpoint_event obs_report obs_checkpoint cad writes (i + 1) (pr_manifold p) tot'
           (pr_state p) n (log ++ [EvPass (mkRecord cur st (N3 cur) p)], e1)
           = Ret (log ++ EvPass (mkRecord cur st (N3 cur) p) :: l0, e2) n' /\
        map mark_of (EvPass (mkRecord cur st (N3 cur) p) :: l0) =
          pass_schedule (cad_checkpoint cad) writes (i + 1) /\
        passes_of l0 = [] /\
        n' = n + (if (i + 1) mod cad_checkpoint cad =? 0 then 1 else 0) /\
        run_loop N3 obs_pass obs_report obs_checkpoint fuel cad writes (i + 1)
          (pr_manifold p) tot' (pr_state p) n' (log ++ EvPass (mkRecord cur st (N3 cur) p) :: l0, e2)
          = Ret (log', e') rr).
      { unfold checkpoint_event in H |- *. unfold pass_schedule.
        destruct ((i + 1) mod cad_checkpoint cad =? 0) eqn:Emod.
        - destruct (add32 n 1) as [n'|] eqn:Eadd; [|discriminate].
          apply add32_Some in Eadd as [-> _].
          unfold obs_report at 1 in H. unfold obs_report at 1. cbn [fst snd] in H |- *.
          destruct (report (pr_manifold p) tot' (pr_state p) e1) as [e2 u| | |]; try discriminate.
          destruct writes.
          + unfold obs_checkpoint at 1 in H. unfold obs_checkpoint at 1. cbn [fst snd] in H |- *.
            destruct (checkpoint (pr_manifold p) tot' (pr_state p) (i + 1) e2) as [e3 u3| | |];
              try discriminate.
            exists [EvReport tot'; EvCheckpoint (pr_manifold p) tot' (i + 1)], e3, (n + 1).
            rewrite <- !app_assoc in H |- *. cbn [app] in H |- *.
            repeat split; try reflexivity. exact H.
          + exists [EvReport tot'], e2, (n + 1).
            rewrite <- !app_assoc in H |- *. cbn [app] in H |- *.
            repeat split; try reflexivity. exact H.
        - exists [], e1, n. repeat split; try reflexivity; try lia. exact H. }
      destruct Step as (l0 & e2 & n' & _ & Hmark & Hp0 & Hn' & H').
      apply IH in H'; try assumption; [|lia].
      destruct H' as (l & -> & Hmarks & Hch & Hret & Hev & Hrok & Hsl & Hrep).
      exists (EvPass (mkRecord cur st (N3 cur) p) :: l0 ++ l).
      split; [rewrite <- app_assoc; reflexivity|].
      split. { cbn [zseq flat_map]. rewrite <- app_assoc, <- Hmarks, <- Hmark.
               cbn [map]. rewrite map_app. reflexivity. }
      assert (Hpo : passes_of (EvPass (mkRecord cur st (N3 cur) p) :: l0 ++ l) = mkRecord cur st (N3 cur) p :: passes_of l).
      { cbn. rewrite passes_of_app, Hp0. reflexivity. }
      split. { rewrite Hpo. constructor. exact Hch. }
      split. { rewrite Hpo. constructor; [|exact Hret]. cbn. eauto. }
      split. { rewrite Hev, Hn'. unfold mult_between. rewrite (div_step (cad_checkpoint cad) i) by assumption.
               replace (i + 1 + Z.of_nat fuel) with (i + Z.of_nat (S fuel)) by lia. lia. }
      split; [assumption|]. split.
      { intros k Hk. rewrite Hpo. unfold sum_slot in *. cbn [fold_right rec_result].
        destruct (Hsl k Hk) as (-> & -> & ->). cbn [attempted succeeded failed tot'].
        rewrite (Va k Hk), (Vs k Hk), (Vf k Hk). lia. }
      assert (Rapp : forall x y, reports_of (x ++ y) = reports_of x ++ reports_of y).
      { intros x y. induction x as [|[] x IHx]; cbn; congruence. }
      cbn [reports_of]. rewrite Rapp, last_app, Hrep. reflexivity.
  Qed.

  (** Multiples of c up to p are exactly the pass numbers hit. *)
  Lemma schedule_numbers c writes : forall n i, 0 < c -> 0 <= i ->
    marks_numbers (flat_map (pass_schedule c writes) (zseq (i + 1) n)) =
    if writes then map (fun k => k * c) (zseq (i / c + 1) (Z.to_nat (mult_between c i n))) else [].
  Proof.
    induction n as [|n IH]; intros i Hc Hi.
    - cbn. unfold mult_between. cbn. rewrite Z.add_0_r, Z.sub_diag. destruct writes; reflexivity.
    - cbn [zseq flat_map]. unfold marks_numbers in *. rewrite flat_map_app.
      rewrite IH by lia.
      pose proof (div_step c i Hc Hi) as D.
      assert (Emb : mult_between c i (S n) =
        (if (i + 1) mod c =? 0 then 1 else 0) + mult_between c (i + 1) n).
      { unfold mult_between. rewrite D.
        replace (i + 1 + Z.of_nat n) with (i + Z.of_nat (S n)) by lia. lia. }
      assert (Pos : 0 <= mult_between c (i + 1) n).
      { unfold mult_between. apply Z.le_0_sub. apply Z.div_le_mono; lia. }
      rewrite Emb. unfold pass_schedule.
      destruct ((i + 1) mod c =? 0) eqn:Em.
      + destruct writes; [|reflexivity]. cbn [flat_map app].
        replace (Z.to_nat (1 + mult_between c (i + 1) n)) with
          (S (Z.to_nat (mult_between c (i + 1) n))) by lia.
        cbn [zseq map]. rewrite D. f_equal.
        apply Z.eqb_eq in Em. pose proof (Z.div_mod (i + 1) c ltac:(lia)). nia.
      + destruct writes; [|reflexivity]. cbn [flat_map app].
        rewrite D, Z.add_0_r. rewrite Z.add_0_l. reflexivity.
  Qed.

  Lemma observed_run_log cad writes m s e log e' rr :
    cadence_ok cad ->
    (forall m s a e0 e1 p, execute_pass m s a e0 = Ret e1 p -> results_ok (pr_results p)) ->
    observed_run cad writes m s e = Ret (log, e') rr ->
    map mark_of log = schedule (cad_passes cad) (cad_checkpoint cad) writes /\
    rr_checkpoint_events rr = cad_passes cad / cad_checkpoint cad /\
    checkpoint_numbers log =
      (if writes then map (fun k => k * cad_checkpoint cad)
                          (zseq 1 (Z.to_nat (cad_passes cad / cad_checkpoint cad))) else []) /\
    chained m s (passes_of log) (rr_manifold rr) (rr_state rr) /\
    all_returned (passes_of log) /\
    results_ok (rr_results rr) /\
    (forall k, supported k ->
       slot (attempted (rr_results rr)) k = sum_slot attempted k (passes_of log) /\
       slot (succeeded (rr_results rr)) k = sum_slot succeeded k (passes_of log) /\
       slot (failed (rr_results rr)) k = sum_slot failed k (passes_of log)) /\
    list.last (reports_of log) = Some (rr_results rr).
  Proof.
    intros [Hp Hc] Hpass H. unfold observed_run, execute_move_run in H.
    apply run_loop_log in H; [| lia | lia | repeat split | exact Hpass].
    destruct H as (l & -> & Hm & Hch & Hret & Hev & Hok & Hsl & Hrep).
    cbn [app]. split; [exact Hm|].
    assert (Emb : mult_between (cad_checkpoint cad) 0 (Z.to_nat (cad_passes cad))
                  = cad_passes cad / cad_checkpoint cad).
    { unfold mult_between. rewrite Z.div_0_l by lia. rewrite Z2Nat.id by lia. rewrite Z.add_0_l. lia. }
    split; [rewrite Hev, Emb; lia|]. split.
    { rewrite checkpoint_numbers_marks, Hm. unfold marks_numbers. rewrite flat_map_app.
      change (flat_map _ [MReport]) with (@nil Z). rewrite app_nil_r.
      fold (marks_numbers (flat_map (pass_schedule (cad_checkpoint cad) writes)
             (zseq (0 + 1) (Z.to_nat (cad_passes cad))))).
      rewrite schedule_numbers by lia. rewrite Emb, Z.div_0_l by lia. reflexivity. }
    split; [assumption|]. split; [assumption|]. split; [assumption|]. split; [|assumption].
    intros k Hk. destruct (Hsl k Hk) as (A & B & C).
    unfold results_zero in A, B, C. cbn [attempted succeeded failed] in A, B, C.
    rewrite slot_zero in A, B, C. rewrite !Z.add_0_l in *. auto.
  Qed.

  (** No overflow of the event counter: checkpoint events never exceed passes. *)
End Observed.

Lemma passes_of_length {M SS} (log : list (event M SS)) c w p :
  map (@mark_of M SS) log = schedule p c w ->
  length (passes_of log) = Z.to_nat p.
Proof.
  intros H. transitivity (length (List.filter (fun x => match x with MPass => true | _ => false end)
                             (map (@mark_of M SS) log))).
  - clear H. induction log as [|[] log IH]; cbn; congruence.
  - rewrite H. unfold schedule. rewrite filter_app, app_length. cbn. rewrite Nat.add_0_r.
    generalize 1%Z. induction (Z.to_nat p) as [|n IH]; intros z; [reflexivity|].
    cbn [zseq flat_map]. rewrite filter_app, app_length, IH. unfold pass_schedule.
    destruct (z mod c =? 0), w; reflexivity.
Qed.

(** Two runs whose callbacks act on an engine [G] and an outside world [W], the
    passes touching only the engine and reports/checkpoints only the world, walk
    through the same states whatever the checkpoint interval and write flag. *)
Section Decoupled.
  Context {M SS G W : Type}.
  Variable N3 : M -> Z.
  Variable pass : M -> SS -> Z -> G -> res G (pass_result M SS).
  Variable rep1 rep2 : M -> results -> SS -> W -> res W unit.
  Variable chk1 chk2 : M -> results -> SS -> Z -> W -> res W unit.

  Definition on_engine {A} (r : W -> res G A) (gw : G * W) : res (G * W) A :=
    match r (snd gw) with
    | Ret g a => Ret (g, snd gw) a | Thr g x => Thr (g, snd gw) x | UB => UB | Abort => Abort end.
  Definition on_world {A} (r : res W A) (g : G) : res (G * W) A :=
    match r with
    | Ret w a => Ret (g, w) a | Thr w x => Thr (g, w) x | UB => UB | Abort => Abort end.

  Definition pass_env (m : M) (s : SS) (a : Z) (gw : G * W) : res (G * W) (pass_result M SS) :=
    on_engine (fun _ => pass m s a (fst gw)) gw.
  Definition rep_env (rep : M -> results -> SS -> W -> res W unit) m r s (gw : G * W) :=
    on_world (rep m r s (snd gw)) (fst gw).
  Definition chk_env (chk : M -> results -> SS -> Z -> W -> res W unit) m r s n (gw : G * W) :=
    on_world (chk m r s n (snd gw)) (fst gw).

  Lemma decoupled_loop fuel : forall c1 c2 w1 w2 i cur tot st n1 n2 g wa wb g1 g2 wa' wb' r1 r2,
    run_loop N3 pass_env (rep_env rep1) (chk_env chk1) fuel c1 w1 i cur tot st n1 (g, wa)
      = Ret (g1, wa') r1 ->
    run_loop N3 pass_env (rep_env rep2) (chk_env chk2) fuel c2 w2 i cur tot st n2 (g, wb)
      = Ret (g2, wb') r2 ->
    g1 = g2 /\ rr_manifold r1 = rr_manifold r2 /\ rr_results r1 = rr_results r2 /\
    rr_state r1 = rr_state r2.
  Proof.
    induction fuel as [|fuel IH];
      intros c1 c2 w1 w2 i cur tot st n1 n2 g wa wb g1 g2 wa' wb' r1 r2 H1 H2;
      cbn [run_loop] in H1, H2.
    - unfold rep_env, on_world in H1, H2. cbn [fst snd] in H1, H2.
      destruct (rep1 cur tot st wa) as [wa1 u1| | |]; try discriminate.
      destruct (rep2 cur tot st wb) as [wb1 u2| | |]; try discriminate.
      injection H1 as <- <- <-. injection H2 as <- <- <-. auto.
    - unfold pass_env at 1, on_engine in H1. unfold pass_env at 1, on_engine in H2.
      cbn [fst snd] in H1, H2.
      destruct (pass cur st (N3 cur) g) as [ga p| | |]; try discriminate.
      destruct (accumulate_results tot (pr_results p)) as [tot'|]; [|discriminate].
      assert (K : forall rep chk c w n ww gg ww' rr,
        match checkpoint_event (rep_env rep) (chk_env chk) c w (i + 1) (pr_manifold p) tot'
                (pr_state p) n (ga, ww) with
        | Ret e2 ev' => run_loop N3 pass_env (rep_env rep) (chk_env chk) fuel c w (i + 1)
                          (pr_manifold p) tot' (pr_state p) ev' e2
        | Thr e2 x => Thr e2 x | UB => UB | Abort => Abort end = Ret (gg, ww') rr ->
        exists n' wx, run_loop N3 pass_env (rep_env rep) (chk_env chk) fuel c w (i + 1)
                          (pr_manifold p) tot' (pr_state p) n' (ga, wx) = Ret (gg, ww') rr).
      { intros rep chk c w n ww gg ww' rr H. unfold checkpoint_event in H.
        destruct ((i + 1) mod cad_checkpoint c =? 0); [|eauto].
        destruct (add32 n 1); [|discriminate].
        unfold rep_env at 1, on_world in H. cbn [fst snd] in H.
        destruct (rep (pr_manifold p) tot' (pr_state p) ww) as [wx u| | |]; try discriminate.
        destruct w; [|eauto].
        unfold chk_env at 1, on_world in H. cbn [fst snd] in H.
        destruct (chk (pr_manifold p) tot' (pr_state p) (i + 1) wx) as [wy v| | |]; try discriminate.
        eauto. }
      apply K in H1 as (n1' & wx1 & H1). apply K in H2 as (n2' & wx2 & H2).
      eapply IH; eauto.
  Qed.
End Decoupled.

(** ** Random streams *)
Section Random.
  (** State of pcg64 and its seeding constructor (arbitrary). *)
  Context {G : Type}.
  Variable seed_engine : Z -> Z -> G.

  (** include/Random.hpp:112-147 [class Random]. *)
  Record Random : Type := mkRandom { rnd_seed : Z; rnd_stream : Z; rnd_engine : G }.

  (** include/Random.hpp:144-147: the seeding constructor. *)
  Definition make_random (seed stream : Z) : Random := mkRandom seed stream (seed_engine seed stream).

  (** include/Random.hpp:170-171 [split]. *)
  Definition split (r : Random) (stream : Z) : Random := make_random (rnd_seed r) stream.

  (** Any use of the engine: operator() and the distributions only change m_engine. *)
  Definition advance (r : Random) (g : G) : Random := mkRandom (rnd_seed r) (rnd_stream r) g.

  (** A history of engine uses and splits, ending with a stream taken by split. *)
  Inductive reaches : Random -> Random -> Prop :=
  | reaches_refl r : reaches r r
  | reaches_advance r r' g : reaches r r' -> reaches r (advance r' g)
  | reaches_split r r' s : reaches r r' -> reaches r (split r' s).

  Lemma reaches_seed r r' : reaches r r' -> rnd_seed r' = rnd_seed r.
  Proof. induction 1; cbn; congruence. Qed.
End Random.
Arguments Random G : clear implicits.

(** include/Random.hpp:96-99 [random_streams]. *)
Definition stream_initialization : Z := 0.
Definition stream_transitions : Z := 1.

(** ** MoveAlways *)
Section MoveAlways.
  (** [M] manifold, [G] engine, [W] the outside world (files, stdout). *)
  Context {M G W : Type}.
  Variable N3 : M -> Z.
  Variable api : move_api M G.
  Variable check_move : M -> M -> MoveType -> bool.
  (** std::uniform_int_distribution over [lo, hi], drawing from the engine. *)
  Variable draw_int : Z -> Z -> G -> Z * G.
  (** print_results and utilities::write_file(manifold, seed, pass). *)
  Variable print_results : results -> W -> res W unit.
  Variable write_file : M -> Z -> Z -> W -> res W unit.

  (** include/Move_tracker.hpp:95-103 [generate_random_move_3]: a uniform index
      0..4, converted by static_cast. *)
  Definition generate_random_move_3 (g : G) : MoveType * G :=
    draw_int 0 (NUMBER_OF_3D_MOVES - 1) g.

  (** include/Move_always.hpp:53-58: the enqueueing loop. *)
  Fixpoint enqueue_random (n : nat) (c : command M) (g : G) : command M * G :=
    match n with
    | O => (c, g)
    | S n' => let '(m, g') := generate_random_move_3 g in enqueue_random n' (enqueue c m) g'
    end.

  (** include/Move_always.hpp:49-65 [execute_pass]. *)
  Definition ma_execute_pass (cur : M) (st : unit) (attempts : Z) (g : G)
    : res G (pass_result M unit) :=
    let '(c, g1) := enqueue_random (Z.to_nat attempts) (make_command cur) g in
    match execute api check_move c g1 with
    | Ret (c', g2) _ =>
        let '(r, c'') := consume_results c' in
        Ret g2 (mkPass (cm_manifold c'') r st)
    | Thr (_, g2) x => Thr g2 x
    | UB => UB
    | Abort => Abort
    end.

  (** include/Move_always.hpp:34-47: members. *)
  Record move_always : Type := mkMoveAlways {
    ma_cadence : cadence;
    ma_random : Random G;
    ma_write_files : bool;
    ma_results : results;
    ma_checkpoint_events : Z }.

  (** include/Move_always.hpp:125-133: the delegated-to constructor. *)
  Definition make_move_always (passes checkpoint : Z) (r : Random G) (write_files : bool)
    : move_always + (exn * MoveRunCadenceError) :=
    match parse_move_run_cadence passes checkpoint with
    | inr x => inr x
    | inl c => inl (mkMoveAlways c r write_files results_zero 0)
    end.

  (** include/Move_always.hpp:180-205 [operator()]: m_random is a member used
      through [this] by the pass, so it keeps whatever was drawn even when the run
      throws; the published results are assigned after the run returned. *)
  Definition ma_run (s : move_always) (w : W) (man : M) : res (move_always * W) M :=
    match execute_move_run N3
            (pass_env (W := W) ma_execute_pass)
            (rep_env (fun _ r _ => print_results r))
            (chk_env (fun m _ _ n => write_file m (rnd_seed (ma_random s)) n))
            (ma_cadence s) (ma_write_files s) man tt (rnd_engine (ma_random s), w) with
    | Ret (g, w') rr =>
        Ret (mkMoveAlways (ma_cadence s) (advance (ma_random s) g) (ma_write_files s)
               (rr_results rr) (rr_checkpoint_events rr), w')
            (rr_manifold rr)
    | Thr (g, w') x =>
        Thr (mkMoveAlways (ma_cadence s) (advance (ma_random s) g) (ma_write_files s)
               (ma_results s) (ma_checkpoint_events s), w') x
    | UB => UB
    | Abort => Abort
    end.

  (** *** Proofs *)
  Lemma enqueue_random_spec n : forall c g c' g',
    enqueue_random n c g = (c', g') ->
    exists ms, c' = enqueue_all c ms /\ length ms = n.
  Proof.
    induction n as [|n IH]; intros c g c' g' H; cbn in H.
    - injection H as <- <-. exists []. auto.
    - destruct (generate_random_move_3 g) as [m g1].
      apply IH in H as (ms & -> & <-). exists (m :: ms). auto.
  Qed.

  (** The sum of the five occurrence counts of a supported list is its length. *)
  Lemma occurrences_total ms : Forall supported ms ->
    occurrences TWO_THREE ms + occurrences THREE_TWO ms + occurrences TWO_SIX ms +
    occurrences SIX_TWO ms + occurrences FOUR_FOUR ms = Z.of_nat (length ms).
  Proof.
    induction 1 as [|m ms Hm _ IH]; [reflexivity|].
    rewrite !occurrences_cons. cbn [length]. rewrite Nat2Z.inj_succ, <- IH.
    destruct (supported_cases m Hm) as [->|[->|[->|[->| ->]]]]; cbn; lia.
  Qed.

  Lemma ma_execute_pass_spec cur st attempts g g' p :
    ma_execute_pass cur st attempts g = Ret g' p ->
    results_ok (pr_results p) /\
    slot_sum (attempted (pr_results p)) = Z.max 0 attempts /\
    exists h g1, length h = Z.to_nat attempts /\
      history api check_move cur g1 h (pr_manifold p) g' /\
      forall k, supported k ->
        slot (attempted (pr_results p)) k = tally k true h + tally k false h /\
        slot (succeeded (pr_results p)) k = tally k true h /\
        slot (failed (pr_results p)) k = tally k false h.
  Proof.
    intros H. unfold ma_execute_pass in H.
    destruct (enqueue_random (Z.to_nat attempts) (make_command cur) g) as [c g1] eqn:Eq.
    apply enqueue_random_spec in Eq as (ms & -> & Hlen).
    destruct (enqueue_all_pending ms (make_command cur)) as (Hp & HM & HA & HS & HF).
    destruct (execute api check_move (enqueue_all (make_command cur) ms) g1)
      as [[c' g2] u|[? ?] ?| |] eqn:Ex; try discriminate.
    cbn in H. injection H as <- <-. cbn [pr_results pr_manifold attempted succeeded failed].
    assert (Hok : counters_ok (enqueue_all (make_command cur) ms)).
    { unfold counters_ok. rewrite HA, HS, HF. repeat split. }
    unfold execute in Ex. destruct (execute_loop_Ret _ _ _ _ _ _ _ _ Hok eq_refl Ex)
      as ((Oa & Os & Of) & _ & Hsup & h & Hfst & Hhist & Hcnt).
    rewrite Hp in Hfst. cbn in Hfst.
    split; [split; [|split]; assumption|].
    assert (Sl : forall k, supported k ->
      slot (cm_attempted c') k = occurrences k ms /\
      slot (cm_succeeded c') k = tally k true h /\ slot (cm_failed c') k = tally k false h).
    { intros k Hk. destruct (Hcnt k Hk) as (-> & -> & ->). rewrite HA, HS, HF. cbn.
      rewrite !slot_zero, Hfst. lia. }
    split.
    { assert (Hsup' : Forall supported ms).
      { apply Forall_rev in Hsup. unfold pending in Hp. rewrite Hp in Hsup. exact Hsup. }
      assert (S5 : forall k, 0 <= k < 5 -> supported k) by (unfold supported; lia).
      unfold slot_sum.
      rewrite (proj1 (Sl TWO_THREE (S5 0 ltac:(lia)))), (proj1 (Sl THREE_TWO (S5 1 ltac:(lia)))),
        (proj1 (Sl TWO_SIX (S5 2 ltac:(lia)))), (proj1 (Sl SIX_TWO (S5 3 ltac:(lia)))),
        (proj1 (Sl FOUR_FOUR (S5 4 ltac:(lia)))).
      rewrite occurrences_total by assumption. rewrite Hlen. lia. }
    exists h, g1. split.
    { rewrite <- Hlen, <- Hfst, map_length. reflexivity. }
    split. { rewrite HM in Hhist. exact Hhist. }
    intros k Hk. destruct (Sl k Hk) as (-> & -> & ->).
    rewrite tally_occurrences, Hfst. auto.
  Qed.

  (** What the observer of a MoveAlways run can say: C10, C11, C05 for runs. *)
  Lemma ma_run_Ret s w man s' w' man' :
    cadence_ok (ma_cadence s) ->
    ma_run s w man = Ret (s', w') man' ->
    exists ps : list (pass_record M unit),
      length ps = Z.to_nat (cad_passes (ma_cadence s)) /\
      chained N3 man tt ps man' tt /\
      Forall (fun x =>
                slot_sum (attempted (pr_results (rec_result x))) = Z.max 0 (N3 (rec_start x)) /\
                exists h g1 g2, length h = Z.to_nat (N3 (rec_start x)) /\
                  history api check_move (rec_start x) g1 h (pr_manifold (rec_result x)) g2) ps /\
      (forall k, supported k ->
         slot (attempted (ma_results s')) k = sum_slot attempted k ps /\
         slot (succeeded (ma_results s')) k = sum_slot succeeded k ps /\
         slot (failed (ma_results s')) k = sum_slot failed k ps /\
         slot (attempted (ma_results s')) k =
           slot (succeeded (ma_results s')) k + slot (failed (ma_results s')) k) /\
      ma_checkpoint_events s' = cad_passes (ma_cadence s) / cad_checkpoint (ma_cadence s).
  Proof.
    intros Hcad H. unfold ma_run in H.
    match type of H with context [execute_move_run ?a ?b ?c ?d ?e ?f ?g ?h ?i] =>
      destruct (execute_move_run a b c d e f g h i) as [[g1 w1] rr|[? ?] ?| |] eqn:Er end;
      try discriminate.
    injection H as <- <- <-. cbn [ma_results ma_checkpoint_events].
    pose proof Er as Er0.
    apply observed_exists in Er as [log Hobs].
    assert (HP : forall m s0 a (e0 e1 : G * W) p,
      pass_env ma_execute_pass m s0 a e0 = Ret e1 p ->
      exists g2, ma_execute_pass m s0 a (fst e0) = Ret g2 p).
    { intros m s0 a e0 e1 p Hp. unfold pass_env, on_engine in Hp.
      destruct (ma_execute_pass m s0 a (fst e0)) as [g2 p2| | |]; try discriminate.
      injection Hp as _ <-. eauto. }
    apply observed_run_log in Hobs; [|assumption|].
    2:{ intros m s0 a e0 e1 p Hp. apply HP in Hp as [g2 Hp].
        apply ma_execute_pass_spec in Hp. tauto. }
    destruct Hobs as (Hmk & Hev & _ & Hch & Hret & Hok & Hsl & _).
    exists (passes_of log).
    split. { eapply passes_of_length. exact Hmk. }
    split. { destruct (rr_state rr). exact Hch. }
    assert (Hall : Forall (fun x : pass_record M unit => rec_attempts x = N3 (rec_start x) /\
              exists ga gb, ma_execute_pass (rec_start x) (rec_state x) (N3 (rec_start x)) ga
                            = Ret gb (rec_result x)) (passes_of log)).
    { clear - Hch Hret HP. revert Hret. induction Hch as [|m s0 p l m' s' _ IH]; intros Hret;
        [constructor|]. destruct (Forall_cons_1 _ _ _ Hret) as [(e0 & e1 & Hp) Hret2]. cbn in Hp.
      constructor; [|apply IH; exact Hret2]. cbn. split; [reflexivity|].
      apply HP in Hp as [g2 Hp]. eauto. }
    split.
    { refine (List.Forall_impl _ _ Hall). intros [m s0 a p] (Ea & ga & gb & Hp). cbn in *.
      apply ma_execute_pass_spec in Hp as (_ & Hs & h & g3 & Hl & Hh & _).
      split; [assumption|]. eauto 8. }
    split.
    { intros k Hk. destruct (Hsl k Hk) as (A & B & C).
      split; [assumption|]. split; [assumption|]. split; [assumption|].
      rewrite A, B, C. clear - Hall Hk.
      induction Hall as [|[m s0 a p] l (Ea & ga & gb & Hp) _ IH]; [reflexivity|]. cbn in Hp.
      apply ma_execute_pass_spec in Hp as (_ & _ & h & g3 & _ & _ & Hc).
      destruct (Hc k Hk) as (E1 & E2 & E3).
      unfold sum_slot in *. cbn [fold_right rec_result]. lia. }
    exact Hev.
  Qed.

  (** C12 for MoveAlways. *)
  Lemma ma_run_Thr s w man s' w' x :
    ma_run s w man = Thr (s', w') x ->
    ma_results s' = ma_results s /\ ma_checkpoint_events s' = ma_checkpoint_events s /\
    ma_cadence s' = ma_cadence s /\ ma_write_files s' = ma_write_files s /\
    rnd_seed (ma_random s') = rnd_seed (ma_random s) /\
    rnd_stream (ma_random s') = rnd_stream (ma_random s).
  Proof.
    intros H. unfold ma_run in H.
    match type of H with context [execute_move_run ?a ?b ?c ?d ?e ?f ?g ?h ?i] =>
      destruct (execute_move_run a b c d e f g h i) as [[g1 w1] rr|[? ?] ?| |] end; try discriminate.
    injection H as <- <- <-. repeat split.
  Qed.

  (** C13: the outcome does not depend on previously published results. *)
  Lemma ma_run_replay s1 s2 w man :
    ma_cadence s1 = ma_cadence s2 -> ma_random s1 = ma_random s2 ->
    ma_write_files s1 = ma_write_files s2 ->
    match ma_run s1 w man, ma_run s2 w man with
    | Ret (a, wa) ma, Ret (b, wb) mb => a = b /\ wa = wb /\ ma = mb
    | Thr (a, wa) x, Thr (b, wb) y =>
        ma_random a = ma_random b /\ wa = wb /\ x = y
    | UB, UB => True
    | Abort, Abort => True
    | _, _ => False
    end.
  Proof.
    intros Hc Hr Hw. unfold ma_run. rewrite Hc, Hr, Hw.
    match goal with |- context [execute_move_run ?a ?b ?c ?d ?e ?f ?g ?h ?i] =>
      destruct (execute_move_run a b c d e f g h i) as [[g1 w1] rr|[? ?] ?| |] end; cbn; auto.
  Qed.
End MoveAlways.
Arguments move_always G : clear implicits.
