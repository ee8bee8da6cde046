(** Several threads that write and read files. *)
From Verif Require Import Base Config Fnv Text TextFacts Persist PersistFacts MetaSpec MetaRound FileSys FileIO FsLogic FsSpec FsFacts FsProps.
Local Open Scope Z_scope.
Local Open Scope list_scope.

(** * Schedules *)
Lemma steps_split {A} (ps : pool A) w tr1 tr2 ps' w' : steps ps w (tr1 ++ tr2) ps' w' ->
  exists ps1 w1, steps ps w tr1 ps1 w1 /\ steps ps1 w1 tr2 ps' w'.
Proof.
  revert ps w. induction tr1 as [|e tr1 IH]; intros ps w H.
  - exists ps, w. split; [apply steps_here|exact H].
  - cbn in H. inversion H as [|ps0 w0 i o k a w1 tr ps0' w0' E He Hs]; subst.
    destruct (IH _ _ Hs) as (ps1 & w2 & H1 & H2). exists ps1, w2. split; [|exact H2]. eapply steps_more; eassumption.
Qed.

Definition agrees (tr : list (nat * event)) (w : world) : Prop :=
  (forall i m, w_owner w m = Some i <-> holds i m tr = true) /\ (forall i, w_active w i = in_write i tr).
Lemma agrees_idle w : idle w -> agrees [] w.
Proof. intros [H1 H2]. split; [intros i m; rewrite H1; cbn; split; discriminate|exact H2]. Qed.
Lemma agrees_step tr w i o a w1 : agrees tr w -> effect i o w a w1 -> agrees (tr ++ [(i, (o, a))]) w1.
Proof.
  intros [G1 G2] He. unfold agrees, holds, in_write in *. setoid_rewrite fold_left_app. cbn [fold_left].
  destruct He; cbn [locks begins w_owner w_active with_files with_owner with_active];
    try (destruct_or?; [subst x|destruct H0 as [e ->]]);
    try (split; [exact G1|exact G2]).
  all: try (destruct H0 as [->|[e ->]]; split; [exact G1|exact G2|exact G1|exact G2]).
  - split; [exact G1|]. intros j. destruct (Nat.eqb i j); [reflexivity|apply G2].
  - split; [exact G1|]. intros j. destruct (Nat.eqb i j); [reflexivity|apply G2].
  - split; [|exact G2]. intros j m'. destruct (Nat.eqb_spec i j) as [<-|Hj]; destruct m, m'; cbn [mutex_eqb andb]; try apply G1; try tauto;
      (rewrite <- G1, H; split; congruence).
  - split; [|exact G2]. intros j m'. destruct (Nat.eqb_spec i j) as [<-|Hj]; destruct m, m'; cbn [mutex_eqb andb]; try apply G1;
      try (split; congruence); (rewrite <- G1, H; split; congruence).
Qed.
Lemma agrees_steps {A} (ps : pool A) w tr ps' w' : steps ps w tr ps' w' -> forall tr0, agrees tr0 w -> agrees (tr0 ++ tr) w'.
Proof.
  intros H. induction H as [|ps w i o k a w1 tr ps' w' E He H IH]; intros tr0 G.
  - rewrite app_nil_r. exact G.
  - replace (tr0 ++ (i, (o, a)) :: tr) with ((tr0 ++ [(i, (o, a))]) ++ tr) by (rewrite <- app_assoc; reflexivity).
    apply IH. eapply agrees_step; eassumption.
Qed.

(** * Pools of clients *)
Section Pool.
Context {A : Type}.
Variable L : library.
Variable Wr : Z -> tri -> Prop.
Variable ps : pool A.
Variable w : world.
Hypothesis Hps : forall i, client L Wr A (ps i).
Hypothesis Hidle : idle w.

Definition ends_free (i : nat) (o : outcome A) (_ : list event) (w : world) : Prop :=
  match o with Ill => True | _ => exists f', here i (fun _ => True) false false false false f' w /\ True end.
Lemma ends_free_stable i o tr w1 w2 : rely i (fun _ => True) false w1 w2 -> ends_free i o tr w1 -> ends_free i o tr w2.
Proof using.
  intros Hr. unfold ends_free. destruct o; [| |auto]; intros (f & H & _); exists f; (split; [|exact I]); eapply here_rely; eassumption.
Qed.
Lemma sound_init : sound (fun _ => True) ends_free ps w.
Proof using Hps Hidle.
  split; [exact I|]. intros i. exists [].
  pose proof (t_client L i (fun _ => True) Wr (ps i) (Hps i) (fun _ _ _ _ _ _ _ _ => I) (w_files w) []) as T.
  eapply wp_mono; [|apply T, idle_here; [exact Hidle|exact I]].
  intros o tr w' K. exact K.
Qed.
Lemma sound_later tr ps' w' : steps ps w tr ps' w' -> sound (fun _ => True) ends_free ps' w'.
Proof using Hps Hidle. intros H. eapply sound_steps; [apply ends_free_stable|exact H|apply sound_init]. Qed.

Section Event.
Variables (tr1 tr2 : list (nat * event)) (i : nat) (o : op) (a : answer) (ps' : pool A) (w' : world).
Hypothesis Hst : steps ps w (tr1 ++ (i, (o, a)) :: tr2) ps' w'.
Lemma event_here : exists w1 w2, agrees tr1 w1 /\ effect i o w1 a w2 /\ may i o w1.
Proof using Hst Hps Hidle.
  destruct (steps_split _ _ _ _ _ _ Hst) as (ps1 & w1 & H1 & H2).
  inversion H2 as [|ps0 w0 j o' k a' w2 tr ps0' w0' E He Hs]; subst.
  exists w1, w2. split; [apply (agrees_steps _ _ _ _ _ H1 []), agrees_idle, Hidle|]. split; [exact He|].
  eapply sound_step; [apply ends_free_stable|exact (sound_later _ _ _ H1)|exact E|exact He].
Qed.
(** Files change only in the hands of the holder of the WriteMutex. *)
Lemma change_needs_lock : changes_files o = true -> holds i WriteMutex tr1 = true.
Proof using Hst Hps Hidle.
  destruct event_here as (w1 & w2 & G & _ & M). intros H. apply G. destruct o; try discriminate; exact M.
Qed.
(** Nested writes are refused. *)
Lemma begin_answer : o = OBegin -> a = if in_write i tr1 then AFail LogicError else AOk.
Proof using Hst Hps Hidle.
  destruct event_here as (w1 & w2 & [_ G] & He & _). intros ->. inversion He; subst; rewrite <- G, H; reflexivity.
Qed.
(** A thread never waits for a mutex it has itself. *)
Lemma no_self_lock m : o = OLock m -> holds i m tr1 = false.
Proof using Hst Hps Hidle.
  destruct event_here as (w1 & w2 & [G _] & He & M). intros ->.
  destruct (holds i m tr1) eqn:E; [|reflexivity]. apply G in E. exfalso. destruct m; cbn in M; tauto.
Qed.
End Event.

(** At most one thread is in the critical section. *)
Lemma exclusive tr ps' w' i j m : steps ps w tr ps' w' -> holds i m tr = true -> holds j m tr = true -> i = j.
Proof using Hidle.
  intros H Hi Hj. pose proof (agrees_steps _ _ _ _ _ H [] (agrees_idle _ Hidle)) as [G _]. cbn [app] in G.
  apply G in Hi, Hj. congruence.
Qed.
(** Everything is released at the end. *)
Lemma released tr ps' w' i : steps ps w tr ps' w' -> finished (ps' i) ->
  in_write i tr = false /\ forall m, holds i m tr = false.
Proof using Hps Hidle.
  intros H F. pose proof (agrees_steps _ _ _ _ _ H [] (agrees_idle _ Hidle)) as [G1 G2]. cbn [app] in G1, G2.
  destruct (sound_later _ _ _ H) as [_ S]. destruct (S i) as [tri W].
  assert (K : exists f', here i (fun _ => True) false false false false f' w').
  { destruct (ps' i) as [x|e| |o k]; try contradiction; cbn in W; destruct W as (f' & W & _); exists f'; exact W. }
  destruct K as (f' & K1 & K2 & K3 & _). split; [rewrite <- G2; exact K1|].
  intros m. destruct (holds i m tr) eqn:E; [|reflexivity]. apply G1 in E. destruct m; [apply K2 in E|apply K3 in E]; discriminate.
Qed.

(** No deadlock. *)
Lemma can_do i (p : prog A) o k w1 : p = Do o k -> may i o w1 -> (forall m, o = OLock m -> w_owner w1 m = None) ->
  exists a w2, effect i o w1 a w2.
Proof using.
  intros _ M N. destruct o;
    try (eexists; eexists; first [apply (e_read_fail _ _ _ RuntimeError)|apply (e_rename_fail _ _ _ _ RuntimeError)|constructor; fail]).
  - destruct (w_active w1 i) eqn:E; eexists; eexists; [apply e_begin_fail|apply e_begin]; exact E.
  - eexists. eexists. apply e_lock, N. reflexivity.
  - eexists. eexists. apply e_unlock, M.
  - exists AOk. eexists. apply (e_put _ _ _ _ t []); [symmetry; apply app_nil_r|left; reflexivity].
  - exists AOk. eexists. apply (e_unwind _ _ _ _ t []). symmetry; apply app_nil_r.
Qed.
Lemma no_deadlock tr ps' w' i : steps ps w tr ps' w' -> (forall j, ps' j <> Stuck) -> ~ finished (ps' i) -> can_move ps' w'.
Proof using Hps Hidle.
  intros H NS F. destruct (sound_later _ _ _ H) as [_ S].
  assert (M : forall j o k, ps' j = Do o k -> may j o w').
  { intros j o k E. destruct (S j) as [trj W]. rewrite E in W. apply (W w' (rely_refl _ _ _ _)). }
  assert (B : forall j m, w_owner w' m = Some j -> exists o k, ps' j = Do o k).
  { intros j m E. destruct (S j) as [trj W]. destruct (ps' j) as [x|e| |o k] eqn:Ep.
    - cbn in W. destruct W as (f' & (_ & K2 & K3 & _) & _). destruct m; [apply K2 in E|apply K3 in E]; discriminate.
    - cbn in W. destruct W as (f' & (_ & K2 & K3 & _) & _). destruct m; [apply K2 in E|apply K3 in E]; discriminate.
    - elim (NS j Ep).
    - eauto. }
  assert (Free : forall j o k, ps' j = Do o k -> (forall m, o = OLock m -> w_owner w' m = None) -> can_move ps' w').
  { intros j o k E N. destruct (can_do j (ps' j) o k w' E (M _ _ _ E) N) as (a & w2 & He). exists j, o, k, a, w2. auto. }
  assert (R : forall j, w_owner w' ReadMutex = Some j -> can_move ps' w').
  { intros j E. destruct (B _ _ E) as (o & k & Ep). apply (Free _ _ _ Ep). intros m ->. pose proof (M _ _ _ Ep) as Hm.
    exfalso. destruct m; cbn in Hm; [tauto|apply Hm, E]. }
  assert (LR : forall j k, ps' j = Do (OLock ReadMutex) k -> can_move ps' w').
  { intros j k E. destruct (w_owner w' ReadMutex) as [l|] eqn:El; [eapply R; reflexivity|].
    apply (Free _ _ _ E). intros m [= <-]. exact El. }
  assert (W' : forall j, w_owner w' WriteMutex = Some j -> can_move ps' w').
  { intros j E. destruct (B _ _ E) as (o & k & Ep). destruct o as [| | | |m| | | | | | | | | |]; try (apply (Free _ _ _ Ep); intros m'; discriminate).
    destruct m; [|apply (LR _ _ Ep)]. pose proof (M _ _ _ Ep) as Hm. cbn in Hm. tauto. }
  destruct (ps' i) as [x|e| |o k] eqn:Ep; [elim F; exact I|elim F; exact I|elim (NS i Ep)|].
  destruct o as [| | | |m| | | | | | | | | |]; try (apply (Free _ _ _ Ep); intros m'; discriminate).
  destruct m; [|apply (LR _ _ Ep)].
  destruct (w_owner w' WriteMutex) as [l|] eqn:El; [eapply W'; reflexivity|].
  apply (Free _ _ _ Ep). intros m [= <-]. exact El.
Qed.
End Pool.

(** A write started inside a write of the same thread. *)
Lemma nested_write L i ser n t md w tr p' w' : w_active w i = true ->
  runs i (write_payload L ser n t md) w tr p' w' ->
  w' = w /\ (p' = write_payload L ser n t md /\ tr = [] \/ p' = Throw LogicError).
Proof.
  intros Ha H. unfold write_payload, guarded, seqp, act in H. cbn [after] in H.
  inversion H as [|o k w0 a w1 tr1 p1 w1' He Hr]; subst; [auto|].
  inversion He; subst; [congruence|]. cbn [after] in Hr. inversion Hr; subst. auto.
Qed.

(** * A reader among writers (C65) *)
Section Reader.
Variable L : library.
Variable Wr : Z -> tri -> Prop.
Variable ps : pool tri.
Variable w : world.
Variables (r : nat) (n : Z).
Hypothesis Hr : ps r = read_file L n.
Hypothesis Hps : forall i, i <> r -> client L Wr tri (ps i).
Hypothesis Hidle : idle w.

(** Every file holds what it held at the start, or something written whole. *)
Definition whole (f : files) : Prop :=
  forall m c, f (m, Payload) = Some c -> w_files w (m, Payload) = Some c \/ exists t, Wr m t /\ c = stored L t.
Lemma whole_start : whole (w_files w). Proof using. intros m c H. left. exact H. Qed.
Lemma whole_during m t : Wr m t -> forall wm f0, whole f0 -> forall g, during L m (stored L t) wm f0 g -> whole g.
Proof using.
  intros Hw wm f0 H0 g [D1 D2] m' c Hc. destruct (Z.eq_dec m' m) as [->|Hm].
  - destruct D2 as [[D2 _]|[D2 _]]; rewrite D2 in Hc; [apply H0, Hc|]. right. exists t. split; [exact Hw|congruence].
  - rewrite (D1 m' Payload Hm) in Hc. apply H0, Hc.
Qed.
Definition reader_ends (i : nat) (o : outcome tri) (_ : list event) (_ : world) : Prop :=
  i = r -> match o with Returned v => exists c, parse_payload (l_cgal_read L) c = Val v /\
     (w_files w (n, Payload) = Some c \/ exists t, Wr n t /\ c = stored L t) | _ => True end.
Lemma reader_result tr ps' w' v : steps ps w tr ps' w' -> ps' r = Ret_ v ->
  exists c, parse_payload (l_cgal_read L) c = Val v /\
    (w_files w (n, Payload) = Some c \/ exists t, Wr n t /\ c = stored L t).
Proof using Hr Hps Hidle.
  intros H E.
  assert (S : sound whole reader_ends ps' w').
  { eapply sound_steps; [|exact H|].
    - intros i o tr0 w1 w2 _ K. exact K.
    - split; [apply whole_start|]. intros i. exists []. destruct (Nat.eq_dec i r) as [->|Hi].
      + rewrite Hr. pose proof (t_read_file L r whole false false false (w_files w) n []) as T.
        eapply wp_mono; [|apply T, idle_here; [exact Hidle|apply whole_start]].
        intros o tr0 w1 K _. destruct o as [u| |]; auto. destruct K as (f' & _ & _ & (g & c & Hg & _ & Hc & Hp)).
        exists c. split; [exact Hp|]. apply Hg, Hc.
      + pose proof (t_client L i whole Wr (ps i) (Hps i Hi) whole_during (w_files w) []) as T.
        eapply wp_mono; [|apply T, idle_here; [exact Hidle|apply whole_start]].
        intros o tr0 w1 _ K. contradiction. }
  destruct S as [_ S]. destruct (S r) as [tr0 W]. rewrite E in W. exact (W eq_refl).
Qed.
End Reader.
