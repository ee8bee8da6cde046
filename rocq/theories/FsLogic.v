(** Reasoning about programs over the file system: a weakest precondition with
    interference of other threads, and rules for it. *)
From Verif Require Import Base Config Text FileSys.
Local Open Scope Z_scope.
Local Open Scope list_scope.

Section WP.
Variable i : nat.
(** A property of the disk kept by every operation of every thread. *)
Variable Inv : files -> Prop.
(** Whether no other thread changes files. *)
Variable alone : bool.

(** What the other threads may do between two operations of thread [i]. *)
Definition rely (w w' : world) : Prop :=
  w_active w' i = w_active w i /\
  (forall m, w_owner w' m = Some i <-> w_owner w m = Some i) /\
  (w_owner w WriteMutex = Some i \/ alone = true -> w_files w' = w_files w) /\
  (Inv (w_files w) -> Inv (w_files w')).
(** What an operation of thread [i] does. *)
Definition guar (w w' : world) : Prop :=
  (forall j, j <> i -> w_active w' j = w_active w j) /\
  (forall j m, j <> i -> w_owner w' m = Some j <-> w_owner w m = Some j) /\
  (w_files w' = w_files w \/ w_owner w WriteMutex = Some i) /\
  (Inv (w_files w) -> Inv (w_files w')).
(** When thread [i] may perform an operation: locks are taken in the order
    WriteMutex, ReadMutex, never twice, and files are changed only with the
    WriteMutex held. *)
Definition may (o : op) (w : world) : Prop :=
  match o with
  | OLock WriteMutex => w_owner w WriteMutex <> Some i /\ w_owner w ReadMutex <> Some i /\ w_active w i = true
  | OLock ReadMutex => w_owner w ReadMutex <> Some i
  | OUnlock m => w_owner w m = Some i
  | OEnd => w_active w i = true
  | OBegin | OCompute | OPrint | ORead _ | OExists _ => True
  | _ => w_owner w WriteMutex = Some i
  end.

Fixpoint wp {A} (p : prog A) (Q : outcome A -> list event -> world -> Prop) (tr : list event) (w : world) : Prop :=
  match p with
  | Ret_ a => Q (Returned a) tr w
  | Throw e => Q (Raised e) tr w
  | Stuck => Q Ill tr w
  | Do o k => forall w1, rely w w1 ->
      may o w1 /\
      forall a w2, effect i o w1 a w2 -> guar w1 w2 /\ wp (k a) Q (tr ++ [(o, a)]) w2
  end.

Lemma wp_mono {A} (p : prog A) (Q Q' : outcome A -> list event -> world -> Prop) :
  (forall o tr w, Q o tr w -> Q' o tr w) -> forall tr w, wp p Q tr w -> wp p Q' tr w.
Proof.
  intros H. induction p as [a|e| |o k IH]; cbn; intros tr w; try apply H.
  intros W w1 Hr. destruct (W w1 Hr) as [Hm W']. split; [exact Hm|].
  intros a w2 He. destruct (W' a w2 He) as [Hs Hw]. split; [exact Hs|]. apply IH, Hw.
Qed.

Lemma wp_after {A C} (p : prog A) (k : outcome A -> prog C) Q :
  forall tr w, wp p (fun o tr' w' => match o with Ill => Q Ill tr' w' | o => wp (k o) Q tr' w' end) tr w ->
  wp (after p k) Q tr w.
Proof.
  induction p as [a|e| |o f IH]; cbn; intros tr w; try (intros H; exact H).
  intros W w1 Hr. destruct (W w1 Hr) as [Hm W']. split; [exact Hm|].
  intros a w2 He. destruct (W' a w2 He) as [Hs Hw]. split; [exact Hs|]. apply IH, Hw.
Qed.

(** Traces only grow. *)
Lemma wp_extends {A} (p : prog A) (Q : outcome A -> list event -> world -> Prop) :
  forall tr w, wp p Q tr w -> wp p (fun o tr' w' => Q o tr' w' /\ exists tr2, tr' = tr ++ tr2) tr w.
Proof.
  induction p as [a|e| |o k IH]; cbn; intros tr w H;
    try (split; [exact H|exists []; symmetry; apply app_nil_r]).
  intros w1 Hr. destruct (H w1 Hr) as [Hm W']. split; [exact Hm|].
  intros a w2 He. destruct (W' a w2 He) as [Hs Hw]. split; [exact Hs|].
  eapply wp_mono; [|apply IH, Hw]. intros o' tr' w' [Hq (tr2 & ->)]. split; [exact Hq|].
  exists ((o, a) :: tr2). rewrite <- app_assoc. reflexivity.
Qed.

Lemma rely_refl w : rely w w.
Proof. repeat split; auto. Qed.
Lemma rely_trans w1 w2 w3 : rely w1 w2 -> rely w2 w3 -> rely w1 w3.
Proof.
  intros (A1 & B1 & C1 & D1) (A2 & B2 & C2 & D2). repeat split.
  - congruence.
  - intros H. apply B1, B2, H.
  - intros H. apply B2, B1, H.
  - intros H. rewrite C2; [apply C1, H|]. destruct H as [H|H]; [left; apply B1, H|right; exact H].
  - auto.
Qed.
Lemma wp_stable {A} (p : prog A) (Q : outcome A -> list event -> world -> Prop) :
  (forall o tr w w', rely w w' -> Q o tr w -> Q o tr w') ->
  forall tr w w', rely w w' -> wp p Q tr w -> wp p Q tr w'.
Proof.
  intros H tr w w' Hr. destruct p; cbn; try (apply H, Hr).
  intros W w1 Hr1. apply W, (rely_trans _ _ _ Hr Hr1).
Qed.

(** The state of thread [i]: whether it is in a write, holds the WriteMutex and
    the ReadMutex; with the WriteMutex it knows the disk. *)
Definition here (a wl rl : bool) (f : files) (w : world) : Prop :=
  w_active w i = a /\ (w_owner w WriteMutex = Some i <-> wl = true) /\
  (w_owner w ReadMutex = Some i <-> rl = true) /\ (wl = true \/ alone = true -> w_files w = f) /\ Inv (w_files w).
Lemma here_rely a wl rl f w w' : rely w w' -> here a wl rl f w -> here a wl rl f w'.
Proof.
  intros (A1 & B1 & C1 & D1) (H1 & H2 & H3 & H4 & H5). repeat split.
  - congruence.
  - intros K. apply H2, B1, K.
  - intros K. apply B1, H2, K.
  - intros K. apply H3, B1, K.
  - intros K. apply B1, H3, K.
  - intros K. rewrite C1; [apply H4, K|destruct K as [K|K]; [left; apply H2, K|right; exact K]].
  - auto.
Qed.

Definition triple (a wl rl : bool) (f : files) {A} (p : prog A)
  (Q : outcome A -> list event -> files -> Prop) (tr : list event) : Prop :=
  forall w, here a wl rl f w ->
  wp p (fun o tr' w' => match o with Ill => True | _ => exists f', here a wl rl f' w' /\ Q o tr' f' end) tr w.

Lemma t_give a wl rl f {A} (o : outcome A) (Q : outcome A -> list event -> files -> Prop) tr : Q o tr f -> triple a wl rl f (give o) Q tr.
Proof. intros H w Hw. destruct o; cbn; [| |exact I]; exists f; split; assumption. Qed.
Lemma t_ret a wl rl f {A} (x : A) (Q : outcome A -> list event -> files -> Prop) tr : Q (Returned x) tr f -> triple a wl rl f (Ret_ x) Q tr.
Proof. apply (t_give a wl rl f (Returned x)). Qed.
Lemma t_throw a wl rl f {A} e (Q : outcome A -> list event -> files -> Prop) tr : Q (Raised e) tr f -> triple a wl rl f (Throw e) Q tr.
Proof. apply (t_give a wl rl f (Raised e)). Qed.
Lemma t_stuck a wl rl f {A} (Q : outcome A -> list event -> files -> Prop) tr : triple a wl rl f (@Stuck A) Q tr.
Proof. intros w Hw. exact I. Qed.
Lemma t_mono a wl rl f {A} (p : prog A) (Q Q' : outcome A -> list event -> files -> Prop) tr :
  (forall o tr' f', Q o tr' f' -> Q' o tr' f') -> triple a wl rl f p Q tr -> triple a wl rl f p Q' tr.
Proof.
  intros H T w Hw. eapply wp_mono; [|apply T, Hw]. intros o tr' w' K. destruct o; [| |exact I]; destruct K as (f' & H1 & H2); exists f'; auto.
Qed.
Lemma t_after a wl rl f {A C} (p : prog A) (k : outcome A -> prog C) (Q' : outcome A -> list event -> files -> Prop) (Q : outcome C -> list event -> files -> Prop) tr :
  triple a wl rl f p Q' tr ->
  (forall o tr' f', Q' o tr' f' -> o <> Ill -> triple a wl rl f' (k o) Q tr') ->
  triple a wl rl f (after p k) Q tr.
Proof.
  intros T K w Hw. apply wp_after. eapply wp_mono; [|apply T, Hw].
  intros o tr' w' H. destruct o; [| |exact I]; destruct H as (f' & H1 & H2); apply (K _ _ _ H2); (discriminate || assumption).
Qed.

(** What an operation on the disk does to the disk. *)
Definition disk (o : op) (f : files) (a : answer) (f' : files) : Prop :=
  exists w, w_files w = f /\ effect i o w a (with_files w f').
Definition plain (o : op) : Prop :=
  match o with OCompute | OPrint | ORead _ | OExists _ => True | _ => False end.
Definition changing (o : op) : Prop :=
  match o with
  | ORemove _ | OOpen _ | OPut _ _ | OFlush _ _ | OClose _ _ | OUnwind _ _ | ORename _ _ => True
  | _ => False
  end.
Lemma with_files_id w : with_files w (w_files w) = w. Proof. destruct w; reflexivity. Qed.

Lemma t_plain a wl rl f {A} o (k : answer -> prog A) (Q : outcome A -> list event -> files -> Prop) tr : plain o ->
  (forall x g, Inv g -> (wl = true \/ alone = true -> g = f) -> disk o g x g -> triple a wl rl f (k x) Q (tr ++ [(o, x)])) ->
  triple a wl rl f (Do o k) Q tr.
Proof.
  intros Hp K w Hw w1 Hr. apply (here_rely _ _ _ _ _ _ Hr) in Hw. split; [destruct o; try contradiction; exact I|].
  intros x w2 He.
  assert (E : w2 = w1) by (destruct o; try contradiction; inversion He; subst; reflexivity). subst w2.
  split.
  - repeat split; auto.
  - apply (K x (w_files w1)); [apply Hw|apply Hw| |exact Hw].
    exists w1. split; [reflexivity|]. rewrite with_files_id. exact He.
Qed.

Lemma t_change a rl f {A} o (k : answer -> prog A) (Q : outcome A -> list event -> files -> Prop) tr : changing o ->
  (forall x f', disk o f x f' -> Inv f' /\ triple a true rl f' (k x) Q (tr ++ [(o, x)])) ->
  triple a true rl f (Do o k) Q tr.
Proof.
  intros Hp K w Hw w1 Hr. apply (here_rely _ _ _ _ _ _ Hr) in Hw.
  pose proof Hw as (H1 & H2 & H3 & H4 & H5).
  assert (Ho : w_owner w1 WriteMutex = Some i) by (apply H2; reflexivity).
  split; [destruct o; try contradiction; exact Ho|].
  intros x w2 He.
  assert (E : w2 = with_files w1 (w_files w2)).
  { destruct o; try contradiction; inversion He; subst; try reflexivity; symmetry; apply with_files_id. }
  destruct (K x (w_files w2)) as [K1 K2].
  { exists w1. split; [apply H4; left; reflexivity|]. rewrite <- E. exact He. }
  split.
  - rewrite E. repeat split; auto.
  - apply K2. rewrite E. repeat split; auto; cbn; tauto.
Qed.

(** RAII guards. *)
Lemma t_begin a wl rl f {A} (body : prog A) (Q : outcome A -> list event -> files -> Prop) tr :
  (a = true -> Q (Raised LogicError) (tr ++ [(OBegin, AFail LogicError)]) f) ->
  (a = false -> triple true wl rl f body (fun o tr' f' => Q o (tr' ++ [(OEnd, AOk)]) f')
                  (tr ++ [(OBegin, AOk)])) ->
  triple a wl rl f (guarded OBegin OEnd body) Q tr.
Proof.
  intros Ht Hf w Hw. unfold guarded, seqp, act. cbn [after].
  intros w1 Hr. apply (here_rely _ _ _ _ _ _ Hr) in Hw. split; [exact I|].
  pose proof Hw as (H1 & H2 & H3 & H4 & H5).
  intros x w2 He. inversion He; subst; cbn [after].
  - split.
    + repeat split; auto. intros j Hj. cbn. destruct (Nat.eqb_spec i j); congruence.
    + unfold finally. apply wp_after.
      assert (Hb : here true wl rl f (with_active w1 i true)).
      { repeat split; cbn; rewrite ?Nat.eqb_refl; tauto. }
      eapply wp_mono; [|apply (Hf H), Hb].
      intros o tr' w' K. destruct o as [v|e|]; [| |exact I]; destruct K as (f' & K1 & K2).
      all: cbn [wp after]; intros w2 Hr2; apply (here_rely _ _ _ _ _ _ Hr2) in K1;
        destruct K1 as (J1 & J2 & J3 & J4 & J5); split; [exact J1|];
        intros y w3 He3; inversion He3; subst; split;
        [repeat split; auto; intros j Hj; cbn; destruct (Nat.eqb_spec i j); congruence|];
        cbn [give wp]; exists f'; rewrite H; (split; [|exact K2]);
        repeat split; cbn; rewrite ?Nat.eqb_refl; tauto.
  - split; [repeat split; auto|]. exists f. split; [exact Hw|]. apply Ht. assumption.
Qed.

Lemma t_lock a f {A} (body : prog A) (Q : outcome A -> list event -> files -> Prop) tr : a = true ->
  (forall g, Inv g -> (alone = true -> g = f) -> triple a true false g body
     (fun o tr' f' => Q o (tr' ++ [(OUnlock WriteMutex, AOk)]) f')
     (tr ++ [(OLock WriteMutex, AOk)])) ->
  triple a false false f (guarded (OLock WriteMutex) (OUnlock WriteMutex) body) Q tr.
Proof.
  intros Ha Hb w Hw. unfold guarded, seqp, act. cbn [after].
  intros w1 Hr. apply (here_rely _ _ _ _ _ _ Hr) in Hw.
  pose proof Hw as (H1 & H2 & H3 & H4 & H5).
  split. { repeat split; [intros K; apply H2 in K; discriminate|intros K; apply H3 in K; discriminate|congruence]. }
  intros x w2 He. inversion He; subst; cbn [after].
  split.
  - repeat split; auto; cbn.
    + destruct m; cbn; intros K; auto. congruence.
    + destruct m; cbn; intros K; auto. congruence.
  - unfold finally. apply wp_after.
    assert (Hl : here true true false (w_files w1) (with_owner w1 WriteMutex (Some i))).
    { repeat split; cbn; try tauto. }
    eapply wp_mono; [|apply (Hb (w_files w1) H5); [intros K; apply H4; right; exact K|exact Hl]].
    intros o tr' w' K. destruct o as [v|e|]; [| |exact I]; destruct K as (f' & K1 & K2).
    all: cbn [wp after]; intros w2 Hr2; apply (here_rely _ _ _ _ _ _ Hr2) in K1;
      destruct K1 as (J1 & J2 & J3 & J4 & J5); split; [apply J2; reflexivity|];
      intros y w3 He3; inversion He3; subst; split;
      [repeat split; auto; intros Km; cbn in Km |- *; destruct m; cbn in Km |- *; auto; congruence|];
      cbn [give wp]; exists f'; (split; [|exact K2]);
      repeat split; cbn; try tauto; try congruence.
Qed.

Lemma t_lock_read a wl f {A} (body : prog A) (Q : outcome A -> list event -> files -> Prop) tr :
  triple a wl true f body
     (fun o tr' f' => Q o (tr' ++ [(OUnlock ReadMutex, AOk)]) f')
     (tr ++ [(OLock ReadMutex, AOk)]) ->
  triple a wl false f (guarded (OLock ReadMutex) (OUnlock ReadMutex) body) Q tr.
Proof.
  intros Hb w Hw. unfold guarded, seqp, act. cbn [after].
  intros w1 Hr. apply (here_rely _ _ _ _ _ _ Hr) in Hw.
  pose proof Hw as (H1 & H2 & H3 & H4 & H5).
  split. { cbn. intros K; apply H3 in K; discriminate. }
  intros x w2 He. inversion He; subst; cbn [after].
  split.
  - repeat split; auto; cbn.
    + destruct m; cbn; intros K; auto. congruence.
    + destruct m; cbn; intros K; auto. congruence.
  - unfold finally. apply wp_after.
    assert (Hl : here (w_active w1 i) wl true f (with_owner w1 ReadMutex (Some i))).
    { repeat split; cbn; try tauto. }
    eapply wp_mono; [|apply Hb, Hl].
    intros o tr' w' K. destruct o as [v|e|]; [| |exact I]; destruct K as (f' & K1 & K2).
    all: cbn [wp after]; intros w2 Hr2; apply (here_rely _ _ _ _ _ _ Hr2) in K1;
      destruct K1 as (J1 & J2 & J3 & J4 & J5); split; [apply J3; reflexivity|];
      intros y w3 He3; inversion He3; subst; split;
      [repeat split; auto; intros Km; cbn in Km |- *; destruct m; cbn in Km |- *; auto; congruence|];
      cbn [give wp]; exists f'; (split; [|exact K2]);
      repeat split; cbn; try tauto; try congruence.
Qed.
End WP.
