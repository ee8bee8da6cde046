(** The programs of FileIO.v meet their specifications (FsSpec.v), under the
    interference of other threads. *)
From Verif Require Import Base Config Text Persist MetaSpec MetaRound FileSys FileIO FsLogic FsSpec.
Local Open Scope Z_scope.
Local Open Scope list_scope.

Lemma path_eqb_spec p q : path_eqb p q = true <-> p = q.
Proof.
  destruct p as [a r], q as [b s]. unfold path_eqb. cbn [fst snd]. rewrite andb_true_iff, Z.eqb_eq.
  split; [intros [-> H]; destruct r, s; try discriminate; reflexivity|intros [= -> ->]; split; [reflexivity|destruct s; reflexivity]].
Qed.
Lemma set_same f p c : set f p c p = c.
Proof. unfold set. rewrite (proj2 (path_eqb_spec p p) eq_refl). reflexivity. Qed.
Lemma set_other f p c q : q <> p -> set f p c q = f q.
Proof. intros H. unfold set. destruct (path_eqb p q) eqn:E; [apply path_eqb_spec in E; congruence|reflexivity]. Qed.

(** What the operations do to the disk. *)
Section Disk.
Variable i : nat.
Ltac inv := intros (w & <- & He); inversion He; subst;
  repeat match goal with H : with_files _ _ = _ |- _ => apply (f_equal w_files) in H; cbn in H
         | H : _ = with_files _ _ |- _ => apply (f_equal w_files) in H; cbn in H end; subst; eauto 10.
Lemma disk_compute f x f' : disk i OCompute f x f' -> f' = f /\ (x = AOk \/ exists e, x = AFail e).
Proof. inv. Qed.
Lemma disk_print f x f' : disk i OPrint f x f' -> f' = f /\ (x = AOk \/ exists e, x = AFail e).
Proof. inv. Qed.
Lemma disk_read f p x f' : disk i (ORead p) f x f' -> f' = f /\ ((exists t, x = AText t /\ f p = Some t) \/ exists e, x = AFail e).
Proof. inv. Qed.
Lemma disk_exists f p x f' : disk i (OExists p) f x f' ->
  f' = f /\ ((x = ABool (match f p with Some _ => true | None => false end)) \/ exists e, x = AFail e).
Proof. inv. Qed.
Lemma disk_remove f p x f' : disk i (ORemove p) f x f' -> (x = AOk /\ f' = set f p None) \/ (exists e, x = AFail e /\ f' = f).
Proof. inv. Qed.
Lemma disk_open f p x f' : disk i (OOpen p) f x f' -> (x = AOk /\ f' = set f p (Some [])) \/ (exists e, x = AFail e /\ f' = f).
Proof. inv. Qed.
Lemma disk_put f p t x f' : disk i (OPut p t) f x f' ->
  (x = AOk \/ exists e, x = AFail e) /\ exists a, f' = set f p (Some a).
Proof. inv. Qed.
Lemma disk_flush f p t x f' : disk i (OFlush p t) f x f' ->
  (x = AOk /\ f' = set f p (Some t)) \/ (exists e a, x = AFail e /\ f' = set f p (Some a)).
Proof. inv. Qed.
Lemma disk_close f p t x f' : disk i (OClose p t) f x f' ->
  (x = AOk /\ f' = set f p (Some t)) \/ (exists e a, x = AFail e /\ f' = set f p (Some a)).
Proof. inv. Qed.
Lemma disk_unwind f p t x f' : disk i (OUnwind p t) f x f' -> x = AOk /\ exists a, f' = set f p (Some a).
Proof. inv. Qed.
Lemma disk_rename f p q x f' : disk i (ORename p q) f x f' ->
  (exists t, x = AOk /\ f p = Some t /\ f' = set (set f p None) q (Some t)) \/ (exists e, x = AFail e /\ f' = f).
Proof. inv. Qed.
End Disk.

Section Rules.
Variable i : nat.
Variable Inv : files -> Prop.
Variable alone : bool.
Notation tri3 := (triple i Inv alone).

Lemma t_seq a wl rl f {A C} (p : prog A) (k : A -> prog C) (Q' : outcome A -> list event -> files -> Prop)
  (Q : outcome C -> list event -> files -> Prop) tr :
  tri3 a wl rl f p Q' tr ->
  (forall x tr' f', Q' (Returned x) tr' f' -> tri3 a wl rl f' (k x) Q tr') ->
  (forall e tr' f', Q' (Raised e) tr' f' -> Q (Raised e) tr' f') ->
  tri3 a wl rl f (seqp p k) Q tr.
Proof.
  intros T K E. apply (t_after _ _ _ _ _ _ _ _ _ _ _ _ T). intros o tr' f' Hq Ho.
  destruct o; [apply K, Hq|apply t_throw, E, Hq|congruence].
Qed.
Lemma t_extends a wl rl f {A} (p : prog A) (Q : outcome A -> list event -> files -> Prop) tr :
  tri3 a wl rl f p Q tr -> tri3 a wl rl f p (fun o tr' g => Q o tr' g /\ exists tr2, tr' = tr ++ tr2) tr.
Proof.
  intros T w Hw. eapply wp_mono; [|apply wp_extends, T, Hw]. intros o tr' w' [H E].
  destruct o; [| |exact I]; destruct H as (f' & H1 & H2); exists f'; auto.
Qed.
Lemma t_seqx a wl rl f {A C} (p : prog A) (k : A -> prog C) (Q' : outcome A -> list event -> files -> Prop)
  (Q : outcome C -> list event -> files -> Prop) tr :
  tri3 a wl rl f p Q' tr ->
  (forall x tr2 f', Q' (Returned x) (tr ++ tr2) f' -> tri3 a wl rl f' (k x) Q (tr ++ tr2)) ->
  (forall e tr2 f', Q' (Raised e) (tr ++ tr2) f' -> Q (Raised e) (tr ++ tr2) f') ->
  tri3 a wl rl f (seqp p k) Q tr.
Proof.
  intros T K E. apply (t_seq _ _ _ _ _ _ _ _ _ (t_extends _ _ _ _ _ _ _ T)).
  - intros x tr' f' [H (tr2 & ->)]. apply K, H.
  - intros x tr' f' [H (tr2 & ->)]. apply E, H.
Qed.
Lemma t_act_plain a wl rl f o (Q : outcome unit -> list event -> files -> Prop) tr : o = OCompute \/ o = OPrint ->
  (forall tr', Q (Returned tt) tr' f) -> (forall e tr', Q (Raised e) tr' f) ->
  tri3 a wl rl f (act o) Q tr.
Proof.
  intros Ho K E. apply t_plain; [destruct Ho; subst; exact I|]. intros x g Hg Hf Hd.
  assert (x = AOk \/ exists e, x = AFail e) as [->|[e ->]].
  { destruct Ho; subst; [apply (disk_compute _ _ _ _ Hd)|apply (disk_print _ _ _ _ Hd)]. }
  - apply t_ret, K.
  - apply t_throw, E.
Qed.
Lemma t_calc a wl rl f {A} (c : checked A) (Q : outcome A -> list event -> files -> Prop) tr :
  (forall x tr', c = Val x -> Q (Returned x) tr' f) -> (forall e tr', Q (Raised e) tr' f) ->
  tri3 a wl rl f (calc c) Q tr.
Proof.
  intros K E. unfold calc. apply (t_seq _ _ _ _ _ _ (fun o _ f' => f' = f)).
  - apply t_act_plain; auto.
  - intros [] tr' f' ->. destruct c; [apply t_ret, K; reflexivity|apply t_throw, E|apply t_stuck].
  - intros e tr' f' ->. apply E.
Qed.
Lemma t_read_all a wl rl f p (Q : outcome text -> list event -> files -> Prop) tr :
  (forall g t, Inv g -> (wl = true \/ alone = true -> g = f) -> g p = Some t -> forall tr', Q (Returned t) tr' f) ->
  (forall e tr', Q (Raised e) tr' f) ->
  tri3 a wl rl f (read_all p) Q tr.
Proof.
  intros K E. apply t_plain; [exact I|]. intros x g Hg Hf Hd.
  destruct (disk_read _ _ _ _ _ Hd) as [_ [(t & -> & Ht)|[e ->]]].
  - apply t_ret, (K g); assumption.
  - apply t_throw, E.
Qed.
Lemma t_exists a wl rl f p (Q : outcome bool -> list event -> files -> Prop) tr :
  (forall b tr', Q (Returned b) tr' f) -> (forall e tr', Q (Raised e) tr' f) ->
  tri3 a wl rl f (file_exists p) Q tr.
Proof.
  intros K E. apply t_plain; [exact I|]. intros x g Hg Hf Hd.
  destruct (disk_exists _ _ _ _ _ Hd) as [_ [->|[e ->]]]; [apply t_ret, K|apply t_throw, E].
Qed.
Lemma t_remove a rl f p (Q : outcome unit -> list event -> files -> Prop) tr :
  Inv f -> Inv (set f p None) -> Q (Returned tt) (tr ++ [(ORemove p, AOk)]) (set f p None) ->
  (forall e, Q (Returned tt) (tr ++ [(ORemove p, AFail e)]) f) ->
  tri3 a true rl f (ignoring (ORemove p)) Q tr.
Proof.
  intros If I1 K1 K2. apply t_change; [exact I|]. intros x f' Hd.
  destruct (disk_remove _ _ _ _ _ Hd) as [[-> ->]|(e & -> & ->)].
  - split; [exact I1|apply t_ret, K1].
  - split; [exact If|apply t_ret, K2].
Qed.
Lemma t_rename a rl f p q c (Q : outcome unit -> list event -> files -> Prop) tr :
  f p = Some c -> Inv f -> Inv (set (set f p None) q (Some c)) ->
  Q (Returned tt) (tr ++ [(ORename p q, AOk)]) (set (set f p None) q (Some c)) ->
  (forall e tr', Q (Raised e) tr' f) ->
  tri3 a true rl f (act (ORename p q)) Q tr.
Proof.
  intros Hp If I1 K1 K2. apply t_change; [exact I|]. intros x f' Hd.
  destruct (disk_rename _ _ _ _ _ _ Hd) as [(t & -> & Ht & ->)|(e & -> & ->)].
  - assert (t = c) by congruence. subst t. split; [exact I1|apply t_ret, K1].
  - split; [exact If|apply t_throw, K2].
Qed.

(** Disks that differ at most on [p]. *)
Definition agree (p : path) (f f' : files) : Prop := forall q, q <> p -> f' q = f q.
Lemma agree_refl p f : agree p f f. Proof. intros q _. reflexivity. Qed.
Lemma agree_set p f f' c : agree p f f' -> agree p f (set f' p c).
Proof. intros H q Hq. rewrite set_other by exact Hq. apply H, Hq. Qed.

Lemma t_stream a f p bytes ser (Q : outcome unit -> list event -> files -> Prop) tr :
  (forall f', agree p f f' -> Inv f') ->
  (forall f' tr', tri3 a true false f' ser (fun _ _ g => g = f') tr') ->
  (forall f' tr', agree p f f' -> f' p = Some bytes -> Q (Returned tt) tr' f') ->
  (forall e f' tr', agree p f f' -> Q (Raised e) tr' f') ->
  tri3 a true false f (write_stream p bytes ser) Q tr.
Proof.
  intros HI Hser K E. unfold write_stream.
  apply (t_seq _ _ _ _ _ _ (fun o _ f' => agree p f f')).
  { apply t_change; [exact I|]. intros x f' Hd. destruct (disk_open _ _ _ _ _ Hd) as [[-> ->]|(e & -> & ->)].
    - split; [apply HI, agree_set, agree_refl|]. apply t_ret, agree_set, agree_refl.
    - split; [apply HI, agree_refl|]. apply t_throw, agree_refl. }
  2:{ intros e tr' f' H. apply E, H. }
  intros [] tr1 f1 A1. unfold on_exception.
  apply (t_after _ _ _ _ _ _ _ _ _ (fun o _ f' => agree p f f' /\ match o with Returned _ => f' p = Some bytes | _ => True end)).
  - apply (t_seq _ _ _ _ _ _ (fun o _ f' => agree p f f')).
    { eapply t_mono; [|apply Hser]. intros o tr' f' ->. exact A1. }
    2:{ intros e tr' f' H. split; [exact H|exact I]. }
    intros [] tr2 f2 A2.
    apply (t_seq _ _ _ _ _ _ (fun o _ f' => agree p f f')).
    { apply t_change; [exact I|]. intros x f' Hd.
      destruct (disk_put _ _ _ _ _ _ Hd) as [Hx [c ->]]. split; [apply HI, agree_set, A2|].
      destruct Hx as [->|[e ->]]; [apply t_ret|apply t_throw]; apply agree_set, A2. }
    2:{ intros e tr' f' H. split; [exact H|exact I]. }
    intros [] tr3 f3 A3.
    apply (t_seq _ _ _ _ _ _ (fun o _ f' => agree p f f')).
    { apply t_change; [exact I|]. intros x f' Hd.
      destruct (disk_flush _ _ _ _ _ _ Hd) as [[-> ->]|(e & c & -> & ->)];
        (split; [apply HI, agree_set, A3|]); [apply t_ret|apply t_throw]; apply agree_set, A3. }
    2:{ intros e tr' f' H. split; [exact H|exact I]. }
    intros [] tr4 f4 A4.
    apply t_change; [exact I|]. intros x f' Hd.
    destruct (disk_close _ _ _ _ _ _ Hd) as [[-> ->]|(e & c & -> & ->)];
      (split; [apply HI, agree_set, A4|]); [apply t_ret|apply t_throw]; (split; [apply agree_set, A4|]).
    + apply set_same.
    + exact I.
  - intros o tr2 f2 [A2 H2] Ho. destruct o as [[]|e|]; [|clear Ho H2|congruence].
    + apply t_ret, K; assumption.
    + apply (t_after _ _ _ _ _ _ _ _ _ (fun o _ f' => agree p f f')).
      * apply t_change; [exact I|]. intros x f' Hd. destruct (disk_unwind _ _ _ _ _ _ Hd) as [-> [c ->]].
        split; [apply HI, agree_set, A2|apply t_ret, agree_set, A2].
      * intros o tr3 f3 A3 _. apply t_throw, E, A3.
Qed.
End Rules.

Section Programs.
Variable L : library.
Variable i : nat.
Variable Inv : files -> Prop.
Variable alone : bool.
Notation tri3 := (triple i Inv alone).

Lemma same_integrity_spec a b : same_integrity a b = true <-> a = b.
Proof.
  unfold same_integrity. destruct a, b. cbn. rewrite andb_true_iff, !Z.eqb_eq. split; [intros [-> ->]; reflexivity|intros [= -> ->]; auto].
Qed.

(** read_file changes nothing; what it returns is parsed from bytes that were
    the whole contents of the file at some moment. *)
Lemma t_read_file a wl f n tr :
  tri3 a wl false f (read_file L n)
    (fun o _ f' => f' = f /\ match o with
       | Returned v => exists g c, Inv g /\ (wl = true \/ alone = true -> g = f) /\ g (n, Payload) = Some c
                         /\ parse_payload (l_cgal_read L) c = Val v
       | _ => True end) tr.
Proof.
  unfold read_file.
  apply (t_seq _ _ _ _ _ _ _ _ _ (fun o _ f' => f' = f)).
  { apply t_act_plain; auto. }
  2:{ intros e tr' f' ->. split; [reflexivity|exact I]. }
  intros [] tr1 f1 ->. apply t_lock_read.
  apply (t_seq _ _ _ _ _ _ _ _ _ (fun o _ f' => f' = f)).
  { unfold validate_payload_integrity.
    apply (t_seq _ _ _ _ _ _ _ _ _ (fun o _ f' => f' = f)); [apply t_exists; auto| |auto].
    intros b tr' f' ->. destruct b; [|apply t_ret; reflexivity].
    apply (t_seq _ _ _ _ _ _ _ _ _ (fun o _ f' => f' = f)); [apply t_read_all; auto| |auto]. intros s tr2 f2 ->.
    apply (t_seq _ _ _ _ _ _ _ _ _ (fun o _ f' => f' = f)); [apply t_calc; auto| |auto]. intros p tr3 f3 ->.
    apply (t_seq _ _ _ _ _ _ _ _ _ (fun o _ f' => f' = f)); [apply t_read_all; auto| |auto]. intros c tr4 f4 ->.
    destruct (same_integrity _ _); [apply t_ret|apply t_throw]; reflexivity. }
  2:{ intros e tr' f' ->. split; [reflexivity|exact I]. }
  intros md tr2 f2 ->.
  apply (t_seq _ _ _ _ _ _ _ _ _ (fun o _ f' => f' = f /\ match o with Returned c => exists g, Inv g /\ (wl = true \/ alone = true -> g = f) /\ g (n, Payload) = Some c | _ => True end)).
  { apply t_read_all; [|auto]. intros g t Hg Hf Ht tr'. split; [reflexivity|]. exists g. auto. }
  2:{ intros e tr' f' [-> _]. split; [reflexivity|exact I]. }
  intros c tr3 f3 [-> (g & G1 & G2 & G3)].
  apply (t_seq _ _ _ _ _ _ _ _ _ (fun o _ f' => f' = f /\ match o with Returned v => parse_payload (l_cgal_read L) c = Val v | _ => True end)).
  { apply t_calc; auto. }
  2:{ intros e tr' f' [-> _]. split; [reflexivity|exact I]. }
  intros v tr4 f4 [-> Hv].
  assert (F : exists g c, Inv g /\ (wl = true \/ alone = true -> g = f) /\ g (n, Payload) = Some c /\ parse_payload (l_cgal_read L) c = Val v)
    by (exists g, c; auto).
  destruct md as [p|]; [|apply t_ret; auto].
  apply (t_seq _ _ _ _ _ _ _ _ _ (fun o _ f' => f' = f)); [apply t_calc; auto| |].
  - intros [] tr5 f5 ->. apply t_ret. auto.
  - intros e tr5 f5 ->. auto.
Qed.

(** A client inside a write changes nothing. *)
Lemma t_client_inside Wr {A} (p : prog A) : client L Wr A p ->
  forall f tr, tri3 true true false f p (fun _ _ g => g = f) tr.
Proof.
  intros H. induction H as [A a|A e|A k Hk IH|A ser n t md k Hw Hs IHs Hk IHk|A n k Hk IH]; intros f tr.
  - apply t_ret. reflexivity.
  - apply t_throw. reflexivity.
  - apply t_plain; [exact I|]. intros x g _ _ _. apply IH.
  - apply (t_after _ _ _ _ _ _ _ _ _ (fun o _ g => g = f)).
    + unfold write_payload. apply t_begin; [reflexivity|discriminate].
    + intros o tr' f' -> _. apply IHk.
  - apply (t_after _ _ _ _ _ _ _ _ _ (fun o _ g => g = f)).
    + eapply t_mono; [|apply t_read_file]. intros o tr' f' [-> _]. reflexivity.
    + intros o tr' f' -> _. apply IH.
Qed.
End Programs.

(** * Writing *)
Section Write.
Variable L : library.
Variable i : nat.
Variable Inv : files -> Prop.
Variable alone : bool.
Notation tri3 := (triple i Inv alone).
Variables (n : Z) (t : tri).
Notation bytes := (stored L t).

(** What the checks of a completed write establish. *)
Definition checked_payload : Prop :=
  validate_serialized_payload (l_fmt17g L) (l_cgal_read L) bytes t = Val tt.
Definition good_sidecar (md : option metadata) (s : text) : Prop :=
  exists p, read_persistence_metadata (l_scan_double L) (l_scan_long_double L) s = Val p
            /\ p_payload p = payload_integrity bytes
            /\ validate_persistence_metadata (l_fmt17g L) p t = Val tt
            /\ exists m m', md = Some m /\ reconcile (l_fmt17g L) m t = Val m' /\
                 s = metadata_text (l_print_double L) (l_print_long_double L) (l_build L) m' (payload_integrity bytes).
Lemma good_records md s : good_sidecar md s -> records L s bytes.
Proof. intros (p & H1 & H2 & _). exists p. split; [apply read_metadata_spec, H1|exact H2]. Qed.
Lemma during_good md wm f0 f : during_with (good_sidecar md) n bytes wm f0 f -> during L n bytes wm f0 f.
Proof.
  intros [H1 H2]. split; [exact H1|]. destruct H2 as [[H2 H3]|[H2 H3]]; [left|right]; (split; [exact H2|]).
  - destruct H3 as [H3|(E & s & Hs & G)]; [left; exact H3|right]. split; [exact E|]. exists s. split; [exact Hs|eapply good_records, G].
  - destruct wm; [|exact H3]. destruct H3 as (s & Hs & G). exists s. split; [exact Hs|eapply good_records, G].
Qed.

(** Sharper than [write_ends]: what was checked. *)
Definition ends (md : option metadata) (f0 : files) (o : outcome unit) (tr : list event) (f : files) : Prop :=
  match o with
  | Returned _ =>
      f (n, Payload) = Some bytes /\ checked_payload /\
      match md with
      | Some m => exists s, f (n, Sidecar) = Some s /\ good_sidecar md s
      | None => f (n, Sidecar) = None \/ (f (n, Sidecar) = f0 (n, Sidecar) /\ removal_failed (n, Sidecar) tr)
      end /\
      f (n, PayloadTmp) = None /\ gone (n, SidecarTmp) tr f
  | Raised _ =>
      f (n, Payload) = f0 (n, Payload) /\
      (f (n, Sidecar) = f0 (n, Sidecar) \/
       ((exists s, f (n, Sidecar) = Some s /\ good_sidecar md s) /\
        In (ORename (n, SidecarTmp) (n, Sidecar), AOk) tr)) /\
      (f = f0 \/ (gone (n, PayloadTmp) tr f /\ gone (n, SidecarTmp) tr f))
  | Ill => True
  end.
Definition is_some {A} (o : option A) : bool := match o with Some _ => true | None => false end.
Lemma ends_write md f0 o tr f : ends md f0 o tr f -> write_ends L n t (is_some md) f0 o tr f.
Proof.
  destruct o as [u|e|]; cbn; [| |auto].
  - intros (H1 & _ & H3 & H4). split; [exact H1|]. split; [|exact H4].
    destruct md as [m|]; [|exact H3]. destruct H3 as (s & Hs & G). exists s. split; [exact Hs|eapply good_records, G].
  - intros (H1 & H2 & H3). split; [exact H1|]. split; [|exact H3].
    destruct H2 as [H2|[(s & Hs & G) H2]]; [left; exact H2|right]. split; [|exact H2]. exists s. split; [exact Hs|eapply good_records, G].
Qed.

(** The old files, and disks that differ from them only in temporaries. *)
Definition untouched (f0 f : files) : Prop :=
  forall q, q <> (n, PayloadTmp) -> q <> (n, SidecarTmp) -> f q = f0 q.
Lemma untouched_set f0 f q c : q = (n, PayloadTmp) \/ q = (n, SidecarTmp) -> untouched f0 f -> untouched f0 (set f q c).
Proof. intros Hq H r R1 R2. rewrite set_other by (destruct Hq; congruence). apply H; assumption. Qed.
Lemma untouched_agree f0 f f' q : q = (n, PayloadTmp) \/ q = (n, SidecarTmp) -> untouched f0 f -> agree q f f' -> untouched f0 f'.
Proof. intros Hq H A r R1 R2. rewrite A by (destruct Hq; congruence). apply H; assumption. Qed.

Section Body.
Variable f0 : files.
Variable wm : bool.
Variable md0 : option metadata.
Hypothesis HI : forall f, during_with (good_sidecar md0) n bytes wm f0 f -> Inv f.

Lemma untouched_during f : untouched f0 f -> during_with (good_sidecar md0) n bytes wm f0 f.
Proof. intros H. split; [intros m r Hm; apply H; congruence|]. left. split; [apply H; discriminate|left; apply H; discriminate]. Qed.
Lemma untouched_inv f : untouched f0 f -> Inv f.
Proof using HI. intros H. apply HI, untouched_during, H. Qed.

(** With the new sidecar in place. *)
Definition announced (f : files) : Prop :=
  wm = true /\ (forall m r, m <> n -> f (m, r) = f0 (m, r)) /\ f (n, Payload) = f0 (n, Payload) /\
  exists s, f (n, Sidecar) = Some s /\ good_sidecar md0 s.
Lemma announced_inv f : announced f -> Inv f.
Proof using HI.
  intros (H0 & H1 & H2 & s & Hs & G). apply HI. split; [exact H1|]. left. split; [exact H2|]. right.
  split; [exact H0|]. exists s. split; [exact Hs|exact G].
Qed.
Lemma announced_set f q c : q = (n, PayloadTmp) \/ q = (n, SidecarTmp) -> announced f -> announced (set f q c).
Proof.
  intros Hq (H0 & H1 & H2 & s & Hs & G).
  assert (E : forall m r, m <> n \/ r = Payload \/ r = Sidecar -> set f q c (m, r) = f (m, r)).
  { intros m r K. apply set_other. destruct Hq; subst q; intros [= -> ->]; intuition discriminate. }
  split; [exact H0|]. split; [intros m r K; rewrite E by tauto; apply H1, K|].
  split; [rewrite E by tauto; exact H2|]. exists s. rewrite E by tauto. auto.
Qed.

Lemma t_clean_up a f (P : files -> Prop) (Q : outcome unit -> list event -> files -> Prop) tr :
  (forall g, P g -> Inv g) -> (forall g q c, q = (n, PayloadTmp) \/ q = (n, SidecarTmp) -> P g -> P (set g q c)) ->
  P f ->
  (forall g tr', P g -> gone (n, PayloadTmp) (tr ++ tr') g -> gone (n, SidecarTmp) (tr ++ tr') g -> Q (Returned tt) (tr ++ tr') g) ->
  tri3 a true false f (clean_up n) Q tr.
Proof.
  intros HP HS Hf K. unfold clean_up.
  apply (t_seq _ _ _ _ _ _ _ _ _ (fun o tr1 g => match o with Returned _ => P g /\ exists tr', tr1 = tr ++ tr' /\ gone (n, PayloadTmp) tr1 g | _ => False end)).
  - apply t_remove.
    + auto.
    + auto.
    + split; [auto|]. eexists. split; [reflexivity|]. left. apply set_same.
    + intros e. split; [exact Hf|]. eexists. split; [reflexivity|]. right. exists e. apply in_app_iff. right. left. reflexivity.
  - intros [] tr1 g (Hg & tr' & -> & G). rewrite <- (app_nil_r (tr ++ tr')) in G.
    apply t_remove.
    + auto.
    + auto.
    + rewrite <- app_assoc. apply K; [auto| |left; apply set_same].
      destruct G as [G|[e G]]; [left; rewrite set_other by discriminate; exact G|right].
      exists e. rewrite app_nil_r, in_app_iff in G. rewrite !in_app_iff. tauto.
    + intros e. rewrite <- app_assoc. apply K; [auto| |].
      * destruct G as [G|[e' G]]; [left; exact G|right]. exists e'. rewrite app_nil_r, in_app_iff in G. rewrite !in_app_iff. tauto.
      * right. exists e. rewrite !in_app_iff. right. right. left. reflexivity.
  - intros e tr' f' [].
Qed.

Lemma gone_more q tr tr' f : gone q tr f -> gone q (tr ++ tr') f.
Proof. intros [H|[e H]]; [left; exact H|right]. exists e. apply in_app_iff. left. exact H. Qed.

(** After the new bytes are in place. *)
Lemma final_inv f : (forall m r, m <> n -> f (m, r) = f0 (m, r)) -> f (n, Payload) = Some bytes ->
  (if wm then exists s, f (n, Sidecar) = Some s /\ good_sidecar md0 s
   else f (n, Sidecar) = f0 (n, Sidecar) \/ f (n, Sidecar) = None) -> Inv f.
Proof using HI.
  intros H1 H2 H3. apply HI. split; [exact H1|]. right. split; [exact H2|exact H3].
Qed.

Definition written (md : option metadata) (o : outcome unit) (tr : list event) (f : files) : Prop :=
  match o with
  | Returned _ =>
      f (n, Payload) = Some bytes /\ checked_payload /\
      match md with
      | Some m' => exists s, f (n, Sidecar) = Some s /\ good_sidecar md0 s
      | None => f (n, Sidecar) = None \/ (f (n, Sidecar) = f0 (n, Sidecar) /\ removal_failed (n, Sidecar) tr)
      end /\
      f (n, PayloadTmp) = None /\ gone (n, SidecarTmp) tr f
  | Raised _ => untouched f0 f \/ (announced f /\ In (ORename (n, SidecarTmp) (n, Sidecar), AOk) tr)
  | Ill => True
  end.

Lemma t_publish a ser md f tr : wm = is_some md ->
  (forall m', md = Some m' -> exists m, md0 = Some m /\ reconcile (l_fmt17g L) m t = Val m') -> untouched f0 f -> gone (n, SidecarTmp) tr f ->
  (forall f' tr', tri3 a true false f' ser (fun _ _ g => g = f') tr') ->
  tri3 a true false f (publish L ser n t md) (written md) tr.
Proof using HI.
  intros Ewm Emd U0 G0 Hser. unfold publish.
  apply (t_seqx _ _ _ _ _ _ _ _ _ (fun o _ g => agree (n, PayloadTmp) f g /\ match o with Returned _ => g (n, PayloadTmp) = Some bytes | _ => True end)).
  { apply t_stream; auto. intros g A. apply untouched_inv, (untouched_agree f0 f g _ (or_introl eq_refl) U0 A). }
  2:{ intros e tr2 g [A _]. left. apply (untouched_agree f0 f g _ (or_introl eq_refl) U0 A). }
  intros [] tr1 f1 [A1 B1].
  assert (U1 : untouched f0 f1) by apply (untouched_agree f0 f f1 _ (or_introl eq_refl) U0 A1).
  assert (G1 : forall tr2, gone (n, SidecarTmp) ((tr ++ tr1) ++ tr2) f1).
  { intros tr2. apply gone_more, gone_more. destruct G0 as [G0|G0]; [left; rewrite A1 by discriminate; exact G0|right; exact G0]. }
  apply (t_seqx _ _ _ _ _ _ _ _ _ (fun o _ g => g = f1 /\ match o with Returned c => c = bytes | _ => True end)).
  { apply t_read_all; [|auto]. intros g c _ Hg Hc tr'. rewrite (Hg (or_introl eq_refl)) in Hc. split; congruence. }
  2:{ intros e tr2 g [-> _]. left. exact U1. }
  intros c tr2 f2 [-> ->].
  apply (t_seqx _ _ _ _ _ _ _ _ _ (fun o _ g => g = f1 /\ match o with Returned _ => checked_payload | _ => True end)).
  { apply t_calc; [|auto]. intros [] tr' Hc. split; [reflexivity|exact Hc]. }
  2:{ intros e tr3 g [-> _]. left. exact U1. }
  intros [] tr3 f3 [-> Hcheck].
  (* the sidecar *)
  apply (t_seqx _ _ _ _ _ _ _ _ _ (fun o tr' g =>
    match o with
    | Returned _ => g (n, PayloadTmp) = Some bytes /\
        match md with
        | Some m' => announced g /\ g (n, SidecarTmp) = None /\ In (ORename (n, SidecarTmp) (n, Sidecar), AOk) tr'
        | None => untouched f0 g /\ g = f1
        end
    | Raised _ => untouched f0 g
    | Ill => True
    end)).
  { destruct md as [m'|]; [|apply t_ret; auto].
    apply (t_seqx _ _ _ _ _ _ _ _ _ (fun o _ g => g = f1 /\ match o with Returned c => c = bytes | _ => True end)).
    { apply t_read_all; [|auto]. intros g c _ Hg Hc tr'. rewrite (Hg (or_introl eq_refl)) in Hc. split; congruence. }
    2:{ intros e tr4 g [-> _]. exact U1. }
    intros c tr4 f4 [-> ->].
    apply (t_seqx _ _ _ _ _ _ _ _ _ (fun o _ g => g = f1)).
    { apply t_act_plain; auto. }
    2:{ intros e tr5 g ->. exact U1. }
    intros [] tr5 f5 ->.
    set (meta := metadata_text (l_print_double L) (l_print_long_double L) (l_build L) m' (payload_integrity bytes)).
    apply (t_seqx _ _ _ _ _ _ _ _ _ (fun o _ g => agree (n, SidecarTmp) f1 g /\ match o with Returned _ => g (n, SidecarTmp) = Some meta | _ => True end)).
    { unfold write_text. apply t_stream; auto.
      - intros g A. apply untouched_inv, (untouched_agree f0 f1 g _ (or_intror eq_refl) U1 A).
      - intros f' tr'. apply t_ret. reflexivity. }
    2:{ intros e tr6 g [A _]. apply (untouched_agree f0 f1 g _ (or_intror eq_refl) U1 A). }
    intros [] tr6 f6 [A6 B6].
    assert (U6 : untouched f0 f6) by apply (untouched_agree f0 f1 f6 _ (or_intror eq_refl) U1 A6).
    apply (t_seqx _ _ _ _ _ _ _ _ _ (fun o _ g => g = f6 /\ match o with Returned c => c = meta | _ => True end)).
    { apply t_read_all; [|auto]. intros g c _ Hg Hc tr'. rewrite (Hg (or_introl eq_refl)) in Hc. split; congruence. }
    2:{ intros e tr7 g [-> _]. exact U6. }
    intros s tr7 f7 [-> ->].
    apply (t_seqx _ _ _ _ _ _ _ _ _ (fun o _ g => g = f6 /\ match o with
       Returned p => read_persistence_metadata (l_scan_double L) (l_scan_long_double L) meta = Val p | _ => True end)).
    { apply t_calc; [|auto]. intros p tr' Hp. split; [reflexivity|exact Hp]. }
    2:{ intros e tr8 g [-> _]. exact U6. }
    intros p tr8 f8 [-> Hp].
    destruct (same_integrity (p_payload p) (payload_integrity bytes)) eqn:Ei; cbn [negb]; [|apply t_throw; exact U6].
    apply same_integrity_spec in Ei.
    apply (t_seqx _ _ _ _ _ _ _ _ _ (fun o _ g => g = f6 /\ match o with
       Returned _ => validate_persistence_metadata (l_fmt17g L) p t = Val tt | _ => True end)).
    { apply t_calc; [|auto]. intros [] tr' Hv. split; [reflexivity|exact Hv]. }
    2:{ intros e tr9 g [-> _]. exact U6. }
    intros [] tr9 f9 [-> Hv].
    assert (G : good_sidecar md0 meta).
    { exists p. destruct (Emd m' eq_refl) as (m & Em & Er). repeat (split; [assumption|]). exists m, m'. auto. }
    assert (An : announced (set (set f6 (n, SidecarTmp) None) (n, Sidecar) (Some meta))).
    { split; [exact Ewm|]. split.
      - intros m r Hm. rewrite !set_other by congruence. apply U6; congruence.
      - split; [rewrite !set_other by discriminate; apply U6; discriminate|]. exists meta. rewrite set_same. auto. }
    apply (t_rename _ _ _ _ _ _ _ _ meta).
    - exact B6.
    - apply untouched_inv, U6.
    - apply announced_inv, An.
    - split; [rewrite !set_other by discriminate; rewrite A6 by discriminate; exact B1|].
      split; [exact An|]. split; [rewrite set_other by discriminate; apply set_same|].
      apply in_app_iff; right; left; reflexivity.
    - intros e tr'. exact U6. }
  2:{ intros e tr4 g H. left. exact H. }
  intros [] tr4 f4 [B4 S4].
  apply (t_seqx _ _ _ _ _ _ _ _ _ (fun o tr' g =>
    match o with
    | Returned _ => g = set (set f4 (n, PayloadTmp) None) (n, Payload) (Some bytes)
    | Raised _ => g = f4
    | Ill => True
    end)).
  { set (f5 := set (set f4 (n, PayloadTmp) None) (n, Payload) (Some bytes)).
    assert (E5 : forall m r, r <> PayloadTmp -> r <> Payload -> f5 (m, r) = f4 (m, r))
      by (intros m r K1 K2; unfold f5; rewrite !set_other by congruence; reflexivity).
    apply (t_rename _ _ _ _ _ _ _ _ bytes); [exact B4| | |reflexivity|reflexivity].
    - destruct md; [apply announced_inv; apply S4|apply untouched_inv; apply S4].
    - apply final_inv; [|apply set_same|].
      + intros m r Hm. unfold f5. rewrite !set_other by congruence.
        destruct md; destruct S4 as [S4 _]; [apply S4, Hm|apply S4; congruence].
      + rewrite Ewm. destruct md; cbn [is_some]; destruct S4 as [S4 _].
        * destruct S4 as (_ & _ & _ & s & Hs & G). exists s. rewrite E5 by discriminate. auto.
        * left. rewrite E5 by discriminate. apply S4; discriminate. }
  2:{ intros e tr5 g ->. destruct md; [right|left; apply S4]. split; [apply S4|]. apply in_app_iff. left. apply S4. }
  intros [] tr5 f5 ->.
  assert (E5 : forall m r, r <> PayloadTmp -> r <> Payload ->
    set (set f4 (n, PayloadTmp) None) (n, Payload) (Some bytes) (m, r) = f4 (m, r))
    by (intros m r K1 K2; rewrite !set_other by congruence; reflexivity).
  destruct md as [m'|]; cbn [is_some].
  - apply t_ret. destruct S4 as (S4 & S5 & S6). split; [apply set_same|]. split; [exact Hcheck|].
    split; [|split; [rewrite set_other by discriminate; apply set_same|left; rewrite E5 by discriminate; exact S5]].
    destruct S4 as (_ & _ & _ & s & Hs & G). exists s. rewrite E5 by discriminate. split; [exact Hs|exact G].
  - destruct S4 as [U4 ->].
    assert (Inv (set (set f1 (n, PayloadTmp) None) (n, Payload) (Some bytes))).
    { apply final_inv; [|apply set_same|].
      - intros m r Hm. rewrite !set_other by congruence. apply U4; congruence.
      - rewrite Ewm. cbn. left. rewrite E5 by discriminate. apply U4; discriminate. }
    apply t_remove; [assumption| | |].
    + apply final_inv; [|rewrite set_other by discriminate; apply set_same|].
      * intros m r Hm. rewrite !set_other by congruence. apply U4; congruence.
      * rewrite Ewm. cbn. right. apply set_same.
    + split; [rewrite set_other by discriminate; apply set_same|]. split; [exact Hcheck|].
      split; [left; apply set_same|]. split; [rewrite !set_other by discriminate; apply set_same|].
      destruct (G1 (tr2 ++ tr3 ++ tr4 ++ tr5 ++ [(ORemove (n, Sidecar), AOk)])) as [G|G].
      * left. rewrite set_other by discriminate. rewrite E5 by discriminate. exact G.
      * right. rewrite <- !app_assoc. rewrite <- !app_assoc in G. exact G.
    + intros e. split; [apply set_same|]. split; [exact Hcheck|].
      split; [right; split|].
      * rewrite E5 by discriminate. apply U4; discriminate.
      * exists e. apply in_app_iff. right. left. reflexivity.
      * split; [rewrite set_other by discriminate; apply set_same|].
        destruct (G1 (tr2 ++ tr3 ++ tr4 ++ tr5 ++ [(ORemove (n, Sidecar), AFail e)])) as [G|G].
        -- left. rewrite E5 by discriminate. exact G.
        -- right. rewrite <- !app_assoc. rewrite <- !app_assoc in G. exact G.
Qed.
End Body.

(** The critical section. *)
Lemma t_locked a ser md f0 tr : (forall f, during_with (good_sidecar md) n bytes (is_some md) f0 f -> Inv f) ->
  (forall f' tr', tri3 a true false f' ser (fun _ _ g => g = f') tr') ->
  tri3 a true false f0 (write_locked L ser n t md) (ends md f0) tr.
Proof.
  intros HI Hser. unfold write_locked.
  assert (U0 : untouched f0 f0) by (intros q _ _; reflexivity).
  apply (t_seqx _ _ _ _ _ _ _ _ _ (fun o _ g => g = f0 /\ match o with
     | Returned r => match md, r with Some m, Some m' => reconcile (l_fmt17g L) m t = Val m' | None, None => True | _, _ => False end
     | _ => True end)).
  { destruct md as [m|]; [|apply t_ret; auto].
    apply (t_seqx _ _ _ _ _ _ _ _ _ (fun o _ g => g = f0 /\ match o with Returned m' => reconcile (l_fmt17g L) m t = Val m' | _ => True end)).
    - apply t_calc; auto.
    - intros m' tr2 f' [-> E]. apply t_ret. auto.
    - intros e tr2 f' [-> _]. auto. }
  2:{ intros e tr2 f' [-> _]. cbn. split; [reflexivity|]. split; left; reflexivity. }
  intros r tr1 f1 [-> Er].
  assert (Esome : is_some md = is_some r) by (destruct md, r; try contradiction; reflexivity).
  apply (t_seqx _ _ _ _ _ _ _ _ _ (fun o tr' g => match o with Returned _ => untouched f0 g /\ gone (n, SidecarTmp) tr' g | _ => False end)).
  { apply (t_clean_up _ _ (untouched f0)).
    - intros g. apply (untouched_inv f0 _ _ HI).
    - intros g q c Hq. apply untouched_set, Hq.
    - exact U0.
    - intros g tr' Hg _ Hs. split; assumption. }
  2:{ intros e tr2 f' []. }
  intros [] tr2 f2 [U2 G2]. unfold on_exception.
  apply (t_after _ _ _ _ _ _ _ _ _ (fun o tr' g => written f0 (is_some md) md r o tr' g /\ exists tr3, tr' = ((tr ++ tr1) ++ tr2) ++ tr3)).
  { apply t_extends, (t_publish f0 (is_some md) md HI); try assumption.
    intros m' ->. destruct md as [m|]; [|contradiction]. exists m. auto. }
  intros o tr' f' [W (tr3 & ->)] Ho. destruct o as [[]|e|]; [| |congruence].
  - apply t_ret. destruct W as (W1 & W2 & W3 & W4). split; [exact W1|]. split; [exact W2|]. split; [|exact W4].
    destruct md as [m|], r as [m'|]; try contradiction; [|exact W3].
    exact W3.
  - apply (t_after _ _ _ _ _ _ _ _ _ (fun o tr' g => match o with Returned _ => ends md f0 (Raised e) tr' g | _ => False end)).
    + destruct W as [U|[An Hin]].
      * apply (t_clean_up _ _ (untouched f0)).
        -- intros g. apply (untouched_inv f0 _ _ HI).
        -- intros g q c Hq. apply untouched_set, Hq.
        -- exact U.
        -- intros g tr' Hg Hp Hs. split; [apply Hg; discriminate|]. split; [left; apply Hg; discriminate|]. right. auto.
      * apply (t_clean_up _ _ (announced f0 (is_some md) md)).
        -- intros g. apply announced_inv, HI.
        -- intros g q c Hq. apply announced_set, Hq.
        -- exact An.
        -- intros g tr' (K1 & K2 & K3 & K4) Hp Hs. split; [exact K3|]. split; [right|right; auto].
           split; [exact K4|]. apply in_app_iff. left. exact Hin.
    + intros o tr' f3 H Ho'. destruct o as [[]|e'|]; [|contradiction|congruence]. apply t_throw, H.
Qed.

Lemma ends_more md f0 o tr tr' f : ends md f0 o tr f -> ends md f0 o (tr ++ tr') f.
Proof.
  assert (R : forall q, removal_failed q tr -> removal_failed q (tr ++ tr')).
  { intros q [e H]. exists e. apply in_app_iff. left. exact H. }
  destruct o as [u|e|]; cbn; [| |auto].
  - intros (H1 & H2 & H3 & H4 & H5). split; [exact H1|]. split; [exact H2|]. split; [|split; [exact H4|apply gone_more, H5]].
    destruct md; [exact H3|]. destruct H3 as [H3|[H3 H3']]; auto.
  - intros (H1 & H2 & H3). split; [exact H1|]. split.
    + destruct H2 as [H2|[H2 H2']]; [left; exact H2|right]. split; [exact H2|]. apply in_app_iff. left. exact H2'.
    + destruct H3 as [H3|[H3 H3']]; [left; exact H3|right]. split; apply gone_more; assumption.
Qed.

(** The whole of write_payload. *)
Lemma t_write f ser md tr :
  (forall f0, Inv f0 -> (alone = true -> f0 = f) -> forall g, during_with (good_sidecar md) n bytes (is_some md) f0 g -> Inv g) ->
  (forall f' tr', tri3 true true false f' ser (fun _ _ g => g = f') tr') ->
  tri3 false false false f (write_payload L ser n t md)
    (fun o tr' g => exists f0, (alone = true -> f0 = f) /\ ends md f0 o tr' g) tr.
Proof.
  intros HI Hser. unfold write_payload. apply t_begin; [discriminate|]. intros _.
  apply (t_seqx _ _ _ _ _ _ _ _ _ (fun o _ g => g = f)).
  { apply t_act_plain; auto. }
  2:{ intros e tr2 g ->. exists f. split; [auto|]. cbn. split; [reflexivity|]. split; left; reflexivity. }
  intros [] tr2 g ->. apply t_lock; [reflexivity|]. intros f0 I0 E0.
  eapply t_mono; [|apply t_locked; [apply HI; assumption|exact Hser]].
  intros o tr' g H. exists f0. split; [exact E0|]. apply ends_more, ends_more, H.
Qed.
End Write.

(** A client that is not inside a write. *)
Lemma t_client L i (Inv : files -> Prop) Wr {A} (p : prog A) : client L Wr A p ->
  (forall n t, Wr n t -> forall wm f0, Inv f0 -> forall g, during L n (stored L t) wm f0 g -> Inv g) ->
  forall f tr, triple i Inv false false false false f p (fun _ _ _ => True) tr.
Proof.
  intros H HI. induction H as [A a|A e|A k Hk IH|A ser n t md k Hw Hs IHs Hk IHk|A n k Hk IH]; intros f tr.
  - apply t_ret. exact I.
  - apply t_throw. exact I.
  - apply t_plain; [exact I|]. intros x g _ _ _. apply IH.
  - apply (t_after _ _ _ _ _ _ _ _ _ (fun o _ g => True)).
    + eapply t_mono; [|apply (t_write L i Inv false n t)].
      * auto.
      * intros f0 I0 _ g Hg. apply (HI n t Hw (is_some md) f0 I0 g). eapply during_good, Hg.
      * intros f' tr'. eapply t_client_inside. eassumption.
    + intros o tr' f' _ _. apply IHk.
  - apply (t_after _ _ _ _ _ _ _ _ _ (fun o _ g => True)).
    + eapply t_mono; [|apply t_read_file]. auto.
    + intros o tr' f' _ _. apply IH.
Qed.

(** * Executions *)
Lemma runs_triple i (Inv : files -> Prop) {A} (p : prog A) Q w tr' p' w' : runs i p w tr' p' w' ->
  forall tr, Inv (w_files w) -> wp i Inv true p Q tr w -> Inv (w_files w') /\ wp i Inv true p' Q (tr ++ tr') w'.
Proof.
  intros Hr. induction Hr as [p w|o k w a w1 tr1 p' w' He Hr IH]; intros tr Hi Hw.
  - rewrite app_nil_r. split; assumption.
  - cbn in Hw. destruct (Hw w (rely_refl _ _ _ _)) as [_ H]. destruct (H a w1 He) as [Hs Hk].
    destruct (IH (tr ++ [(o, a)])) as [A1 A2]; [apply Hs, Hi|exact Hk|].
    rewrite <- app_assoc in A2. split; assumption.
Qed.

(** Nobody is writing or reading. *)
Definition idle (w : world) : Prop := (forall m, w_owner w m = None) /\ (forall i, w_active w i = false).
Lemma idle_here i (Inv : files -> Prop) alone w : idle w -> Inv (w_files w) -> here i Inv alone false false false (w_files w) w.
Proof.
  intros [H1 H2] Hi. split; [apply H2|]. split; [rewrite H1; split; discriminate|].
  split; [rewrite H1; split; discriminate|]. split; [reflexivity|exact Hi].
Qed.

Lemma guar_rely i j (Inv : files -> Prop) w w' : guar i Inv w w' -> j <> i -> rely j Inv false w w'.
Proof.
  intros (A1 & B1 & C1 & D1) Hj. split; [apply A1, Hj|]. split; [intros m; apply B1, Hj|].
  split; [|exact D1]. intros [H|H]; [|discriminate]. destruct C1 as [C1|C1]; [exact C1|congruence].
Qed.

Definition sound {A} (Inv : files -> Prop) (Q : nat -> outcome A -> list event -> world -> Prop) (ps : pool A) (w : world) : Prop :=
  Inv (w_files w) /\ forall i, exists tr, wp i Inv false (ps i) (Q i) tr w.
Lemma sound_step {A} (Inv : files -> Prop) (Q : nat -> outcome A -> list event -> world -> Prop) (ps : pool A) w i o k a w1 :
  (forall i o tr w w', rely i Inv false w w' -> Q i o tr w -> Q i o tr w') ->
  sound Inv Q ps w -> ps i = Do o k -> effect i o w a w1 ->
  may i o w /\ guar i Inv w w1 /\ sound Inv Q (update ps i (k a)) w1.
Proof.
  intros St [Hi Hs] E He. destruct (Hs i) as [tr Hw]. rewrite E in Hw.
  destruct (Hw w (rely_refl _ _ _ _)) as [Hm H]. destruct (H a w1 He) as [G Hk].
  split; [exact Hm|]. split; [exact G|]. split; [apply G, Hi|].
  intros j. unfold update. destruct (Nat.eqb_spec i j) as [<-|Hj].
  - eexists. exact Hk.
  - destruct (Hs j) as [trj Hwj]. exists trj. eapply wp_stable; [apply St| |exact Hwj]. apply (guar_rely i); [exact G|congruence].
Qed.
Lemma sound_steps {A} (Inv : files -> Prop) (Q : nat -> outcome A -> list event -> world -> Prop) (ps : pool A) w tr ps' w' :
  (forall i o tr w w', rely i Inv false w w' -> Q i o tr w -> Q i o tr w') ->
  steps ps w tr ps' w' -> sound Inv Q ps w -> sound Inv Q ps' w'.
Proof.
  intros St H. induction H as [|ps w i o k a w1 tr ps' w' E He H IH]; [auto|].
  intros S. apply IH. eapply sound_step; eassumption.
Qed.
