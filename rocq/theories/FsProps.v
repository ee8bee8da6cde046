(** Consequences for single writes, for reads after a crash and for threads. *)
From Verif Require Import Base Config Fnv Text TextFacts Persist PersistFacts MetaSpec MetaRound FileSys FileIO FsLogic FsSpec FsFacts.
Local Open Scope Z_scope.
Local Open Scope list_scope.

(** * Reading a disk nobody changes *)
Definition readable (L : library) (f : files) (n : Z) (v : tri) : Prop :=
  exists c, f (n, Payload) = Some c /\ parse_payload (l_cgal_read L) c = Val v /\
  match f (n, Sidecar) with
  | None => True
  | Some s => exists p, sidecar (l_scan_double L) (l_scan_long_double L) s p /\ p_payload p = payload_integrity c
                        /\ validate_persistence_metadata (l_fmt17g L) p v = Val tt
  end.

Section Alone.
Variable L : library.
Variable i : nat.
Notation Inv := (fun _ : files => True).
Notation tri3 := (triple i Inv true).

Lemma t_exists_alone a wl rl f p (Q : outcome bool -> list event -> files -> Prop) tr :
  (forall tr', Q (Returned (is_some (f p))) tr' f) -> (forall e tr', Q (Raised e) tr' f) ->
  tri3 a wl rl f (file_exists p) Q tr.
Proof.
  intros K E. apply t_plain; [exact I|]. intros x g Hg Hf Hd. rewrite (Hf (or_intror eq_refl)) in Hd.
  destruct (disk_exists _ _ _ _ _ Hd) as [_ [->|[e ->]]]; [apply t_ret, K|apply t_throw, E].
Qed.

Lemma t_read_alone a wl f n tr :
  tri3 a wl false f (read_file L n)
    (fun o _ f' => f' = f /\ match o with Returned v => readable L f n v | _ => True end) tr.
Proof.
  unfold read_file.
  apply (t_seq _ _ _ _ _ _ _ _ _ (fun o _ f' => f' = f)).
  { apply t_act_plain; auto. }
  2:{ intros e tr' f' ->. split; [reflexivity|exact I]. }
  intros [] tr1 f1 ->. apply t_lock_read.
  apply (t_seq _ _ _ _ _ _ _ _ _ (fun o _ f' => f' = f /\ match o with
    | Returned (Some p) => exists s c, f (n, Sidecar) = Some s /\ f (n, Payload) = Some c /\
        read_persistence_metadata (l_scan_double L) (l_scan_long_double L) s = Val p /\ p_payload p = payload_integrity c
    | Returned None => f (n, Sidecar) = None
    | _ => True end)).
  { unfold validate_payload_integrity.
    apply (t_seq _ _ _ _ _ _ _ _ _ (fun o _ f' => f' = f /\ match o with Returned b => b = is_some (f (n, Sidecar)) | _ => True end));
      [apply t_exists_alone; auto| |intros e tr' f' [-> _]; auto].
    intros b tr' f' [-> Eb]. destruct b.
    2:{ apply t_ret. split; [reflexivity|]. destruct (f (n, Sidecar)); [discriminate|reflexivity]. }
    apply (t_seq _ _ _ _ _ _ _ _ _ (fun o _ f' => f' = f /\ match o with Returned s => f (n, Sidecar) = Some s | _ => True end)).
    { apply t_read_all; [|auto]. intros g s _ Hg Hs tr2. rewrite (Hg (or_intror eq_refl)) in Hs. auto. }
    2:{ intros e tr2 f2 [-> _]. auto. }
    intros s tr2 f2 [-> Hs].
    apply (t_seq _ _ _ _ _ _ _ _ _ (fun o _ f' => f' = f /\ match o with Returned p => read_persistence_metadata (l_scan_double L) (l_scan_long_double L) s = Val p | _ => True end)).
    { apply t_calc; auto. }
    2:{ intros e tr3 f3 [-> _]. auto. }
    intros p tr3 f3 [-> Hp].
    apply (t_seq _ _ _ _ _ _ _ _ _ (fun o _ f' => f' = f /\ match o with Returned c => f (n, Payload) = Some c | _ => True end)).
    { apply t_read_all; [|auto]. intros g c _ Hg Hc tr4. rewrite (Hg (or_intror eq_refl)) in Hc. auto. }
    2:{ intros e tr4 f4 [-> _]. auto. }
    intros c tr4 f4 [-> Hc].
    destruct (same_integrity _ _) eqn:Es; [apply t_ret|apply t_throw; auto]. split; [reflexivity|].
    apply same_integrity_spec in Es. exists s, c. auto. }
  2:{ intros e tr' f' [-> _]. split; [reflexivity|exact I]. }
  intros md tr2 f2 [-> Hmd].
  apply (t_seq _ _ _ _ _ _ _ _ _ (fun o _ f' => f' = f /\ match o with Returned c => f (n, Payload) = Some c | _ => True end)).
  { apply t_read_all; [|auto]. intros g c _ Hg Hc tr4. rewrite (Hg (or_intror eq_refl)) in Hc. auto. }
  2:{ intros e tr' f' [-> _]. split; [reflexivity|exact I]. }
  intros c tr3 f3 [-> Hc].
  apply (t_seq _ _ _ _ _ _ _ _ _ (fun o _ f' => f' = f /\ match o with Returned v => parse_payload (l_cgal_read L) c = Val v | _ => True end)).
  { apply t_calc; auto. }
  2:{ intros e tr' f' [-> _]. split; [reflexivity|exact I]. }
  intros v tr4 f4 [-> Hv].
  destruct md as [p|].
  - apply (t_seq _ _ _ _ _ _ _ _ _ (fun o _ f' => f' = f /\ match o with Returned _ => validate_persistence_metadata (l_fmt17g L) p v = Val tt | _ => True end)).
    + apply t_calc; [|auto]. intros [] tr5 H. auto.
    + intros [] tr5 f5 [-> Hval]. apply t_ret. split; [reflexivity|].
      destruct Hmd as (s & c' & Hs & Hc' & Hp & Hpay). assert (c' = c) by congruence. subst c'.
      exists c. split; [exact Hc|]. split; [exact Hv|]. rewrite Hs. exists p.
      split; [apply read_metadata_spec, Hp|]. split; [exact Hpay|exact Hval].
    + intros e tr5 f5 [-> _]. auto.
  - apply t_ret. split; [reflexivity|]. exists c. rewrite Hmd. auto.
Qed.
End Alone.

Lemma reads_sound L f n v : reads L f n v -> readable L f n v.
Proof.
  intros (tr & w' & Hr).
  set (w := World f (fun _ => None) (fun _ => false)) in Hr.
  assert (Hi : idle w) by (split; reflexivity).
  destruct (runs_triple 0 (fun _ => True) _ _ _ _ _ _ Hr [] I (t_read_alone L 0 false false f n [] w (idle_here 0 (fun _ => True) true w Hi I)))
    as [_ H].
  cbn in H. destruct H as (f' & _ & _ & H). exact H.
Qed.
Lemma reads_complete L f n v : readable L f n v -> reads L f n v.
Proof.
  intros (c & Hc & Hv & Hm). unfold reads.
  set (w := World f (fun _ => None) (fun _ => false)).
  destruct (f (n, Sidecar)) as [s|] eqn:Es.
  - destruct Hm as (p & Hp & Hpay & Hval). apply read_metadata_spec in Hp.
    eexists. eexists.
    unfold read_file, guarded, validate_payload_integrity, finally, calc, read_all, file_exists, act, seqp. cbn [after].
    eapply runs_step; [apply e_print|]. cbn [after].
    eapply runs_step; [apply e_lock; reflexivity|]. cbn [after].
    eapply runs_step; [apply e_exists|]. cbn [with_owner w w_files]. rewrite Es. cbn [after].
    eapply runs_step; [apply e_read; exact Es|]. cbn [after].
    eapply runs_step; [apply e_compute|]. cbn [after]. rewrite Hp. cbn [after].
    eapply runs_step; [apply e_read; exact Hc|]. cbn [after].
    rewrite (proj2 (same_integrity_spec _ _) Hpay). cbn [after].
    eapply runs_step; [apply e_read; exact Hc|]. cbn [after].
    eapply runs_step; [apply e_compute|]. cbn [after]. rewrite Hv. cbn [after].
    eapply runs_step; [apply e_compute|]. cbn [after]. rewrite Hval. cbn [after].
    eapply runs_step; [apply e_unlock; reflexivity|]. cbn [give]. apply runs_here.
  - eexists. eexists.
    unfold read_file, guarded, validate_payload_integrity, finally, calc, read_all, file_exists, act, seqp. cbn [after].
    eapply runs_step; [apply e_print|]. cbn [after].
    eapply runs_step; [apply e_lock; reflexivity|]. cbn [after].
    eapply runs_step; [apply e_exists|]. cbn [with_owner w w_files]. rewrite Es. cbn [after].
    eapply runs_step; [apply e_read; exact Hc|]. cbn [after].
    eapply runs_step; [apply e_compute|]. cbn [after]. rewrite Hv. cbn [after].
    eapply runs_step; [apply e_unlock; reflexivity|]. cbn [give]. apply runs_here.
Qed.
Lemma reads_spec L f n v : reads L f n v <-> readable L f n v.
Proof. split; [apply reads_sound|apply reads_complete]. Qed.

(** * A write alone *)
Section OneWrite.
Variable L : library.
Variable Wr : Z -> tri -> Prop.
Variables (i : nat) (ser : prog unit) (n : Z) (t : tri) (md : option metadata) (w : world).
Hypothesis Hser : client L Wr unit ser.
Hypothesis Hidle : idle w.

Lemma during_refl G f bytes wm : during_with G n bytes wm f f.
Proof. split; [reflexivity|]. left. split; [reflexivity|left; reflexivity]. Qed.

Lemma write_run tr p' w' : runs i (write_payload L ser n t md) w tr p' w' ->
  during_with (good_sidecar L t md) n (stored L t) (is_some md) (w_files w) (w_files w') /\
  forall o, o <> Ill -> p' = give o ->
    w_active w' i = false /\ w_owner w' WriteMutex <> Some i /\ w_owner w' ReadMutex <> Some i /\
    ends L n t md (w_files w) o tr (w_files w').
Proof using Hser Hidle.
  intros Hr. set (Inv := during_with (good_sidecar L t md) n (stored L t) (is_some md) (w_files w)).
  assert (Hi : Inv (w_files w)) by apply during_refl.
  assert (T : triple i Inv true false false false (w_files w) (write_payload L ser n t md)
     (fun o tr' g => exists f0, (true = true -> f0 = w_files w) /\ ends L n t md f0 o tr' g) []).
  { apply t_write.
    - intros f0 _ E g Hg. rewrite (E eq_refl) in Hg. exact Hg.
    - intros f' tr'. eapply t_client_inside. exact Hser. }
  destruct (runs_triple i Inv _ _ _ _ _ _ Hr [] Hi (T w (idle_here i Inv true w Hidle Hi))) as [D W].
  split; [exact D|]. intros o Ho ->. cbn [app] in W.
  assert (F : exists f', here i Inv true false false false f' w' /\ exists f0, (true = true -> f0 = w_files w) /\ ends L n t md f0 o tr f').
  { destruct o; cbn [give wp] in W; [exact W|exact W|congruence]. }
  destruct F as (f' & (H1 & H2 & H3 & H4 & H5) & f0 & E0 & E1).
  rewrite (E0 eq_refl) in E1. rewrite <- (H4 (or_intror eq_refl)) in E1.
  split; [exact H1|]. split; [intros K; apply H2 in K; discriminate|]. split; [intros K; apply H3 in K; discriminate|exact E1].
Qed.

(** C44. *)
Lemma crash_states tr p' w' : runs i (write_payload L ser n t md) w tr p' w' ->
  during L n (stored L t) (match md with Some _ => true | None => false end) (w_files w) (w_files w').
Proof using Hser Hidle. intros H. eapply during_good, (write_run _ _ _ H). Qed.

(** The old bytes differ from the new ones but have the same size and digest. *)
Definition collision : Prop :=
  exists c, w_files w (n, Payload) = Some c /\ c <> stored L t /\ payload_integrity c = payload_integrity (stored L t).
Lemma crash_reads tr p' w' v : runs i (write_payload L ser n t md) w tr p' w' -> reads L (w_files w') n v ->
  reads L (w_files w) n v \/
  (w_files w' (n, Payload) = Some (stored L t) /\ parse_payload (l_cgal_read L) (stored L t) = Val v) \/
  collision.
Proof using Hser Hidle.
  intros Hr Hv. apply crash_states in Hr. destruct Hr as [Dx Dn].
  apply reads_spec in Hv. destruct Hv as (c & Hc & Hv & Hs).
  destruct Dn as [[Dp Ds]|[Dp Ds]].
  - destruct Ds as [Ds|(_ & s & Ds & (q & Hq & Hj))].
    + left. apply reads_spec. exists c. rewrite <- Dp, <- Ds. auto.
    + right. destruct (text_eqb c (stored L t)) eqn:Ec.
      * apply text_eqb_spec in Ec. subst c. left. auto.
      * right. exists c. rewrite <- Dp. split; [exact Hc|].
        split; [intros ->; rewrite (proj2 (text_eqb_spec _ _) eq_refl) in Ec; discriminate|].
        rewrite Ds in Hs. destruct Hs as (p & Hp & Hi & _).
        assert (p = q) as ->.
        { apply read_metadata_spec in Hp, Hq. congruence. }
        congruence.
  - right. left. assert (c = stored L t) by congruence. subst c. auto.
Qed.
End OneWrite.

(** * Corruption (C43) *)
Lemma differ_integrity a b : differ_once a b -> payload_integrity a <> payload_integrity b.
Proof.
  intros [(H1 & H2 & H3)|(pre & x & y & post & -> & -> & Hn & _ & Hx & Hy & Hp)] E; injection E as E1 E2.
  - unfold wrap64 in E1. rewrite !Z.mod_small in E1 by lia. lia.
  - revert E2. apply fnv1a_one_byte; assumption.
Qed.
Lemma corruption_detected L f n s b c v :
  f (n, Sidecar) = Some s -> records L s b -> f (n, Payload) = Some c -> differ_once c b -> ~ reads L f n v.
Proof.
  intros Hs (p & Hp & Hi) Hc Hd Hr. apply reads_spec in Hr. destruct Hr as (c' & Hc' & _ & Hm).
  rewrite Hs in Hm. destruct Hm as (q & Hq & Hj & _). apply read_metadata_spec in Hp, Hq.
  apply (differ_integrity _ _ Hd). congruence.
Qed.
(** The whole read ends in an exception, whatever happens. *)
Lemma corruption_raises L f n s b c i w tr v w' :
  f (n, Sidecar) = Some s -> records L s b -> f (n, Payload) = Some c -> differ_once c b ->
  w_files w = f -> idle w -> ~ runs i (read_file L n) w tr (Ret_ v) w'.
Proof.
  intros Hs Hr Hc Hd <- Hi H.
  destruct (runs_triple i (fun _ => True) _ _ _ _ _ _ H [] I (t_read_alone L i false false (w_files w) n [] w (idle_here i (fun _ => True) true w Hi I)))
    as [_ K].
  cbn in K. destruct K as (f' & _ & _ & K). apply reads_spec in K. revert K.
  eapply corruption_detected; eassumption.
Qed.
Lemma intact_passes L f n s c i w : f (n, Sidecar) = Some s -> f (n, Payload) = Some c -> w_files w = f ->
  forall p, sidecar (l_scan_double L) (l_scan_long_double L) s p -> p_payload p = payload_integrity c ->
  exists tr, runs i (validate_payload_integrity L n) w tr (Ret_ (Some p)) w.
Proof.
  intros Hs Hc <- p Hp Hi. apply read_metadata_spec in Hp. eexists.
  unfold validate_payload_integrity, calc, read_all, file_exists, act, seqp. cbn [after].
  eapply runs_step; [apply e_exists|]. rewrite Hs. cbn [after].
  eapply runs_step; [apply e_read; exact Hs|]. cbn [after].
  eapply runs_step; [apply e_compute|]. cbn [after]. rewrite Hp. cbn [after].
  eapply runs_step; [apply e_read; exact Hc|]. cbn [after].
  rewrite (proj2 (same_integrity_spec _ _) Hi). apply runs_here.
Qed.

Section Writes.
Variable L : library.
Variable Wr : Z -> tri -> Prop.
Variables (i : nat) (ser : prog unit) (n : Z) (t : tri) (md : option metadata) (w : world).
Hypothesis Hser : client L Wr unit ser.
Hypothesis Hidle : idle w.

(** No silent mixture when the old bytes differ in length or in one byte. *)
Lemma crash_reads_differ tr p' w' v c : w_files w (n, Payload) = Some c -> differ_once c (stored L t) ->
  runs i (write_payload L ser n t md) w tr p' w' -> reads L (w_files w') n v ->
  reads L (w_files w) n v \/
  (w_files w' (n, Payload) = Some (stored L t) /\ parse_payload (l_cgal_read L) (stored L t) = Val v).
Proof using Hser Hidle.
  intros Hc Hd Hr Hv. destruct (crash_reads L Wr i ser n t md w Hser Hidle tr p' w' v Hr Hv) as [H|[H|H]]; [auto|auto|].
  exfalso. destruct H as (c' & Hc' & _ & E). assert (c' = c) by congruence. subst c'.
  exact (differ_integrity _ _ Hd E).
Qed.

(** C45. *)
Lemma write_raises tr e w' : runs i (write_payload L ser n t md) w tr (Throw e) w' ->
  write_ends L n t (match md with Some _ => true | None => false end) (w_files w) (Raised e) tr (w_files w') /\
  (forall m r, m <> n -> w_files w' (m, r) = w_files w (m, r)).
Proof using Hser Hidle.
  intros H. destruct (write_run L Wr i ser n t md w Hser Hidle _ _ _ H) as [[D _] E].
  split; [|exact D]. apply (ends_write L n t md), (E (Raised e)); [discriminate|reflexivity].
Qed.
Lemma write_returns tr w' : runs i (write_payload L ser n t md) w tr (Ret_ tt) w' ->
  write_ends L n t (match md with Some _ => true | None => false end) (w_files w) (Returned tt) tr (w_files w') /\
  (forall m r, m <> n -> w_files w' (m, r) = w_files w (m, r)).
Proof using Hser Hidle.
  intros H. destruct (write_run L Wr i ser n t md w Hser Hidle _ _ _ H) as [[D _] E].
  split; [|exact D]. apply (ends_write L n t md), (E (Returned tt)); [discriminate|reflexivity].
Qed.
End Writes.

(** * Written files read back (C47) *)
Lemma zip_map {A C} (l : list (A * C)) : zip (map fst l) (map snd l) = l.
Proof. induction l as [|[a c] l IH]; [reflexivity|]. cbn. f_equal. exact IH. Qed.
Lemma parse_stored L t : cgal_round_trip L t -> storable t -> parse_payload (l_cgal_read L) (stored L t) = Val t.
Proof.
  intros (raw & Hr & D1 & D2 & D3 & D4 & D5 & D6) (V & B1 & B2 & F1 & F2).
  assert (E : exists rest, write_causal_info t = NL :: rest).
  { unfold write_causal_info. cbn [app]. rewrite put_lines_one. eexists. reflexivity. }
  destruct E as [rest E]. unfold parse_payload, stored. rewrite E, Hr, <- E.
  assert (L1 : length (t_verts raw) = length (t_verts t)).
  { rewrite <- (map_length fst (t_verts raw)), D5, map_length. reflexivity. }
  assert (L2 : length (t_cells raw) = length (t_cells t)).
  { rewrite <- (map_length fst (t_cells raw)), D6, map_length. reflexivity. }
  pose proof (causal_round_trip t raw B1 B2 F1 F2 L1 L2) as C.
  assert (W : with_labels raw (map snd (t_verts t)) (map snd (t_cells t)) = t).
  { unfold with_labels. rewrite D1, D2, D3, D4, D5, D6, !zip_map. destruct t; reflexivity. }
  rewrite W in C.
  destruct (skip_ws (write_causal_info t)) as [|x r] eqn:Es; [discriminate|].
  rewrite C. cbn. rewrite V. reflexivity.
Qed.

Lemma read_back L Wr i ser n t md w tr w' :
  client L Wr unit ser -> idle w -> cgal_round_trip L t -> storable t ->
  runs i (write_payload L ser n t md) w tr (Ret_ tt) w' ->
  (forall v, reads L (w_files w') n v -> v = t) /\
  (md <> None \/ w_files w (n, Sidecar) = None \/ ~ removal_failed (n, Sidecar) tr -> reads L (w_files w') n t).
Proof.
  intros Hser Hidle Hc Hs H.
  destruct (write_run L Wr i ser n t md w Hser Hidle _ _ _ H) as [_ E].
  destruct (E (Returned tt)) as (_ & _ & _ & E1 & _ & E3 & _); [discriminate|reflexivity|].
  pose proof (parse_stored L t Hc Hs) as P. split.
  - intros v Hv. apply reads_spec in Hv. destruct Hv as (c & Hc' & Hv & _). congruence.
  - intros K. apply reads_spec. exists (stored L t). split; [exact E1|]. split; [exact P|].
    destruct md as [m|].
    + destruct E3 as (s & Hs' & (p & P1 & P2 & P3 & _)). rewrite Hs'. exists p. split; [apply read_metadata_spec, P1|auto].
    + destruct E3 as [E3|[E3 E4]]; [rewrite E3; exact I|].
      destruct K as [K|[K|K]]; [congruence|rewrite E3, K; exact I|contradiction].
Qed.
(** Without assumptions on CGAL: what is stored parses to a triangulation of the
    same counts and the same topology fingerprint. *)
Lemma written_counts L Wr i ser n t md w tr w' :
  client L Wr unit ser -> idle w ->
  runs i (write_payload L ser n t md) w tr (Ret_ tt) w' ->
  exists v, parse_payload (l_cgal_read L) (stored L t) = Val v /\ t_dim v = t_dim t /\
    length (t_verts v) = length (t_verts t) /\ t_edges v = t_edges t /\ t_facets v = t_facets t /\
    length (t_cells v) = length (t_cells t) /\
    topology_fingerprint (l_fmt17g L) v = topology_fingerprint (l_fmt17g L) t.
Proof.
  intros Hser Hidle H.
  destruct (write_run L Wr i ser n t md w Hser Hidle _ _ _ H) as [_ E].
  destruct (E (Returned tt)) as (_ & _ & _ & _ & E2 & _); [discriminate|reflexivity|].
  unfold checked_payload, validate_serialized_payload in E2.
  destruct (parse_payload _ _) as [v|e|]; [|discriminate|discriminate]. cbn [bind] in E2.
  exists v. split; [reflexivity|].
  destruct (_ && _) eqn:Eb in E2; [|discriminate]. cbn [bind require] in E2.
  rewrite !andb_true_iff, !Z.eqb_eq in Eb. destruct Eb as ((((D1 & D2) & D3) & D4) & D5).
  unfold number_of_vertices in D2. unfold number_of_finite_cells in D5.
  destruct (topology_fingerprint _ v) as [a| |] eqn:Ea; try discriminate.
  destruct (topology_fingerprint _ t) as [b| |] eqn:Eb2; try discriminate. cbn [bind] in E2.
  destruct (a =? b) eqn:Eab; [|discriminate]. apply Z.eqb_eq in Eab.
  repeat (split; [congruence || lia|]). congruence.
Qed.
