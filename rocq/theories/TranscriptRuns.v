(** The output of the two strategies. *)
From Verif Require Import Base Config Tracker Command Run Metropolis Text PersistSpec TextFacts Geom Transcript TranscriptSpec TranscriptFacts TranscriptLines TranscriptProps.
From stdpp Require Import list.
From Verif Require Import Base Config Tracker Command Run Metropolis Text PersistSpec TextFacts Geom Transcript TranscriptSpec TranscriptFacts TranscriptLines TranscriptProps.
Local Open Scope Z_scope.
Local Open Scope list_scope.

Ltac listed := unfold move_names; repeat (first [apply elem_of_list_here | apply elem_of_list_further]).

Lemma accumulate_slots t d t' : results_ok t -> results_ok d -> accumulate_results t d = Some t' ->
  results_ok t' /\ forall k, supported k ->
    slot (attempted t') k = slot (attempted t) k + slot (attempted d) k /\
    slot (succeeded t') k = slot (succeeded t) k + slot (succeeded d) k /\
    slot (failed t') k = slot (failed t) k + slot (failed d) k.
Proof.
  intros (Ta & Ts & Tf) (Pa & Ps & Pf) H. unfold accumulate_results in H.
  destruct (tracker_add (attempted t) (attempted d)) as [a|] eqn:Ea; [|discriminate].
  destruct (tracker_add (succeeded t) (succeeded d)) as [s|] eqn:Es; [|discriminate].
  destruct (tracker_add (failed t) (failed d)) as [f|] eqn:Ef; [|discriminate]. injection H as <-.
  destruct (tracker_add_spec _ _ Ta Pa) as [Sa _]. destruct (Sa _ Ea) as [Oa Va]; clear Sa.
  destruct (tracker_add_spec _ _ Ts Ps) as [Sa _]. destruct (Sa _ Es) as [Os Vs]; clear Sa.
  destruct (tracker_add_spec _ _ Tf Pf) as [Sa _]. destruct (Sa _ Ef) as [Of Vf]; clear Sa.
  cbn [attempted succeeded failed]. split; [split; [|split]; assumption|]. intros k Hk. split; [apply Va; exact Hk|]. split; [apply Vs; exact Hk|apply Vf; exact Hk].
Qed.

Lemma getters t : tracker_ok t ->
  two_three_moves t = Some (slot t TWO_THREE) /\ three_two_moves t = Some (slot t THREE_TWO) /\ two_six_moves t = Some (slot t TWO_SIX) /\
  six_two_moves t = Some (slot t SIX_TWO) /\ four_four_moves t = Some (slot t FOUR_FOUR).
Proof. intros H. destruct (tracker_ok_inv t H) as (a & b & c & d & e & ->). repeat split. Qed.

Lemma ma_report_text r : results_ok r -> exists t, ma_print_results r = Some t /\
  reads always_shapes t (Results :: map (fun k => Tally k [slot (attempted r) k; slot (succeeded r) k; slot (failed r) k]) kinds).
Proof.
  intros (A & S & F). unfold ma_print_results.
  destruct (getters _ A) as (-> & -> & -> & -> & ->). destruct (getters _ S) as (-> & -> & -> & -> & ->). destruct (getters _ F) as (-> & -> & -> & -> & ->).
  eexists. split; [reflexivity|]. unfold kinds. cbn [map].
  repeat (match goal with |- reads _ _ (?x :: ?y :: ?l) => change (x :: y :: l) with ([x] ++ (y :: l)); apply reads_app end;
          [first [apply reads_results; left; reflexivity | apply reads_ma_line; listed]|]).
  apply reads_ma_line. listed.
Qed.

Lemma number_app {A} (p : A -> bool) l k : number p (l ++ k) = number p l + number p k.
Proof. unfold number. rewrite List.filter_app, app_length. lia. Qed.
Lemma number_split {A} (p q : A -> bool) l : number p l = number (fun x => p x && q x) l + number (fun x => p x && negb (q x)) l.
Proof.
  unfold number. induction l as [|x l IH]; [reflexivity|]. cbn [List.filter]. destruct (p x), (q x); cbn [andb negb length]; lia.
Qed.
Lemma number_ext {A} (p q : A -> bool) l : (forall x, In x l -> p x = q x) -> number p l = number q l.
Proof.
  intros H. unfold number. induction l as [|x l IH]; [reflexivity|]. cbn [List.filter]. rewrite (H x (or_introl eq_refl)).
  specialize (IH (fun y Hy => H y (or_intror Hy))). destruct (q x); cbn [length]; lia.
Qed.
Lemma tally_number k ok h : tally k ok h = number (fun x => (fst x =? k) && (if ok then snd x else negb (snd x))) h.
Proof. unfold tally. fold (number (fun p : MoveType * bool => (fst p =? k) && Bool.eqb (snd p) ok) h). apply number_ext. intros [m b] _. cbn. destruct b, ok; reflexivity. Qed.

Section Always.
  Context {M G W : Type}.
  Variable N3 : M -> Z.
  Variable api : move_api M G.
  Variable check : M -> M -> MoveType -> bool.
  Variable draw : Z -> Z -> G -> Z * G.
  Variable write_file : M -> Z -> Z -> W -> res W unit.

  Lemma always_snoc m hs m' : always_passes N3 api check m hs m' -> forall h g m'' g', length h = Z.to_nat (N3 m') -> history api check m' g h m'' g' ->
    always_passes N3 api check m (hs ++ [h]) m''.
  Proof.
    induction 1 as [m|m g h m1 g1 hs m' L Hh _ IH]; intros h' g' m'' g'' L' Hh'.
    - econstructor; [exact L'|exact Hh'|constructor].
    - cbn [app]. econstructor; [exact L|exact Hh|]. eapply IH; eassumption.
  Qed.

  Definition always_inv (man : M) (m : M) (tot : results) (st : unit) (hs : list (list (MoveType * bool))) : Prop :=
    always_passes N3 api check man hs m /\ results_ok tot /\
    forall k, supported k ->
      slot (attempted tot) k = number (fun x => fst x =? k) (concat hs) /\
      slot (succeeded tot) k = number (fun x => (fst x =? k) && snd x) (concat hs) /\
      slot (failed tot) k = number (fun x => (fst x =? k) && negb (snd x)) (concat hs).

  Lemma always_inv_pass man cur tot st hs (e e' : G * W) p tot' : always_inv man cur tot st hs ->
    pass_env (ma_execute_pass api check draw) cur st (N3 cur) e = Ret e' p -> accumulate_results tot (pr_results p) = Some tot' ->
    exists h, always_inv man (pr_manifold p) tot' (pr_state p) (hs ++ [h]).
  Proof.
    intros (I1 & I2 & I3) Hp Ha. unfold pass_env, on_engine in Hp.
    destruct (ma_execute_pass api check draw cur st (N3 cur) (fst e)) as [g2 p2| | |] eqn:Ep; try discriminate Hp. injection Hp as _ ->.
    apply ma_execute_pass_spec in Ep as (Hok & _ & h & g1 & L & Hh & Hc). exists h.
    destruct (accumulate_slots _ _ _ I2 Hok Ha) as [Ok' Hs]. split; [eapply always_snoc; eassumption|]. split; [exact Ok'|].
    intros k Hk. destruct (Hs k Hk) as (-> & -> & ->). destruct (Hc k Hk) as (-> & -> & ->). destruct (I3 k Hk) as (-> & -> & ->).
    rewrite concat_app. cbn [concat]. rewrite app_nil_r, !number_app, !tally_number. split; [|split; reflexivity].
    rewrite (number_split (fun x : MoveType * bool => fst x =? k) snd h). reflexivity.
  Qed.
  Lemma always_inv_report man cur tot st hs t : always_inv man cur tot st hs -> ma_print_results tot = Some t ->
    reads always_shapes t (always_report hs).
  Proof.
    intros (I1 & I2 & I3) Ht. destruct (ma_report_text _ I2) as (t' & Et & Hr). rewrite Ht in Et. injection Et as <-.
    unfold always_report.
    replace (map (fun k => Tally k [number (fun x : Z * bool => fst x =? k) (concat hs); number (fun x : Z * bool => (fst x =? k) && snd x) (concat hs);
              number (fun x : Z * bool => (fst x =? k) && negb (snd x)) (concat hs)]) kinds)
      with (map (fun k => Tally k [slot (attempted tot) k; slot (succeeded tot) k; slot (failed tot) k]) kinds); [exact Hr|].
    apply map_ext_in. intros k Hk. assert (Sk : supported k).
    { unfold kinds in Hk. unfold supported. cbn [In] in Hk. unfold TWO_THREE, THREE_TWO, TWO_SIX, SIX_TWO, FOUR_FOUR in Hk. lia. }
    destruct (I3 k Sk) as (-> & -> & ->). reflexivity.
  Qed.
  Lemma always_inv_nil man : always_inv man man results_zero tt [].
  Proof.
    split; [constructor|]. split; [repeat split|]. intros k Hk. cbn. unfold results_zero, slot. cbn [attempted succeeded failed tracker_zero].
    unfold supported in Hk. assert (D : k = 0 \/ k = 1 \/ k = 2 \/ k = 3 \/ k = 4) by lia.
    destruct D as [-> | [-> | [-> | [-> | ->]]]]; repeat split.
  Qed.

  Lemma always_transcript (s : move_always G) w man w' rr :
    cadence_ok (ma_cadence s) -> 0 <= rnd_seed (ma_random s) -> 0 <= rnd_stream (ma_random s) ->
    ma_printed N3 api check draw write_file s w man = Ret w' rr ->
    exists hs, length hs = Z.to_nat (cad_passes (ma_cadence s)) /\
      always_passes N3 api check man hs (rr_manifold rr) /\
      read_log always_shapes (fst w') =
        Some (told (rnd_seed (ma_random s)) (rnd_stream (ma_random s)) (cad_passes (ma_cadence s)) (cad_checkpoint (ma_cadence s))
                   (ma_write_files s) (fun n => always_report (firstn n hs))).
  Proof.
    intros C S1 S2 R.
    eapply (printed_run_reads _ _ _ _ always_shapes (or_introl eq_refl) (always_inv man) always_report (always_inv_pass man) (fun c t s => always_inv_report man c t s)) in R;
      [|exact C|exact S1|exact S2|exact reads_started_always|apply always_inv_nil].
    destruct R as (hs & L & (I1 & I2 & I3) & Hl). exists hs. split; [exact L|]. split; [exact I1|exact Hl].
  Qed.
  Lemma always_interrupted (s : move_always G) w man w' x :
    0 <= rnd_seed (ma_random s) -> 0 <= rnd_stream (ma_random s) ->
    ma_printed N3 api check draw write_file s w man = Thr w' x ->
    exists hs m, (length hs <= Z.to_nat (cad_passes (ma_cadence s)))%nat /\ always_passes N3 api check man hs m /\
      let said := told_passes (rnd_seed (ma_random s)) (rnd_stream (ma_random s)) (cad_checkpoint (ma_cadence s)) (ma_write_files s)
                    (fun n => always_report (firstn n hs)) (length hs) in
      ((length hs < Z.to_nat (cad_passes (ma_cadence s)))%nat /\
       read_log always_shapes (fst w') = Some (said ++ [Pass (Z.of_nat (S (length hs)))]) \/
       ma_write_files s = true /\ hs <> [] /\ Z.of_nat (length hs) mod cad_checkpoint (ma_cadence s) = 0 /\
       read_log always_shapes (fst w') = Some said).
  Proof.
    intros S1 S2 R.
    eapply (printed_run_stops _ _ _ _ always_shapes (or_introl eq_refl) (always_inv man) always_report (always_inv_pass man) (fun c t s => always_inv_report man c t s)) in R;
      [|exact S1|exact S2|exact reads_started_always|apply always_inv_nil].
    destruct R as (hs & m & tot & st & L & (I1 & I2 & I3) & Hl). exists hs, m. split; [exact L|]. split; [exact I1|exact Hl].
  Qed.
End Always.

Lemma count_number k f h : count_of k f h = number (fun x => (fst x =? k) && f (snd x)) h.
Proof. reflexivity. Qed.
Lemma number_kinds (f : MoveOutcome -> bool) (h : list (MoveType * MoveOutcome)) : Forall (fun p => supported (fst p)) h ->
  number (fun x => f (snd x)) h =
  number (fun x => (fst x =? TWO_THREE) && f (snd x)) h + number (fun x => (fst x =? THREE_TWO) && f (snd x)) h +
  number (fun x => (fst x =? TWO_SIX) && f (snd x)) h + number (fun x => (fst x =? SIX_TWO) && f (snd x)) h +
  number (fun x => (fst x =? FOUR_FOUR) && f (snd x)) h.
Proof.
  unfold number, supported, TWO_THREE, THREE_TWO, TWO_SIX, SIX_TWO, FOUR_FOUR.
  induction 1 as [|[m o] l H F IH]; [reflexivity|]. cbn [List.filter fst snd] in *.
  assert (D : m = 0 \/ m = 1 \/ m = 2 \/ m = 3 \/ m = 4) by lia.
  destruct D as [-> | [-> | [-> | [-> | ->]]]]; cbn [Z.eqb Pos.eqb andb]; destruct (f o); cbn [length]; lia.
Qed.
Lemma total_some t v : tracker_ok t -> (forall m, supported m -> 0 <= slot t m) -> total t = Some v -> v = slot_sum t.
Proof.
  intros Ok P H. destruct (total_spec t Ok P) as [A B]. unfold in_int32 in A, B.
  destruct (Z_le_dec INT32_MIN (slot_sum t)); [destruct (Z_le_dec (slot_sum t) INT32_MAX)|].
  - rewrite A in H by lia. congruence.
  - rewrite B in H by lia. discriminate.
  - rewrite B in H by lia. discriminate.
Qed.

Lemma mh_report_text r s t h : Forall (fun p => supported (fst p)) (concat h) ->
  results_reflect r (concat h) -> stats_reflect s (concat h) -> mh_print_results r s = Some t ->
  reads metropolis_shapes t (metropolis_report h).
Proof.
  intros Sup ((A & S & F) & Rr) ((P & Ac & Rj) & Rs & _) H. unfold mh_print_results in H.
  destruct (getters _ A) as (E1 & E2 & E3 & E4 & E5). rewrite E1, E2, E3, E4, E5 in H. clear E1 E2 E3 E4 E5.
  destruct (getters _ S) as (E1 & E2 & E3 & E4 & E5). rewrite E1, E2, E3, E4, E5 in H. clear E1 E2 E3 E4 E5.
  destruct (getters _ F) as (E1 & E2 & E3 & E4 & E5). rewrite E1, E2, E3, E4, E5 in H. clear E1 E2 E3 E4 E5.
  destruct (getters _ P) as (E1 & E2 & E3 & E4 & E5). rewrite E1, E2, E3, E4, E5 in H. clear E1 E2 E3 E4 E5.
  destruct (getters _ Ac) as (E1 & E2 & E3 & E4 & E5). rewrite E1, E2, E3, E4, E5 in H. clear E1 E2 E3 E4 E5.
  destruct (getters _ Rj) as (E1 & E2 & E3 & E4 & E5). rewrite E1, E2, E3, E4, E5 in H. clear E1 E2 E3 E4 E5.
  destruct (total (st_proposed s)) as [tp|] eqn:Tp; [|discriminate H]. destruct (total (st_accepted s)) as [ta|] eqn:Ta; [|discriminate H].
  destruct (total (st_rejected s)) as [tr|] eqn:Tr; [|discriminate H]. destruct (total (attempted r)) as [tt|] eqn:Tt; [|discriminate H].
  destruct (total (succeeded r)) as [ts|] eqn:Ts; [|discriminate H]. destruct (total (failed r)) as [tf|] eqn:Tf; [|discriminate H].
  match type of H with Some ?X = Some _ => assert (EX : t = X) by congruence end. rewrite EX. clear H EX.
  assert (Sums : forall tr f v, tracker_ok tr -> (forall k, supported k -> slot tr k = count_of k f (concat h)) -> total tr = Some v ->
            v = number (fun x => f (snd x)) (concat h)).
  { intros t0 f v Ok Hk Ht. apply total_some in Ht; [|exact Ok|intros m Hm; rewrite (Hk m Hm), count_number; unfold number; lia].
    rewrite Ht, (number_kinds f _ Sup). unfold slot_sum. rewrite !Hk by (unfold supported, TWO_THREE, THREE_TWO, TWO_SIX, SIX_TWO, FOUR_FOUR; lia). reflexivity. }
  apply (Sums _ any_outcome) in Tp; [|exact P|intros k Hk; apply Rs; exact Hk].
  apply (Sums _ is_accepted) in Ta; [|exact Ac|intros k Hk; apply Rs; exact Hk].
  apply (Sums _ is_rejected) in Tr; [|exact Rj|intros k Hk; apply Rs; exact Hk].
  apply (Sums _ any_outcome) in Tt; [|exact A|intros k Hk; apply Rr; exact Hk].
  apply (Sums _ is_candidate) in Ts; [|exact S|intros k Hk; apply Rr; exact Hk].
  apply (Sums _ is_no_candidate) in Tf; [|exact F|intros k Hk; apply Rr; exact Hk]. clear Sums.
  assert (Row : forall k name, supported k -> (k, name) ∈ move_names ->
    reads metropolis_shapes (mh_line name (slot (st_proposed s) k) (slot (st_accepted s) k) (slot (st_rejected s) k)
                               (slot (attempted r) k) (slot (succeeded r) k) (slot (failed r) k))
      [Tally k [number (fun x => fst x =? k) (concat h);
                number (fun x => (fst x =? k) && is_accepted (snd x)) (concat h);
                number (fun x => (fst x =? k) && negb (is_accepted (snd x))) (concat h);
                number (fun x => fst x =? k) (concat h);
                number (fun x => (fst x =? k) && is_candidate (snd x)) (concat h);
                number (fun x => (fst x =? k) && negb (is_candidate (snd x))) (concat h)]]).
  { intros k name Hk Hn. destruct (Rs k Hk) as (-> & -> & ->). destruct (Rr k Hk) as (-> & -> & ->). rewrite !count_number.
    replace (number (fun x : Z * MoveOutcome => (fst x =? k) && any_outcome (snd x)) (concat h)) with (number (fun x : Z * MoveOutcome => fst x =? k) (concat h))
      by (apply number_ext; intros x _; rewrite andb_true_r; reflexivity).
    apply reads_mh_line. exact Hn. }
  unfold metropolis_report, kinds. cbn [map app andb].
  change (Results :: ?x :: ?y :: ?z) with ([Results] ++ [x] ++ [y] ++ z). apply reads_app; [apply reads_results; right; reflexivity|].
  apply reads_app; [subst tp ta tr; apply reads_totals|]. apply reads_app; [subst tt ts tf; apply reads_candidates|].
  repeat (match goal with |- reads _ _ (?x :: ?y :: ?l) => change (x :: y :: l) with ([x] ++ (y :: l)); apply reads_app end;
          [apply Row; [unfold supported, TWO_THREE, THREE_TWO, TWO_SIX, SIX_TWO, FOUR_FOUR; lia|listed]|]).
  apply Row; [unfold supported, FOUR_FOUR; lia|listed].
Qed.

Section Metropolis.
  Context {M G P W : Type}.
  Variable geometry : M -> Geometry.
  Variable propose : move_api M G.
  Variable check : M -> M -> MoveType -> bool.
  Variable accept : Geometry -> Geometry -> MoveType -> P + exn.
  Variable at_least : P -> fp -> bool.
  Variable draw_int : Z -> Z -> G -> Z * G.
  Variable draw_p : G -> fp * G.
  Variable max_time : M -> Z.
  Variable update : Metadata -> M -> Metadata + exn.
  Variable write_file : M -> Metadata -> W -> res W unit.
  Hypothesis draw_range : forall g m g', draw_int 0 4 g = (m, g') -> supported m.
  Notation run_chain := (run_chain geometry propose check accept at_least draw_int draw_p).
  Notation chain := (sampled_chain geometry propose check accept at_least draw_int draw_p).

  Lemma chain_snoc m hs m' : run_chain m hs m' -> forall h g m'' g', length h = Z.to_nat (gN3 (geometry m')) -> chain m' g h m'' g' ->
    run_chain m (hs ++ [h]) m''.
  Proof.
    induction 1 as [m|m g h m1 g1 hs m' L Hh _ IH]; intros h' g' m'' g'' L' Hh'.
    - econstructor; [exact L'|exact Hh'|constructor].
    - cbn [app]. econstructor; [exact L|exact Hh|]. eapply IH; eassumption.
  Qed.

  Definition metropolis_inv (man : M) (m : M) (tot : results) (st : stats) (hs : list (list (MoveType * MoveOutcome))) : Prop :=
    run_chain man hs m /\ Forall (fun p => supported (fst p)) (concat hs) /\
    results_reflect tot (concat hs) /\ stats_reflect st (concat hs).

  Lemma metropolis_inv_pass man cur tot st hs (e e' : G * W) p tot' : metropolis_inv man cur tot st hs ->
    pass_env (mh_execute_pass geometry propose check accept at_least draw_int draw_p) cur st (gN3 (geometry cur)) e = Ret e' p ->
    accumulate_results tot (pr_results p) = Some tot' ->
    exists h, metropolis_inv man (pr_manifold p) tot' (pr_state p) (hs ++ [h]).
  Proof.
    intros (I1 & I2 & I3 & I4) Hp Ha. unfold pass_env, on_engine in Hp.
    destruct (mh_execute_pass geometry propose check accept at_least draw_int draw_p cur st (gN3 (geometry cur)) (fst e)) as [g2 p2| | |] eqn:Ep; try discriminate Hp.
    injection Hp as _ ->.
    apply (mh_execute_pass_Ret _ _ _ _ _ _ _ draw_range _ _ _ _ _ _ (concat hs)) in Ep as (h & L & Hsup & Hr & Hs & Hc); [|exact I4].
    exists h. destruct I3 as [Ok I3]. destruct Hr as [Okd Hr]. destruct (accumulate_slots _ _ _ Ok Okd Ha) as [Ok' Hsl].
    split; [eapply chain_snoc; eassumption|]. rewrite concat_app. cbn [concat]. rewrite app_nil_r.
    split; [apply Forall_app; split; assumption|]. split; [|exact Hs]. split; [exact Ok'|].
    intros k Hk. destruct (Hsl k Hk) as (-> & -> & ->). destruct (Hr k Hk) as (-> & -> & ->). destruct (I3 k Hk) as (-> & -> & ->).
    rewrite !count_of_app. repeat split.
  Qed.
  Lemma metropolis_inv_report man cur tot st hs t : metropolis_inv man cur tot st hs -> mh_print_results tot st = Some t ->
    reads metropolis_shapes t (metropolis_report hs).
  Proof. intros (I1 & I2 & I3 & I4) Ht. eapply mh_report_text; eassumption. Qed.
  Lemma metropolis_inv_nil man : metropolis_inv man man results_zero (set_geometry stats_zero (geometry man)) [].
  Proof. split; [constructor|]. split; [constructor|]. split; [apply results_reflect_nil|apply stats_reflect_nil]. Qed.

  Lemma metropolis_transcript (x : metropolis G) w man w' rr :
    cadence_ok (mh_cadence x) -> 0 <= rnd_seed (mh_generator x) -> 0 <= rnd_stream (mh_generator x) ->
    mh_printed geometry propose check accept at_least draw_int draw_p max_time update write_file x w man = Ret w' rr ->
    exists hs, length hs = Z.to_nat (cad_passes (mh_cadence x)) /\ run_chain man hs (rr_manifold rr) /\
      read_log metropolis_shapes (fst w') =
        Some (told (rnd_seed (mh_generator x)) (rnd_stream (mh_generator x)) (cad_passes (mh_cadence x)) (cad_checkpoint (mh_cadence x))
                   (mh_write_files x) (fun n => metropolis_report (firstn n hs))).
  Proof.
    intros C S1 S2 R.
    eapply (printed_run_reads _ _ _ _ metropolis_shapes (or_intror eq_refl) (metropolis_inv man) metropolis_report (metropolis_inv_pass man) (metropolis_inv_report man)) in R;
      [|exact C|exact S1|exact S2|exact reads_started_metropolis|apply metropolis_inv_nil].
    destruct R as (hs & L & (I1 & I2 & I3) & Hl). exists hs. split; [exact L|]. split; [exact I1|exact Hl].
  Qed.
  Lemma metropolis_interrupted (x : metropolis G) w man w' ex :
    0 <= rnd_seed (mh_generator x) -> 0 <= rnd_stream (mh_generator x) ->
    mh_printed geometry propose check accept at_least draw_int draw_p max_time update write_file x w man = Thr w' ex ->
    exists hs m, (length hs <= Z.to_nat (cad_passes (mh_cadence x)))%nat /\ run_chain man hs m /\
      let said := told_passes (rnd_seed (mh_generator x)) (rnd_stream (mh_generator x)) (cad_checkpoint (mh_cadence x)) (mh_write_files x)
                    (fun n => metropolis_report (firstn n hs)) (length hs) in
      ((length hs < Z.to_nat (cad_passes (mh_cadence x)))%nat /\
       read_log metropolis_shapes (fst w') = Some (said ++ [Pass (Z.of_nat (S (length hs)))]) \/
       mh_write_files x = true /\ hs <> [] /\ Z.of_nat (length hs) mod cad_checkpoint (mh_cadence x) = 0 /\
       read_log metropolis_shapes (fst w') = Some said).
  Proof.
    intros S1 S2 R.
    eapply (printed_run_stops _ _ _ _ metropolis_shapes (or_intror eq_refl) (metropolis_inv man) metropolis_report (metropolis_inv_pass man) (metropolis_inv_report man)) in R;
      [|exact S1|exact S2|exact reads_started_metropolis|apply metropolis_inv_nil].
    destruct R as (hs & m & tot & st & L & (I1 & I2) & Hl). exists hs, m. split; [exact L|]. split; [exact I1|exact Hl].
  Qed.
End Metropolis.

(** ** The runs that print are the runs of the other theorems *)
Section Ext.
  Context {M SS E : Type}.
  Variable N3 : M -> Z.
  Variable pass : M -> SS -> Z -> E -> res E (pass_result M SS).
  Variable rep1 rep2 : M -> results -> SS -> E -> res E unit.
  Variable chk : M -> results -> SS -> Z -> E -> res E unit.
  Hypothesis same : forall m r s e, rep1 m r s e = rep2 m r s e.
  Lemma run_loop_ext fuel : forall cad writes i cur tot st ev e,
    run_loop N3 pass rep1 chk fuel cad writes i cur tot st ev e = run_loop N3 pass rep2 chk fuel cad writes i cur tot st ev e.
  Proof.
    induction fuel as [|fuel IH]; intros; cbn [run_loop]; [rewrite same; reflexivity|].
    destruct (pass cur st (N3 cur) e) as [e1 p| | |]; try reflexivity. destruct (accumulate_results tot (pr_results p)); [|reflexivity].
    unfold checkpoint_event. rewrite same.
    match goal with |- match ?x with _ => _ end = _ => destruct x; try reflexivity end. apply IH.
  Qed.
End Ext.

Definition or_ub {W : Type} (t : option text) (w : W) : res W unit := match t with Some _ => Ret w tt | None => UB end.

Lemma always_same {M G W : Type} (N3 : M -> Z) (api : move_api M G) check draw (write_file : M -> Z -> Z -> W -> res W unit) s w man :
  ma_run N3 api check draw (fun r => or_ub (ma_print_results r)) write_file s w man =
  match ma_printed N3 api check draw write_file s w man with
  | Ret (_, (g, w')) rr => Ret (mkMoveAlways (ma_cadence s) (advance (ma_random s) g) (ma_write_files s) (rr_results rr) (rr_checkpoint_events rr), w') (rr_manifold rr)
  | Thr (_, (g, w')) x => Thr (mkMoveAlways (ma_cadence s) (advance (ma_random s) g) (ma_write_files s) (ma_results s) (ma_checkpoint_events s), w') x
  | UB => UB
  | Abort => Abort
  end.
Proof.
  unfold ma_run, ma_printed, execute_move_run.
  rewrite (run_loop_ext _ _ _ (quiet_report (fun (_ : M) r (_ : unit) => ma_print_results r)) _).
  2:{ intros m r st [g w0]. unfold rep_env, on_world, quiet_report, or_ub. cbn [fst snd]. destruct (ma_print_results r); reflexivity. }
  match goal with |- _ = match ?x with _ => _ end => destruct x as [[o [g1 w1]] rr|[o [g1 w1]] x0| |] eqn:E end;
    pose proof (f_equal forget E) as K; rewrite forget_run in K; cbn [forget snd] in K; unfold execute_move_run in K; rewrite K; reflexivity.
Qed.
Lemma metropolis_same {M G P W : Type} geometry (propose : move_api M G) check (accept : Geometry -> Geometry -> MoveType -> P + exn)
    at_least draw_int draw_p max_time update (write_file : M -> Metadata -> W -> res W unit) x w man :
  mh_run geometry propose check accept at_least draw_int draw_p max_time update (fun r s => or_ub (mh_print_results r s)) write_file x w man =
  match mh_printed geometry propose check accept at_least draw_int draw_p max_time update write_file x w man with
  | Ret (_, (g, w')) rr => Ret (mkMetropolis (mh_cadence x) (mh_write_files x) (advance (mh_generator x) g) (mh_reproducibility x)
                                  (rr_results rr) (rr_state rr) (rr_checkpoint_events rr), w') (rr_manifold rr)
  | Thr (_, (g, w')) e => Thr (mkMetropolis (mh_cadence x) (mh_write_files x) (advance (mh_generator x) g) (mh_reproducibility x)
                                 (mh_results x) (mh_stats x) (mh_checkpoint_events x), w') e
  | UB => UB
  | Abort => Abort
  end.
Proof.
  unfold mh_run, mh_printed, execute_move_run.
  rewrite (run_loop_ext _ _ _ (quiet_report (fun (_ : M) r s => mh_print_results r s)) _).
  2:{ intros m r st [g w0]. unfold rep_env, on_world, quiet_report, or_ub. cbn [fst snd]. destruct (mh_print_results r st); reflexivity. }
  match goal with |- _ = match ?x with _ => _ end => destruct x as [[o [g1 w1]] rr|[o [g1 w1]] x0| |] eqn:E end;
    pose proof (f_equal forget E) as K; rewrite forget_run in K; cbn [forget snd] in K; unfold execute_move_run in K; rewrite K; reflexivity.
Qed.
