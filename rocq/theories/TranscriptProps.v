(** The output of a run tells what happened. *)
From Verif Require Import Base Config Tracker Command Run Metropolis Text PersistSpec TextFacts Geom Transcript TranscriptSpec TranscriptFacts TranscriptLines.
From stdpp Require Import list.
From Verif Require Import Base Config Tracker Command Run Metropolis Text PersistSpec TextFacts Geom Transcript TranscriptSpec TranscriptFacts TranscriptLines.
Local Open Scope Z_scope.
Local Open Scope list_scope.

Section Loop.
  Context {M SS E H : Type}.
  Variable N3 : M -> Z.
  Variable pass : M -> SS -> Z -> E -> res E (pass_result M SS).
  Variable report : M -> results -> SS -> option text.
  Variable checkpoint : M -> results -> SS -> Z -> E -> res E unit.

  (** ** Printing changes nothing else *)
  Definition forget {A} (r : res (text * E) A) : res E A :=
    match r with Ret w a => Ret (snd w) a | Thr w x => Thr (snd w) x | UB => UB | Abort => Abort end.
  Definition quiet_report (m : M) (r : results) (s : SS) (e : E) : res E unit :=
    match report m r s with Some _ => Ret e tt | None => UB end.
  Lemma forget_loop fuel : forall cad writes i cur tot st ev w,
    forget (printed_loop N3 pass report checkpoint fuel cad writes i cur tot st ev w) =
    run_loop N3 pass quiet_report checkpoint fuel cad writes i cur tot st ev (snd w).
  Proof.
    induction fuel as [|fuel IH]; intros cad writes i cur tot st ev w; cbn [printed_loop run_loop].
    - unfold quiet_report. destruct (report cur tot st); reflexivity.
    - unfold silently at 1. cbn [say snd fst]. destruct (pass cur st (N3 cur) (snd w)) as [e1 p| | |]; try reflexivity.
      destruct (accumulate_results tot (pr_results p)) as [tot'|]; [|reflexivity].
      unfold printed_checkpoint, checkpoint_event, quiet_report, silently.
      destruct ((i + 1) mod cad_checkpoint cad =? 0); [|apply IH].
      destruct (add32 ev 1) as [ev'|]; [|reflexivity].
      destruct (report (pr_manifold p) tot' (pr_state p)) as [t|]; [|reflexivity].
      destruct writes; [|apply IH]. cbn [say snd fst].
      destruct (checkpoint (pr_manifold p) tot' (pr_state p) (i + 1) e1) as [e2 u| | |]; try reflexivity. apply IH.
  Qed.
  Lemma forget_run algorithm seed stream cad writes m s w :
    forget (printed_run N3 pass report checkpoint algorithm seed stream cad writes m s w) =
    execute_move_run N3 pass quiet_report checkpoint cad writes m s (snd w).
  Proof. unfold printed_run, execute_move_run. rewrite forget_loop. reflexivity. Qed.

  (** ** What is printed *)
  Variable shs : list shape.
  Hypothesis Hshs : strategy_shapes shs.
  (** [Inv]: the state after the passes that [hs] describes. *)
  Variable Inv : M -> results -> SS -> list H -> Prop.
  Variable entries : list H -> list entry.
  Hypothesis inv_pass : forall cur tot st hs e e' p tot',
    Inv cur tot st hs -> pass cur st (N3 cur) e = Ret e' p -> accumulate_results tot (pr_results p) = Some tot' ->
    exists h, Inv (pr_manifold p) tot' (pr_state p) (hs ++ [h]).
  Hypothesis inv_report : forall cur tot st hs t,
    Inv cur tot st hs -> report cur tot st = Some t -> reads shs t (entries hs).

  Definition pass_entries (interval : Z) (writes : bool) (hs : list H) (n : nat) : list entry :=
    Pass (Z.of_nat n) ::
    (if Z.of_nat n mod interval =? 0 then entries (firstn n hs) ++ (if writes then [Writing (Z.of_nat n)] else []) else []).

  Lemma printed_loop_reads fuel : forall cad writes i cur tot st ev out e w' rr hs,
    Inv cur tot st hs -> i = Z.of_nat (length hs) ->
    printed_loop N3 pass report checkpoint fuel cad writes i cur tot st ev (out, e) = Ret w' rr ->
    exists hs' t, length hs' = fuel /\ fst w' = out ++ t /\
      Inv (rr_manifold rr) (rr_results rr) (rr_state rr) (hs ++ hs') /\
      reads shs t (flat_map (pass_entries (cad_checkpoint cad) writes (hs ++ hs')) (seq (S (length hs)) fuel) ++
                   Finished :: entries (hs ++ hs')).
  Proof.
    induction fuel as [|fuel IH]; intros cad writes i cur tot st ev out e w' rr hs I Ei R; cbn [printed_loop] in R.
    - destruct (report cur tot st) as [t|] eqn:Et; [|discriminate R]. injection R as <- <-.
      exists [], (line [B "=== Run results ==="] ++ t). rewrite app_nil_r. cbn [say fst rr_manifold rr_results rr_state].
      split; [reflexivity|]. split; [rewrite app_assoc; reflexivity|]. split; [exact I|]. cbn [seq flat_map app].
      change (Finished :: entries hs) with ([Finished] ++ entries hs). apply reads_app; [apply reads_finished; exact Hshs|].
      eapply inv_report; eassumption.
    - unfold silently at 1 in R. cbn [say snd fst] in R. destruct (pass cur st (N3 cur) e) as [e1 p| | |] eqn:Ep; try discriminate R.
      destruct (accumulate_results tot (pr_results p)) as [tot'|] eqn:Ea; [|discriminate R].
      destruct (inv_pass _ _ _ _ _ _ _ _ I Ep Ea) as [h I'].
      set (out1 := out ++ line [B "=== Pass "; print_int (i + 1); B " ==="]) in *.
      assert (Hlen : length (hs ++ [h]) = S (length hs)) by (rewrite app_length; cbn; lia).
      assert (Ei' : i + 1 = Z.of_nat (length (hs ++ [h]))) by (rewrite Hlen; lia).
      assert (Hp : reads shs (line [B "=== Pass "; print_int (i + 1); B " ==="]) [Pass (i + 1)]) by (apply reads_pass; exact Hshs).
      (* what this pass printed after its first line *)
      assert (K : exists t2 e2 ev', printed_loop N3 pass report checkpoint fuel cad writes (i + 1) (pr_manifold p) tot' (pr_state p) ev' (out1 ++ t2, e2) = Ret w' rr /\
                reads shs t2 (if (i + 1) mod cad_checkpoint cad =? 0 then entries (hs ++ [h]) ++ (if writes then [Writing (i + 1)] else []) else [])).
      { unfold printed_checkpoint in R. destruct ((i + 1) mod cad_checkpoint cad =? 0).
        - destruct (add32 ev 1) as [ev'|]; [|discriminate R].
          destruct (report (pr_manifold p) tot' (pr_state p)) as [t|] eqn:Et; [|discriminate R].
          pose proof (inv_report _ _ _ _ _ I' Et) as Ht. destruct writes.
          + unfold silently in R. cbn [say snd fst] in R.
            destruct (checkpoint (pr_manifold p) tot' (pr_state p) (i + 1) e1) as [e2 u| | |]; try discriminate R.
            exists (t ++ line [B "Writing checkpoint for pass "; print_int (i + 1); B "."]), e2, ev'. rewrite app_assoc. split; [exact R|].
            apply reads_app; [exact Ht|apply reads_writing; exact Hshs].
          + cbn [say snd fst] in R. exists t, e1, ev'. split; [exact R|]. rewrite app_nil_r. exact Ht.
        - exists [], e1, ev. rewrite app_nil_r. split; [exact R|apply reads_nil]. }
      destruct K as (t2 & e2 & ev' & R2 & Ht2).
      destruct (IH _ _ _ _ _ _ _ _ _ _ _ _ I' Ei' R2) as (hs' & t3 & L & Eo & I3 & Ht3).
      exists (h :: hs'), (line [B "=== Pass "; print_int (i + 1); B " ==="] ++ t2 ++ t3).
      split; [cbn; lia|]. split. { rewrite Eo. unfold out1. rewrite <- !app_assoc. reflexivity. }
      rewrite <- app_assoc in I3. cbn [app] in I3. split; [exact I3|].
      rewrite Hlen, <- app_assoc in Ht3. cbn [app] in Ht3.
      cbn [seq flat_map]. rewrite <- app_assoc. unfold pass_entries at 1.
      assert (Ez : Z.of_nat (S (length hs)) = i + 1) by lia. rewrite Ez.
      assert (Ef : firstn (S (length hs)) (hs ++ h :: hs') = hs ++ [h]).
      { change (h :: hs') with ([h] ++ hs'). rewrite app_assoc, <- Hlen. rewrite firstn_app, Nat.sub_diag, firstn_all, firstn_O, app_nil_r. reflexivity. }
      rewrite Ef. change (Pass (i + 1) :: ?x) with ([Pass (i + 1)] ++ x). rewrite <- app_assoc.
      apply reads_app; [exact Hp|]. apply reads_app; [exact Ht2|exact Ht3].
  Qed.

  Lemma printed_run_reads algorithm seed stream cad writes m s e w' rr :
    cadence_ok cad -> 0 <= seed -> 0 <= stream ->
    reads shs (line [B "Starting "; algorithm; B " algorithm in "; print_int (3 - 1); B "+1 dimensions ..."]) [Started] ->
    Inv m results_zero s [] ->
    printed_run N3 pass report checkpoint algorithm seed stream cad writes m s ([], e) = Ret w' rr ->
    exists hs, length hs = Z.to_nat (cad_passes cad) /\ Inv (rr_manifold rr) (rr_results rr) (rr_state rr) hs /\
      read_log shs (fst w') = Some (told seed stream (cad_passes cad) (cad_checkpoint cad) writes (fun n => entries (firstn n hs))).
  Proof.
    intros C S1 S2 St I R. unfold printed_run, say in R. cbn [fst snd app] in R.
    destruct (printed_loop_reads _ _ _ _ _ _ _ _ _ _ _ _ _ I eq_refl R) as (hs & t & L & Eo & I' & Ht).
    cbn [app length] in *. exists hs. split; [exact L|]. split; [exact I'|].
    apply reads_log. rewrite Eo. unfold told, told_passes. rewrite <- !app_assoc.
    change [Started; Seeded seed stream; Moving] with ([Started] ++ [Seeded seed stream] ++ [Moving]). rewrite <- !app_assoc.
    apply reads_app; [exact St|]. apply reads_app; [apply reads_seed; assumption|]. apply reads_app; [apply reads_moving; exact Hshs|].
    replace (firstn (Z.to_nat (cad_passes cad)) hs) with hs by (rewrite <- L; symmetry; apply firstn_all). exact Ht.
  Qed.

  Lemma printed_loop_stops fuel : forall cad writes i cur tot st ev out e w' x hs,
    Inv cur tot st hs -> i = Z.of_nat (length hs) ->
    printed_loop N3 pass report checkpoint fuel cad writes i cur tot st ev (out, e) = Thr w' x ->
    exists hs' t m tot' st', (length hs' <= fuel)%nat /\ fst w' = out ++ t /\ Inv m tot' st' (hs ++ hs') /\
      ((length hs' < fuel)%nat /\
       reads shs t (flat_map (pass_entries (cad_checkpoint cad) writes (hs ++ hs')) (seq (S (length hs)) (length hs')) ++
                    [Pass (Z.of_nat (S (length (hs ++ hs'))))]) \/
       writes = true /\ hs' <> [] /\ Z.of_nat (length (hs ++ hs')) mod cad_checkpoint cad = 0 /\
       reads shs t (flat_map (pass_entries (cad_checkpoint cad) writes (hs ++ hs')) (seq (S (length hs)) (length hs')))).
  Proof.
    induction fuel as [|fuel IH]; intros cad writes i cur tot st ev out e w' x hs I Ei R; cbn [printed_loop] in R.
    - destruct (report cur tot st); discriminate R.
    - unfold silently at 1 in R. cbn [say snd fst] in R.
      assert (Hp : reads shs (line [B "=== Pass "; print_int (i + 1); B " ==="]) [Pass (i + 1)]) by (apply reads_pass; exact Hshs).
      destruct (pass cur st (N3 cur) e) as [e1 p|e1 x1| |] eqn:Ep; try discriminate R.
      2:{ injection R as <- <-. exists [], (line [B "=== Pass "; print_int (i + 1); B " ==="]), cur, tot, st. rewrite app_nil_r.
          split; [cbn; lia|]. split; [reflexivity|]. split; [exact I|]. left. split; [cbn; lia|]. cbn [length seq flat_map app].
          rewrite Nat2Z.inj_succ, <- Ei, <- Z.add_1_r. exact Hp. }
      destruct (accumulate_results tot (pr_results p)) as [tot'|] eqn:Ea; [|discriminate R].
      destruct (inv_pass _ _ _ _ _ _ _ _ I Ep Ea) as [h I'].
      set (out1 := out ++ line [B "=== Pass "; print_int (i + 1); B " ==="]) in *.
      assert (Hlen : length (hs ++ [h]) = S (length hs)) by (rewrite app_length; cbn; lia).
      assert (Ei' : i + 1 = Z.of_nat (length (hs ++ [h]))) by (rewrite Hlen; lia).
      assert (Ez : Z.of_nat (S (length hs)) = i + 1) by lia.
      assert (One : forall hs' t2, reads shs t2 (if (i + 1) mod cad_checkpoint cad =? 0 then entries (hs ++ [h]) ++ (if writes then [Writing (i + 1)] else []) else []) ->
                reads shs (line [B "=== Pass "; print_int (i + 1); B " ==="] ++ t2) (pass_entries (cad_checkpoint cad) writes (hs ++ h :: hs') (S (length hs)))).
      { intros hs' t2 Ht2. unfold pass_entries. rewrite Ez.
        assert (Ef : firstn (S (length hs)) (hs ++ h :: hs') = hs ++ [h]).
        { change (h :: hs') with ([h] ++ hs'). rewrite app_assoc, <- Hlen. rewrite firstn_app, Nat.sub_diag, firstn_all, firstn_O, app_nil_r. reflexivity. }
        rewrite Ef. change (Pass (i + 1) :: ?x) with ([Pass (i + 1)] ++ x). apply reads_app; [exact Hp|exact Ht2]. }
      assert (K : (exists t2 e2 ev', printed_loop N3 pass report checkpoint fuel cad writes (i + 1) (pr_manifold p) tot' (pr_state p) ev' (out1 ++ t2, e2) = Thr w' x /\
                reads shs t2 (if (i + 1) mod cad_checkpoint cad =? 0 then entries (hs ++ [h]) ++ (if writes then [Writing (i + 1)] else []) else [])) \/
              (exists t2, fst w' = out1 ++ t2 /\ writes = true /\ (i + 1) mod cad_checkpoint cad = 0 /\ reads shs t2 (entries (hs ++ [h]) ++ [Writing (i + 1)]))).
      { unfold printed_checkpoint in R. destruct ((i + 1) mod cad_checkpoint cad =? 0) eqn:Em.
        - destruct (add32 ev 1) as [ev'|]; [|discriminate R].
          destruct (report (pr_manifold p) tot' (pr_state p)) as [t|] eqn:Et; [|discriminate R].
          pose proof (inv_report _ _ _ _ _ I' Et) as Ht. destruct writes.
          + unfold silently in R. cbn [say snd fst] in R.
            destruct (checkpoint (pr_manifold p) tot' (pr_state p) (i + 1) e1) as [e2 u|e2 x2| |]; try discriminate R.
            * left. exists (t ++ line [B "Writing checkpoint for pass "; print_int (i + 1); B "."]), e2, ev'. rewrite app_assoc. split; [exact R|].
              apply reads_app; [exact Ht|apply reads_writing; exact Hshs].
            * right. injection R as <- <-. exists (t ++ line [B "Writing checkpoint for pass "; print_int (i + 1); B "."]).
              cbn [fst]. split; [rewrite app_assoc; reflexivity|]. split; [reflexivity|]. split; [apply Z.eqb_eq; exact Em|].
              apply reads_app; [exact Ht|apply reads_writing; exact Hshs].
          + left. cbn [say snd fst] in R. exists t, e1, ev'. split; [exact R|]. rewrite app_nil_r. exact Ht.
        - left. exists [], e1, ev. rewrite app_nil_r. split; [exact R|apply reads_nil]. }
      destruct K as [(t2 & e2 & ev' & R2 & Ht2)|(t2 & Eo & Wr & Em & Ht2)].
      + destruct (IH _ _ _ _ _ _ _ _ _ _ _ _ I' Ei' R2) as (hs' & t3 & m3 & tot3 & st3 & L & Eo & I3 & Ht3).
        exists (h :: hs'), ((line [B "=== Pass "; print_int (i + 1); B " ==="] ++ t2) ++ t3), m3, tot3, st3.
        split; [cbn; lia|]. split. { rewrite Eo. unfold out1. rewrite <- !app_assoc. reflexivity. }
        rewrite <- app_assoc in I3. cbn [app] in I3. split; [exact I3|].
        rewrite Hlen, <- app_assoc in Ht3. cbn [app] in Ht3. cbn [length seq flat_map].
        destruct Ht3 as [[L3 Ht3]|(Wr & Ne & Em & Ht3)].
        * left. split; [lia|]. rewrite <- (app_assoc (pass_entries _ _ _ _)). apply reads_app; [apply One; exact Ht2|exact Ht3].
        * right. split; [exact Wr|]. split; [discriminate|]. split; [exact Em|]. apply reads_app; [apply One; exact Ht2|exact Ht3].
      + exists [h], (line [B "=== Pass "; print_int (i + 1); B " ==="] ++ t2), (pr_manifold p), tot', (pr_state p).
        split; [cbn; lia|]. split. { rewrite Eo. unfold out1. rewrite <- !app_assoc. reflexivity. }
        split; [exact I'|]. right. split; [exact Wr|]. split; [discriminate|]. split; [rewrite <- Ei'; exact Em|].
        cbn [length seq flat_map]. rewrite app_nil_r. apply (One []). rewrite Em, Wr. exact Ht2.
  Qed.

  Lemma printed_run_stops algorithm seed stream cad writes m s e w' x :
    0 <= seed -> 0 <= stream ->
    reads shs (line [B "Starting "; algorithm; B " algorithm in "; print_int (3 - 1); B "+1 dimensions ..."]) [Started] ->
    Inv m results_zero s [] ->
    printed_run N3 pass report checkpoint algorithm seed stream cad writes m s ([], e) = Thr w' x ->
    exists hs m' tot' st', (length hs <= Z.to_nat (cad_passes cad))%nat /\ Inv m' tot' st' hs /\
      ((length hs < Z.to_nat (cad_passes cad))%nat /\
       read_log shs (fst w') = Some (told_passes seed stream (cad_checkpoint cad) writes (fun n => entries (firstn n hs)) (length hs) ++ [Pass (Z.of_nat (S (length hs)))]) \/
       writes = true /\ hs <> [] /\ Z.of_nat (length hs) mod cad_checkpoint cad = 0 /\
       read_log shs (fst w') = Some (told_passes seed stream (cad_checkpoint cad) writes (fun n => entries (firstn n hs)) (length hs))).
  Proof.
    intros S1 S2 St I R. unfold printed_run, say in R. cbn [fst snd app] in R.
    destruct (printed_loop_stops _ _ _ _ _ _ _ _ _ _ _ _ _ I eq_refl R) as (hs & t & m' & tot' & st' & L & Eo & I' & Ht).
    cbn [app length] in *. exists hs, m', tot', st'. split; [exact L|]. split; [exact I'|].
    assert (Hd : forall es, reads shs t es -> read_log shs (fst w') = Some ([Started; Seeded seed stream; Moving] ++ es)).
    { intros es He. apply reads_log. rewrite Eo. rewrite <- !app_assoc.
      change [Started; Seeded seed stream; Moving] with ([Started] ++ [Seeded seed stream] ++ [Moving]). rewrite <- !app_assoc.
      apply reads_app; [exact St|]. apply reads_app; [apply reads_seed; assumption|]. apply reads_app; [apply reads_moving; exact Hshs|exact He]. }
    unfold told_passes. destruct Ht as [[L2 Ht]|(Wr & Ne & Em & Ht)].
    - left. split; [exact L2|]. rewrite <- app_assoc. apply Hd. exact Ht.
    - right. split; [exact Wr|]. split; [exact Ne|]. split; [exact Em|]. apply Hd. exact Ht.
  Qed.
End Loop.
