(** Proofs about the generator of a Metropolis object over any calls (C101). *)
From Verif Require Import Base Tracker Command Run Fnv Geom Metropolis RunCheckpoint Strategy EngineSpec EngineFacts EngineThrown.
From Verif Require Action.

Section Calls.
  Context {M G P W : Type}.
  Variable geometry : M -> Geometry.
  Variable propose : move_api M G.
  Variable check_move : M -> M -> MoveType -> bool.
  Variable accept : Action.PhysicalParameters -> Geometry -> Geometry -> MoveType -> P + exn.
  Variable at_least : P -> fp -> bool.
  Variable draw_int : Z -> Z -> G -> Z * G.
  Variable draw_p : G -> fp * G.
  Variable facts : manifold_facts M.
  Variable print_results : results -> stats -> W -> res W unit.
  Variable write_file : M -> Metadata -> W -> res W unit.
  Hypothesis draw_range : forall g m g', draw_int 0 4 g = (m, g') -> supported m.

  Lemma reverse_supported m : (exists r, reverse_move m = Some r) <-> supported m.
  Proof.
    split.
    - intros [r H]. unfold reverse_move in H. unfold supported, TWO_THREE, THREE_TWO, TWO_SIX, SIX_TWO, FOUR_FOUR in *.
      repeat match type of H with context [?a =? ?b] => destruct (Z.eqb_spec a b); [lia|] end. discriminate.
    - intros H. destruct (supported_cases m H) as [->|[->|[->|[->| ->]]]]; eexists; reflexivity.
  Qed.

  Lemma resolve_step pp x m t y o :
    resolve_transition geometry propose check_move (accept pp) at_least x m t = Ret y o ->
    trial_invalid t = false /\
    ((~ supported m /\ o = EXECUTION_FAILED /\ ms_cur y = ms_cur x /\ ms_gen y = ms_gen x) \/
     (supported m /\ markov_step geometry propose check_move (accept pp) at_least (ms_cur x) (ms_gen x) m t o (ms_cur y) (ms_gen y))).
  Proof.
    intros H. unfold resolve_transition, fail_transition in H.
    destruct (trial_invalid t) eqn:Et; [discriminate|]. split; [reflexivity|].
    destruct (reverse_move m) eqn:Erev.
    2:{ left. injection H as <- <-. split; [|auto]. intros C. apply reverse_supported in C as [r C]. congruence. }
    right. split; [apply reverse_supported; eauto|].
    match type of H with context [bump ?a m] => destruct (bump a m) as [prop| |] end; [|discriminate|discriminate].
    destruct (bump (attempted (ms_results x)) m) as [att| |]; [|discriminate|discriminate].
    cbn in H.
    destruct (propose_candidate propose (ms_cur x) m (ms_gen x)) as [[cand|er|er] gg] eqn:Ep; [| |discriminate].
    - destruct (check_move (ms_cur x) cand m) eqn:Ec; cbn [negb] in H.
      + destruct (bump (succeeded (ms_results x)) m) as [sc| |]; [|discriminate|discriminate].
        destruct (accept pp _ _ m) eqn:Ea; [|discriminate].
        destruct (at_least p t) eqn:El; (match type of H with context [bump ?a m] => destruct (bump a m) as [q| |] end; [|discriminate|discriminate]);
          injection H as <- <-; cbn; [eapply step_accept|eapply step_reject]; eassumption.
      + destruct (bump (failed (ms_results x)) m) as [f| |]; [|discriminate|discriminate].
        match type of H with context [bump ?a m] => destruct (bump a m) as [q| |] end; [|discriminate|discriminate].
        injection H as <- <-. cbn. eapply step_invalid; eassumption.
    - destruct (bump (failed (ms_results x)) m) as [f| |]; [|discriminate|discriminate].
      match type of H with context [bump ?a m] => destruct (bump a m) as [q| |] end; [|discriminate|discriminate].
      injection H as <- <-. cbn. eapply step_inapplicable; eassumption.
  Qed.

  Lemma resolve_refused pp x m t y e :
    resolve_transition geometry propose check_move (accept pp) at_least x m t = Thr y e ->
    refused geometry propose check_move (accept pp) (ms_cur x) m t (ms_gen x) e (ms_gen y) /\ ms_cur y = ms_cur x.
  Proof.
    intros H. split; [|exact (resolve_Thr geometry propose check_move (accept pp) at_least _ _ _ _ _ H)].
    destruct (reverse_move m) eqn:Er.
    - apply resolve_thrown in H as [(A & -> & ->)|[A|(cand & A & B & C)]].
      + constructor. exact A.
      + apply move_throws. exact A.
      + eapply no_probability; eassumption.
      + apply reverse_supported. eauto.
    - unfold resolve_transition in H. destruct (trial_invalid t) eqn:Et.
      + injection H as <- <-. constructor. exact Et.
      + rewrite Er in H. discriminate.
  Qed.

  Lemma step_takes s w c s' w' a :
    0 < cad_passes (mh_cadence (sg_rest s)) ->
    mh_step geometry propose check_move accept at_least draw_int draw_p facts print_results write_file s w c = Some (s', w', a) ->
    mh_cadence (sg_rest s') = mh_cadence (sg_rest s) /\ sg_parameters s' = sg_parameters s /\
    takes geometry propose check_move (accept (sg_parameters s)) at_least draw_int draw_p
      (Z.to_nat (cad_passes (mh_cadence (sg_rest s)))) (rnd_engine (mh_generator (sg_rest s))) c a
      (rnd_engine (mh_generator (sg_rest s'))).
  Proof.
    intros C H. destruct c as [man|cur m t|cur|man]; cbn [mh_step] in H.
    - destruct (mh_run _ _ _ _ _ _ _ _ _ _ _ (sg_rest s) w man) as [[x w1] m|[x w1] e| |] eqn:E; try discriminate.
      + injection H as <- <- <-. split; [|split; [reflexivity|]].
        { unfold mh_run in E. destruct (execute_move_run _ _ _ _ _ _ _ _ _) as [[? ?] ?|[? ?] ?| |]; try discriminate.
          injection E as <- _ _. reflexivity. }
        apply (metropolis_engine _ _ _ _ _ _ _ _ _ _ _ draw_range) in E as (hs & L & Pp & _).
        econstructor; eassumption.
      + injection H as <- <- <-. split; [|split; [reflexivity|]].
        { apply mh_run_Thr in E. tauto. }
        apply (metropolis_stopped _ _ _ _ _ _ _ _ _ _ _ draw_range) in E; [|exact C].
        constructor. exact E.
    - unfold attempt_transition in H.
      destruct (resolve_transition _ _ _ _ _ (to_mstate (sg_rest s) cur) m t) as [y o|y e| |] eqn:E; try discriminate.
      + injection H as <- <- <-. split; [reflexivity|]. split; [reflexivity|].
        apply resolve_step in E as (T & [(N & -> & E1 & E2)|(N & E1)]); cbn in *.
        * rewrite E1, E2. apply attempt_unknown; assumption.
        * apply attempt_returns; assumption.
      + injection H as <- <- <-. split; [reflexivity|]. split; [reflexivity|].
        apply resolve_refused in E as (E1 & E2). cbn in *. rewrite E2. apply attempt_throws. exact E1.
    - unfold attempt_sampled, sample_transition in H.
      destruct (generate_random_move_3 draw_int (ms_gen (to_mstate (sg_rest s) cur))) as [m g1] eqn:E1.
      destruct (draw_p g1) as [t g2] eqn:E2. cbn [to_mstate ms_gen ms_cur ms_results ms_stats] in H, E1.
      destruct (resolve_transition _ _ _ _ _ _ m t) as [y o|y e| |] eqn:E; try discriminate.
      + injection H as <- <- <-. split; [reflexivity|]. split; [reflexivity|].
        apply resolve_step in E as (T & [(N & _)|(N & E3)]); cbn in *; [destruct N; exact (draw_range _ _ _ E1)|].
        eapply sample_returns; eassumption.
      + injection H as <- <- <-. split; [reflexivity|]. split; [reflexivity|].
        apply resolve_refused in E as (E3 & E4). cbn in *. rewrite E4. eapply sample_throws; eassumption.
    - injection H as <- <- <-. split; [reflexivity|]. split; [reflexivity|]. constructor.
  Qed.

  Lemma history_takes l : forall s w s' w' r,
    0 < cad_passes (mh_cadence (sg_rest s)) ->
    mh_history geometry propose check_move accept at_least draw_int draw_p facts print_results write_file s w l = Some (s', w', r) ->
    takes_all geometry propose check_move (accept (sg_parameters s)) at_least draw_int draw_p
      (Z.to_nat (cad_passes (mh_cadence (sg_rest s)))) (rnd_engine (mh_generator (sg_rest s))) l r
      (rnd_engine (mh_generator (sg_rest s'))).
  Proof.
    induction l as [|c l IH]; intros s w s' w' r C H; cbn [mh_history] in H.
    - injection H as <- <- <-. constructor.
    - destruct (mh_step _ _ _ _ _ _ _ _ _ _ s w c) as [[[s1 w1] a]|] eqn:E; [|discriminate].
      destruct (mh_history _ _ _ _ _ _ _ _ _ _ s1 w1 l) as [[[s2 w2] r1]|] eqn:E2; [|discriminate].
      injection H as <- <- <-. apply step_takes in E as (C1 & P1 & T); [|exact C].
      econstructor; [exact T|]. rewrite <- C1, <- P1. eapply IH; [|exact E2]. rewrite C1. exact C.
  Qed.

  Lemma owned_history_takes alpha k lambda p c wf (rnd : Random G) given s (w : W) l s' w' r :
    mh_owned alpha k lambda p c wf rnd given = inl s ->
    mh_history geometry propose check_move accept at_least draw_int draw_p facts print_results write_file s w l = Some (s', w', r) ->
    takes_all geometry propose check_move (accept (sg_parameters s)) at_least draw_int draw_p
      (Z.to_nat p) (rnd_engine rnd) l r (rnd_engine (mh_generator (sg_rest s'))).
  Proof.
    intros B H. unfold mh_owned in B. destruct (Action.make_physical_parameters alpha k lambda) as [pp|]; [|discriminate].
    unfold make_metropolis, parse_move_run_cadence, cadence_parse in B.
    destruct (p <=? 0) eqn:Ep; [discriminate|]. destruct (c <=? 0) eqn:Ec; [discriminate|].
    apply Z.leb_gt in Ep, Ec. injection B as <-.
    apply history_takes in H; [|exact Ep]. exact H.
  Qed.
End Calls.
