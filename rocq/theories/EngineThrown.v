(** Proofs about the generator of a run that throws (C101). *)
From Verif Require Import Base Tracker Command Run Fnv Geom Metropolis EngineSpec EngineFacts.

Section Loop.
  Context {M SS G W : Type}.
  Variable N3 : M -> Z.
  Variable pass : M -> SS -> Z -> G -> res G (pass_result M SS).
  Variable rep : M -> results -> SS -> W -> res W unit.
  Variable chk : M -> results -> SS -> Z -> W -> res W unit.

  Lemma run_loop_thrown fuel : forall cad w i cur tot st n g wa g' wa' x,
    run_loop N3 (pass_env (W := W) pass) (rep_env rep) (chk_env chk) fuel cad w i cur tot st n (g, wa) = Thr (g', wa') x ->
    exists ps m1 s1 g1, threaded N3 pass cur st g ps m1 s1 g1 /\
      ((length ps < fuel)%nat /\ pass m1 s1 (N3 m1) g1 = Thr g' x \/
       (length ps <= fuel)%nat /\ (fuel = O \/ 0 < length ps)%nat /\ g' = g1).
  Proof.
    induction fuel as [|fuel IH]; intros cad w i cur tot st n g wa g' wa' x H; cbn [run_loop] in H.
    - unfold rep_env, on_world in H. cbn [fst snd] in H.
      destruct (rep cur tot st wa); try discriminate. injection H as <- _ _.
      exists [], cur, st, g. split; [constructor|]. right. cbn. auto.
    - unfold pass_env at 1, on_engine in H. cbn [fst snd] in H.
      destruct (pass cur st (N3 cur) g) as [ga p|ga e| |] eqn:Ep; try discriminate.
      2:{ injection H as <- _ <-. exists [], cur, st, g. split; [constructor|]. left. cbn. split; [lia|exact Ep]. }
      destruct (accumulate_results tot (pr_results p)) as [tot'|] eqn:Ea; [|discriminate].
      assert (Here : ga = g' -> exists ps m1 s1 g1, threaded N3 pass cur st g ps m1 s1 g1 /\
          ((length ps < S fuel)%nat /\ pass m1 s1 (N3 m1) g1 = Thr g' x \/
           (length ps <= S fuel)%nat /\ (S fuel = O \/ 0 < length ps)%nat /\ g' = g1)).
      { intros <-. exists [p], (pr_manifold p), (pr_state p), ga. split; [econstructor; [exact Ep|constructor]|].
        right. cbn. split; [lia|]. split; [right; lia|reflexivity]. }
      assert (K : g' = ga \/ exists n' wx, run_loop N3 (pass_env (W := W) pass) (rep_env rep) (chk_env chk) fuel cad w (i + 1)
                    (pr_manifold p) tot' (pr_state p) n' (ga, wx) = Thr (g', wa') x).
      { unfold checkpoint_event in H.
        destruct ((i + 1) mod cad_checkpoint cad =? 0); [|eauto].
        destruct (add32 n 1); [|discriminate].
        unfold rep_env at 1, on_world in H. cbn [fst snd] in H.
        destruct (rep (pr_manifold p) tot' (pr_state p) wa) as [wx u|wx e| |]; try discriminate.
        2:{ injection H as <- _ _. auto. }
        destruct w; [|eauto].
        unfold chk_env at 1, on_world in H. cbn [fst snd] in H.
        destruct (chk (pr_manifold p) tot' (pr_state p) (i + 1) wx) as [wy v|wy e| |]; try discriminate; [eauto|].
        injection H as <- _ _. auto. }
      destruct K as [K|(n' & wx & K)]; [auto|].
      apply IH in K as (ps & m1 & s1 & g1 & T & D).
      destruct D as [(L & D)|(L & D & ->)].
      + exists (p :: ps), m1, s1, g1. split; [econstructor; eassumption|]. left. cbn. split; [lia|exact D].
      + exists (p :: ps), m1, s1, g1. split; [econstructor; eassumption|]. right. cbn. split; [lia|]. split; [lia|reflexivity].
  Qed.
End Loop.

Section Always.
  Context {M G W : Type}.
  Variable N3 : M -> Z.
  Variable api : move_api M G.
  Variable check_move : M -> M -> MoveType -> bool.
  Variable draw_int : Z -> Z -> G -> Z * G.
  Variable print_results : results -> W -> res W unit.
  Variable write_file : M -> Z -> Z -> W -> res W unit.

  Lemma always_pass_Thr cur st g g' x :
    ma_execute_pass api check_move draw_int cur st (N3 cur) g = Thr g' x ->
    always_interrupted N3 api check_move draw_int cur g x g'.
  Proof.
    intros H. unfold ma_execute_pass in H.
    destruct (enqueue_random draw_int (Z.to_nat (N3 cur)) (make_command cur) g) as [c g1] eqn:Eq.
    apply enqueue_random_drawn in Eq as (ms & -> & Hlen & Hd).
    destruct (enqueue_all_pending ms (make_command cur)) as (Hp & HM & HA & HS & HF).
    destruct (execute api check_move (enqueue_all (make_command cur) ms) g1)
      as [[c' g2] u|[c' g2] e| |] eqn:Ex; try discriminate.
    cbn in H.
    injection H as <- <-.
    assert (Hok : counters_ok (enqueue_all (make_command cur) ms)).
    { unfold counters_ok. rewrite HA, HS, HF. repeat split. }
    unfold execute in Ex. destruct (execute_loop_Thr _ _ _ _ _ _ _ _ Hok eq_refl Ex)
      as (_ & h & k & rest & gm & Hpe & _ & Hk & Hh & Ha & _).
    rewrite Hp in Hpe. cbn in Hpe. rewrite HM in Hh. cbn in Hh.
    exists ms, g1, h, k, rest, (cm_manifold c'), gm. auto.
  Qed.

  Lemma always_stopped s w man s' w' x :
    0 < cad_passes (ma_cadence s) ->
    ma_run N3 api check_move draw_int print_results write_file s w man = Thr (s', w') x ->
    stopped (always_pass N3 api check_move draw_int) (always_interrupted N3 api check_move draw_int)
      (Z.to_nat (cad_passes (ma_cadence s))) man (rnd_engine (ma_random s)) x (rnd_engine (ma_random s')).
  Proof.
    intros C1 H. unfold ma_run in H.
    match type of H with context [execute_move_run ?a ?b ?c ?d ?e ?f ?g ?h ?i] =>
      destruct (execute_move_run a b c d e f g h i) as [[g1 w1] rr|[g1 w1] e1| |] eqn:Er end;
      try discriminate.
    injection H as <- <- <-. unfold execute_move_run in Er.
    apply run_loop_thrown in Er as (ps & m1 & s1 & g2 & T & D).
    apply always_threaded in T as (hs & L & P & _).
    exists hs, m1, g2. split; [exact P|]. cbn [ma_random rnd_engine advance].
    destruct D as [(Lt & D)|(Le & [Z0|Ge] & ->)]; [left|exfalso; lia|right].
    - split; [lia|]. apply always_pass_Thr in D. exact D.
    - split; [lia|reflexivity].
  Qed.
End Always.

Section Mh.
  Context {M G P W : Type}.
  Variable geometry : M -> Geometry.
  Variable propose : move_api M G.
  Variable check_move : M -> M -> MoveType -> bool.
  Variable acceptance_probability : Geometry -> Geometry -> MoveType -> P + exn.
  Variable at_least : P -> fp -> bool.
  Variable draw_int : Z -> Z -> G -> Z * G.
  Variable draw_probability : G -> fp * G.
  Variable max_time : M -> Z.
  Variable update_state : Metadata -> M -> Metadata + exn.
  Variable print_results : results -> stats -> W -> res W unit.
  Variable write_file : M -> Metadata -> W -> res W unit.
  Hypothesis draw_range : forall g m g', draw_int 0 4 g = (m, g') -> supported m.

  Notation mpass := (metropolis_pass geometry propose check_move acceptance_probability at_least draw_int draw_probability).
  Notation mstop := (metropolis_interrupted geometry propose check_move acceptance_probability at_least draw_int draw_probability).
  Notation chain := (sampled_chain geometry propose check_move acceptance_probability at_least draw_int draw_probability).
  Notation resolve := (resolve_transition geometry propose check_move acceptance_probability at_least).

  Lemma resolve_thrown x m t y e :
    supported m -> resolve x m t = Thr y e ->
    (trial_invalid t = true /\ e = InvalidArgument /\ ms_gen y = ms_gen x) \/
    propose_candidate propose (ms_cur x) m (ms_gen x) = (Raised e, ms_gen y) \/
    (exists cand, propose_candidate propose (ms_cur x) m (ms_gen x) = (Moved cand, ms_gen y) /\
       check_move (ms_cur x) cand m = true /\ acceptance_probability (geometry (ms_cur x)) (geometry cand) m = inr e).
  Proof.
    intros Hm H. unfold resolve_transition, fail_transition in H.
    destruct (trial_invalid t) eqn:Et; [injection H as <- <-; auto|].
    destruct (reverse_move m); [|discriminate].
    match type of H with context [bump ?a m] => destruct (bump a m) as [prop| |] end; [|discriminate|discriminate].
    destruct (bump (attempted (ms_results x)) m) as [att| |]; [|discriminate|discriminate].
    cbn in H.
    destruct (propose_candidate propose (ms_cur x) m (ms_gen x)) as [[cand|er|er] gg] eqn:Ep.
    - destruct (check_move (ms_cur x) cand m) eqn:Ec; cbn [negb] in H.
      + destruct (bump (succeeded (ms_results x)) m) as [sc| |]; [|discriminate|discriminate].
        destruct (acceptance_probability _ _ m) eqn:Ea.
        * destruct (at_least p t); (match type of H with context [bump ?a m] => destruct (bump a m) as [q| |] end; discriminate).
        * injection H as <- <-. cbn in Ea |- *. right. right. exists cand. auto.
      + destruct (bump (failed (ms_results x)) m) as [f| |]; [|discriminate|discriminate].
        match type of H with context [bump ?a m] => destruct (bump a m) as [q| |] end; discriminate.
    - destruct (bump (failed (ms_results x)) m) as [f| |]; [|discriminate|discriminate].
      match type of H with context [bump ?a m] => destruct (bump a m) as [q| |] end; discriminate.
    - injection H as <- <-. auto.
  Qed.

  Lemma sample_loop_thrown n : forall x y e hr hs,
    results_reflect (ms_results x) hr -> stats_reflect (ms_stats x) hs ->
    sample_loop geometry propose check_move acceptance_probability at_least draw_int draw_probability n x = Thr y e ->
    exists h m1 g1 k g2 t g3, (length h < n)%nat /\ chain (ms_cur x) (ms_gen x) h m1 g1 /\
      draw_int 0 4 g1 = (k, g2) /\ draw_probability g2 = (t, g3) /\
      ((trial_invalid t = true /\ e = InvalidArgument /\ ms_gen y = g3) \/
       propose_candidate propose m1 k g3 = (Raised e, ms_gen y) \/
       (exists cand, propose_candidate propose m1 k g3 = (Moved cand, ms_gen y) /\ check_move m1 cand k = true /\
          acceptance_probability (geometry m1) (geometry cand) k = inr e)).
  Proof.
    induction n as [|n IH]; intros x y e hr hs Hr Hs H; cbn in H; [discriminate|].
    unfold sample_transition in H.
    destruct (generate_random_move_3 draw_int (ms_gen x)) as [m g1] eqn:E1.
    destruct (draw_probability g1) as [t g2] eqn:E2.
    pose proof (draw_range _ _ _ E1) as Hm.
    destruct (resolve (mkM (ms_cur x) (ms_results x) (ms_stats x) g2) m t) as [z o|z o| |] eqn:E3; try discriminate.
    - destruct (resolve_Ret _ _ _ _ _ (mkM (ms_cur x) (ms_results x) (ms_stats x) g2) _ _ _ _ hr hs Hr Hs E3)
        as [Ht [(Hc & _)|(_ & Hr' & Hs' & _ & Hst)]]; [tauto|].
      destruct (IH _ _ _ _ _ Hr' Hs' H) as (h & m1 & ga & k & gb & t' & gc & L & C & D).
      exists ((m, o) :: h), m1, ga, k, gb, t', gc. split; [cbn; lia|]. split; [econstructor; eassumption|exact D].
    - injection H as <- <-. apply resolve_thrown in E3; [|assumption]. cbn [ms_cur ms_gen] in E3.
      exists [], (ms_cur x), (ms_gen x), m, g1, t, g2. split; [cbn; lia|]. split; [constructor|].
      split; [exact E1|]. split; [exact E2|]. exact E3.
  Qed.

  Lemma metropolis_stopped x w man x' w' e :
    0 < cad_passes (mh_cadence x) ->
    mh_run geometry propose check_move acceptance_probability at_least draw_int draw_probability
      max_time update_state print_results write_file x w man = Thr (x', w') e ->
    stopped mpass mstop (Z.to_nat (cad_passes (mh_cadence x))) man (rnd_engine (mh_generator x)) e (rnd_engine (mh_generator x')).
  Proof.
    intros C1 H. unfold mh_run in H.
    match type of H with context [execute_move_run ?a ?b ?c ?d ?e ?f ?g ?h ?i] =>
      destruct (execute_move_run a b c d e f g h i) as [[g1 w1] rr|[g1 w1] e1| |] eqn:Er end;
      try discriminate.
    injection H as <- <- <-. unfold execute_move_run in Er.
    apply run_loop_thrown in Er as (ps & m1 & s1 & g2 & T & D).
    apply metropolis_threaded with (h0 := []) in T as (hs & L & Pp & Ss & _); [|assumption|apply stats_reflect_nil].
    exists hs, m1, g2. split; [exact Pp|]. cbn [mh_generator rnd_engine advance].
    destruct D as [(Lt & D)|(Le & [Z0|Ge] & ->)]; [left|exfalso; lia|right].
    - split; [lia|]. unfold mh_execute_pass in D.
      destruct (sample_loop _ _ _ _ _ _ _ _ (mkM m1 results_zero s1 g2)) as [z u|z u| |] eqn:Ez; try discriminate.
      injection D as <- <-.
      exact (sample_loop_thrown _ (mkM m1 results_zero s1 g2) _ _ [] _ results_reflect_nil Ss Ez).
    - split; [lia|reflexivity].
  Qed.
End Mh.
