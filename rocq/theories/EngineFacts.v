(** Proofs about the generator of a run (C101). *)
From Verif Require Import Base Tracker Command Run Fnv Geom Metropolis EngineSpec.

Section Loop.
  Context {M SS G W : Type}.
  Variable N3 : M -> Z.
  Variable pass : M -> SS -> Z -> G -> res G (pass_result M SS).
  Variable rep : M -> results -> SS -> W -> res W unit.
  Variable chk : M -> results -> SS -> Z -> W -> res W unit.

  (** The pass results in order, threaded. *)
  Inductive threaded : M -> SS -> G -> list (pass_result M SS) -> M -> SS -> G -> Prop :=
  | threaded_nil m s g : threaded m s g [] m s g
  | threaded_cons m s g p g1 ps m' s' g' : pass m s (N3 m) g = Ret g1 p ->
      threaded (pr_manifold p) (pr_state p) g1 ps m' s' g' -> threaded m s g (p :: ps) m' s' g'.

  Fixpoint sum_up (tot : results) (l : list results) : option results :=
    match l with
    | [] => Some tot
    | r :: l => match accumulate_results tot r with Some t => sum_up t l | None => None end
    end.

  Lemma run_loop_threaded fuel : forall cad w i cur tot st n g wa g' wa' r,
    run_loop N3 (pass_env (W := W) pass) (rep_env rep) (chk_env chk) fuel cad w i cur tot st n (g, wa) = Ret (g', wa') r ->
    exists ps, length ps = fuel /\ threaded cur st g ps (rr_manifold r) (rr_state r) g' /\
      sum_up tot (map (@pr_results M SS) ps) = Some (rr_results r).
  Proof.
    induction fuel as [|fuel IH]; intros cad w i cur tot st n g wa g' wa' r H; cbn [run_loop] in H.
    - unfold rep_env, on_world in H. cbn [fst snd] in H.
      destruct (rep cur tot st wa); try discriminate. injection H as <- _ <-.
      exists []. repeat split. constructor.
    - unfold pass_env at 1, on_engine in H. cbn [fst snd] in H.
      destruct (pass cur st (N3 cur) g) as [ga p| | |] eqn:Ep; try discriminate.
      destruct (accumulate_results tot (pr_results p)) as [tot'|] eqn:Ea; [|discriminate].
      assert (K : exists n' wx, run_loop N3 (pass_env (W := W) pass) (rep_env rep) (chk_env chk) fuel cad w (i + 1)
                    (pr_manifold p) tot' (pr_state p) n' (ga, wx) = Ret (g', wa') r).
      { unfold checkpoint_event in H.
        destruct ((i + 1) mod cad_checkpoint cad =? 0); [|eauto].
        destruct (add32 n 1); [|discriminate].
        unfold rep_env at 1, on_world in H. cbn [fst snd] in H.
        destruct (rep (pr_manifold p) tot' (pr_state p) wa) as [wx u| | |]; try discriminate.
        destruct w; [|eauto].
        unfold chk_env at 1, on_world in H. cbn [fst snd] in H.
        destruct (chk (pr_manifold p) tot' (pr_state p) (i + 1) wx) as [wy v| | |]; try discriminate.
        eauto. }
      destruct K as (n' & wx & K). apply IH in K as (ps & <- & T & S).
      exists (p :: ps). split; [reflexivity|]. split; [econstructor; eassumption|].
      cbn [map sum_up]. rewrite Ea. exact S.
  Qed.
End Loop.

Lemma accumulate_slots tot d t : results_ok tot -> results_ok d -> accumulate_results tot d = Some t ->
  results_ok t /\ forall k, supported k ->
    slot (attempted t) k = slot (attempted tot) k + slot (attempted d) k /\
    slot (succeeded t) k = slot (succeeded tot) k + slot (succeeded d) k /\
    slot (failed t) k = slot (failed tot) k + slot (failed d) k.
Proof.
  intros (A1 & A2 & A3) (B1 & B2 & B3) H. unfold accumulate_results in H.
  destruct (tracker_add (attempted tot) (attempted d)) as [a|] eqn:E1; [|discriminate].
  destruct (tracker_add (succeeded tot) (succeeded d)) as [b|] eqn:E2; [|discriminate].
  destruct (tracker_add (failed tot) (failed d)) as [c|] eqn:E3; [|discriminate].
  injection H as <-.
  apply (proj1 (tracker_add_spec _ _ A1 B1)) in E1 as (O1 & S1).
  apply (proj1 (tracker_add_spec _ _ A2 B2)) in E2 as (O2 & S2).
  apply (proj1 (tracker_add_spec _ _ A3 B3)) in E3 as (O3 & S3).
  split; [repeat split; assumption|]. intros k Hk. cbn. auto.
Qed.

Section Always.
  Context {M G W : Type}.
  Variable N3 : M -> Z.
  Variable api : move_api M G.
  Variable check_move : M -> M -> MoveType -> bool.
  Variable draw_int : Z -> Z -> G -> Z * G.
  Variable print_results : results -> W -> res W unit.
  Variable write_file : M -> Z -> Z -> W -> res W unit.

  Lemma enqueue_random_drawn n : forall (c : command M) g c' g',
    enqueue_random draw_int n c g = (c', g') ->
    exists ms, c' = enqueue_all c ms /\ length ms = n /\ drawn draw_int g ms g'.
  Proof.
    induction n as [|n IH]; intros c g c' g' H; cbn in H.
    - injection H as <- <-. exists []. split; [reflexivity|]. split; [reflexivity|]. constructor.
    - destruct (generate_random_move_3 draw_int g) as [m g1] eqn:E.
      apply IH in H as (ms & -> & <- & D). exists (m :: ms). split; [reflexivity|]. split; [reflexivity|].
      econstructor; [exact E|exact D].
  Qed.

  Lemma always_pass_Ret cur st g g' p :
    ma_execute_pass api check_move draw_int cur st (N3 cur) g = Ret g' p ->
    exists h, always_pass N3 api check_move draw_int cur g h (pr_manifold p) g' /\
      results_ok (pr_results p) /\
      forall k, supported k ->
        slot (attempted (pr_results p)) k = tally k true h + tally k false h /\
        slot (succeeded (pr_results p)) k = tally k true h /\
        slot (failed (pr_results p)) k = tally k false h.
  Proof.
    intros H. pose proof H as H0. unfold ma_execute_pass in H.
    destruct (enqueue_random draw_int (Z.to_nat (N3 cur)) (make_command cur) g) as [c g1] eqn:Eq.
    apply enqueue_random_drawn in Eq as (ms & -> & Hlen & Hd).
    destruct (enqueue_all_pending ms (make_command cur)) as (Hp & HM & HA & HS & HF).
    destruct (execute api check_move (enqueue_all (make_command cur) ms) g1)
      as [[c' g2] u|[? ?] ?| |] eqn:Ex; try discriminate.
    cbn in H. injection H as <- <-. cbn [pr_results pr_manifold attempted succeeded failed].
    assert (Hok : counters_ok (enqueue_all (make_command cur) ms)).
    { unfold counters_ok. rewrite HA, HS, HF. repeat split. }
    unfold execute in Ex. destruct (execute_loop_Ret _ _ _ _ _ _ _ _ Hok eq_refl Ex)
      as ((Oa & Os & Of) & _ & Hsup & h & Hfst & Hhist & Hcnt).
    rewrite Hp in Hfst. cbn in Hfst. rewrite HM in Hhist.
    exists h. split.
    { exists g1. split; [rewrite <- Hlen, <- Hfst, map_length; reflexivity|]. split; [rewrite Hfst; exact Hd|exact Hhist]. }
    split; [repeat split; assumption|].
    intros k Hk. destruct (Hcnt k Hk) as (-> & -> & ->). rewrite HA, HS, HF, tally_occurrences. cbn.
    rewrite !slot_zero, Hfst. lia.
  Qed.

  Lemma tally_app k ok h1 h2 : tally k ok (h1 ++ h2) = tally k ok h1 + tally k ok h2.
  Proof. unfold tally. rewrite List.filter_app, app_length. apply Nat2Z.inj_add. Qed.

  Lemma always_threaded m s g ps m' s' g' :
    threaded N3 (ma_execute_pass api check_move draw_int) m s g ps m' s' g' ->
    exists hs, length hs = length ps /\ passes (always_pass N3 api check_move draw_int) m g hs m' g' /\
      forall tot t, results_ok tot -> sum_up tot (map (@pr_results M unit) ps) = Some t ->
        results_ok t /\ forall k, supported k ->
          slot (attempted t) k = slot (attempted tot) k + tally k true (concat hs) + tally k false (concat hs) /\
          slot (succeeded t) k = slot (succeeded tot) k + tally k true (concat hs) /\
          slot (failed t) k = slot (failed tot) k + tally k false (concat hs).
  Proof.
    induction 1 as [m s g|m s g p g1 ps m' s' g' Hp Ht IH].
    - exists []. split; [reflexivity|]. split; [constructor|]. cbn. intros tot t Ho [= <-].
      split; [exact Ho|]. intros k Hk. unfold tally. cbn. lia.
    - apply always_pass_Ret in Hp as (h & Ha & Ho & Hc).
      destruct IH as (hs & L & P & Sm). exists (h :: hs). split; [cbn; congruence|].
      split; [econstructor; eassumption|].
      cbn [map sum_up]. intros tot t Hot Hs.
      destruct (accumulate_results tot (pr_results p)) as [tot'|] eqn:Ea; [|discriminate].
      apply accumulate_slots in Ea as (Ho' & E'); [|assumption|assumption].
      destruct (Sm tot' t Ho' Hs) as (Hot' & E). split; [exact Hot'|]. intros k Hk.
      destruct (E k Hk) as (-> & -> & ->). destruct (E' k Hk) as (-> & -> & ->).
      destruct (Hc k Hk) as (-> & -> & ->). cbn [concat]. rewrite !tally_app. lia.
  Qed.

  Lemma results_zero_ok : results_ok results_zero.
  Proof. repeat split. Qed.

  Lemma always_engine s w man s' w' man' :
    ma_run N3 api check_move draw_int print_results write_file s w man = Ret (s', w') man' ->
    exists hs, length hs = Z.to_nat (cad_passes (ma_cadence s)) /\
      passes (always_pass N3 api check_move draw_int) man (rnd_engine (ma_random s)) hs man' (rnd_engine (ma_random s')) /\
      rnd_seed (ma_random s') = rnd_seed (ma_random s) /\ rnd_stream (ma_random s') = rnd_stream (ma_random s) /\
      forall k, supported k ->
        slot (attempted (ma_results s')) k = tally k true (concat hs) + tally k false (concat hs) /\
        slot (succeeded (ma_results s')) k = tally k true (concat hs) /\
        slot (failed (ma_results s')) k = tally k false (concat hs).
  Proof.
    intros H. unfold ma_run in H.
    match type of H with context [execute_move_run ?a ?b ?c ?d ?e ?f ?g ?h ?i] =>
      destruct (execute_move_run a b c d e f g h i) as [[g1 w1] rr|[? ?] ?| |] eqn:Er end;
      try discriminate.
    injection H as <- <- <-. unfold execute_move_run in Er.
    apply run_loop_threaded in Er as (ps & L & T & S).
    apply always_threaded in T as (hs & L' & P & Sm).
    exists hs. split; [congruence|]. split; [exact P|]. split; [reflexivity|]. split; [reflexivity|].
    intros k Hk. destruct (Sm _ _ results_zero_ok S) as (_ & E). destruct (E k Hk) as (A & B & C).
    cbn [ma_results]. rewrite A, B, C. cbn. rewrite !slot_zero. lia.
  Qed.
End Always.

Section Mh.
  Context {M G P W : Type}.
  Variable geometry : M -> Geometry.
  Variable propose : move_api M G.
  Variable check_move : M -> M -> MoveType -> bool.
  Variable acceptance_probability : Geometry -> Geometry -> MoveType -> P + exn.
  Variable at_least : P -> fp -> bool.
  Variable draw_int : Z -> Z -> G -> Z * G.
  Variable draw_probability : G -> fp * G.
  Variable max_time : M -> Z.
  Variable update_state : Metadata -> M -> Metadata + exn.
  Variable print_results : results -> stats -> W -> res W unit.
  Variable write_file : M -> Metadata -> W -> res W unit.
  Hypothesis draw_range : forall g m g', draw_int 0 4 g = (m, g') -> supported m.

  Notation mpass := (metropolis_pass geometry propose check_move acceptance_probability at_least draw_int draw_probability).

  Lemma metropolis_threaded m s g ps m' s' g' :
    threaded (fun m => gN3 (geometry m))
      (mh_execute_pass geometry propose check_move acceptance_probability at_least draw_int draw_probability) m s g ps m' s' g' ->
    forall h0, stats_reflect s h0 ->
    exists hs, length hs = length ps /\ passes mpass m g hs m' g' /\ stats_reflect s' (h0 ++ concat hs) /\
      forall tot t h1, results_reflect tot h1 -> sum_up tot (map (@pr_results M stats) ps) = Some t ->
        results_reflect t (h1 ++ concat hs).
  Proof.
    induction 1 as [m s g|m s g p g1 ps m' s' g' Hp Ht IH]; intros h0 Hs.
    - exists []. split; [reflexivity|]. split; [constructor|]. cbn. rewrite app_nil_r. split; [exact Hs|].
      intros tot t h1 Ho [= <-]. rewrite app_nil_r. exact Ho.
    - apply (mh_execute_pass_Ret _ _ _ _ _ _ _ draw_range _ _ _ _ _ _ h0) in Hp as (h & Hl & Hsup & Hrr & Hss & Hcc); [|exact Hs].
      destruct (IH _ Hss) as (hs & L & Pp & Sf & Sm). exists (h :: hs). split; [cbn; congruence|].
      split; [econstructor; [split; eassumption|exact Pp]|].
      cbn [concat]. split; [rewrite app_assoc; exact Sf|].
      cbn [map sum_up]. intros tot t h1 Hot Hsum.
      destruct (accumulate_results tot (pr_results p)) as [tot'|] eqn:Ea; [|discriminate].
      pose proof (accumulate_slots _ _ _ (proj1 Hot) (proj1 Hrr) Ea) as (Ho' & E').
      rewrite app_assoc. apply Sm with (2 := Hsum).
      split; [exact Ho'|]. intros k Hk. destruct (E' k Hk) as (-> & -> & ->).
      destruct (proj2 Hot k Hk) as (-> & -> & ->). destruct (proj2 Hrr k Hk) as (-> & -> & ->).
      rewrite !count_of_app. auto.
  Qed.

  Lemma metropolis_engine x w man x' w' man' :
    mh_run geometry propose check_move acceptance_probability at_least draw_int draw_probability
      max_time update_state print_results write_file x w man = Ret (x', w') man' ->
    exists hs, length hs = Z.to_nat (cad_passes (mh_cadence x)) /\
      passes mpass man (rnd_engine (mh_generator x)) hs man' (rnd_engine (mh_generator x')) /\
      rnd_seed (mh_generator x') = rnd_seed (mh_generator x) /\ rnd_stream (mh_generator x') = rnd_stream (mh_generator x) /\
      results_reflect (mh_results x') (concat hs) /\ stats_reflect (mh_stats x') (concat hs).
  Proof.
    intros H. unfold mh_run in H.
    match type of H with context [execute_move_run ?a ?b ?c ?d ?e ?f ?g ?h ?i] =>
      destruct (execute_move_run a b c d e f g h i) as [[g1 w1] rr|[? ?] ?| |] eqn:Er end;
      try discriminate.
    injection H as <- <- <-. unfold execute_move_run in Er.
    apply run_loop_threaded in Er as (ps & L & T & S).
    apply metropolis_threaded with (h0 := []) in T as (hs & L' & Pp & Sf & Sm); [|apply stats_reflect_nil].
    exists hs. split; [congruence|]. split; [exact Pp|]. split; [reflexivity|]. split; [reflexivity|].
    split; [exact (Sm _ _ [] results_reflect_nil S)|exact Sf].
  Qed.
End Mh.

Section Determined.
  Context {M G H : Type}.
  Variable pass : M -> G -> H -> M -> G -> Prop.
  Hypothesis det : forall m g h1 m1 g1 h2 m2 g2, pass m g h1 m1 g1 -> pass m g h2 m2 g2 -> h1 = h2 /\ m1 = m2 /\ g1 = g2.

  Lemma passes_determined m g hs m' g' : passes pass m g hs m' g' ->
    forall ks m'' g'', length ks = length hs -> passes pass m g ks m'' g'' -> hs = ks /\ m' = m'' /\ g' = g''.
  Proof.
    induction 1 as [m g|m g h m1 g1 hs m2 g2 Hp Ht IH]; intros ks m'' g'' L K.
    - destruct ks; [|discriminate]. inversion K; subst. auto.
    - destruct ks as [|k ks]; [discriminate|]. inversion K; subst.
      match goal with H1 : pass m g k _ _ |- _ => destruct (det _ _ _ _ _ _ _ _ Hp H1) as (-> & -> & ->) end.
      injection L as L. match goal with H2 : passes pass _ _ ks _ _ |- _ => destruct (IH _ _ _ L H2) as (-> & -> & ->) end. auto.
  Qed.

  Lemma passes_app m g hs m1 g1 ks m2 g2 : passes pass m g hs m1 g1 -> passes pass m1 g1 ks m2 g2 ->
    passes pass m g (hs ++ ks) m2 g2.
  Proof. induction 1; [tauto|]. intros K. cbn. econstructor; eauto. Qed.
End Determined.

Section DeterminedAlways.
  Context {M G : Type}.
  Variable N3 : M -> Z.
  Variable api : move_api M G.
  Variable check : M -> M -> MoveType -> bool.
  Variable draw : Z -> Z -> G -> Z * G.

  Lemma drawn_determined g ms g' : drawn draw g ms g' -> forall ks g'', length ks = length ms -> drawn draw g ks g'' ->
    ms = ks /\ g' = g''.
  Proof.
    induction 1 as [g|g m g1 ms g2 E D IH]; intros ks g'' L K.
    - destruct ks; [|discriminate]. inversion K; subst. auto.
    - destruct ks as [|k ks]; [discriminate|]. inversion K as [|? ? ? ? ? E' D']; subst. rewrite E in E'. injection E' as <- <-.
      injection L as L. destruct (IH _ _ L D') as (-> & ->). auto.
  Qed.

  Lemma history_determined m g h m' g' : history api check m g h m' g' ->
    forall k m'' g'', map fst k = map fst h -> history api check m g k m'' g'' -> h = k /\ m' = m'' /\ g' = g''.
  Proof.
    induction 1; intros k m'' g'' L K.
    - destruct k; [|discriminate]. inversion K; subst. auto.
    - destruct k as [|[q b] k]; [discriminate|]. cbn in L. injection L as -> L.
      inversion K; subst; try congruence.
      match goal with A : ?f = ?x, B : ?f = ?y |- _ => rewrite A in B; injection B as <- <- end.
      edestruct IHhistory as (-> & -> & ->); eauto.
    - destruct k as [|[q b] k]; [discriminate|]. cbn in L. injection L as -> L.
      inversion K; subst; try congruence.
      all: match goal with A : apply_random_move _ _ _ _ = _, B : apply_random_move _ _ _ _ = _ |- _ => rewrite A in B; try discriminate B; injection B as <- <- end.
      all: try congruence.
      all: edestruct IHhistory as (-> & -> & ->); eauto.
    - destruct k as [|[q b] k]; [discriminate|]. cbn in L. injection L as -> L.
      inversion K; subst; try congruence.
      all: match goal with A : apply_random_move _ _ _ _ = _, B : apply_random_move _ _ _ _ = _ |- _ => rewrite A in B; try discriminate B; injection B as <- <- end.
      all: edestruct IHhistory as (-> & -> & ->); eauto.
  Qed.

  Lemma always_pass_determined m g h1 m1 g1 h2 m2 g2 :
    always_pass N3 api check draw m g h1 m1 g1 -> always_pass N3 api check draw m g h2 m2 g2 -> h1 = h2 /\ m1 = m2 /\ g1 = g2.
  Proof.
    intros (ga & La & Da & Ha) (gb & Lb & Db & Hb).
    assert (L : length (map fst h2) = length (map fst h1)) by (rewrite !map_length; congruence).
    destruct (drawn_determined _ _ _ Da _ _ L Db) as (E & <-).
    exact (history_determined _ _ _ _ _ Ha _ _ _ (eq_sym E) Hb).
  Qed.
End DeterminedAlways.

Section DeterminedMh.
  Context {M G P : Type}.
  Variable geometry : M -> Geometry.
  Variable propose : move_api M G.
  Variable check_move : M -> M -> MoveType -> bool.
  Variable acceptance_probability : Geometry -> Geometry -> MoveType -> P + exn.
  Variable at_least : P -> fp -> bool.
  Variable draw_int : Z -> Z -> G -> Z * G.
  Variable draw_probability : G -> fp * G.
  Notation chain := (sampled_chain geometry propose check_move acceptance_probability at_least draw_int draw_probability).
  Notation mstep := (markov_step geometry propose check_move acceptance_probability at_least).

  Lemma markov_step_determined m g k t o1 m1 g1 o2 m2 g2 :
    mstep m g k t o1 m1 g1 -> mstep m g k t o2 m2 g2 -> o1 = o2 /\ m1 = m2 /\ g1 = g2.
  Proof.
    intros A B. inversion A; subst; inversion B; subst;
      repeat match goal with
      | X : ?f = _, Y : ?f = _ |- _ => rewrite X in Y; first [discriminate Y | injection Y; clear Y; intros; subst]
      end; auto.
  Qed.

  Lemma chain_determined m g h m' g' : chain m g h m' g' ->
    forall k m'' g'', length k = length h -> chain m g k m'' g'' -> h = k /\ m' = m'' /\ g' = g''.
  Proof.
    induction 1 as [|m g q g1 t g2 o m1 g3 h m2 g4 E1 E2 Sq Ti St Ch IH]; intros k m'' g'' L K.
    - destruct k; [|discriminate]. inversion K; subst. auto.
    - destruct k as [|[q' o'] k]; [discriminate|]. inversion K as [|? ? ? ? t' ? ? ? ? ? ? ? F1 F2 Sq' Ti' St' Ch']; subst.
      rewrite E1 in F1. injection F1 as <- <-. rewrite E2 in F2. injection F2 as <- <-.
      destruct (markov_step_determined _ _ _ _ _ _ _ _ _ _ St St') as (<- & <- & <-).
      injection L as L. destruct (IH _ _ _ L Ch') as (-> & -> & ->). auto.
  Qed.

  Lemma metropolis_pass_determined m g h1 m1 g1 h2 m2 g2 :
    metropolis_pass geometry propose check_move acceptance_probability at_least draw_int draw_probability m g h1 m1 g1 ->
    metropolis_pass geometry propose check_move acceptance_probability at_least draw_int draw_probability m g h2 m2 g2 ->
    h1 = h2 /\ m1 = m2 /\ g1 = g2.
  Proof. intros (La & Ca) (Lb & Cb). refine (chain_determined _ _ _ _ _ Ca _ _ _ _ Cb). congruence. Qed.
End DeterminedMh.
