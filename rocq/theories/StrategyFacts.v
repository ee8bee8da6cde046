(** What a strategy object reports, and that it can be rebuilt from it. *)
From Verif Require Import Base Tracker Command Run Fnv Geom Metropolis RunCheckpoint Strategy StrategySpec.
From Verif Require Action.
Local Open Scope Z_scope.
Set Default Proof Using "Type".

Section MoveAlwaysObject.
  Context {M G W : Type}.
  Variable seed_engine : Z -> Z -> G.
  Variable N3 : M -> Z.
  Variable api : move_api M G.
  Variable check_move : M -> M -> MoveType -> bool.
  Variable draw_int : Z -> Z -> G -> Z * G.
  Variable print_results : results -> W -> res W unit.
  Variable write_file : M -> Z -> Z -> W -> res W unit.
  Notation history := (ma_history N3 api check_move draw_int print_results write_file).

  Lemma ma_run_keeps s w man :
    match ma_run N3 api check_move draw_int print_results write_file s w man with
    | Ret (s', _) _ | Thr (s', _) _ =>
        ma_cadence s' = ma_cadence s /\ ma_write_files s' = ma_write_files s /\
        rnd_seed (ma_random s') = rnd_seed (ma_random s) /\ rnd_stream (ma_random s') = rnd_stream (ma_random s)
    | _ => True
    end.
  Proof.
    unfold ma_run.
    match goal with |- context [execute_move_run ?a ?b ?c ?d ?e ?f ?g ?h ?i] =>
      destruct (execute_move_run a b c d e f g h i) as [[? ?] ?|[? ?] ?| |] end; cbn; auto.
  Qed.

  Lemma ma_history_keeps l : forall s w s' w' a, history s w l = Some (s', w', a) ->
    ma_cadence s' = ma_cadence s /\ ma_write_files s' = ma_write_files s /\
    rnd_seed (ma_random s') = rnd_seed (ma_random s) /\ rnd_stream (ma_random s') = rnd_stream (ma_random s).
  Proof.
    induction l as [|man l IH]; intros s w s' w' a H; cbn in H.
    - injection H as <- _ _. auto.
    - pose proof (ma_run_keeps s w man) as K.
      destruct (ma_run _ _ _ _ _ _ _ _ _) as [[s1 w1] m|[s1 w1] e| |]; try discriminate;
        destruct (history s1 w1 l) as [[[s2 w2] b]|] eqn:E; try discriminate; injection H as <- _ _;
        destruct (IH _ _ _ _ _ E) as (-> & -> & -> & ->); exact K.
  Qed.

  Lemma make_ma_spec p c r wf :
    (0 < p -> 0 < c -> make_move_always p c r wf = inl (mkMoveAlways (mkCadence p c) r wf results_zero 0)) /\
    (p <= 0 -> make_move_always p c r wf = inr (InvalidArgument, NONPOSITIVE_PASSES)) /\
    (0 < p -> c <= 0 -> make_move_always p c r wf = inr (InvalidArgument, NONPOSITIVE_CHECKPOINT)) /\
    forall s : move_always G, make_move_always p c r wf = inl s -> 0 < p /\ 0 < c /\ s = mkMoveAlways (mkCadence p c) r wf results_zero 0.
  Proof.
    unfold make_move_always, parse_move_run_cadence, cadence_parse.
    destruct (Z.leb_spec p 0); [repeat split; intros; try reflexivity; try lia; discriminate|].
    destruct (Z.leb_spec c 0); [repeat split; intros; try reflexivity; try lia; discriminate|].
    repeat split; intros; try reflexivity; try lia. congruence.
  Qed.

  Lemma ma_built_shape s : ma_built seed_engine s ->
    exists p c seed stream wf, 0 < p /\ 0 < c /\
      s = mkMoveAlways (mkCadence p c) (make_random seed_engine seed stream) wf results_zero 0.
  Proof.
    intros [entropy|p c entropy s' H|p c seed wf s' H|p c seed stream wf s' H].
    - exists 1, 1, entropy, 0, true. split; [lia|]. split; [lia|]. reflexivity.
    - apply make_ma_spec in H as (A & B & ->). exists p, c, entropy, 0, true. auto.
    - apply make_ma_spec in H as (A & B & ->). exists p, c, seed, 0, wf. auto.
    - apply make_ma_spec in H as (A & B & ->). exists p, c, seed, stream, wf. auto.
  Qed.

  Lemma ma_accepts p c seed wf r entropy :
    ((exists s, make_move_always (G := G) p c r wf = inl s) <-> 0 < p /\ 0 < c) /\
    ((exists s, ma_seeded seed_engine p c seed wf = inl s) <-> 0 < p /\ 0 < c) /\
    ((exists s, ma_unseeded seed_engine p c entropy = inl s) <-> 0 < p /\ 0 < c) /\
    (forall e d, make_move_always p c r wf = inr (e, d) \/ ma_seeded seed_engine p c seed wf = inr (e, d) \/
                 ma_unseeded seed_engine p c entropy = inr (e, d) -> e = InvalidArgument).
  Proof.
    assert (K : forall r wf, (exists s, make_move_always (G := G) p c r wf = inl s) <-> 0 < p /\ 0 < c).
    { intros r' wf'. destruct (make_ma_spec p c r' wf') as (A & _ & _ & D). split.
      - intros [s Hs]. apply D in Hs as (Q1 & Q2 & _). split; assumption.
      - intros [Hp Hc]. eexists. exact (A Hp Hc). }
    split; [apply K|]. split; [apply K|]. split; [apply K|].
    assert (L : forall r wf e d, make_move_always (G := G) p c r wf = inr (e, d) -> e = InvalidArgument).
    { intros r' wf' e d H. destruct (make_ma_spec p c r' wf') as (A & B & C & _).
      destruct (Z_lt_le_dec 0 p) as [Hp|Hp]; [|rewrite (B Hp) in H; congruence].
      destruct (Z_lt_le_dec 0 c) as [Hc|Hc]; [|rewrite (C Hp Hc) in H; congruence].
      rewrite (A Hp Hc) in H. discriminate. }
    intros e d [H|[H|H]]; exact (L _ _ _ _ H).
  Qed.

  Lemma ma_settings p c seed stream wf s w l s' w' a :
    make_move_always p c (make_random seed_engine seed stream) wf = inl s ->
    history s w l = Some (s', w', a) ->
    rp_passes (ma_reports s') = p /\ rp_checkpoint (ma_reports s') = c /\
    rp_seed (ma_reports s') = seed /\ rp_stream (ma_reports s') = stream /\
    rp_writes_files (ma_reports s') = wf.
  Proof.
    intros Hs H. apply make_ma_spec in Hs as (_ & _ & ->).
    destruct (ma_history_keeps _ _ _ _ _ _ H) as (A & B & C & D).
    unfold ma_reports. cbn. rewrite A, B, C, D. cbn. auto.
  Qed.

  Lemma ma_rebuilt s w l s' w' a : ma_built seed_engine s ->
    history s w l = Some (s', w', a) ->
    let r := ma_reports s' in
    make_move_always (rp_passes r) (rp_checkpoint r) (make_random seed_engine (rp_seed r) (rp_stream r))
      (rp_writes_files r) = inl s /\
    (rp_stream r = 0 -> ma_seeded seed_engine (rp_passes r) (rp_checkpoint r) (rp_seed r) (rp_writes_files r) = inl s).
  Proof.
    intros Hb H r. destruct (ma_built_shape s Hb) as (p & c & seed & stream & wf & Hp & Hc & E).
    assert (Hs : make_move_always p c (make_random seed_engine seed stream) wf = inl s).
    { rewrite E. apply make_ma_spec; assumption. }
    destruct (ma_settings p c seed stream wf s w l s' w' a Hs H) as (A & B & C & D & F).
    unfold r. rewrite A, B, C, D, F. split; [exact Hs|].
    intros ->. exact Hs.
  Qed.
End MoveAlwaysObject.

Lemma mh_accepts (G : Type) alpha k lambda p c wf (r : Random G) given :
  let built := mh_owned alpha k lambda p c wf r given in
  ((exists s, built = inl s) <->
   finite_and (fun a => QArith_base.Qlt (QArith_base.Qmake 1 2) a) alpha k lambda /\ 0 < p /\ 0 < c) /\
  (built = inr InvalidArgument <->
   ~ finite_and (fun _ => True) alpha k lambda \/
   finite_and (fun a => QArith_base.Qlt (QArith_base.Qmake 1 2) a) alpha k lambda /\ (p <= 0 \/ c <= 0)) /\
  (built = inr DomainError <-> finite_and (fun a => QArith_base.Qle a (QArith_base.Qmake 1 2)) alpha k lambda) /\
  (forall e, built = inr e -> e = InvalidArgument \/ e = DomainError).
Proof.
  cbn zeta. unfold mh_owned, Action.make_physical_parameters, make_metropolis, parse_move_run_cadence, cadence_parse, finite_and.
  assert (N : forall (X : strategy G -> Prop) e, ~ exists s, @inr (strategy G) exn e = inl s) by (intros X e [s H]; discriminate).
  destruct alpha as [| |qa], k as [| |qk], lambda as [| |ql];
    try (split; [split; [intros [s H]; discriminate|intros [[] _]]|];
         split; [split; [intros _; left; tauto|reflexivity]|];
         split; [split; [discriminate|intros []]|]; intros e H; injection H as <-; auto).
  destruct (QArith_base.Qle_bool qa (QArith_base.Qmake 1 2)) eqn:E.
  - apply QArith_base.Qle_bool_iff in E.
    assert (L : ~ QArith_base.Qlt (QArith_base.Qmake 1 2) qa) by (intros K; exact (QArith_base.Qlt_not_le _ _ K E)).
    split; [split; [intros [s H]; discriminate|tauto]|].
    split; [split; [discriminate|tauto]|]. split; [tauto|]. intros e H. injection H as <-. auto.
  - assert (L : QArith_base.Qlt (QArith_base.Qmake 1 2) qa).
    { apply QArith_base.Qnot_le_lt. intros K. apply QArith_base.Qle_bool_iff in K. congruence. }
    assert (L2 : ~ QArith_base.Qle qa (QArith_base.Qmake 1 2)) by (intros K; exact (QArith_base.Qlt_not_le _ _ L K)).
    destruct (Z.leb_spec p 0) as [Hp|Hp].
    { split; [split; [intros [s H]; discriminate|lia]|]. split; [split; [intros _; right; split; [assumption|lia]|reflexivity]|].
      split; [split; [discriminate|tauto]|]. intros e H. injection H as <-. auto. }
    destruct (Z.leb_spec c 0) as [Hc|Hc].
    { split; [split; [intros [s H]; discriminate|lia]|]. split; [split; [intros _; right; split; [assumption|lia]|reflexivity]|].
      split; [split; [discriminate|tauto]|]. intros e H. injection H as <-. auto. }
    split; [split; [auto|intros _; eexists; reflexivity]|].
    split; [split; [discriminate|intros [K|[_ K]]; [tauto|lia]]|].
    split; [split; [discriminate|tauto]|]. discriminate.
Qed.

Section MetropolisObject.
  Context {M G P W : Type}.
  Variable seed_engine : Z -> Z -> G.
  Variable geometry : M -> Geometry.
  Variable propose : move_api M G.
  Variable check_move : M -> M -> MoveType -> bool.
  Variable accept : Action.PhysicalParameters -> Geometry -> Geometry -> MoveType -> P + exn.
  Variable at_least : P -> fp -> bool.
  Variable draw_int : Z -> Z -> G -> Z * G.
  Variable draw_p : G -> fp * G.
  Variable facts : manifold_facts M.
  Variable print_results : results -> stats -> W -> res W unit.
  Variable write_file : M -> Metadata -> W -> res W unit.
  Notation step := (mh_step geometry propose check_move accept at_least draw_int draw_p facts print_results write_file).
  Notation history := (mh_history geometry propose check_move accept at_least draw_int draw_p facts print_results write_file).

  Definition keeps (s s' : strategy G) : Prop :=
    sg_parameters s' = sg_parameters s /\ mh_cadence (sg_rest s') = mh_cadence (sg_rest s) /\
    mh_write_files (sg_rest s') = mh_write_files (sg_rest s) /\
    mh_reproducibility (sg_rest s') = mh_reproducibility (sg_rest s) /\
    rnd_seed (mh_generator (sg_rest s')) = rnd_seed (mh_generator (sg_rest s)) /\
    rnd_stream (mh_generator (sg_rest s')) = rnd_stream (mh_generator (sg_rest s)).

  Lemma mh_step_keeps s w c s' w' a : step s w c = Some (s', w', a) -> keeps s s'.
  Proof.
    destruct c as [man|cur m t|cur|man]; cbn.
    - unfold mh_run.
      match goal with |- context [execute_move_run ?a ?b ?c ?d ?e ?f ?g ?h ?i] =>
        destruct (execute_move_run a b c d e f g h i) as [[? ?] ?|[? ?] ?| |] end; intros H; try discriminate;
        injection H as <- _ _; repeat split.
    - unfold attempt_transition. destruct (resolve_transition _ _ _ _ _ _ _ _); intros H; try discriminate;
        injection H as <- _ _; repeat split.
    - unfold attempt_sampled. destruct (sample_transition _ _ _ _ _ _ _ _); intros H; try discriminate;
        injection H as <- _ _; repeat split.
    - intros H. injection H as <- _ _. repeat split.
  Qed.

  Lemma mh_history_keeps l : forall s w s' w' a, history s w l = Some (s', w', a) -> keeps s s'.
  Proof.
    induction l as [|c l IH]; intros s w s' w' a H; cbn [mh_history] in H.
    - injection H as <- _ _. repeat split.
    - destruct (step s w c) as [[[s1 w1] b]|] eqn:E; [|discriminate].
      destruct (history s1 w1 l) as [[[s2 w2] d]|] eqn:F; [|discriminate].
      injection H as <- _ _. apply mh_step_keeps in E. apply IH in F. unfold keeps in *.
      intuition congruence.
  Qed.

  Lemma mh_owned_spec alpha k lambda p c wf (r : Random G) given s :
    mh_owned alpha k lambda p c wf r given = inl s <->
    exists qa qk ql, alpha = Fin qa /\ k = Fin qk /\ lambda = Fin ql /\ QArith_base.Qlt (QArith_base.Qmake 1 2) qa /\
      0 < p /\ 0 < c /\ sg_parameters s = Action.mkParams qa qk ql /\
      mh_cadence (sg_rest s) = mkCadence p c /\ mh_write_files (sg_rest s) = wf /\ mh_generator (sg_rest s) = r /\
      mh_results (sg_rest s) = results_zero /\ mh_stats (sg_rest s) = stats_zero /\
      mh_checkpoint_events (sg_rest s) = 0 /\
      let base := initial_metadata given r alpha k lambda p c in
      mh_reproducibility (sg_rest s) =
        mkMetadata (md_artifact base) (rnd_seed r) (md_initialization_stream base) (rnd_stream r)
            (md_topology base) (md_dimension base) (md_desired_simplices base) (md_desired_timeslices base)
            (md_actual_vertices base) (md_actual_edges base) (md_actual_faces base) (md_actual_simplices base)
            (md_minimum_timeslice base) (md_maximum_timeslice base) (md_initial_radius base)
            (md_foliation_spacing base) (Some (Fin qa)) (Some (Fin qk)) (Some (Fin ql))
            (Some p) (md_configured_attempts base) (Some c)
            (md_completed_passes base) (md_max_threads base) (md_transition_trace base)
            (md_transition_count base) (md_placement_fingerprint base) (md_topology_fingerprint base).
  Proof.
    unfold mh_owned, Action.make_physical_parameters, make_metropolis, parse_move_run_cadence, cadence_parse.
    split.
    - destruct alpha as [| |qa], k as [| |qk], lambda as [| |ql]; try discriminate.
      destruct (QArith_base.Qle_bool qa (QArith_base.Qmake 1 2)) eqn:E; [discriminate|].
      destruct (Z.leb_spec p 0); [discriminate|]. destruct (Z.leb_spec c 0); [discriminate|].
      intros Hin. injection Hin as <-. exists qa, qk, ql.
      split; [reflexivity|]. split; [reflexivity|]. split; [reflexivity|].
      split; [|split; [lia|]; split; [lia|]; repeat (split; [reflexivity|]); reflexivity].
      apply QArith_base.Qnot_le_lt. intros K. apply QArith_base.Qle_bool_iff in K. congruence.
    - intros (qa & qk & ql & -> & -> & -> & Hq & Hp & Hc & E1 & E2 & E3 & E4 & E5 & E6 & E7 & E8).
      destruct (QArith_base.Qle_bool qa (QArith_base.Qmake 1 2)) eqn:E.
      { apply QArith_base.Qle_bool_iff in E. exfalso. exact (QArith_base.Qlt_not_le _ _ Hq E). }
      destruct (Z.leb_spec p 0); [lia|]. destruct (Z.leb_spec c 0); [lia|].
      destruct s as [pp [cad wr gen rep rs st ev]]. cbn in *. subst. reflexivity.
  Qed.

  Lemma mh_settings alpha k lambda p c wf (r : Random G) given s w l s' w' a :
    mh_owned alpha k lambda p c wf r given = inl s -> history s w l = Some (s', w', a) ->
    let o := mh_reports s' in
    alpha = Fin (mr_alpha o) /\ k = Fin (mr_k o) /\ lambda = Fin (mr_lambda o) /\ mr_passes o = p /\
    mr_checkpoint o = c /\ mr_writes_files o = wf /\ mr_seed o = rnd_seed r /\ mr_stream o = rnd_stream r.
  Proof.
    intros Hs H. apply mh_owned_spec in Hs as (qa & qk & ql & -> & -> & -> & _ & _ & _ & E1 & E2 & E3 & E4 & _).
    apply mh_history_keeps in H as (K1 & K2 & K3 & K4 & K5 & K6).
    unfold mh_reports. cbn. rewrite K1, K2, K3, K5, K6, E1, E2, E3, E4. cbn. repeat split.
  Qed.

  Lemma mh_rebuilt alpha k lambda p c wf seed stream given s w l s' w' a :
    mh_owned alpha k lambda p c wf (make_random seed_engine seed stream) given = inl s ->
    history s w l = Some (s', w', a) ->
    let o := mh_reports s' in
    mh_owned (Fin (mr_alpha o)) (Fin (mr_k o)) (Fin (mr_lambda o)) (mr_passes o) (mr_checkpoint o)
      (mr_writes_files o) (make_random seed_engine (mr_seed o) (mr_stream o)) given = inl s.
  Proof.
    intros Hs H o. destruct (mh_settings _ _ _ _ _ _ _ _ _ _ _ _ _ _ Hs H) as (A1 & A2 & A3 & A4 & A5 & A6 & A7 & A8).
    fold o in A1, A2, A3, A4, A5, A6, A7, A8. rewrite <- A1, <- A2, <- A3, A4, A5, A6, A7, A8. exact Hs.
  Qed.

  Lemma mh_seeded_rebuilt alpha k lambda p c wf seed s w l s' w' a :
    mh_unseeded seed_engine alpha k lambda p c wf seed = inl s \/
    mh_seeded seed_engine alpha k lambda p c wf seed = inl s ->
    history s w l = Some (s', w', a) ->
    let o := mh_reports s' in
    mr_seed o = seed /\ mr_stream o = 1 /\
    mh_seeded seed_engine (Fin (mr_alpha o)) (Fin (mr_k o)) (Fin (mr_lambda o)) (mr_passes o) (mr_checkpoint o)
      (mr_writes_files o) (mr_seed o) = inl s.
  Proof.
    intros Hs H o.
    assert (Hs' : mh_owned alpha k lambda p c wf (make_random seed_engine seed 1) None = inl s).
    { destruct Hs as [Hs|Hs]; exact Hs. }
    destruct (mh_settings _ _ _ _ _ _ _ _ _ _ _ _ _ _ Hs' H) as (A1 & A2 & A3 & A4 & A5 & A6 & A7 & A8).
    fold o in A1, A2, A3, A4, A5, A6, A7, A8. split; [exact A7|]. split; [exact A8|].
    unfold mh_seeded. rewrite <- A1, <- A2, <- A3, A4, A5, A6, A7. exact Hs'.
  Qed.

  Lemma mh_describes alpha k lambda p c wf (r : Random G) given s w l s' w' a m kind n d :
    mh_owned alpha k lambda p c wf r given = inl s -> history s w l = Some (s', w', a) ->
    reproducibility_metadata geometry facts s' m kind n = inl d ->
    tells_of_the_run (mh_reports s') kind n d /\ tells_of_the_state geometry facts m d /\
    tells_of_the_request geometry facts given m d.
  Proof.
    intros Hs H Hd. apply mh_owned_spec in Hs as (qa & qk & ql & -> & -> & -> & _ & _ & _ & E1 & E2 & E3 & E4 & E5 & E6 & E7 & E8).
    apply mh_history_keeps in H as (K1 & K2 & K3 & K4 & K5 & K6).
    unfold reproducibility_metadata, make_metadata, update_reproducibility_state in Hd.
    destruct (mf_placement facts m) as [pl|] eqn:Ep; [|discriminate].
    destruct (mf_fingerprint facts m) as [fi|] eqn:Ef; [|discriminate].
    rewrite K4, E8 in Hd. injection Hd as <-.
    unfold tells_of_the_run, tells_of_the_state, tells_of_the_request, mh_reports. cbn.
    rewrite K1, K2, K5, K6, E1, E2, E4. cbn.
    split; [repeat split|]. split; [repeat split; eauto|].
    destruct given as [g|]; cbn; repeat split.
  Qed.
End MetropolisObject.

Lemma ma_rebuilds (M G W : Type) (seed_engine : Z -> Z -> G) (N3 : M -> Z) api check draw_int print write
    s (w : W) calls s' w' answers :
  ma_built seed_engine s ->
  ma_history N3 api check draw_int print write s w calls = Some (s', w', answers) ->
  let r := ma_reports s' in
  (exists t, make_move_always (rp_passes r) (rp_checkpoint r) (make_random seed_engine (rp_seed r) (rp_stream r))
               (rp_writes_files r) = inl t /\
     ma_history N3 api check draw_int print write t w calls = Some (s', w', answers)) /\
  (rp_stream r = 0 ->
   exists t, ma_seeded seed_engine (rp_passes r) (rp_checkpoint r) (rp_seed r) (rp_writes_files r) = inl t /\
     ma_history N3 api check draw_int print write t w calls = Some (s', w', answers)).
Proof.
  intros Hb H r. destruct (ma_rebuilt seed_engine N3 api check draw_int print write s w calls s' w' answers Hb H) as [A B].
  split; [exists s; auto|]. intros Hr. exists s. auto.
Qed.

Lemma mh_rebuilds (M G P W : Type) (seed_engine : Z -> Z -> G) (geometry : M -> Geometry) propose check
    (accept : Action.PhysicalParameters -> Geometry -> Geometry -> MoveType -> P + exn) at_least draw_int draw_p
    (facts : manifold_facts M) print write
    alpha k lambda p c wf seed s (w : W) calls s' w' answers :
  let history := mh_history geometry propose check accept at_least draw_int draw_p facts print write in
  mh_unseeded seed_engine alpha k lambda p c wf seed = inl s \/ mh_seeded seed_engine alpha k lambda p c wf seed = inl s ->
  history s w calls = Some (s', w', answers) ->
  let o := mh_reports s' in
  mr_seed o = seed /\ mr_stream o = 1 /\
  exists t, mh_seeded seed_engine (Fin (mr_alpha o)) (Fin (mr_k o)) (Fin (mr_lambda o)) (mr_passes o)
              (mr_checkpoint o) (mr_writes_files o) (mr_seed o) = inl t /\
    history t w calls = Some (s', w', answers).
Proof.
  intros history Hs H o.
  destruct (mh_seeded_rebuilt seed_engine geometry propose check accept at_least draw_int draw_p facts print write
              alpha k lambda p c wf seed s w calls s' w' answers Hs H) as (A & B & C).
  split; [exact A|]. split; [exact B|]. exists s. auto.
Qed.

Lemma mh_rebuilds_stream (M G P W : Type) (seed_engine : Z -> Z -> G) (geometry : M -> Geometry) propose check
    (accept : Action.PhysicalParameters -> Geometry -> Geometry -> MoveType -> P + exn) at_least draw_int draw_p
    (facts : manifold_facts M) print write
    alpha k lambda p c wf seed stream given s (w : W) calls s' w' answers :
  let history := mh_history geometry propose check accept at_least draw_int draw_p facts print write in
  mh_owned alpha k lambda p c wf (make_random seed_engine seed stream) given = inl s ->
  history s w calls = Some (s', w', answers) ->
  let o := mh_reports s' in
  exists t, mh_owned (Fin (mr_alpha o)) (Fin (mr_k o)) (Fin (mr_lambda o)) (mr_passes o) (mr_checkpoint o)
              (mr_writes_files o) (make_random seed_engine (mr_seed o) (mr_stream o)) given = inl t /\
    history t w calls = Some (s', w', answers).
Proof.
  intros history Hs H o. exists s. split; [|exact H].
  exact (mh_rebuilt seed_engine geometry propose check accept at_least draw_int draw_p facts print write
              alpha k lambda p c wf seed stream given s w calls s' w' answers Hs H).
Qed.

From Verif Require Import Toy Pcg Draw.
Lemma used_stream_differs :
  exists (s t s' t' : move_always (Random pcg64)) a b,
    make_move_always 1 1 (make_random random_of 42 0) false = inl s /\
    make_move_always 1 1 (advance (make_random random_of 42 0) (random_after 1 (random_of 42 0))) false = inl t /\
    ma_reports s = ma_reports t /\
    let history := ma_history toy_N3 idle_api toy_check pcg_draw_int toy_print toy_write in
    history s [] [10] = Some (s', [], a) /\ history t [] [10] = Some (t', [], b) /\
    rp_attempted (ma_reports s') <> rp_attempted (ma_reports t').
Proof.
  do 6 eexists. split; [reflexivity|]. split; [reflexivity|]. split; [reflexivity|]. cbv zeta.
  split; [vm_compute; reflexivity|]. split; [vm_compute; reflexivity|]. vm_compute. discriminate.
Qed.
