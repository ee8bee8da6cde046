(** Model of include/Metropolis.hpp: the transition machine and the run.
    The acceptance probability itself is arbitrary here (Acceptance.v). *)
From Verif Require Import Base Tracker Command Run Fnv Geom.

(** include/Metropolis.hpp:305-319 [reverse_move]. *)
Definition reverse_move (m : MoveType) : option MoveType :=
  if m =? TWO_THREE then Some THREE_TWO
  else if m =? THREE_TWO then Some TWO_THREE
  else if m =? TWO_SIX then Some SIX_TWO
  else if m =? SIX_TWO then Some TWO_SIX
  else if m =? FOUR_FOUR then Some FOUR_FOUR
  else None.

(** include/Metropolis.hpp:324-338 [proposal_site_count]. *)
Definition proposal_site_count (g : Geometry) (m : MoveType) : Z :=
  if m =? TWO_THREE then gN3_22 g
  else if m =? THREE_TWO then gN1_TL g
  else if m =? TWO_SIX then gN3_13 g
  else if m =? SIX_TWO then gN0 g
  else if m =? FOUR_FOUR then gN1_SL g
  else 0.

(** include/Metropolis.hpp:57-76 [struct RunStatistics]. *)
Record stats : Type := mkStats {
  st_geometry : Geometry;
  st_trace : Z;
  st_count : Z;
  st_proposed : tracker;
  st_accepted : tracker;
  st_rejected : tracker }.
Definition stats_zero : stats :=
  mkStats geometry_zero fnv_offset 0 tracker_zero tracker_zero tracker_zero.

(** [static_cast<std::uint8_t>(move)]. *)
Definition move_byte (m : MoveType) : Z := m mod 256.

(** include/Metropolis.hpp:105-116 [record_transition]. *)
Definition record_transition (s : stats) (m : MoveType) (o : MoveOutcome) : stats :=
  mkStats (st_geometry s)
    (fnv_step (fnv_step (st_trace s) (move_byte m)) (outcome_byte o))
    (wrap64 (st_count s + 1))
    (st_proposed s) (st_accepted s) (st_rejected s).

Definition set_geometry (s : stats) (g : Geometry) : stats :=
  mkStats g (st_trace s) (st_count s) (st_proposed s) (st_accepted s) (st_rejected s).
Definition set_proposed (s : stats) (t : tracker) : stats :=
  mkStats (st_geometry s) (st_trace s) (st_count s) t (st_accepted s) (st_rejected s).
Definition set_accepted (s : stats) (t : tracker) : stats :=
  mkStats (st_geometry s) (st_trace s) (st_count s) (st_proposed s) t (st_rejected s).
Definition set_rejected (s : stats) (t : tracker) : stats :=
  mkStats (st_geometry s) (st_trace s) (st_count s) (st_proposed s) (st_accepted s) t.

(** include/Metropolis.hpp:484-488: the trial value test. *)
Definition trial_invalid (t : fp) : bool :=
  negb (isfinite t) || fp_lt t (Fin (QArith_base.Qmake 0 1)) || fp_lt (Fin (QArith_base.Qmake 1 1)) t.

Section Metropolis.
  (** [M] manifold, [G] engine, [P] probability values (mpfr). *)
  Context {M G P : Type}.
  Variable geometry : M -> Geometry.
  (** The five propose_*_move functions of Ergodic_moves_3.hpp. *)
  Variable propose : move_api M G.
  Variable check_move : M -> M -> MoveType -> bool.
  (** acceptance_probability (may throw) and mpfr_cmp_ld(probability, trial) >= 0. *)
  Variable acceptance_probability : Geometry -> Geometry -> MoveType -> P + exn.
  Variable at_least : P -> fp -> bool.

  (** include/Metropolis.hpp:429-452 [propose_candidate]. *)
  Definition propose_candidate (cur : M) (m : MoveType) (g : G) : move_result M * G :=
    if m =? TWO_THREE then api_23 propose cur g
    else if m =? THREE_TWO then api_32 propose cur g
    else if m =? TWO_SIX then api_26 propose cur g
    else if m =? SIX_TWO then api_62 propose cur g
    else if m =? FOUR_FOUR then api_44 propose cur g
    else (Failed (mkMoveError UNKNOWN_MOVE m), g).

  (** What resolve_transition works on: the canonical state, the two groups of
      counters (by reference) and the engine. *)
  Record mstate : Type := mkM { ms_cur : M; ms_results : results; ms_stats : stats; ms_gen : G }.

  (** [++command_results.failed[move]; ++statistics.rejected[move];
      record_transition(...)], include/Metropolis.hpp:502-517. *)
  Definition fail_transition (cur : M) (r : results) (s : stats) (g : G) (m : MoveType) (o : MoveOutcome)
    : res mstate MoveOutcome :=
    match bump (failed r) m with
    | CUB => UB | CAbort => Abort
    | COk f =>
        match bump (st_rejected s) m with
        | CUB => UB | CAbort => Abort
        | COk rej =>
            Ret (mkM cur (mkResults (attempted r) (succeeded r) f)
                   (record_transition (set_rejected s rej) m o) g) o
        end
    end.

  (** include/Metropolis.hpp:477-536 [resolve_transition]. *)
  Definition resolve_transition (x : mstate) (m : MoveType) (trial : fp) : res mstate MoveOutcome :=
    let cur := ms_cur x in let r := ms_results x in let s := ms_stats x in let g := ms_gen x in
    if trial_invalid trial then Thr x InvalidArgument
    else match reverse_move m with
    | None => Ret x (outcome_from (mkMoveError UNKNOWN_MOVE m))
    | Some _ =>
      let s1 := set_geometry s (geometry cur) in
      match bump (st_proposed s1) m with
      | CUB => UB | CAbort => Abort
      | COk prop =>
        let s2 := set_proposed s1 prop in
        match bump (attempted r) m with
        | CUB => UB | CAbort => Abort
        | COk att =>
          let r1 := mkResults att (succeeded r) (failed r) in
          let '(candidate, g1) := propose_candidate cur m g in
          match candidate with
          | Raised e => Thr (mkM cur r1 s2 g1) e
          | Failed e => fail_transition cur r1 s2 g1 m (outcome_from e)
          | Moved cand =>
              if negb (check_move cur cand m) then fail_transition cur r1 s2 g1 m EXECUTION_FAILED
              else
                match bump (succeeded r1) m with
                | CUB => UB | CAbort => Abort
                | COk suc =>
                  let r2 := mkResults att suc (failed r1) in
                  match acceptance_probability (st_geometry s2) (geometry cand) m with
                  | inr e => Thr (mkM cur r2 s2 g1) e
                  | inl p =>
                      if at_least p trial then
                        let s3 := set_geometry s2 (geometry cand) in
                        match bump (st_accepted s3) m with
                        | CUB => UB | CAbort => Abort
                        | COk acc =>
                            Ret (mkM cand r2
                                  (record_transition (set_accepted s3 acc) m METROPOLIS_ACCEPTED) g1)
                                METROPOLIS_ACCEPTED
                        end
                      else
                        match bump (st_rejected s2) m with
                        | CUB => UB | CAbort => Abort
                        | COk rej =>
                            Ret (mkM cur r2
                                  (record_transition (set_rejected s2 rej) m METROPOLIS_REJECTED) g1)
                                METROPOLIS_REJECTED
                        end
                  end
                end
          end
        end
      end
    end.

  (** generate_random_move_3 and utilities::generate_probability. *)
  Variable draw_int : Z -> Z -> G -> Z * G.
  Variable draw_probability : G -> fp * G.

  (** include/Metropolis.hpp:538-547 [sample_transition]. *)
  Definition sample_transition (x : mstate) : res mstate MetropolisTransition :=
    let '(m, g1) := generate_random_move_3 draw_int (ms_gen x) in
    let '(t, g2) := draw_probability g1 in
    match resolve_transition (mkM (ms_cur x) (ms_results x) (ms_stats x) g2) m t with
    | Ret y o => Ret y (mkTransition m o)
    | Thr y e => Thr y e
    | UB => UB
    | Abort => Abort
    end.

  (** include/Metropolis.hpp:553-559: the attempt loop of [execute_pass]. *)
  Fixpoint sample_loop (n : nat) (x : mstate) : res mstate unit :=
    match n with
    | O => Ret x tt
    | S n' => match sample_transition x with
              | Ret y _ => sample_loop n' y
              | Thr y e => Thr y e
              | UB => UB
              | Abort => Abort
              end
    end.

  (** include/Metropolis.hpp:549-563 [execute_pass]; the engine is the member
      m_generator. *)
  Definition mh_execute_pass (cur : M) (s : stats) (attempts : Z) (g : G)
    : res G (pass_result M stats) :=
    match sample_loop (Z.to_nat attempts) (mkM cur results_zero s g) with
    | Ret y _ => Ret (ms_gen y) (mkPass (ms_cur y) (ms_results y) (ms_stats y))
    | Thr y e => Thr (ms_gen y) e
    | UB => UB
    | Abort => Abort
    end.

  (** ** Specification *)

  (** The effect of one legitimate transition on the canonical state. *)
  Inductive markov_step : M -> G -> MoveType -> fp -> MoveOutcome -> M -> G -> Prop :=
  | step_inapplicable cur g m t e g' :
      propose_candidate cur m g = (Failed e, g') ->
      markov_step cur g m t (outcome_from e) cur g'
  | step_invalid cur g m t cand g' :
      propose_candidate cur m g = (Moved cand, g') -> check_move cur cand m = false ->
      markov_step cur g m t EXECUTION_FAILED cur g'
  | step_accept cur g m t cand g' p :
      propose_candidate cur m g = (Moved cand, g') -> check_move cur cand m = true ->
      acceptance_probability (geometry cur) (geometry cand) m = inl p -> at_least p t = true ->
      markov_step cur g m t METROPOLIS_ACCEPTED cand g'
  | step_reject cur g m t cand g' p :
      propose_candidate cur m g = (Moved cand, g') -> check_move cur cand m = true ->
      acceptance_probability (geometry cur) (geometry cand) m = inl p -> at_least p t = false ->
      markov_step cur g m t METROPOLIS_REJECTED cur g'.

  (** A record of transitions: (move, outcome) in order. *)
  Notation record := (list (MoveType * MoveOutcome)).

  (** A sampled chain: each step draws a move, then a trial, then proposes. *)
  Inductive sampled_chain : M -> G -> record -> M -> G -> Prop :=
  | chain_nil cur g : sampled_chain cur g [] cur g
  | chain_cons cur g m g1 t g2 o cur' g' h cur'' g'' :
      generate_random_move_3 draw_int g = (m, g1) -> draw_probability g1 = (t, g2) ->
      supported m -> trial_invalid t = false ->
      markov_step cur g2 m t o cur' g' ->
      sampled_chain cur' g' h cur'' g'' ->
      sampled_chain cur g ((m, o) :: h) cur'' g''.
End Metropolis.
Arguments mstate M G : clear implicits.

(** ** Counting *)
Notation trecord := (list (MoveType * MoveOutcome)).

Definition is_accepted (o : MoveOutcome) : bool :=
  match o with METROPOLIS_ACCEPTED => true | _ => false end.
Definition is_rejected (o : MoveOutcome) : bool := negb (is_accepted o).
Definition is_candidate (o : MoveOutcome) : bool :=
  match o with METROPOLIS_ACCEPTED | METROPOLIS_REJECTED => true | _ => false end.
Definition is_no_candidate (o : MoveOutcome) : bool := negb (is_candidate o).
Definition any_outcome (o : MoveOutcome) : bool := true.

(** Number of transitions of kind [k] whose outcome satisfies [f]. *)
Definition count_of (k : MoveType) (f : MoveOutcome -> bool) (h : trecord) : Z :=
  Z.of_nat (length (List.filter (fun p => (fst p =? k) && f (snd p)) h)).

(** The bytes hashed for a history. *)
Definition history_bytes (h : trecord) : list Z :=
  flat_map (fun p => [move_byte (fst p); outcome_byte (snd p)]) h.

(** The counters describe exactly the history [h]. *)
Definition results_reflect (r : results) (h : trecord) : Prop :=
  results_ok r /\ forall k, supported k ->
    slot (attempted r) k = count_of k any_outcome h /\
    slot (succeeded r) k = count_of k is_candidate h /\
    slot (failed r) k = count_of k is_no_candidate h.
Definition stats_reflect (s : stats) (h : trecord) : Prop :=
  (tracker_ok (st_proposed s) /\ tracker_ok (st_accepted s) /\ tracker_ok (st_rejected s)) /\
  (forall k, supported k ->
     slot (st_proposed s) k = count_of k any_outcome h /\
     slot (st_accepted s) k = count_of k is_accepted h /\
     slot (st_rejected s) k = count_of k is_rejected h) /\
  st_trace s = fnv1a (history_bytes h) /\
  st_count s = Z.of_nat (length h) mod two64.

Lemma count_of_nil k f : count_of k f [] = 0.
Proof. reflexivity. Qed.
Lemma count_of_app k f h1 h2 : count_of k f (h1 ++ h2) = count_of k f h1 + count_of k f h2.
Proof. unfold count_of. rewrite List.filter_app, app_length. apply Nat2Z.inj_add. Qed.
Lemma count_of_one k f m o : count_of k f [(m, o)] = if (m =? k) && f o then 1 else 0.
Proof. unfold count_of. cbn. destruct ((m =? k) && f o); reflexivity. Qed.
Lemma count_of_nonneg k f h : 0 <= count_of k f h.
Proof. unfold count_of. lia. Qed.
Lemma count_of_split k f g h :
  (forall o, g o = negb (f o)) -> count_of k any_outcome h = count_of k f h + count_of k g h.
Proof.
  intros H. unfold count_of. induction h as [|[m o] h IH]; [reflexivity|].
  cbn [List.filter fst snd]. rewrite H. unfold any_outcome in *.
  destruct (m =? k); cbn [andb]; [|exact IH]. destruct (f o); cbn [negb andb length]; lia.
Qed.
Lemma count_of_le k (f g : MoveOutcome -> bool) h :
  (forall o, f o = true -> g o = true) -> count_of k f h <= count_of k g h.
Proof.
  intros H. unfold count_of. induction h as [|[m o] h IH]; [apply Z.le_refl|].
  cbn [List.filter fst snd]. destruct (m =? k); cbn [andb]; [|exact IH].
  destruct (f o) eqn:E; [rewrite (H o E); cbn [length]; lia|]. destruct (g o); cbn [length]; lia.
Qed.

(** C14 for any reflected history. *)
Lemma reflect_identities r s h : results_reflect r h -> stats_reflect s h ->
  forall k, supported k ->
    slot (st_proposed s) k = slot (st_accepted s) k + slot (st_rejected s) k /\
    slot (attempted r) k = slot (succeeded r) k + slot (failed r) k /\
    slot (attempted r) k = slot (st_proposed s) k /\
    0 <= slot (failed r) k <= slot (st_rejected s) k /\
    0 <= slot (st_accepted s) k <= slot (succeeded r) k.
Proof.
  intros [_ Hr] (_ & Hs & _) k Hk.
  destruct (Hr k Hk) as (-> & -> & ->). destruct (Hs k Hk) as (-> & -> & ->).
  split; [apply count_of_split; reflexivity|].
  split; [apply count_of_split; reflexivity|]. split; [reflexivity|].
  split; split; try apply count_of_nonneg; apply count_of_le; intros []; cbn; congruence.
Qed.

Lemma count_total h : Forall (fun p => supported (fst p)) h ->
  count_of TWO_THREE any_outcome h + count_of THREE_TWO any_outcome h +
  count_of TWO_SIX any_outcome h + count_of SIX_TWO any_outcome h +
  count_of FOUR_FOUR any_outcome h = Z.of_nat (length h).
Proof.
  induction h as [|[m o] h IH]; intros H; [reflexivity|].
  destruct (Forall_cons_1 _ _ _ H) as [Hm Hh]. cbn in Hm.
  change ((m, o) :: h) with ([(m, o)] ++ h).
  rewrite !count_of_app, !count_of_one, app_length, Nat2Z.inj_add, <- (IH Hh).
  destruct (supported_cases m Hm) as [->|[->|[->|[->| ->]]]]; cbn; lia.
Qed.

Section MetropolisProofs.
  Context {M G P : Type}.
  Variable geometry : M -> Geometry.
  Variable propose : move_api M G.
  Variable check_move : M -> M -> MoveType -> bool.
  Variable acceptance_probability : Geometry -> Geometry -> MoveType -> P + exn.
  Variable at_least : P -> fp -> bool.
  Variable draw_int : Z -> Z -> G -> Z * G.
  Variable draw_probability : G -> fp * G.
  Notation resolve := (resolve_transition geometry propose check_move acceptance_probability at_least).
  Notation mstep := (markov_step geometry propose check_move acceptance_probability at_least).
  Notation chain := (sampled_chain geometry propose check_move acceptance_probability at_least draw_int draw_probability).

  Lemma reverse_move_supported m : (exists r, reverse_move m = Some r) <-> supported m.
  Proof.
    unfold reverse_move, supported.
    destruct (m =? TWO_THREE) eqn:E0; [apply Z.eqb_eq in E0; subst; unfold TWO_THREE; split; [lia|eauto]|].
    destruct (m =? THREE_TWO) eqn:E1; [apply Z.eqb_eq in E1; subst; unfold THREE_TWO; split; [lia|eauto]|].
    destruct (m =? TWO_SIX) eqn:E2; [apply Z.eqb_eq in E2; subst; unfold TWO_SIX; split; [lia|eauto]|].
    destruct (m =? SIX_TWO) eqn:E3; [apply Z.eqb_eq in E3; subst; unfold SIX_TWO; split; [lia|eauto]|].
    destruct (m =? FOUR_FOUR) eqn:E4; [apply Z.eqb_eq in E4; subst; unfold FOUR_FOUR; split; [lia|eauto]|].
    unfold TWO_THREE, THREE_TWO, TWO_SIX, SIX_TWO, FOUR_FOUR in *.
    rewrite Z.eqb_neq in *. split; [intros [r H]; discriminate|lia].
  Qed.

  (** C16. *)
  Lemma resolve_bad_trial x m t : trial_invalid t = true -> resolve x m t = Thr x InvalidArgument.
  Proof. intros H. unfold resolve_transition. rewrite H. reflexivity. Qed.

  Lemma resolve_unsupported x m t : trial_invalid t = false -> ~ supported m ->
    resolve x m t = Ret x EXECUTION_FAILED.
  Proof.
    intros Ht Hm. unfold resolve_transition. rewrite Ht.
    destruct (reverse_move m) eqn:E; [exfalso; apply Hm, reverse_move_supported; eauto|reflexivity].
  Qed.

  Lemma history_bytes_app a b : history_bytes (a ++ b) = history_bytes a ++ history_bytes b.
  Proof. unfold history_bytes. apply flat_map_app. Qed.

  Lemma bump_reflect t m t' (c : MoveType -> Z) :
    tracker_ok t -> bump t m = COk t' -> (forall k, supported k -> slot t k = c k) ->
    tracker_ok t' /\ forall k, supported k -> slot t' k = c k + (if m =? k then 1 else 0).
  Proof.
    intros Ht Hb Hc. destruct (bump_ok _ _ _ Ht Hb) as (Hm & Hok & H1 & _ & Hk).
    split; [assumption|]. intros k Sk. destruct (m =? k) eqn:E.
    - apply Z.eqb_eq in E as <-. rewrite H1, Hc by assumption. reflexivity.
    - apply Z.eqb_neq in E. rewrite Hk, Hc by (auto; congruence). lia.
  Qed.

  (** Main lemma: C14, C15, C17 for one resolved transition. *)
  Lemma resolve_Ret x m t x' o hr hs :
    results_reflect (ms_results x) hr -> stats_reflect (ms_stats x) hs ->
    resolve x m t = Ret x' o ->
    (trial_invalid t = false) /\
    ((~ supported m /\ x' = x /\ o = EXECUTION_FAILED) \/
     (supported m /\
      results_reflect (ms_results x') (hr ++ [(m, o)]) /\
      stats_reflect (ms_stats x') (hs ++ [(m, o)]) /\
      st_geometry (ms_stats x') = geometry (ms_cur x') /\
      mstep (ms_cur x) (ms_gen x) m t o (ms_cur x') (ms_gen x'))).
  Proof.
    intros ((Oa & Os & Of) & Hr) ((Op & Oc & Oj) & Hs & Htr & Hct) H.
    unfold resolve_transition in H.
    destruct (trial_invalid t) eqn:Et; [discriminate|]. split; [reflexivity|].
    destruct (reverse_move m) as [rm|] eqn:Erm.
    2:{ left. injection H as <- <-. split; [|auto].
        intros Hm. apply reverse_move_supported in Hm as [r Hm]. congruence. }
    assert (Hm : supported m) by (apply reverse_move_supported; eauto).
    right. split; [assumption|].
    cbn [set_geometry st_proposed] in H.
    destruct (bump (st_proposed (ms_stats x)) m) as [prop| |] eqn:Ep; [|discriminate|discriminate].
    destruct (bump (attempted (ms_results x)) m) as [att| |] eqn:Ea; [|discriminate|discriminate].
    destruct (bump_reflect _ _ _ (fun k => count_of k any_outcome hs) Op Ep
                (fun k Hk => proj1 (Hs k Hk))) as [Op' Vp].
    destruct (bump_reflect _ _ _ (fun k => count_of k any_outcome hr) Oa Ea
                (fun k Hk => proj1 (Hr k Hk))) as [Oa' Va].
    pose proof (fun tt' => bump_reflect _ m tt' (fun k => count_of k is_no_candidate hr) Of) as BF.
    pose proof (fun tt' => bump_reflect _ m tt' (fun k => count_of k is_candidate hr) Os) as BS.
    pose proof (fun tt' => bump_reflect _ m tt' (fun k => count_of k is_rejected hs) Oj) as BR.
    pose proof (fun tt' => bump_reflect _ m tt' (fun k => count_of k is_accepted hs) Oc) as BA.
    assert (Trace : forall o, fnv_step (fnv_step (st_trace (ms_stats x)) (move_byte m)) (outcome_byte o)
               = fnv1a (history_bytes (hs ++ [(m, o)]))).
    { intros o0. rewrite history_bytes_app. unfold fnv1a. rewrite fnv_from_app.
      fold (fnv1a (history_bytes hs)). rewrite <- Htr. reflexivity. }
    assert (Count : forall o : MoveOutcome, wrap64 (st_count (ms_stats x) + 1)
               = Z.of_nat (length (hs ++ [(m, o)])) mod two64).
    { intros o0. rewrite Hct. unfold wrap64. rewrite Z.add_mod_idemp_l by (unfold two64; lia).
      f_equal. rewrite app_length. cbn. lia. }
    assert (FailCase : forall e g1, propose_candidate propose (ms_cur x) m (ms_gen x) = (e, g1) ->
      (forall o0, mstep (ms_cur x) (ms_gen x) m t o0 (ms_cur x) g1 -> is_no_candidate o0 = true ->
        is_rejected o0 = true ->
        fail_transition (ms_cur x) (mkResults att (succeeded (ms_results x)) (failed (ms_results x)))
          (set_proposed (set_geometry (ms_stats x) (geometry (ms_cur x))) prop) g1 m o0 = Ret x' o ->
        results_reflect (ms_results x') (hr ++ [(m, o)]) /\
        stats_reflect (ms_stats x') (hs ++ [(m, o)]) /\
        st_geometry (ms_stats x') = geometry (ms_cur x') /\
        mstep (ms_cur x) (ms_gen x) m t o (ms_cur x') (ms_gen x'))).
    { intros e g1 Epr o0 Hst Hnc Hrj HF. unfold fail_transition in HF. cbn in HF.
      destruct (bump (failed (ms_results x)) m) as [f'| |] eqn:Ef; [|discriminate|discriminate].
      destruct (bump (st_rejected (ms_stats x)) m) as [rj| |] eqn:Er; [|discriminate|discriminate].
      injection HF as <- <-. cbn.
      destruct (BF _ eq_refl (fun k Hk => proj2 (proj2 (Hr k Hk)))) as [Of' Vf].
      destruct (BR _ eq_refl (fun k Hk => proj2 (proj2 (Hs k Hk)))) as [Oj' Vj].
      split; [|split; [|split; [reflexivity|exact Hst]]].
      - split; [split; [|split]; assumption|]. intros k Hk. cbn.
        rewrite Va, Vf by assumption. destruct (Hr k Hk) as (_ & -> & _).
        rewrite !count_of_app, !count_of_one, Hnc.
        assert (Hc : is_candidate o0 = false) by (destruct o0; cbn in *; congruence).
        rewrite Hc. unfold any_outcome. destruct (m =? k); cbn; lia.
      - split; [split; [|split]; assumption|]. split; [|split; [apply Trace|apply Count]].
        intros k Hk. cbn. rewrite Vp, Vj by assumption. destruct (Hs k Hk) as (_ & -> & _).
        rewrite !count_of_app, !count_of_one, Hrj.
        assert (Hc : is_accepted o0 = false) by (destruct o0; cbn in *; congruence).
        rewrite Hc. unfold any_outcome. destruct (m =? k); cbn; lia. }
    destruct (propose_candidate propose (ms_cur x) m (ms_gen x)) as [cd g1] eqn:Epr.
    destruct cd as [cand|e|e]; [| |discriminate].
    2:{ eapply (FailCase _ _ eq_refl); [| | |exact H].
        - econstructor; eassumption.
        - destruct e as [[] ?]; reflexivity.
        - destruct e as [[] ?]; reflexivity. }
    destruct (check_move (ms_cur x) cand m) eqn:Eck; cbn [negb] in H.
    2:{ eapply (FailCase _ _ eq_refl); [| | |exact H]; try reflexivity.
        econstructor; eassumption. }
    cbn in H.
    destruct (bump (succeeded (ms_results x)) m) as [sc| |] eqn:Es; [|discriminate|discriminate].
    destruct (BS _ eq_refl (fun k Hk => proj1 (proj2 (Hr k Hk)))) as [Os' Vs].
    destruct (acceptance_probability (geometry (ms_cur x)) (geometry cand) m) as [p|e] eqn:Eacc;
      [|discriminate].
    destruct (at_least p t) eqn:Eal.
    - destruct (bump (st_accepted (ms_stats x)) m) as [ac| |] eqn:Eac; [|discriminate|discriminate].
      injection H as <- <-. cbn.
      destruct (BA _ eq_refl (fun k Hk => proj1 (proj2 (Hs k Hk)))) as [Oc' Vc].
      split; [|split; [|split; [reflexivity|econstructor; eassumption]]].
      + split; [split; [|split]; assumption|]. intros k Hk. cbn.
        rewrite Va, Vs by assumption. destruct (Hr k Hk) as (_ & _ & ->).
        rewrite !count_of_app, !count_of_one. cbn. destruct (m =? k); cbn; lia.
      + split; [split; [|split]; assumption|]. split; [|split; [apply Trace|apply Count]].
        intros k Hk. cbn. rewrite Vp, Vc by assumption. destruct (Hs k Hk) as (_ & _ & ->).
        rewrite !count_of_app, !count_of_one. cbn. destruct (m =? k); cbn; lia.
    - destruct (bump (st_rejected (ms_stats x)) m) as [rj| |] eqn:Erj; [|discriminate|discriminate].
      injection H as <- <-. cbn.
      destruct (BR _ eq_refl (fun k Hk => proj2 (proj2 (Hs k Hk)))) as [Oj' Vj].
      split; [|split; [|split; [reflexivity|econstructor; eassumption]]].
      + split; [split; [|split]; assumption|]. intros k Hk. cbn.
        rewrite Va, Vs by assumption. destruct (Hr k Hk) as (_ & _ & ->).
        rewrite !count_of_app, !count_of_one. cbn. destruct (m =? k); cbn; lia.
      + split; [split; [|split]; assumption|]. split; [|split; [apply Trace|apply Count]].
        intros k Hk. cbn. rewrite Vp, Vj by assumption. destruct (Hs k Hk) as (_ & -> & _).
        rewrite !count_of_app, !count_of_one. cbn. destruct (m =? k); cbn; lia.
  Qed.

  (** C15 without any assumption on the counters. *)
  Lemma resolve_step x m t x' o : resolve x m t = Ret x' o ->
    (~ supported m /\ x' = x /\ o = EXECUTION_FAILED) \/
    (supported m /\ mstep (ms_cur x) (ms_gen x) m t o (ms_cur x') (ms_gen x')).
  Proof.
    intros H. unfold resolve_transition in H.
    destruct (trial_invalid t) eqn:Et; [discriminate|].
    destruct (reverse_move m) as [rm|] eqn:Erm.
    2:{ left. injection H as <- <-. split; [|auto].
        intros Hm. apply reverse_move_supported in Hm as [r Hm]. congruence. }
    right. split; [apply reverse_move_supported; eauto|].
    cbn [set_geometry st_proposed st_geometry] in H.
    destruct (bump (st_proposed (ms_stats x)) m) as [prop| |]; [|discriminate|discriminate].
    destruct (bump (attempted (ms_results x)) m) as [att| |]; [|discriminate|discriminate].
    destruct (propose_candidate propose (ms_cur x) m (ms_gen x)) as [[cand|e|e] g1] eqn:Epr;
      [| |discriminate].
    - destruct (check_move (ms_cur x) cand m) eqn:Eck; cbn [negb] in H.
      + destruct (bump _ m) as [sc| |]; [|discriminate|discriminate]. cbn in H.
        destruct (acceptance_probability (geometry (ms_cur x)) (geometry cand) m) as [p|e] eqn:Ea;
          [|discriminate].
        destruct (at_least p t) eqn:El.
        * match type of H with context [bump ?a m] => destruct (bump a m) as [q| |] end;
            [|discriminate|discriminate].
          injection H as <- <-. cbn. eapply step_accept; eassumption.
        * match type of H with context [bump ?a m] => destruct (bump a m) as [q| |] end;
            [|discriminate|discriminate].
          injection H as <- <-. cbn. eapply step_reject; eassumption.
      + unfold fail_transition in H. cbn in H.
        destruct (bump (failed (ms_results x)) m) as [f| |]; [|discriminate|discriminate].
        match type of H with context [bump ?a m] => destruct (bump a m) as [q| |] end;
          [|discriminate|discriminate].
        injection H as <- <-. cbn. eapply step_invalid; eassumption.
    - unfold fail_transition in H. cbn in H.
      destruct (bump (failed (ms_results x)) m) as [f| |]; [|discriminate|discriminate].
      match type of H with context [bump ?a m] => destruct (bump a m) as [q| |] end;
        [|discriminate|discriminate].
      injection H as <- <-. cbn. eapply step_inapplicable; eassumption.
  Qed.

  (** A throwing transition never changes the canonical state. *)
  Lemma resolve_Thr x m t x' e : resolve x m t = Thr x' e -> ms_cur x' = ms_cur x.
  Proof.
    unfold resolve_transition. intros H.
    destruct (trial_invalid t); [injection H as <- <-; reflexivity|].
    destruct (reverse_move m); [|discriminate].
    destruct (bump _ m) as [prop| |]; [|discriminate|discriminate].
    destruct (bump _ m) as [att| |]; [|discriminate|discriminate].
    destruct (propose_candidate propose (ms_cur x) m (ms_gen x)) as [[cand|er|er] g1].
    - destruct (check_move (ms_cur x) cand m); cbn [negb] in H.
      + destruct (bump _ m) as [sc| |]; [|discriminate|discriminate].
        destruct (acceptance_probability _ _ m); [|injection H as <- <-; reflexivity].
        destruct (at_least p t); destruct (bump _ m); discriminate.
      + unfold fail_transition in H. destruct (bump _ m); [|discriminate|discriminate].
        destruct (bump _ m); discriminate.
    - unfold fail_transition in H. destruct (bump _ m); [|discriminate|discriminate].
      destruct (bump _ m); discriminate.
    - injection H as <- <-; reflexivity.
  Qed.

  Lemma results_reflect_nil : results_reflect results_zero [].
  Proof.
    split; [repeat split|]. intros k Hk. cbn. rewrite !slot_zero, !count_of_nil. auto.
  Qed.
  Lemma stats_reflect_nil g : stats_reflect (set_geometry stats_zero g) [].
  Proof.
    split; [repeat split|]. split; [|split; reflexivity].
    intros k Hk. cbn. rewrite !slot_zero, !count_of_nil. auto.
  Qed.

  Section Draws.
    (** Contract of std::uniform_int_distribution{0,4}. *)
    Hypothesis draw_range : forall g m g', draw_int 0 4 g = (m, g') -> supported m.

    Lemma sample_loop_Ret n : forall x x' u hr hs,
      results_reflect (ms_results x) hr -> stats_reflect (ms_stats x) hs ->
      sample_loop geometry propose check_move acceptance_probability at_least draw_int
        draw_probability n x = Ret x' u ->
      exists h, length h = n /\ Forall (fun p => supported (fst p)) h /\
        results_reflect (ms_results x') (hr ++ h) /\ stats_reflect (ms_stats x') (hs ++ h) /\
        chain (ms_cur x) (ms_gen x) h (ms_cur x') (ms_gen x').
    Proof.
      induction n as [|n IH]; intros x x' u hr hs Hr Hs H; cbn in H.
      - injection H as <- <-. exists []. rewrite !app_nil_r.
        split; [reflexivity|]. split; [constructor|]. split; [assumption|].
        split; [assumption|]. constructor.
      - unfold sample_transition in H.
        destruct (generate_random_move_3 draw_int (ms_gen x)) as [m g1] eqn:E1.
        destruct (draw_probability g1) as [t g2] eqn:E2.
        destruct (resolve (mkM (ms_cur x) (ms_results x) (ms_stats x) g2) m t) as [y o|? ?| |] eqn:E3;
          try discriminate.
        pose proof (draw_range _ _ _ E1) as Hm.
        destruct (resolve_Ret (mkM (ms_cur x) (ms_results x) (ms_stats x) g2) _ _ _ _ hr hs Hr Hs E3)
          as [Ht [(Hc & _)|(_ & Hr' & Hs' & _ & Hst)]]; [tauto|].
        destruct (IH _ _ _ _ _ Hr' Hs' H) as (h & Hl & Hsup & Hr2 & Hs2 & Hc2).
        exists ((m, o) :: h). split; [cbn; congruence|]. split; [constructor; assumption|].
        rewrite <- !app_assoc in Hr2, Hs2. cbn in Hr2, Hs2.
        split; [assumption|]. split; [assumption|].
        econstructor; eassumption.
    Qed.

    Lemma mh_execute_pass_Ret cur s a g g' p hs :
      stats_reflect s hs ->
      mh_execute_pass geometry propose check_move acceptance_probability at_least draw_int
        draw_probability cur s a g = Ret g' p ->
      exists h, length h = Z.to_nat a /\ Forall (fun x => supported (fst x)) h /\
        results_reflect (pr_results p) h /\ stats_reflect (pr_state p) (hs ++ h) /\
        chain cur g h (pr_manifold p) g'.
    Proof.
      intros Hs H. unfold mh_execute_pass in H.
      destruct (sample_loop _ _ _ _ _ _ _ (Z.to_nat a) (mkM cur results_zero s g))
        as [y u|? ?| |] eqn:E; try discriminate.
      injection H as <- <-. cbn.
      destruct (sample_loop_Ret _ (mkM cur results_zero s g) _ _ [] hs results_reflect_nil Hs E) as (h & Hl & Hsup & Hr & Hs' & Hc).
      exists h. auto.
    Qed.
  End Draws.
End MetropolisProofs.

(** ** The strategy object *)
Section Strategy.
  (** [W]: the outside world (files, stdout). *)
  Context {M G P W : Type}.
  Variable geometry : M -> Geometry.
  Variable propose : move_api M G.
  Variable check_move : M -> M -> MoveType -> bool.
  Variable acceptance_probability : Geometry -> Geometry -> MoveType -> P + exn.
  Variable at_least : P -> fp -> bool.
  Variable draw_int : Z -> Z -> G -> Z * G.
  Variable draw_probability : G -> fp * G.
  (** update_reproducibility_state (include/Utilities.hpp:1838-1853), possibly
      throwing (fingerprint computation), and the final write_file. *)
  Variable max_time : M -> Z.
  Variable update_state : Metadata -> M -> Metadata + exn.
  Variable print_results : results -> stats -> W -> res W unit.
  Variable write_file : M -> Metadata -> W -> res W unit.

  (** include/Metropolis.hpp:80-103: members (the physical parameters are part of
      [acceptance_probability]). *)
  Record metropolis : Type := mkMetropolis {
    mh_cadence : cadence;
    mh_write_files : bool;
    mh_generator : Random G;
    mh_reproducibility : Metadata;
    mh_results : results;
    mh_stats : stats;
    mh_checkpoint_events : Z }.

  (** include/Metropolis.hpp:454-475 [make_reproducibility_metadata]. *)
  Definition make_metadata (base : Metadata) (m : M) (kind : ArtifactKind) (completed : Z) (s : stats)
    : Metadata + exn :=
    let d := mkMetadata kind (md_seed base) (md_initialization_stream base) (md_transition_stream base)
      (md_topology base) (md_dimension base) (md_desired_simplices base) (md_desired_timeslices base)
      (md_actual_vertices base) (md_actual_edges base) (md_actual_faces base) (md_actual_simplices base)
      (md_minimum_timeslice base) (md_maximum_timeslice base) (md_initial_radius base)
      (md_foliation_spacing base) (md_alpha base) (md_k base) (md_lambda base)
      (md_configured_passes base) (md_configured_attempts base) (md_checkpoint_interval base)
      (Some completed) (md_max_threads base) (Some (st_trace s)) (Some (st_count s))
      (md_placement_fingerprint base) (md_topology_fingerprint base) in
    match update_state d m with
    | inr e => inr e
    | inl d =>
        let ds := if md_desired_simplices d =? 0 then gN3 (geometry m) else md_desired_simplices d in
        let dt := if md_desired_timeslices d =? 0 then max_time m else md_desired_timeslices d in
        inl (mkMetadata (md_artifact d) (md_seed d) (md_initialization_stream d) (md_transition_stream d)
          (md_topology d) (md_dimension d) ds dt
          (md_actual_vertices d) (md_actual_edges d) (md_actual_faces d) (md_actual_simplices d)
          (md_minimum_timeslice d) (md_maximum_timeslice d) (md_initial_radius d)
          (md_foliation_spacing d) (md_alpha d) (md_k d) (md_lambda d)
          (md_configured_passes d) (md_configured_attempts d) (md_checkpoint_interval d)
          (md_completed_passes d) (md_max_threads d) (md_transition_trace d) (md_transition_count d)
          (md_placement_fingerprint d) (md_topology_fingerprint d))
    end.

  (** include/Metropolis.hpp:700-707: the checkpoint callable. *)
  Definition mh_checkpoint (base : Metadata) (m : M) (r : results) (s : stats) (n : Z) (w : W) : res W unit :=
    match make_metadata base m CHECKPOINT n s with
    | inr e => Thr w e
    | inl d => write_file m d w
    end.

  (** include/Metropolis.hpp:677-714 [operator()]. *)
  Definition mh_run (x : metropolis) (w : W) (man : M) : res (metropolis * W) M :=
    match execute_move_run (fun m => gN3 (geometry m))
            (pass_env (W := W) (mh_execute_pass geometry propose check_move acceptance_probability
                                  at_least draw_int draw_probability))
            (rep_env (fun _ r s => print_results r s))
            (chk_env (mh_checkpoint (mh_reproducibility x)))
            (mh_cadence x) (mh_write_files x) man
            (set_geometry stats_zero (geometry man)) (rnd_engine (mh_generator x), w) with
    | Ret (g, w') rr =>
        Ret (mkMetropolis (mh_cadence x) (mh_write_files x) (advance (mh_generator x) g)
               (mh_reproducibility x) (rr_results rr) (rr_state rr) (rr_checkpoint_events rr), w')
            (rr_manifold rr)
    | Thr (g, w') e =>
        Thr (mkMetropolis (mh_cadence x) (mh_write_files x) (advance (mh_generator x) g)
               (mh_reproducibility x) (mh_results x) (mh_stats x) (mh_checkpoint_events x), w') e
    | UB => UB
    | Abort => Abort
    end.

  (** Rebuild the strategy from what resolve_transition leaves in its members. *)
  Definition with_mstate (x : metropolis) (y : mstate M G) : metropolis :=
    mkMetropolis (mh_cadence x) (mh_write_files x) (advance (mh_generator x) (ms_gen y))
      (mh_reproducibility x) (ms_results y) (ms_stats y) (mh_checkpoint_events x).
  Definition to_mstate (x : metropolis) (cur : M) : mstate M G :=
    mkM cur (mh_results x) (mh_stats x) (rnd_engine (mh_generator x)).

  (** include/Metropolis.hpp:642-649 [attempt_transition(current, move, trial)]. *)
  Definition attempt_transition (x : metropolis) (cur : M) (m : MoveType) (t : fp)
    : res (metropolis * M) MetropolisTransition :=
    match resolve_transition geometry propose check_move acceptance_probability at_least
            (to_mstate x cur) m t with
    | Ret y o => Ret (with_mstate x y, ms_cur y) (mkTransition m o)
    | Thr y e => Thr (with_mstate x y, ms_cur y) e
    | UB => UB
    | Abort => Abort
    end.

  (** include/Metropolis.hpp:658-660 [attempt_transition(current)]. *)
  Definition attempt_sampled (x : metropolis) (cur : M) : res (metropolis * M) MetropolisTransition :=
    match sample_transition geometry propose check_move acceptance_probability at_least draw_int
            draw_probability (to_mstate x cur) with
    | Ret y o => Ret (with_mstate x y, ms_cur y) o
    | Thr y e => Thr (with_mstate x y, ms_cur y) e
    | UB => UB
    | Abort => Abort
    end.

  (** include/Metropolis.hpp:664-665 [initialize]. *)
  Definition initialize (x : metropolis) (man : M) : metropolis :=
    mkMetropolis (mh_cadence x) (mh_write_files x) (mh_generator x) (mh_reproducibility x)
      (mh_results x) (set_geometry (mh_stats x) (geometry man)) (mh_checkpoint_events x).

  (** include/Metropolis.hpp:163-193: the delegated-to constructor, after the
      parameters were validated (make_physical_parameters, see Config.v). *)
  Definition make_metropolis (passes checkpoint : Z) (writes : bool) (r : Random G)
      (base : Metadata) (alpha k lambda : fp) : metropolis + (exn * MoveRunCadenceError) :=
    match parse_move_run_cadence passes checkpoint with
    | inr e => inr e
    | inl c =>
        inl (mkMetropolis c writes r
          (mkMetadata (md_artifact base) (rnd_seed r) (md_initialization_stream base) (rnd_stream r)
            (md_topology base) (md_dimension base) (md_desired_simplices base) (md_desired_timeslices base)
            (md_actual_vertices base) (md_actual_edges base) (md_actual_faces base) (md_actual_simplices base)
            (md_minimum_timeslice base) (md_maximum_timeslice base) (md_initial_radius base)
            (md_foliation_spacing base) (Some alpha) (Some k) (Some lambda)
            (Some (cad_passes c)) (md_configured_attempts base) (Some (cad_checkpoint c))
            (md_completed_passes base) (md_max_threads base) (md_transition_trace base)
            (md_transition_count base) (md_placement_fingerprint base) (md_topology_fingerprint base))
          results_zero stats_zero 0)
    end.

  (** ** Histories of calls on one strategy object *)
  Hypothesis draw_range : forall g m g', draw_int 0 4 g = (m, g') -> supported m.

  (** Calls that return, plus the two throwing calls that promise no effect. *)
  Inductive call : metropolis -> M -> metropolis -> M -> Prop :=
  | call_attempt x cur m t x' cur' r :
      attempt_transition x cur m t = Ret (x', cur') r -> call x cur x' cur'
  | call_sampled x cur x' cur' r :
      attempt_sampled x cur = Ret (x', cur') r -> call x cur x' cur'
  | call_bad_trial x cur m t x' cur' e : trial_invalid t = true ->
      attempt_transition x cur m t = Thr (x', cur') e -> call x cur x' cur'
  | call_initialize x cur man : call x cur (initialize x man) cur
  | call_run x cur w man x' w' man' :
      mh_run x w man = Ret (x', w') man' -> call x cur x' man'
  | call_run_throws x cur w man x' w' e :
      mh_run x w man = Thr (x', w') e -> call x cur x' cur.

  Inductive calls : metropolis -> M -> metropolis -> M -> Prop :=
  | calls_nil x cur : calls x cur x cur
  | calls_snoc x cur y cur1 z cur2 : calls x cur y cur1 -> call y cur1 z cur2 -> calls x cur z cur2.

  (** A strategy whose published counters describe some transition history. *)
  Definition consistent (x : metropolis) : Prop :=
    exists h, Forall (fun p => supported (fst p)) h /\
      results_reflect (mh_results x) h /\ stats_reflect (mh_stats x) h.

  Notation chain := (sampled_chain geometry propose check_move acceptance_probability at_least
                       draw_int draw_probability).

  (** A run is a sequence of passes; each pass is a sampled chain whose length is
      the simplex count of the state it starts from. *)
  Inductive run_chain : M -> list trecord -> M -> Prop :=
  | run_nil m : run_chain m [] m
  | run_pass m g h m' g' hs m'' :
      length h = Z.to_nat (gN3 (geometry m)) -> chain m g h m' g' ->
      run_chain m' hs m'' -> run_chain m (h :: hs) m''.

  Lemma results_reflect_add r1 r2 r h1 h2 :
    results_reflect r1 h1 -> results_reflect r2 h2 -> results_ok r ->
    (forall k, supported k ->
       slot (attempted r) k = slot (attempted r1) k + slot (attempted r2) k /\
       slot (succeeded r) k = slot (succeeded r1) k + slot (succeeded r2) k /\
       slot (failed r) k = slot (failed r1) k + slot (failed r2) k) ->
    results_reflect r (h1 ++ h2).
  Proof.
    intros [_ H1] [_ H2] Hok H. split; [assumption|]. intros k Hk.
    destruct (H k Hk) as (-> & -> & ->). destruct (H1 k Hk) as (-> & -> & ->).
    destruct (H2 k Hk) as (-> & -> & ->). rewrite !count_of_app. auto.
  Qed.

  Lemma mh_run_Ret x w man x' w' man' :
    cadence_ok (mh_cadence x) ->
    mh_run x w man = Ret (x', w') man' ->
    exists hs : list trecord,
      length hs = Z.to_nat (cad_passes (mh_cadence x)) /\
      Forall (fun p => supported (fst p)) (concat hs) /\
      run_chain man hs man' /\
      results_reflect (mh_results x') (concat hs) /\
      stats_reflect (mh_stats x') (concat hs) /\
      mh_checkpoint_events x' = cad_passes (mh_cadence x) / cad_checkpoint (mh_cadence x).
  Proof.
    intros Hcad H. unfold mh_run in H.
    match type of H with context [execute_move_run ?a ?b ?c ?d ?e ?f ?g ?h ?i] =>
      destruct (execute_move_run a b c d e f g h i) as [[g1 w1] rr|[? ?] ?| |] eqn:Er end;
      try discriminate.
    injection H as <- <- <-. cbn [mh_results mh_stats mh_checkpoint_events].
    apply observed_exists in Er as [log Hobs].
    (* passes return well-shaped results only from well-shaped statistics, so the
       chain is followed from the reflected initial statistics *)
    assert (HP : forall m s0 a (e0 e1 : G * W) p,
      pass_env (mh_execute_pass geometry propose check_move acceptance_probability at_least draw_int
                  draw_probability) m s0 a e0 = Ret e1 p ->
      exists g2, mh_execute_pass geometry propose check_move acceptance_probability at_least draw_int
                  draw_probability m s0 a (fst e0) = Ret g2 p).
    { intros m s0 a e0 e1 p Hp. unfold pass_env, on_engine in Hp.
      destruct (mh_execute_pass _ _ _ _ _ _ _ m s0 a (fst e0)) as [g2 p2| | |]; try discriminate.
      injection Hp as _ <-. eauto. }
    assert (HL : forall n y z u, sample_loop geometry propose check_move acceptance_probability at_least
                   draw_int draw_probability n y = Ret z u ->
                 results_ok (ms_results y) -> results_ok (ms_results z)).
    { assert (HB : forall t m t', bump t m = COk t' -> tracker_ok t -> tracker_ok t').
      { intros t m t' Hb Ht. eapply bump_ok; eassumption. }
      assert (HR : forall y m t z o, resolve_transition geometry propose check_move
                     acceptance_probability at_least y m t = Ret z o ->
                   results_ok (ms_results y) -> results_ok (ms_results z)).
      { intros y m t z o Hz (O1 & O2 & O3). unfold resolve_transition, fail_transition in Hz.
        destruct (trial_invalid t); [discriminate|].
        destruct (reverse_move m); [|injection Hz as <- <-; repeat split; assumption].
        match type of Hz with context [bump ?a m] => destruct (bump a m) as [prop| |] end; [|discriminate|discriminate].
        destruct (bump (attempted (ms_results y)) m) as [att| |] eqn:Eatt; [|discriminate|discriminate].
        cbn in Hz.
        destruct (propose_candidate propose (ms_cur y) m (ms_gen y)) as [[cand|er|er] gg]; [| |discriminate].
        - destruct (check_move (ms_cur y) cand m); cbn [negb] in Hz.
          + destruct (bump (succeeded (ms_results y)) m) as [sc| |] eqn:Esc; [|discriminate|discriminate].
            destruct (acceptance_probability _ _ m); [|discriminate].
            destruct (at_least p t); (match type of Hz with context [bump ?a m] => destruct (bump a m) as [q| |] end; [|discriminate|discriminate]);
              injection Hz as <- <-; cbn; repeat split; cbn; eauto.
          + destruct (bump (failed (ms_results y)) m) as [f| |] eqn:Ef; [|discriminate|discriminate].
            match type of Hz with context [bump ?a m] => destruct (bump a m) as [q| |] end; [|discriminate|discriminate].
            injection Hz as <- <-; cbn; repeat split; cbn; eauto.
        - destruct (bump (failed (ms_results y)) m) as [f| |] eqn:Ef; [|discriminate|discriminate].
          match type of Hz with context [bump ?a m] => destruct (bump a m) as [q| |] end; [|discriminate|discriminate].
          injection Hz as <- <-; cbn; repeat split; cbn; eauto. }
      induction n as [|n IH]; intros y z u Hz Hok; cbn in Hz.
      - injection Hz as <- <-. assumption.
      - unfold sample_transition in Hz.
        destruct (generate_random_move_3 draw_int (ms_gen y)) as [m g2].
        destruct (draw_probability g2) as [t g3].
        match type of Hz with context [resolve_transition ?a ?b ?c ?d ?e ?f ?g ?h] =>
          destruct (resolve_transition a b c d e f g h) as [z1 o| | |] eqn:Ez end; try discriminate.
        eapply IH; [exact Hz|]. eapply HR; [exact Ez|]. exact Hok. }
    apply observed_run_log in Hobs; [|assumption|].
    2:{ intros m s0 a e0 e1 p Hp. apply HP in Hp as [g2 Hp]. unfold mh_execute_pass in Hp.
        destruct (sample_loop _ _ _ _ _ _ _ _ _) as [z u| | |] eqn:Ez; try discriminate.
        injection Hp as <- <-. cbn. eapply HL; [exact Ez|]. repeat split. }
    destruct Hobs as (Hmk & Hev & _ & Hch & Hret & Hok & Hsl & _).
    assert (Main : forall l m s m' s' h0,
      chained (fun m => gN3 (geometry m)) m s l m' s' ->
      all_returned (pass_env (W := W) (mh_execute_pass geometry propose check_move acceptance_probability
                  at_least draw_int draw_probability)) l ->
      stats_reflect s h0 ->
      exists hs, length hs = length l /\ Forall (fun p => supported (fst p)) (concat hs) /\
        run_chain m hs m' /\ stats_reflect s' (h0 ++ concat hs) /\
        forall k, supported k ->
          sum_slot attempted k l = count_of k any_outcome (concat hs) /\
          sum_slot succeeded k l = count_of k is_candidate (concat hs) /\
          sum_slot failed k l = count_of k is_no_candidate (concat hs)).
    { intros l m s m' s' h0 Hc. revert h0.
      induction Hc as [m s|m s p l m' s' Hc IH]; intros h0 Hr Hs.
      - exists []. cbn [concat]. rewrite app_nil_r. split; [reflexivity|]. split; [constructor|].
        split; [constructor|]. split; [assumption|]. intros k Hk. auto.
      - destruct (Forall_cons_1 _ _ _ Hr) as [(e0 & e1 & Hp) Hr']. cbn in Hp.
        apply HP in Hp as [g2 Hp].
        apply (mh_execute_pass_Ret _ _ _ _ _ _ _ draw_range _ _ _ _ _ _ h0) in Hp as (h & Hl & Hsup & Hrr & Hss & Hcc);
          [|assumption].
        destruct (IH _ Hr' Hss) as (hs & Hl2 & Hsup2 & Hrc & Hs2 & Hcnt).
        exists (h :: hs). split; [cbn; congruence|]. cbn [concat].
        split; [apply Forall_app; split; assumption|].
        split; [econstructor; eassumption|].
        split; [rewrite app_assoc; assumption|].
        intros k Hk. destruct (Hcnt k Hk) as (E1 & E2 & E3). destruct Hrr as [_ Hrr].
        destruct (Hrr k Hk) as (F1 & F2 & F3).
        unfold sum_slot in *. cbn [fold_right rec_result]. rewrite !count_of_app. lia. }
    destruct (Main _ _ _ _ _ [] Hch Hret (stats_reflect_nil _)) as (hs & Hl & Hsup & Hrc & Hs & Hcnt).
    exists hs. split; [rewrite Hl; eapply passes_of_length; exact Hmk|].
    split; [assumption|]. split; [assumption|].
    split. { split; [assumption|]. intros k Hk. destruct (Hsl k Hk) as (-> & -> & ->). auto. }
    split; [assumption|]. assumption.
  Qed.

  Lemma mh_run_Thr x w man x' w' e :
    mh_run x w man = Thr (x', w') e ->
    mh_results x' = mh_results x /\ mh_stats x' = mh_stats x /\
    mh_checkpoint_events x' = mh_checkpoint_events x /\ mh_cadence x' = mh_cadence x /\
    mh_write_files x' = mh_write_files x /\ mh_reproducibility x' = mh_reproducibility x /\
    rnd_seed (mh_generator x') = rnd_seed (mh_generator x) /\
    rnd_stream (mh_generator x') = rnd_stream (mh_generator x).
  Proof.
    intros H. unfold mh_run in H.
    match type of H with context [execute_move_run ?a ?b ?c ?d ?e ?f ?g ?h ?i] =>
      destruct (execute_move_run a b c d e f g h i) as [[g1 w1] rr|[? ?] ?| |] end; try discriminate.
    injection H as <- <- <-. repeat split.
  Qed.

  Lemma call_cadence x cur x' cur' : call x cur x' cur' -> mh_cadence x' = mh_cadence x.
  Proof.
    intros [].
    - unfold attempt_transition in H. destruct (resolve_transition _ _ _ _ _ _ _ _); try discriminate.
      injection H as <- <- <-. reflexivity.
    - unfold attempt_sampled in H. destruct (sample_transition _ _ _ _ _ _ _ _); try discriminate.
      injection H as <- <- <-. reflexivity.
    - unfold attempt_transition in H0. destruct (resolve_transition _ _ _ _ _ _ _ _); try discriminate.
      injection H0 as <- <- <-. reflexivity.
    - reflexivity.
    - unfold mh_run in H. match type of H with context [execute_move_run ?a ?b ?c ?d ?e ?f ?g ?h ?i] =>
        destruct (execute_move_run a b c d e f g h i) as [[g1 w1] rr|[? ?] ?| |] end; try discriminate.
      injection H as <- <- <-. reflexivity.
    - eapply mh_run_Thr; eassumption.
  Qed.

  Lemma call_consistent x cur x' cur' :
    cadence_ok (mh_cadence x) -> consistent x -> call x cur x' cur' -> consistent x'.
  Proof.
    intros Hcad Hcons Hcall. revert Hcad Hcons. destruct Hcall; intros Hcad (h & Hsup & Hr & Hs).
    - unfold attempt_transition in H.
      match type of H with context [resolve_transition ?a ?b ?c ?d ?e ?f ?g ?h] =>
        destruct (resolve_transition a b c d e f g h) as [y o| | |] eqn:E end; try discriminate.
      injection H as <- <- <-.
      destruct (resolve_Ret _ _ _ _ _ (to_mstate x cur) _ _ _ _ h h Hr Hs E)
        as [Ht [(Hc & -> & _)|(Hm & Hr' & Hs' & _ & Hst)]].
      + exists h. cbn. auto.
      + exists (h ++ [(m, o)]). split; [|cbn; auto].
        apply Forall_app; split; [assumption|constructor; [assumption|constructor]].
    - unfold attempt_sampled, sample_transition in H.
      destruct (generate_random_move_3 draw_int (ms_gen (to_mstate x cur))) as [m g2] eqn:Eg.
      destruct (draw_probability g2) as [t g3].
      match type of H with context [resolve_transition ?a ?b ?c ?d ?e ?f ?g ?h] =>
        destruct (resolve_transition a b c d e f g h) as [y o| | |] eqn:E end; try discriminate.
      injection H as <- <- <-.
      destruct (resolve_Ret _ _ _ _ _ (mkM cur (mh_results x) (mh_stats x) g3) _ _ _ _ h h Hr Hs E)
        as [Ht [(Hc & -> & _)|(Hm & Hr' & Hs' & _ & Hst)]].
      + exists h. cbn. auto.
      + exists (h ++ [(m, o)]). split; [|cbn; auto].
        apply Forall_app; split; [assumption|constructor; [assumption|constructor]].
    - unfold attempt_transition in H0. rewrite resolve_bad_trial in H0 by assumption.
      injection H0 as <- <- <-. exists h. cbn. auto.
    - exists h. cbn. split; [assumption|]. split; [assumption|].
      destruct Hs as (A & B & C & D). split; [exact A|]. split; [exact B|]. split; assumption.
    - destruct (mh_run_Ret _ _ _ _ _ _ Hcad H) as (hs & _ & Hsup' & _ & Hr' & Hs' & _).
      exists (concat hs). auto.
    - destruct (mh_run_Thr _ _ _ _ _ _ H) as (E1 & E2 & _).
      exists h. rewrite E1, E2. auto.
  Qed.

  Lemma calls_consistent x cur x' cur' :
    cadence_ok (mh_cadence x) -> consistent x -> calls x cur x' cur' -> consistent x'.
  Proof.
    intros Hcad Hx H.
    assert (K : consistent x' /\ cadence_ok (mh_cadence x')); [|tauto].
    induction H as [|x cur y cur1 z cur2 H1 IH Hc]; [auto|].
    destruct (IH Hcad Hx) as [I1 I2]. split.
    - eapply call_consistent; eassumption.
    - rewrite (call_cadence _ _ _ _ Hc). assumption.
  Qed.

  Lemma consistent_identities x : consistent x ->
    (forall k, supported k ->
       slot (st_proposed (mh_stats x)) k
         = slot (st_accepted (mh_stats x)) k + slot (st_rejected (mh_stats x)) k /\
       slot (attempted (mh_results x)) k
         = slot (succeeded (mh_results x)) k + slot (failed (mh_results x)) k /\
       slot (attempted (mh_results x)) k = slot (st_proposed (mh_stats x)) k /\
       0 <= slot (failed (mh_results x)) k <= slot (st_rejected (mh_stats x)) k /\
       0 <= slot (st_accepted (mh_stats x)) k <= slot (succeeded (mh_results x)) k) /\
    st_count (mh_stats x) = wrap64 (slot_sum (st_proposed (mh_stats x))).
  Proof.
    intros (h & Hsup & Hr & Hs). split; [eapply reflect_identities; eassumption|].
    destruct Hs as (_ & Hs & _ & ->). unfold slot_sum.
    assert (S5 : forall k, 0 <= k < 5 -> supported k) by (unfold supported; lia).
    rewrite (proj1 (Hs TWO_THREE (S5 0 ltac:(lia)))), (proj1 (Hs THREE_TWO (S5 1 ltac:(lia)))),
        (proj1 (Hs TWO_SIX (S5 2 ltac:(lia)))), (proj1 (Hs SIX_TWO (S5 3 ltac:(lia)))),
        (proj1 (Hs FOUR_FOUR (S5 4 ltac:(lia)))).
    rewrite count_total by assumption. reflexivity.
  Qed.

  (** Replay and independence from published results. *)
  Lemma mh_run_replay x y w man :
    mh_cadence x = mh_cadence y -> mh_write_files x = mh_write_files y ->
    mh_generator x = mh_generator y -> mh_reproducibility x = mh_reproducibility y ->
    match mh_run x w man, mh_run y w man with
    | Ret (a, wa) ma, Ret (b, wb) mb => a = b /\ wa = wb /\ ma = mb
    | Thr (a, wa) e1, Thr (b, wb) e2 => mh_generator a = mh_generator b /\ wa = wb /\ e1 = e2
    | UB, UB => True
    | Abort, Abort => True
    | _, _ => False
    end.
  Proof.
    intros Hc Hw Hg Hm. unfold mh_run. rewrite Hc, Hw, Hg, Hm.
    match goal with |- context [execute_move_run ?a ?b ?c ?d ?e ?f ?g ?h ?i] =>
      destruct (execute_move_run a b c d e f g h i) as [[g1 w1] rr|[? ?] ?| |] end; cbn; auto.
  Qed.
End Strategy.
Arguments metropolis G : clear implicits.
