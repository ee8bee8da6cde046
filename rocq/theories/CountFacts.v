(** Proofs about counts and counters (C106). *)
From Verif Require Import Base Tracker Command Run Fnv Geom Metropolis Simplex Foliation Moves Links MoveTools MoveSpec Manifold ManifoldMoves ManifoldFacts MoveProps PropsRunLemmas EngineSpec EngineProps EngineFacts CountSpec.
From stdpp Require Import fin_sets gmap.
From Verif Require Import Foliation.
Local Open Scope Z_scope.

Definition follows (W : world) (m m' : manifold) (f : MoveType -> Z) : Prop :=
  change_by (geometry_m W m) (geometry_m W m') (f TWO_THREE) (f THREE_TWO) (f TWO_SIX) (f SIX_TWO) /\
  max_time_m W m' = max_time_m W m /\ min_time_m W m' = min_time_m W m.
Definition one (k j : MoveType) : Z := if k =? j then 1 else 0.

Lemma follows_ext W m m' f f' : (forall k, supported k -> f k = f' k) -> follows W m m' f -> follows W m m' f'.
Proof.
  intros E (H & T). split; [|exact T].
  rewrite <- (E TWO_THREE), <- (E THREE_TWO), <- (E TWO_SIX), <- (E SIX_TWO); [exact H|..];
    unfold supported, TWO_THREE, THREE_TWO, TWO_SIX, SIX_TWO; lia.
Qed.
Lemma follows_refl W m : follows W m m (fun _ => 0).
Proof. split; [|split; reflexivity]. unfold change_by. repeat split; lia. Qed.
Lemma follows_trans W m m1 m' f f' : follows W m m1 f -> follows W m1 m' f' -> follows W m m' (fun k => f k + f' k).
Proof.
  intros (A & A1 & A2) (B & B1 & B2). split; [|split; congruence]. unfold change_by in *. intuition lia.
Qed.
Lemma follows_step W m m' k : check_move W m m' k = true -> supported k /\ follows W m m' (one k).
Proof.
  intros C. apply check_move_spec in C as (_ & _ & _ & _ & T1 & T2 & d & D & E). unfold move_delta in D.
  destruct (k =? TWO_THREE) eqn:E1; [|destruct (k =? THREE_TWO) eqn:E2; [|destruct (k =? TWO_SIX) eqn:E3; [|destruct (k =? SIX_TWO) eqn:E4; [|destruct (k =? FOUR_FOUR) eqn:E5; [|discriminate D]]]]];
    injection D as <-;
    [apply Z.eqb_eq in E1|apply Z.eqb_eq in E2|apply Z.eqb_eq in E3|apply Z.eqb_eq in E4|apply Z.eqb_eq in E5]; subst k;
    (split; [unfold supported, TWO_THREE, THREE_TWO, TWO_SIX, SIX_TWO, FOUR_FOUR; lia|]);
    (split; [|split; assumption]); rewrite E; unfold change_by, geometry_plus, one; cbn; repeat split; lia.
Qed.

Lemma tally_first k ok p h : tally k ok (p :: h) = (if (fst p =? k) && Bool.eqb (snd p) ok then 1 else 0) + tally k ok h.
Proof. unfold tally. cbn [List.filter]. destruct (_ && _); cbn [length]; lia. Qed.
Lemma count_first k f p h : count_of k f (p :: h) = (if (fst p =? k) && f (snd p) then 1 else 0) + count_of k f h.
Proof. unfold count_of. cbn [List.filter]. destruct (_ && _); cbn [length]; lia. Qed.

Section Runs.
  Context {G : Type}.
  Variable W : world.
  Variable api : move_api manifold G.
  Lemma history_follows m g h m' g' : history api (check_move W) m g h m' g' -> follows W m m' (fun k => tally k true h).
  Proof using Type.
    induction 1 as [m g|m g k cand g1 h m' g' _ C _ IH|m g k cand g1 h m' g' _ _ _ IH|m g k e g1 h m' g' _ _ IH].
    - apply follows_refl.
    - apply follows_step in C as [_ C]. eapply follows_ext; [|exact (follows_trans _ _ _ _ _ _ C IH)].
      intros j _. cbv beta. rewrite tally_first. cbn [fst snd Bool.eqb]. rewrite andb_true_r. reflexivity.
    - eapply follows_ext; [|exact IH]. intros j _. cbv beta. rewrite tally_first. cbn [fst snd Bool.eqb]. rewrite andb_false_r. reflexivity.
    - eapply follows_ext; [|exact IH]. intros j _. cbv beta. rewrite tally_first. cbn [fst snd Bool.eqb]. rewrite andb_false_r. reflexivity.
  Qed.
  Lemma always_follows N3 draw m g hs m' g' : passes (always_pass N3 api (check_move W) draw) m g hs m' g' ->
    follows W m m' (fun k => tally k true (concat hs)).
  Proof using Type.
    induction 1 as [m g|m g h m1 g1 hs m2 g2 (g0 & _ & _ & H) _ IH]; [apply follows_refl|].
    apply history_follows in H. eapply follows_ext; [|exact (follows_trans _ _ _ _ _ _ H IH)].
    intros j _. cbv beta. cbn [concat]. unfold tally. rewrite List.filter_app, app_length. lia.
  Qed.
  Lemma always_counts {X : Type} N3 draw print write s (w : X) m s' w' m' :
    ma_run N3 api (check_move W) draw print write s w m = Ret (s', w') m' ->
    change (geometry_m W m) (geometry_m W m') (succeeded (ma_results s')) /\
    max_time_m W m' = max_time_m W m /\ min_time_m W m' = min_time_m W m.
  Proof using Type.
    intros H. apply always_engine in H as (hs & _ & H & _ & _ & T). apply always_follows in H.
    apply (follows_ext _ _ _ _ (slot (succeeded (ma_results s')))) in H; [exact H|].
    intros k Sk. symmetry. apply (T k Sk).
  Qed.

  Context {P : Type}.
  Variable geometry : manifold -> Geometry.
  Variable accept : Geometry -> Geometry -> MoveType -> P + exn.
  Variable at_least : P -> fp -> bool.
  Variable draw_int : Z -> Z -> G -> Z * G.
  Variable draw_p : G -> fp * G.
  Lemma chain_follows m g h m' g' :
    sampled_chain geometry api (check_move W) accept at_least draw_int draw_p m g h m' g' ->
    follows W m m' (fun k => count_of k is_accepted h).
  Proof using Type.
    induction 1 as [m g|m g k g1 t g2 o m1 g3 h m2 g4 _ _ Sk _ Q _ IH]; [apply follows_refl|].
    assert (St : follows W m m1 (fun j => if (k =? j) && is_accepted o then 1 else 0)).
    { destruct Q as [cur g0 k0 t0 e g' E|cur g0 k0 t0 cand g' E C|cur g0 k0 t0 cand g' q E C A L|cur g0 k0 t0 cand g' q E C A L].
      - eapply follows_ext; [|apply follows_refl]. intros j _. cbv beta.
        replace (is_accepted (outcome_from e)) with false by (destruct e as [[] ?]; reflexivity). rewrite andb_false_r. reflexivity.
      - eapply follows_ext; [|apply follows_refl]. intros j _. cbv beta. cbn [is_accepted]. rewrite andb_false_r. reflexivity.
      - apply follows_step in C as [_ C]. eapply follows_ext; [|exact C]. intros j _. cbn [is_accepted]. rewrite andb_true_r. reflexivity.
      - eapply follows_ext; [|apply follows_refl]. intros j _. cbv beta. cbn [is_accepted]. rewrite andb_false_r. reflexivity. }
    eapply follows_ext; [|exact (follows_trans _ _ _ _ _ _ St IH)]. intros j _. cbv beta. rewrite count_first. reflexivity.
  Qed.
  Lemma metropolis_follows m g hs m' g' :
    passes (metropolis_pass geometry api (check_move W) accept at_least draw_int draw_p) m g hs m' g' ->
    follows W m m' (fun k => count_of k is_accepted (concat hs)).
  Proof using Type.
    induction 1 as [m g|m g h m1 g1 hs m2 g2 (_ & H) _ IH]; [apply follows_refl|].
    apply chain_follows in H. eapply follows_ext; [|exact (follows_trans _ _ _ _ _ _ H IH)].
    intros j _. cbv beta. cbn [concat]. rewrite count_of_app. reflexivity.
  Qed.
  Lemma metropolis_counts {X : Type} max_time update print write (x : metropolis G) (w : X) m x' w' m' :
    (forall g k g', draw_int 0 4 g = (k, g') -> supported k) ->
    mh_run geometry api (check_move W) accept at_least draw_int draw_p max_time update print write x w m = Ret (x', w') m' ->
    change (geometry_m W m) (geometry_m W m') (st_accepted (mh_stats x')) /\
    max_time_m W m' = max_time_m W m /\ min_time_m W m' = min_time_m W m.
  Proof using Type.
    intros D H. apply metropolis_engine in H as (hs & _ & H & _ & _ & _ & _ & T & _); [|exact D]. apply metropolis_follows in H.
    apply (follows_ext _ _ _ _ (slot (st_accepted (mh_stats x')))) in H; [exact H|].
    intros k Sk. symmetry. apply (T k Sk).
  Qed.

  Lemma since c c' (h : list (MoveType * bool)) (t t' : tracker) :
    follows W c c' (fun k => tally k true h) ->
    (forall k, supported k -> slot t' k = slot t k + tally k true h) ->
    change_since (geometry_m W c) (geometry_m W c') t t' /\
    max_time_m W c' = max_time_m W c /\ min_time_m W c' = min_time_m W c.
  Proof using Type.
    intros H T. apply (follows_ext _ _ _ _ (fun k => slot t' k - slot t k)) in H; [exact H|].
    intros k Sk. rewrite (T k Sk). lia.
  Qed.
  Lemma command_counts (c : command manifold) g c' g' u : counters_ok c ->
    execute api (check_move W) c g = Ret (c', g') u ->
    change_since (geometry_m W (cm_manifold c)) (geometry_m W (cm_manifold c')) (cm_succeeded c) (cm_succeeded c') /\
    max_time_m W (cm_manifold c') = max_time_m W (cm_manifold c) /\ min_time_m W (cm_manifold c') = min_time_m W (cm_manifold c).
  Proof using Type.
    intros Hc H. apply execute_Ret in H as (_ & _ & h & _ & H & T); [|exact Hc]. apply history_follows in H.
    apply (since _ _ h); [exact H|]. intros k Sk. apply (T k Sk).
  Qed.
  Lemma command_counts_thrown (c : command manifold) g c' g' x : counters_ok c ->
    execute api (check_move W) c g = Thr (c', g') x ->
    change_since (geometry_m W (cm_manifold c)) (geometry_m W (cm_manifold c')) (cm_succeeded c) (cm_succeeded c') /\
    max_time_m W (cm_manifold c') = max_time_m W (cm_manifold c) /\ min_time_m W (cm_manifold c') = min_time_m W (cm_manifold c).
  Proof using Type.
    intros Hc H. apply exception_commits_prefix in H as (h & k0 & rest & gm & _ & _ & _ & H & _ & T); [|exact Hc].
    apply history_follows in H. apply (since _ _ h); [exact H|]. intros k Sk. apply (T k Sk).
  Qed.
End Runs.
