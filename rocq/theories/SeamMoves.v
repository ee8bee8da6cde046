(** Moves and runs keep the cells around every face joined. *)
From Verif Require Import Base Tracker Command Run Geom Metropolis Simplex Pachner Foliation Moves Links MoveCore MoveTools Move23 Move44 Move26 Move26Site Move62Site MoveSpec MoveSound Manifold ManifoldFacts ManifoldMoves ClassFacts Reverse Reverse44 PropsRunLemmas MoveProps StarSpec StarFacts.
From stdpp Require Import fin_sets gmap sorting.
From Verif Require Import Foliation.
Local Open Scope Z_scope.

Lemma site_joined W m k T' : valid (m_cells m) -> joined_stars (m_cells m) -> from_site W m k T' -> joined_stars T'.
Proof.
  intros V J [[-> (c & Hc & H)]|[[-> (e & He & H)]|[[-> (c & Hc & H)]|[[-> (v & edges & Hv & He & H)]|[-> (e & He & H)]]]]].
  - apply move_23_effect in H as (v & w & a & b & x & N & F & E & ok & -> & L); [|exact V].
    apply pachner_joined; [exact (va_closed _ V)|exact ok|exact J].
  - apply move_32_effect in H as (v & w & a & b & x & N & F & E & ok & -> & L); [|exact V].
    apply pachner_joined; [exact (va_closed _ V)|exact ok|exact J].
  - apply site_cell in Hc as (_ & F0 & _).
    apply move_26_raw in H as (a & b & c' & d & e & N & F & E & ok1 & ok2 & -> & _); [|exact V|exact F0].
    apply pachner_joined; [|exact ok2|apply pachner_joined; [exact (va_closed _ V)|exact ok1|exact J]].
    apply va_closed, pachner_valid; assumption.
  - apply move_62_effect in H as (a & b & c & d & e & N & F & L & ok1 & ok2 & E & V'); [|exact V|].
    + pose proof (pachner_inverse _ _ _ ok2) as I2. rewrite <- E in I2.
      pose proof (pachner_inverse _ _ _ ok1) as I1.
      pose proof (pachner_ok_reverse _ _ _ ok2) as R2. rewrite <- E in R2.
      pose proof (pachner_ok_reverse _ _ _ ok1) as R1.
      rewrite <- I1. apply pachner_joined; [|exact R1|].
      * apply va_closed, pachner_valid; assumption.
      * rewrite <- I2. apply pachner_joined; [exact (va_closed _ V)|exact R2|exact J].
    + intros e Hin. rewrite He in Hin. unfold finite_incident_edges in Hin.
      apply elem_of_list_fmap in Hin as (w & -> & Hw). exists w. split; [|reflexivity].
      intros ->. apply elem_of_elements, elem_of_difference in Hw as [Hw _]. unfold link_vertices in Hw. set_solver + Hw.
  - apply move_44_effect in H as (p & q & a & b & top & bot & N & F & E & L & ok1 & ok2 & -> & V'); [|exact V].
    apply pachner_joined; [|exact ok2|apply pachner_joined; [exact (va_closed _ V)|exact ok1|exact J]].
    apply va_closed, pachner_valid; assumption.
Qed.

Section Runs.
  Variable W : world.
  Context {G : Type}.
  Variable R : choices G.
  Hypothesis RO : choices_ok R.
  Variable escape : manifold -> G -> move_result manifold * G.
  Hypothesis ES : stays_modelled escape.

  Lemma moved_joined k m m' : valid (m_cells m) -> joined_stars (m_cells m) -> moved W R escape k m m' -> joined_stars (m_cells m').
  Proof using RO ES. intros V J H. apply (moved_site W R RO escape ES) in H as (H & _ & _). eapply site_joined; eassumption. Qed.

  Definition sturdy (m : manifold) : Prop := valid (m_cells m) /\ joined_stars (m_cells m).
  Variable api : move_api manifold G.
  Hypothesis Hapi : api = do_api W R escape \/ api = propose_api W R escape.

  Lemma step_sturdy m k g cand g1 : apply_random_move api m k g = (Moved cand, g1) -> check_move W m cand k = true -> sturdy m -> sturdy cand.
  Proof using RO ES Hapi.
    intros H C [V J]. split; [apply (checked_well_formed W m cand k C)|].
    apply (moved_joined k m cand V J). exists g, g1. destruct Hapi as [->| ->]; auto.
  Qed.
  Lemma chain_sturdy m n m' : validated_chain api (check_move W) m n m' -> sturdy m -> sturdy m'.
  Proof using RO ES Hapi.
    induction 1 as [m|m k g cand g1 n m' H C _ IH]; [auto|]. intros S. apply IH. eapply step_sturdy; eassumption.
  Qed.
  Lemma history_sturdy m g h m' g' : history api (check_move W) m g h m' g' -> sturdy m -> sturdy m'.
  Proof using RO ES Hapi. intros H. apply history_chain in H. eapply chain_sturdy. exact H. Qed.
  Lemma command_sturdy (c : command manifold) g c' g' u : counters_ok c -> execute api (check_move W) c g = Ret (c', g') u ->
    sturdy (cm_manifold c) -> sturdy (cm_manifold c').
  Proof using RO ES Hapi. intros Hc H. apply execute_chain in H as (n & H & _); [|exact Hc]. eapply chain_sturdy. exact H. Qed.
  Lemma passes_sturdy {SS} N3 (m : manifold) (s : SS) ps m' s' : chained N3 m s ps m' s' ->
    Forall (fun x => sturdy (rec_start x) -> sturdy (pr_manifold (rec_result x))) ps -> sturdy m -> sturdy m'.
  Proof using.
    induction 1 as [m s|m s p l m' s' _ IH]; intros F; [auto|].
    apply Forall_cons in F as [A F]. cbn [rec_start rec_result] in A. intros S. apply (IH F), A, S.
  Qed.
  Lemma move_always_sturdy {X} N3 draw print write s (w : X) man s' w' man' : cadence_ok (ma_cadence s) ->
    ma_run N3 api (check_move W) draw print write s w man = Ret (s', w') man' -> sturdy man -> sturdy man'.
  Proof using RO ES Hapi.
    intros Hc H. apply ma_run_Ret in H as (ps & _ & Hch & Hf & _); [|exact Hc].
    eapply passes_sturdy; [exact Hch|]. eapply Forall_impl; [exact Hf|]. cbn. intros x (_ & h & g1 & g2 & _ & Hh).
    eapply history_sturdy. exact Hh.
  Qed.

  Section Metropolis.
    Context {P X : Type}.
    Variable geometry : manifold -> Geometry.
    Variable accept : Geometry -> Geometry -> MoveType -> P + exn.
    Variable at_least : P -> fp -> bool.
    Variable draw_int : Z -> Z -> G -> Z * G.
    Variable draw_p : G -> fp * G.
    Lemma markov_sturdy cur g m t o cur' g' :
      markov_step geometry api (check_move W) accept at_least cur g m t o cur' g' -> sturdy cur -> sturdy cur'.
    Proof using RO ES Hapi. destruct 1; try (auto; fail). eapply step_sturdy; eassumption. Qed.
    Lemma sampled_sturdy cur g h cur' g' :
      sampled_chain geometry api (check_move W) accept at_least draw_int draw_p cur g h cur' g' -> sturdy cur -> sturdy cur'.
    Proof using RO ES Hapi.
      induction 1 as [cur g|cur g m g1 t g2 o cur' g' h cur'' g'' _ _ _ _ Hs _ IH]; [auto|].
      intros S. apply IH. eapply markov_sturdy; eassumption.
    Qed.
    Lemma metropolis_sturdy max_time update print write (x : metropolis G) (w : X) man x' w' man' :
      (forall g m g', draw_int 0 4 g = (m, g') -> supported m) -> cadence_ok (mh_cadence x) ->
      mh_run geometry api (check_move W) accept at_least draw_int draw_p max_time update print write x w man = Ret (x', w') man' ->
      sturdy man -> sturdy man'.
    Proof using RO ES Hapi.
      intros HD Hc H. apply metropolis_run in H as (hs & _ & _ & Hr & _); [|assumption..].
      induction Hr as [m|m g h m' g' hs m'' _ Hch _ IH]; [auto|]. intros S. apply IH. eapply sampled_sturdy; eassumption.
    Qed.
  End Metropolis.
End Runs.
