(** Consequences of the move theorems for manifolds returned by the public move
    functions, for checked candidates and for whole runs. *)
From Verif Require Import Base Tracker Command Run Geom Metropolis Simplex Pachner Foliation Moves Links MoveCore MoveTools Move23 Move44 Move26 Move26Site Move62Site MoveSpec MoveSound Manifold ManifoldFacts ManifoldMoves ClassFacts Reverse Reverse44 PropsRunLemmas.
From stdpp Require Import fin_sets gmap sorting.
From Verif Require Import Foliation.
Local Open Scope Z_scope.

(** [m'] is a manifold returned as success by do_*_move or propose_*_move. *)
Definition moved {G} (W : world) (R : choices G) (escape : manifold -> G -> move_result manifold * G)
    (k : MoveType) (m m' : manifold) : Prop :=
  exists g g', apply_random_move (do_api W R escape) m k g = (Moved m', g') \/
               apply_random_move (propose_api W R escape) m k g = (Moved m', g').

(** The returned manifold is a valid triangulation, causal if the source was, has
    the documented counts, the same first and last slice, and the same radius,
    spacing and hence the same time value for every point. *)
Record good_result (W : world) (k : MoveType) (m m' : manifold) : Prop := {
  gr_valid : valid (m_cells m');
  gr_causal : causal (label_of W m) (m_cells m) -> causal (label_of W m') (m_cells m');
  gr_counts : exists d, move_delta k = Some d /\ geometry_m W m' = geometry_plus (geometry_m W m) d;
  gr_max : max_time_m W m' = max_time_m W m;
  gr_min : min_time_m W m' = min_time_m W m;
  gr_radius : m_radius m' = m_radius m;
  gr_spacing : m_spacing m' = m_spacing m;
  gr_labels : forall v, label_of W m' v = label_of W m v }.

Lemma same_label W m m' : m_radius m' = m_radius m -> m_spacing m' = m_spacing m -> label_of W m' = label_of W m.
Proof. intros A B. unfold label_of. rewrite A, B. reflexivity. Qed.

Lemma good_of_sound W k m m' : m_radius m' = m_radius m -> m_spacing m' = m_spacing m ->
  sound_move (label_of W m) k (m_cells m) (m_cells m') -> good_result W k m m'.
Proof.
  intros A B [S1 S2 S3 S4 S5]. pose proof (same_label W m m' A B) as L.
  constructor; try assumption; unfold geometry_m, max_time_m, min_time_m; rewrite L; auto.
Qed.

Section Effects.
  Variable W : world.
  Context {G : Type}.
  Variable R : choices G.
  Hypothesis RO : choices_ok R.
  Variable escape : manifold -> G -> move_result manifold * G.
  Hypothesis ES : stays_modelled escape.

  Lemma moved_site k m m' : moved W R escape k m m' ->
    from_site W m k (m_cells m') /\ m_radius m' = m_radius m /\ m_spacing m' = m_spacing m.
  Proof using RO ES. intros (g & g' & H). eapply api_Moved; eassumption. Qed.

  Lemma moved_23 m m' : valid (m_cells m) -> moved W R escape TWO_THREE m m' ->
    good_result W TWO_THREE m m' /\ vertices (m_cells m') = vertices (m_cells m) /\
    exists v w a b x, two_three (label_of W m) (m_cells m) (m_cells m') v w a b x.
  Proof using RO ES.
    intros V H. apply moved_site in H as (H & A & B). destruct (effect_23 W m _ V H) as (S & HV & v & w & a & b & x & Q & _).
    split; [apply good_of_sound; assumption|]. split; [exact HV|]. exists v, w, a, b, x. exact Q.
  Qed.
  Lemma moved_32 m m' : valid (m_cells m) -> moved W R escape THREE_TWO m m' ->
    good_result W THREE_TWO m m' /\ vertices (m_cells m') = vertices (m_cells m) /\
    exists v w a b x, two_three (label_of W m) (m_cells m') (m_cells m) v w a b x.
  Proof using RO ES.
    intros V H. apply moved_site in H as (H & A & B). destruct (effect_32 W m _ V H) as (S & HV & Q).
    split; [apply good_of_sound; assumption|]. auto.
  Qed.
  Lemma moved_44 m m' : valid (m_cells m) -> moved W R escape FOUR_FOUR m m' ->
    good_result W FOUR_FOUR m m' /\ vertices (m_cells m') = vertices (m_cells m) /\
    exists p q a b top bot, four_four (label_of W m) (m_cells m) (m_cells m') p q a b top bot.
  Proof using RO ES.
    intros V H. apply moved_site in H as (H & A & B). destruct (effect_44 W m _ V H) as (S & HV & Q).
    split; [apply good_of_sound; assumption|]. auto.
  Qed.
  Lemma moved_62 m m' : valid (m_cells m) -> moved W R escape SIX_TWO m m' ->
    good_result W SIX_TWO m m' /\
    exists a b c v d e, two_six (label_of W m) (m_cells m') (m_cells m) a b c v d e /\
      vertices (m_cells m) = {[v]} ∪ vertices (m_cells m') /\ v ∉ vertices (m_cells m').
  Proof using RO ES.
    intros V H. apply moved_site in H as (H & A & B). destruct (effect_62 W m _ V H) as (S & Q).
    split; [apply good_of_sound; assumption|]. auto.
  Qed.
  Lemma moved_26 m m' : valid (m_cells m) -> moved W R escape TWO_SIX m m' ->
    no_infinite_31 (label_of W m) (w_junk W) (m_cells m) ->
    (forall a b c, label_of W m a = label_of W m b -> label_of W m b = label_of W m c ->
       label_of W m (w_centroid W (of_list [a; b; c])) = label_of W m a) ->
    good_result W TWO_SIX m m' /\
    exists a b c x d e, two_six (label_of W m) (m_cells m) (m_cells m') a b c x d e /\ x = w_centroid W (of_list [a; b; c]) /\
      vertices (m_cells m') = {[x]} ∪ vertices (m_cells m) /\ x ∉ vertices (m_cells m).
  Proof using RO ES.
    intros V H NI CL. apply moved_site in H as (H & A & B). destruct (effect_26 W m _ V H NI CL) as (S & Q).
    split; [apply good_of_sound; assumption|]. exact Q.
  Qed.
  Lemma moved_26_checked m m' : valid (m_cells m) -> moved W R escape TWO_SIX m m' ->
    check_move W m m' TWO_SIX = true ->
    good_result W TWO_SIX m m' /\
    exists a b c x d e, two_six (label_of W m) (m_cells m) (m_cells m') a b c x d e /\ x = w_centroid W (of_list [a; b; c]) /\
      vertices (m_cells m') = {[x]} ∪ vertices (m_cells m) /\ x ∉ vertices (m_cells m).
  Proof using RO ES.
    intros V H C. apply moved_site in H as (H & A & B).
    assert (E : m' = mkManifold (m_cells m') (m_radius m) (m_spacing m)) by (destruct m'; cbn in *; congruence).
    rewrite E in C. destruct (checked_26 W m _ V H C) as (S & Q).
    split; [apply good_of_sound; assumption|]. exact Q.
  Qed.

  (** Every success except (2,6) is a good result unconditionally. *)
  Lemma moved_good k m m' : valid (m_cells m) -> k <> TWO_SIX -> moved W R escape k m m' -> good_result W k m m'.
  Proof using RO ES.
    intros V HK H. pose proof H as (g & g' & K).
    destruct (Z.eq_dec k TWO_THREE) as [->|]; [apply moved_23; assumption|].
    destruct (Z.eq_dec k THREE_TWO) as [->|]; [apply moved_32; assumption|].
    destruct (Z.eq_dec k SIX_TWO) as [->|]; [apply moved_62; assumption|].
    destruct (Z.eq_dec k FOUR_FOUR) as [->|]; [apply moved_44; assumption|].
    exfalso. unfold apply_random_move in K. rewrite !(proj2 (Z.eqb_neq _ _)) in K by assumption. destruct K; discriminate.
  Qed.
  Lemma moved_passes k m m' : valid (m_cells m) -> causal (label_of W m) (m_cells m) -> good_result W k m m' ->
    check_move W m m' k = true.
  Proof.
    intros V C [A B D E F H I _]. apply check_move_spec. auto 10.
  Qed.
End Effects.

(** ** Counts of sites *)
Lemma count_pos P S : 0 < count P S <-> exists s, s ∈ S /\ P s = true.
Proof.
  unfold count. split.
  - intros H. assert (E : filter (fun s => P s = true) S <> ∅) by (intros E; rewrite E, size_empty in H; cbn in H; lia).
    apply set_choose_L in E as [s Hs]. apply elem_of_filter in Hs as [A B]. eauto.
  - intros (s & Hs & HP). assert (E : size (filter (fun s => P s = true) S) <> 0%nat); [|lia].
    intros E. apply size_empty_inv in E. assert (K : s ∈ filter (fun s => P s = true) S) by (apply elem_of_filter; auto).
    rewrite E in K. apply elem_of_empty in K. exact K.
Qed.
Lemma count_nonneg P S : 0 <= count P S.
Proof. unfold count. lia. Qed.

Lemma sites_count_pos W m k : (k = TWO_THREE /\ sites_23 W m <> []) \/ (k = THREE_TWO /\ sites_32 W m <> []) \/
   (k = TWO_SIX /\ sites_26 W m <> []) \/ (k = SIX_TWO /\ sites_62 m <> []) \/ (k = FOUR_FOUR /\ sites_44 W m <> []) ->
  0 < proposal_site_count (geometry_m W m) k.
Proof.
  assert (EX : forall {A} (l : list A), l <> [] -> exists s, s ∈ l).
  { intros A [|s l] H; [congruence|]. exists s. constructor. }
  intros [[-> H]|[[-> H]|[[-> H]|[[-> H]|[-> H]]]]]; apply EX in H as [s Hs]; unfold proposal_site_count; cbn [Z.eqb]; cbn;
    unfold geometry_m, geometry_of; cbn.
  - apply site_cell in Hs as (A & B & C). apply count_pos. exists s. split; [exact A|]. unfold finite_of_type.
    rewrite (proj2 (finite_spec s) B), C. reflexivity.
  - unfold sites_32 in Hs. rewrite elem_of_canonicalize in Hs. unfold edge_sites in Hs.
    apply elem_of_elements, elem_of_filter in Hs as [A B]. apply count_pos. exists s. auto.
  - apply site_cell in Hs as (A & B & C). apply count_pos. exists s. split; [exact A|]. unfold finite_of_type.
    rewrite (proj2 (finite_spec s) B), C. reflexivity.
  - unfold sites_62 in Hs. assert (Hs' : s ∈ vertex_sites (m_cells m)) by (eapply elem_of_Permutation_proper; [|exact Hs]; symmetry; apply merge_sort_Permutation).
    unfold vertex_sites in Hs'. apply elem_of_elements, (elem_of_finite_vertices (fun _ => 0)) in Hs' as [A (c & B & C)].
    apply count_pos. exists (of_list [s]). split.
    + apply elem_of_faces. split; [apply of_list_size; repeat constructor; apply not_elem_of_nil|]. exists c. split; [exact B|].
      intros y. rewrite elem_of_of_list, elem_of_list_singleton. intros ->. exact C.
    + apply finite_spec. rewrite elem_of_of_list, elem_of_list_singleton. congruence.
  - unfold sites_44 in Hs. rewrite elem_of_canonicalize in Hs. unfold edge_sites in Hs.
    apply elem_of_elements, elem_of_filter in Hs as [A B]. apply count_pos. exists s. auto.
Qed.

Lemma counts_nonneg label T : 0 <= n1_tl label T /\ 0 <= n0 T /\ 0 <= n1_sl label T /\ 0 <= n3_of label TWO_TWO T /\ 0 <= n3_of label ONE_THREE T.
Proof. repeat split; apply count_nonneg. Qed.

Lemma proposed_site_counts {G} W (R : choices G) escape k m m' : choices_ok R -> stays_modelled escape ->
  valid (m_cells m) -> moved W R escape k m m' -> check_move W m m' k = true ->
  exists r, reverse_move k = Some r /\
    0 < proposal_site_count (geometry_m W m) k /\ 0 < proposal_site_count (geometry_m W m') r.
Proof.
  intros RO ES V H C.
  pose proof (moved_site W R RO escape ES k m m' H) as (S & A & B).
  pose proof (same_label W m m' A B) as L.
  pose proof C as C0. apply check_move_spec in C as (_ & _ & _ & _ & _ & _ & d & Hd & HG).
  pose proof (counts_nonneg (label_of W m) (m_cells m)) as (P1 & P2 & P3 & P4 & P5).
  assert (NE : forall {X} (l : list X) x, x ∈ l -> l <> []) by (intros X l x Hx ->; apply elem_of_nil in Hx; exact Hx).
  destruct S as [[-> (c & Hc & _)]|[[-> (e & He & _)]|[[-> (c & Hc & _)]|[[-> (v & ed & Hv & _)]|[-> (e & He & _)]]]]].
  - exists THREE_TWO. split; [reflexivity|]. split; [apply sites_count_pos; left; eauto|].
    injection Hd as <-. rewrite HG. unfold proposal_site_count. cbn. lia.
  - exists TWO_THREE. split; [reflexivity|]. split; [apply sites_count_pos; eauto 6|].
    destruct (moved_32 W R RO escape ES m m' V H) as (_ & _ & v & w & a & b & x & N & F & RP & _ & X & K).
    unfold proposal_site_count. cbn. apply count_pos.
    assert (IN : forall s, s ∈ [of_list [v; a; b; x]; of_list [w; a; b; x]] -> s ∈ m_cells m' /\ finite_simplex s = true).
    { intros s Hs. split; [apply RP; exact Hs|]. apply finite_spec. cases_list Hs; subst s; rewrite elem_of_of_list; set_solver + F. }
    unfold finite_of_type. rewrite L. destruct (Z.eq_dec (cell_type (label_of W m) (of_list [v; a; b; x])) TWO_TWO) as [E|E].
    + exists (of_list [v; a; b; x]). destruct (IN (of_list [v; a; b; x])) as [I1 I2]; [set_solver +|]. rewrite I2, E. auto.
    + exists (of_list [w; a; b; x]). destruct (IN (of_list [w; a; b; x])) as [I1 I2]; [set_solver +|]. rewrite I2. split; [exact I1|].
      apply Z.eqb_eq. destruct (Z.eq_dec (cell_type (label_of W m) (of_list [w; a; b; x])) TWO_TWO) as [E'|E']; [exact E'|tauto].
  - exists SIX_TWO. split; [reflexivity|]. split; [apply sites_count_pos; eauto 6|].
    injection Hd as <-. rewrite HG. unfold proposal_site_count. cbn. lia.
  - exists TWO_SIX. split; [reflexivity|]. split; [apply sites_count_pos; eauto 7|].
    destruct (moved_62 W R RO escape ES m m' V H) as (_ & a & b & c & x & dd & e & (N & F & RP & t & La & Lb & Lc & Lx & Ld & Le) & _).
    unfold proposal_site_count. cbn. apply count_pos. exists (of_list [a; b; c; dd]). split; [apply RP; set_solver +|].
    unfold finite_of_type. apply andb_true_iff. split; [apply finite_spec; rewrite elem_of_of_list; set_solver + F|].
    rewrite L. apply Z.eqb_eq. rewrite cell_type_of_list.
    + cbn [map]. rewrite La, Lb, Lc, Ld. replace (t - 1) with (t + (-1)) by lia. replace t with (t + 0) at 1 2 3 by lia. rewrite classify4. reflexivity.
    + apply nodup4. apply nodup6 in N. clear - N. intuition congruence.
  - exists FOUR_FOUR. split; [reflexivity|].
    assert (Q : 0 < proposal_site_count (geometry_m W m) FOUR_FOUR) by (apply sites_count_pos; eauto 8). split; [exact Q|].
    injection Hd as <-. rewrite HG. unfold proposal_site_count in *. cbn in *. lia.
Qed.

(** ** Invariants of runs *)
Definition euler (g : Geometry) : Z := gN0 g - gN1 g + gN2 g - gN3 g.
(** Nothing observable that a move may not change has changed. *)
Definition invariants_kept (W : world) (m m' : manifold) : Prop :=
  euler (geometry_m W m') = euler (geometry_m W m) /\
  max_time_m W m' = max_time_m W m /\ min_time_m W m' = min_time_m W m /\
  m_radius m' = m_radius m /\ m_spacing m' = m_spacing m.

Lemma kept_refl W m : invariants_kept W m m.
Proof. repeat split. Qed.
Lemma kept_trans W m1 m2 m3 : invariants_kept W m1 m2 -> invariants_kept W m2 m3 -> invariants_kept W m1 m3.
Proof. intros (A & B & C & D & E) (A' & B' & C' & D' & E'). repeat split; congruence. Qed.
Lemma checked_kept W m m' k : check_move W m m' k = true -> invariants_kept W m m'.
Proof.
  intros C. apply check_move_spec in C as (_ & _ & A & B & D & E & d & Hd & HG). repeat split; try assumption.
  rewrite HG. unfold move_delta in Hd. unfold euler.
  destruct (k =? TWO_THREE); [injection Hd as <-; cbn; lia|]. destruct (k =? THREE_TWO); [injection Hd as <-; cbn; lia|].
  destruct (k =? TWO_SIX); [injection Hd as <-; cbn; lia|]. destruct (k =? SIX_TWO); [injection Hd as <-; cbn; lia|].
  destruct (k =? FOUR_FOUR); [injection Hd as <-; cbn; lia|discriminate].
Qed.
(** ... and the manifold is again valid and causal. *)
Definition well_formed (W : world) (m : manifold) : Prop := valid (m_cells m) /\ causal (label_of W m) (m_cells m).
Lemma checked_well_formed W m m' k : check_move W m m' k = true -> well_formed W m'.
Proof. intros C. apply check_move_spec in C as (A & B & _). split; assumption. Qed.

Lemma chain_kept {G} W (api : move_api manifold G) m n m' : validated_chain api (check_move W) m n m' ->
  invariants_kept W m m' /\ (well_formed W m -> well_formed W m').
Proof.
  induction 1 as [m|m k g cand g1 n m' _ C _ [IH1 IH2]]; [split; [apply kept_refl|auto]|].
  split; [eapply kept_trans; [eapply checked_kept; exact C|exact IH1]|].
  intros _. apply IH2. eapply checked_well_formed. exact C.
Qed.

Lemma command_kept {G} W (api : move_api manifold G) (c : command manifold) g c' g' u :
  counters_ok c -> execute api (check_move W) c g = Ret (c', g') u ->
  invariants_kept W (cm_manifold c) (cm_manifold c') /\ (well_formed W (cm_manifold c) -> well_formed W (cm_manifold c')).
Proof. intros Hc H. apply execute_chain in H as (n & H & _); [|exact Hc]. eapply chain_kept. exact H. Qed.

Lemma history_kept {G} W (api : move_api manifold G) m g h m' g' : history api (check_move W) m g h m' g' ->
  invariants_kept W m m' /\ (well_formed W m -> well_formed W m').
Proof. intros H. apply history_chain in H. eapply chain_kept. exact H. Qed.

Lemma command_throw_kept {G} W (api : move_api manifold G) (c : command manifold) g c' g' x :
  counters_ok c -> execute api (check_move W) c g = Thr (c', g') x ->
  invariants_kept W (cm_manifold c) (cm_manifold c') /\ (well_formed W (cm_manifold c) -> well_formed W (cm_manifold c')).
Proof.
  intros Hc H. apply exception_commits_prefix in H; [|exact Hc]. destruct H as (h & m & rest & gm & _ & _ & _ & H & _).
  eapply history_kept. exact H.
Qed.

Lemma passes_kept {SS} W N3 (m : manifold) (s : SS) ps m' s' : chained N3 m s ps m' s' ->
  Forall (fun x => invariants_kept W (rec_start x) (pr_manifold (rec_result x)) /\
                   (well_formed W (rec_start x) -> well_formed W (pr_manifold (rec_result x)))) ps ->
  invariants_kept W m m' /\ (well_formed W m -> well_formed W m').
Proof.
  induction 1 as [m s|m s p l m' s' _ IH]; intros F; [split; [apply kept_refl|auto]|].
  apply Forall_cons in F as [[A B] F]. cbn [rec_start rec_result] in A, B. destruct (IH F) as [C D].
  split; [eapply kept_trans; eassumption|auto].
Qed.

Lemma move_always_kept {G X} W N3 (api : move_api manifold G) draw print write s (w : X) man s' w' man' :
  cadence_ok (ma_cadence s) ->
  ma_run N3 api (check_move W) draw print write s w man = Ret (s', w') man' ->
  invariants_kept W man man' /\ (well_formed W man -> well_formed W man').
Proof.
  intros Hc H. apply ma_run_Ret in H as (ps & _ & Hch & Hf & _); [|exact Hc].
  eapply passes_kept; [exact Hch|]. eapply Forall_impl; [exact Hf|]. cbn. intros x (_ & h & g1 & g2 & _ & Hh).
  eapply history_kept. exact Hh.
Qed.

Section Metropolis.
  Context {G P X : Type}.
  Variable W : world.
  Variable geometry : manifold -> Geometry.
  Variable propose : move_api manifold G.
  Variable accept : Geometry -> Geometry -> MoveType -> P + exn.
  Variable at_least : P -> fp -> bool.
  Variable draw_int : Z -> Z -> G -> Z * G.
  Variable draw_p : G -> fp * G.

  Lemma step_kept cur g m t o cur' g' :
    markov_step geometry propose (check_move W) accept at_least cur g m t o cur' g' ->
    invariants_kept W cur cur' /\ (well_formed W cur -> well_formed W cur').
  Proof.
    destruct 1; try (split; [apply kept_refl|auto]; fail).
    split; [eapply checked_kept; eassumption|]. intros _. eapply checked_well_formed. eassumption.
  Qed.
  Lemma sampled_kept cur g h cur' g' :
    sampled_chain geometry propose (check_move W) accept at_least draw_int draw_p cur g h cur' g' ->
    invariants_kept W cur cur' /\ (well_formed W cur -> well_formed W cur').
  Proof.
    induction 1 as [cur g|cur g m g1 t g2 o cur' g' h cur'' g'' _ _ _ _ Hs _ [IH1 IH2]]; [split; [apply kept_refl|auto]|].
    apply step_kept in Hs as [A B]. split; [eapply kept_trans; eassumption|auto].
  Qed.
  Lemma run_kept man hs man' : run_chain geometry propose (check_move W) accept at_least draw_int draw_p man hs man' ->
    invariants_kept W man man' /\ (well_formed W man -> well_formed W man').
  Proof.
    induction 1 as [m|m g h m' g' hs m'' _ Hc _ [IH1 IH2]]; [split; [apply kept_refl|auto]|].
    apply sampled_kept in Hc as [A B]. split; [eapply kept_trans; eassumption|auto].
  Qed.
  Lemma metropolis_kept max_time update print write (x : metropolis G) (w : X) man x' w' man' :
    (forall g m g', draw_int 0 4 g = (m, g') -> supported m) -> cadence_ok (mh_cadence x) ->
    mh_run geometry propose (check_move W) accept at_least draw_int draw_p max_time update print write x w man = Ret (x', w') man' ->
    invariants_kept W man man' /\ (well_formed W man -> well_formed W man').
  Proof.
    intros HD Hc H. apply metropolis_run in H as (hs & _ & _ & Hr & _); [|assumption..]. eapply run_kept. exact Hr.
  Qed.
  Lemma attempt_kept (x : metropolis G) cur m t x' cur' r :
    attempt_transition geometry propose (check_move W) accept at_least x cur m t = Ret (x', cur') r ->
    invariants_kept W cur cur' /\ (well_formed W cur -> well_formed W cur').
  Proof.
    intros H. apply state_changes_only_on_acceptance in H as (_ & A & B & _).
    destruct (tr_outcome r) eqn:E; try (rewrite A by discriminate; split; [apply kept_refl|auto]; fail).
    destruct (B eq_refl) as (g' & p & _ & C & _). split; [eapply checked_kept; exact C|]. intros _. eapply checked_well_formed. exact C.
  Qed.
End Metropolis.
