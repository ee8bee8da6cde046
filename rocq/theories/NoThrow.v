(** C21: a transition on a valid manifold never throws. *)
From Verif Require Import Base Tracker Command Run Geom Metropolis Mp Action Acceptance Simplex Pachner Foliation Moves Links MoveCore MoveTools Move23 Move44 Move26 Move26Site Move62Site MoveSpec MoveSound Manifold ManifoldFacts ManifoldMoves MoveProps.
From Coq Require Import Reals.
From stdpp Require Import fin_sets gmap sorting.
From Verif Require Import Foliation.
Local Open Scope Z_scope.

(** When the program leaves the modelled state space it reports a failure. *)
Definition escapes_fail {G} (escape : manifold -> G -> move_result manifold * G) : Prop :=
  forall m g, exists e, fst (escape m g) = Failed e.
Lemma escapes_fail_modelled {G} (escape : manifold -> G -> move_result manifold * G) :
  escapes_fail escape -> stays_modelled escape.
Proof. intros H m g m'. destruct (H m g) as [e ->]. discriminate. Qed.

Lemma finite_vertices_of x T : x ∈ vertices T -> x <> infinite -> finite_vertices T <> ∅.
Proof.
  intros H E K. assert (Hx : x ∈ finite_vertices T) by (unfold finite_vertices; set_solver + H E). rewrite K in Hx. set_solver + Hx.
Qed.
Lemma cell_vertex x c (T : tds) : x ∈ c -> c ∈ T -> x ∈ vertices T.
Proof. intros A B. apply elem_of_vertices. eauto. Qed.

Lemma site_nonempty W m k T' : valid (m_cells m) -> from_site W m k T' -> finite_vertices T' <> ∅.
Proof.
  intros V H. pose proof H as [[-> _]|[[-> _]|[[-> (c0 & Hc0 & Hm)]|[[-> _]|[-> _]]]]].
  - destruct (effect_23 W m T' V H) as (_ & _ & v & w & a & b & x & (N & F & RP & _) & _).
    apply (finite_vertices_of v); [|intros ->; apply F; set_solver +].
    apply (cell_vertex _ (of_list [v; w; a; b])); [rewrite elem_of_of_list; set_solver +|]. apply RP. right. set_solver +.
  - destruct (effect_32 W m T' V H) as (_ & _ & v & w & a & b & x & (N & F & RP & _)).
    apply (finite_vertices_of v); [|intros ->; apply F; set_solver +].
    apply (cell_vertex _ (of_list [v; a; b; x])); [rewrite elem_of_of_list; set_solver +|]. apply RP. set_solver +.
  - apply site_cell in Hc0 as (_ & F0 & _).
    apply move_26_raw in Hm as (a & b & c & d & e & N & F & _ & ok1 & ok2 & -> & _); try assumption.
    destruct (vertices_26 _ _ _ _ _ _ _ N ok1 ok2) as [E _].
    apply (finite_vertices_of (w_centroid W (of_list [a; b; c]))); [rewrite E; set_solver +|].
    intros E'. apply F. rewrite <- E'. set_solver +.
  - destruct (effect_62 W m T' V H) as (_ & a & b & c & v & d & e & (N & F & RP & _) & _).
    apply (finite_vertices_of a); [|intros ->; apply F; set_solver +].
    apply (cell_vertex _ (of_list [a; b; c; d])); [rewrite elem_of_of_list; set_solver +|]. apply RP. set_solver +.
  - destruct (effect_44 W m T' V H) as (_ & _ & p & q & a & b & top & bot & (N & F & RP & _)).
    apply (finite_vertices_of p); [|intros ->; apply F; set_solver +].
    apply (cell_vertex _ (of_list [p; a; b; top])); [rewrite elem_of_of_list; set_solver +|]. apply RP. right. set_solver +.
Qed.

Section Propose.
  Variable W : world.
  Context {G : Type}.
  Variable R : choices G.
  Hypothesis RO : choices_ok R.
  Variable escape : manifold -> G -> move_result manifold * G.
  Hypothesis EF : escapes_fail escape.

  Lemma finish_Raised m k r x g' : finish escape m k r = (Raised x, g') ->
    exists T g, r = (Done T, g) /\ finite_vertices T = ∅.
  Proof using EF.
    destruct r as [[T|e|] g]; cbn; [|discriminate|].
    - unfold make_manifold. destruct (bool_decide (finite_vertices T = ∅)) eqn:E; intros [= <- <-].
      apply bool_decide_eq_true in E. eauto.
    - intros H. destruct (EF m g) as [e He]. rewrite H in He. discriminate.
  Qed.

  Lemma propose_one_Raised {S P} m k (sites : list S) (prepare : S -> outcome P) execute g x g' :
    propose_one R escape m k sites prepare execute g = (Raised x, g') ->
    exists s p (g0 g1 : G) T, s ∈ sites /\ prepare s = Done p /\ execute s p g0 = (Done T, g1) /\ finite_vertices T = ∅.
  Proof using EF.
    unfold propose_one. destruct (canonical_random_element R sites g) as [[s|] g1] eqn:E; [|discriminate].
    apply random_element_In in E. destruct (prepare s) as [p|e|] eqn:Ep; [|discriminate|].
    - intros H. apply finish_Raised in H as (T & g2 & Ee & K). exists s, p, g1, g2, T. auto.
    - intros H. destruct (EF m g1) as [e He]. rewrite H in He. discriminate.
  Qed.

  Lemma do_26_Raised m b g x g' : do_26_impl W R escape m b g = (Raised x, g') ->
    exists c p (g0 g1 : G) T, c ∈ sites_26 W m /\ prep_26 W m c = Done p /\ exec_26 W m c p g0 = (Done T, g1) /\ finite_vertices T = ∅.
  Proof using EF RO.
    unfold do_26_impl. destruct (sites_26 W m) as [|c0 r] eqn:Es; [discriminate|]. rewrite <- Es. clear Es c0 r.
    destruct b.
    - destruct (canonical_random_element R (sites_26 W m) g) as [[c|] g1] eqn:E; [|discriminate].
      apply random_element_In in E. intros H. apply finish_Raised in H as (T & g2 & Ee & K).
      apply try_sites_Done in Ee as (s & p & g0 & Hs & Hp & He). apply elem_of_list_singleton in Hs as ->.
      exists c, p, g0, g2, T. auto.
    - pose proof (shuffle_perm R RO _ (sites_26 W m) g) as HP.
      destruct (shuffle R simplex (sites_26 W m) g) as [order g1]. cbn [fst] in HP.
      intros H. apply finish_Raised in H as (T & g2 & Ee & K).
      apply try_sites_Done in Ee as (s & p & g0 & Hs & Hp & He). exists s, p, g0, g2, T. split; [|auto].
      rewrite <- HP. exact Hs.
  Qed.

  Lemma propose_same k m g : propose_candidate (propose_api W R escape) m k g = apply_random_move (propose_api W R escape) m k g.
  Proof. reflexivity. Qed.

  Lemma propose_never_raises k m g x g' : valid (m_cells m) ->
    apply_random_move (propose_api W R escape) m k g <> (Raised x, g').
  Proof using EF RO.
    intros V H. assert (K : exists T, from_site W m k T /\ finite_vertices T = ∅);
      [|destruct K as (T & K & E); exact (site_nonempty W m k T V K E)].
    revert H. unfold apply_random_move.
    destruct (k =? TWO_THREE) eqn:K1; [apply Z.eqb_eq in K1 as ->|].
    { intros H. apply propose_one_Raised in H as (s & p & g0 & g1 & T & Hs & Hp & He & K). exists T. split; [|exact K].
      left. split; [reflexivity|]. exists s. split; [exact Hs|]. unfold move_23, bind.
      unfold prep_23 in Hp. rewrite Hp. unfold exec_23 in He. injection He as He _. exact He. }
    destruct (k =? THREE_TWO) eqn:K2; [apply Z.eqb_eq in K2 as ->|].
    { intros H. apply propose_one_Raised in H as (s & p & g0 & g1 & T & Hs & Hp & He & K). exists T. split; [|exact K].
      right; left. split; [reflexivity|]. exists s. split; [exact Hs|]. unfold move_32, bind.
      unfold prep_32 in Hp. rewrite Hp. unfold exec_32 in He. injection He as He _. exact He. }
    destruct (k =? TWO_SIX) eqn:K3; [apply Z.eqb_eq in K3 as ->|].
    { intros H. apply do_26_Raised in H as (s & p & g0 & g1 & T & Hs & Hp & He & K). exists T. split; [|exact K].
      right; right; left. split; [reflexivity|]. exists s. split; [exact Hs|]. unfold move_26, bind.
      unfold prep_26 in Hp. rewrite Hp. unfold exec_26 in He. injection He as He _. exact He. }
    destruct (k =? SIX_TWO) eqn:K4; [apply Z.eqb_eq in K4 as ->|].
    { intros H. apply propose_one_Raised in H as (s & p & g0 & g1 & T & Hs & Hp & He & K). exists T. split; [|exact K].
      right; right; right; left. split; [reflexivity|]. unfold exec_62 in He.
      destruct (w_locates W (m_cells m) s) eqn:El; cbn [negb] in He; [|discriminate].
      pose proof (shuffle_perm R RO _ (canonicalize (finite_incident_edges (m_cells m) s)) g0) as HP.
      destruct (shuffle R simplex (canonicalize (finite_incident_edges (m_cells m) s)) g0) as [edges g2]. cbn [fst] in HP.
      injection He as He _. exists s, edges. split; [exact Hs|]. split.
      - rewrite HP. apply merge_sort_Permutation.
      - unfold move_62, bind. unfold prep_62 in Hp. rewrite Hp. exact He. }
    destruct (k =? FOUR_FOUR) eqn:K5; [apply Z.eqb_eq in K5 as ->|].
    { intros H. apply propose_one_Raised in H as (s & p & g0 & g1 & T & Hs & Hp & He & K). exists T. split; [|exact K].
      right; right; right; right. split; [reflexivity|]. exists s. split; [exact Hs|]. unfold move_44, bind.
      unfold prep_44 in Hp. rewrite Hp. unfold exec_44 in He. injection He as He _. exact He. }
    discriminate.
  Qed.

  (** All counts leave room for one more move below the limit of [int]. *)
  Definition room (g : Geometry) : Prop :=
    Forall (fun n => n <= INT32_MAX - 8) [gN3_22 g; gN1_TL g; gN3_13 g; gN0 g; gN1_SL g; gN3_31_13 g].

  Lemma room_range m : room (geometry_m W m) -> counts_in_range (geometry_m W m).
  Proof.
    unfold room, counts_in_range, geometry_m, geometry_of, in_int32. cbn [gN3_22 gN1_TL gN3_13 gN0 gN1_SL gN3_31_13].
    intros H. rewrite !Forall_cons in H. destruct H as (H1 & H2 & H3 & H4 & H5 & H6 & _).
    pose proof (count_nonneg (finite_of_type (label_of W m) THREE_ONE) (m_cells m)) as Q.
    destruct (counts_nonneg (label_of W m) (m_cells m)) as (P1 & P2 & P3 & P4 & P5).
    unfold n3_of in *. unfold INT32_MIN, INT32_MAX in *. lia.
  Qed.
  Lemma room_after m m' k : room (geometry_m W m) -> check_move W m m' k = true -> counts_in_range (geometry_m W m').
  Proof.
    intros H C. pose proof (room_range m H) as (A1 & A2 & A3 & A4 & A5 & A6).
    apply check_move_spec in C as (_ & _ & _ & _ & _ & _ & d & Hd & HG). rewrite HG.
    unfold room in H. rewrite !Forall_cons in H. destruct H as (H1 & H2 & H3 & H4 & H5 & H6 & _).
    assert (D : (-8 <= gN3_22 d <= 8 /\ -8 <= gN1_TL d <= 8 /\ -8 <= gN3_13 d <= 8 /\ -8 <= gN0 d <= 8 /\ -8 <= gN1_SL d <= 8 /\ -8 <= gN3_31_13 d <= 8)).
    { unfold move_delta in Hd. repeat (destruct (k =? _); [injection Hd as <-; cbn; lia|]). discriminate. }
    assert (NN : 0 <= gN3_22 (geometry_m W m) /\ 0 <= gN1_TL (geometry_m W m) /\ 0 <= gN3_13 (geometry_m W m) /\
                 0 <= gN0 (geometry_m W m) /\ 0 <= gN1_SL (geometry_m W m) /\ 0 <= gN3_31_13 (geometry_m W m)).
    { unfold geometry_m, geometry_of. cbn. destruct (counts_nonneg (label_of W m) (m_cells m)) as (P1 & P2 & P3 & P4 & P5).
      pose proof (count_nonneg (finite_of_type (label_of W m) THREE_ONE) (m_cells m)) as Q. unfold n3_of in *. lia. }
    clear HG Hd. set (g := geometry_m W m) in *. clearbody g.
    unfold counts_in_range, in_int32, INT32_MIN, INT32_MAX in *. unfold geometry_plus.
    cbn [gN3_22 gN1_TL gN3_13 gN0 gN1_SL gN3_31_13]. lia.
  Qed.

  Lemma candidate_acceptance round p k m g cand g' : rounding round -> valid_parameters p -> params_in_range p ->
    valid (m_cells m) -> room (geometry_m W m) ->
    apply_random_move (propose_api W R escape) m k g = (Moved cand, g') -> check_move W m cand k = true ->
    exists r a, reverse_move k = Some r /\
      0 < proposal_site_count (geometry_m W m) k /\ 0 < proposal_site_count (geometry_m W cand) r /\
      acceptance_probability round p (geometry_m W m) (geometry_m W cand) k = inl (PNum a) /\ (0 <= a <= 1)%R.
  Proof using RO EF.
    intros HR HP HQ V HM H C.
    destruct (proposed_site_counts W R escape k m cand RO (escapes_fail_modelled _ EF) V ltac:(exists g, g'; auto) C) as (r & Hr & A & B).
    destruct (acceptance_in_unit round HR p _ _ k r HP HQ (room_range m HM) (room_after m cand k HM C) Hr A B) as (a & E & I).
    exists r, a. auto.
  Qed.

  Lemma transition_never_throws round p (x : metropolis G) cur k t s e :
    rounding round -> valid_parameters p -> params_in_range p -> valid (m_cells cur) -> room (geometry_m W cur) ->
    trial_invalid t = false ->
    attempt_transition (geometry_m W) (propose_api W R escape) (check_move W) (acceptance_probability round p) mp_at_least x cur k t
      <> Thr s e.
  Proof using RO EF.
    intros HR HP HQ V HM HT. unfold attempt_transition, resolve_transition, to_mstate. cbn [ms_cur ms_results ms_stats ms_gen].
    rewrite HT. destruct (reverse_move k) as [r|]; [|discriminate].
    destruct (bump _ k); try discriminate. destruct (bump _ k); try discriminate.
    rewrite propose_same.
    destruct (apply_random_move (propose_api W R escape) cur k (rnd_engine (mh_generator x))) as [[cand|err|ex] g'] eqn:E.
    - destruct (check_move W cur cand k) eqn:C; cbn [negb].
      + destruct (bump (succeeded _) k); try discriminate.
        destruct (candidate_acceptance round p k cur _ cand g' HR HP HQ V HM E C) as (r' & a' & _ & _ & _ & EA & _).
        cbn [st_geometry set_proposed set_geometry]. rewrite EA.
        destruct (mp_at_least (PNum a') t); destruct (bump _ k); discriminate.
      + unfold fail_transition. destruct (bump _ k); try discriminate. destruct (bump _ k); discriminate.
    - unfold fail_transition. destruct (bump _ k); try discriminate. destruct (bump _ k); discriminate.
    - exfalso. exact (propose_never_raises k cur _ ex g' V E).
  Qed.
End Propose.
