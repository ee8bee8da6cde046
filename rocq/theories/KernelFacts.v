From Verif Require Import Base Tracker Command Run Geom Metropolis Simplex Pachner Foliation Moves Links MoveCore MoveTools Move23 Move44 Move26 Move26Site Move62Site MoveSpec MoveSound Manifold ManifoldFacts ManifoldMoves ClassFacts Reverse Reverse44 PropsRunLemmas MoveProps Select NoThrow Samples Undo ApplySpec Apply Mp Action Acceptance KernelSpec.
From stdpp Require Import fin_sets gmap sorting.
From Verif Require Import Base Foliation Metropolis.
Local Open Scope Z_scope.

(** ** The sites *)
Lemma filter_elements_size (P : simplex -> bool) (S : gset simplex) :
  Z.of_nat (length (elements (filter (fun s => P s = true) S))) = count P S.
Proof. unfold count, size, set_size. reflexivity. Qed.

Lemma vertices_count T : Z.of_nat (length (vertex_sites T)) = n0 T.
Proof.
  unfold n0. rewrite <- filter_elements_size. f_equal.
  rewrite <- (fmap_length (fun v : vertex => (of_list [v] : simplex)) (vertex_sites T)).
  apply Permutation_length. apply NoDup_Permutation.
  - apply NoDup_fmap_2; [|unfold vertex_sites; apply NoDup_elements]. intros v w H.
    assert (K : v ∈ of_list [w]) by (rewrite <- H, elem_of_of_list; set_solver +).
    rewrite elem_of_of_list in K. set_solver + K.
  - apply NoDup_elements.
  - intros s. rewrite elem_of_list_fmap, elem_of_elements, elem_of_filter, elem_of_faces. split.
    + intros (v & -> & Hv). unfold vertex_sites in Hv.
      apply elem_of_elements, (elem_of_finite_vertices (fun _ => 0)) in Hv as [A (c & B & C)]. split.
      * apply finite_spec. rewrite elem_of_of_list, elem_of_list_singleton. congruence.
      * split; [apply of_list_size; repeat constructor; apply not_elem_of_nil|]. exists c. split; [exact B|].
        intros y. rewrite elem_of_of_list, elem_of_list_singleton. intros ->. exact C.
    + intros (F & Sz & c & Hc & Sub). apply size_1_elem_of in Sz as [v E].
      assert (s = {[v]}) as -> by (apply leibniz_equiv; exact E). exists v. split.
      * apply set_eq. intros y. rewrite elem_of_of_list. set_solver +.
      * unfold vertex_sites. apply elem_of_elements, (elem_of_finite_vertices (fun _ => 0)). split.
        -- intros ->. apply finite_spec in F. apply F. set_solver +.
        -- exists c. split; [exact Hc|]. apply Sub. set_solver +.
Qed.

Section Sites.
  Variable W : world.
  (** The sites of a kind, as sets of vertices. *)
  Definition sites_of (m : manifold) (k : MoveType) : list simplex :=
    if k =? TWO_THREE then sites_23 W m else if k =? THREE_TWO then sites_32 W m
    else if k =? TWO_SIX then sites_26 W m else if k =? SIX_TWO then map (fun v => {[v]}) (sites_62 m)
    else if k =? FOUR_FOUR then sites_44 W m else [].

  Lemma sites_of_count m k : length (sites_of m k) = indices W m k.
  Proof.
    enough (E : Z.of_nat (length (sites_of m k)) = proposal_site_count (geometry_m W m) k) by (unfold indices; lia).
    unfold sites_of, proposal_site_count, geometry_m, geometry_of. cbn.
    assert (L : forall l, length (canonicalize l) = length l).
    { intros l. apply Permutation_length, merge_sort_Permutation. }

    assert (CE : forall t, Z.of_nat (length (cell_sites (label_of W m) (w_junk W) t (m_cells m))) = n3_of (label_of W m) t (m_cells m)).
    { intros t. unfold n3_of. rewrite <- filter_elements_size. unfold cell_sites. f_equal.
      apply Permutation_length, NoDup_Permutation; [apply NoDup_elements..|].
      intros c. rewrite !elem_of_elements, !elem_of_filter. unfold finite_of_type, cell_info.
      destruct (finite_simplex c); cbn; tauto. }
    destruct (k =? TWO_THREE); [unfold sites_23; rewrite L; apply CE|].
    destruct (k =? THREE_TWO); [unfold sites_32; rewrite L; apply filter_elements_size|].
    destruct (k =? TWO_SIX); [unfold sites_26; rewrite L; apply CE|].
    destruct (k =? SIX_TWO).
    { rewrite map_length. unfold sites_62. rewrite (Permutation_length (merge_sort_Permutation Pos.le (vertex_sites (m_cells m)))). apply vertices_count. }
    destruct (k =? FOUR_FOUR); [unfold sites_44; rewrite L; apply filter_elements_size|reflexivity].
  Qed.

  Lemma sites_of_NoDup m k : NoDup (sites_of m k).
  Proof.
    assert (C : forall l, NoDup l -> NoDup (canonicalize l)).
    { intros l H. unfold canonicalize. rewrite merge_sort_Permutation. exact H. }
    unfold sites_of. repeat match goal with |- context [if ?b then _ else _] => destruct b end;
      try (apply C, NoDup_elements); [|constructor].
    apply NoDup_fmap_2; [intros v w H; set_solver + H|]. unfold sites_62. rewrite merge_sort_Permutation. unfold vertex_sites. apply NoDup_elements.
  Qed.
End Sites.

(** ** Candidates *)
Section Candidates.
  Variable W : world.
  Context {G : Type}.
  Variable R : choices G.
  Hypothesis SP : forall A (l : list A) g, fst (shuffle R A l g) ≡ₚ l.
  Variable escape : manifold -> G -> move_result manifold * G.
  Hypothesis ES : stays_modelled escape.

  Lemma make_Moved T m m' : make_manifold T m = Moved m' <->
    finite_vertices T <> ∅ /\ m_cells m' = T /\ m_radius m' = m_radius m /\ m_spacing m' = m_spacing m.
  Proof.
    unfold make_manifold. case_bool_decide as E; [split; [discriminate|tauto]|].
    split; [intros [= <-]; auto|]. intros (_ & A & B & C). destruct m' as [c r s]. cbn in *. congruence.
  Qed.
  Lemma finish_iff m k r m' : fst (finish escape m k r) = Moved m' <->
    exists T, fst r = Done T /\ finite_vertices T <> ∅ /\ m_cells m' = T /\ m_radius m' = m_radius m /\ m_spacing m' = m_spacing m.
  Proof using ES.
    destruct r as [[T|e|] g]; cbn.
    - rewrite make_Moved. split; [intros H; exists T; auto|intros (T' & [= <-] & H); exact H].
    - split; [discriminate|intros (T & H & _); discriminate].
    - split; [intros H; destruct (ES m g m' H)|intros (T & H & _); discriminate].
  Qed.
  Lemma propose_one_iff {S P} kind sites (prepare : S -> outcome P) execute m g m' :
    fst (propose_one R escape m kind sites prepare execute g) = Moved m' <->
    exists s p, nth_error sites (fst (draw_index R (length sites) g)) = Some s /\ prepare s = Done p /\
      exists T, fst (execute s p (snd (draw_index R (length sites) g))) = Done T /\
        finite_vertices T <> ∅ /\ m_cells m' = T /\ m_radius m' = m_radius m /\ m_spacing m' = m_spacing m.
  Proof using ES.
    unfold propose_one, canonical_random_element. destruct sites as [|s0 r].
    { split; [discriminate|]. intros (s & p & H & _). destruct (fst (draw_index R _ g)); discriminate H. }
    destruct (draw_index R (length (s0 :: r)) g) as [i g1]. cbn [fst snd].
    destruct (nth_error (s0 :: r) i) as [s|]; [|split; [discriminate|intros (s & p & H & _); discriminate]].
    destruct (prepare s) as [p|e|] eqn:Ep.
    - rewrite finish_iff. split.
      + intros (T & H). exists s, p. split; [reflexivity|]. split; [exact Ep|]. exists T. exact H.
      + intros (s' & p' & [= <-] & Ep' & T & H). rewrite Ep in Ep'. injection Ep' as <-. exists T. exact H.
    - split; [discriminate|]. intros (s' & p' & [= <-] & Ep' & _). congruence.
    - split; [intros H; destruct (ES m g1 m' H)|]. intros (s' & p' & [= <-] & Ep' & _). congruence.
  Qed.

  Lemma bind_Done {A B} (x : outcome A) (f : A -> outcome B) b : Moves.bind x f = Done b <-> exists a, x = Done a /\ f a = Done b.
  Proof. destruct x; cbn; split; try discriminate; try (intros (? & [=] & ?); congruence); eauto. Qed.

  (** A proposal yields [m'] exactly when the site at the drawn index does. *)
  Lemma candidate_at m k g m' : valid (m_cells m) ->
    fst (propose_candidate (propose_api W R escape) m k g) = Moved m' <->
    exists s, nth_error (sites_of W m k) (fst (draw_index R (indices W m k) g)) = Some s /\
      site_gives W m k s (m_cells m') /\ m_radius m' = m_radius m /\ m_spacing m' = m_spacing m.
  Proof using SP ES.
    intros V. rewrite <- sites_of_count. unfold propose_candidate, sites_of.
    assert (NE : forall s, site_gives W m k s (m_cells m') -> finite_vertices (m_cells m') <> ∅).
    { intros s H. apply (site_nonempty W m k); [exact V|]. apply site_gives_from. eauto. }
    destruct (k =? TWO_THREE) eqn:K1; [apply Z.eqb_eq in K1 as ->|].
    { cbn [api_23 propose_api]. unfold propose_23. rewrite propose_one_iff. split.
      - intros (s & p & Hs & Hp & T & He & _ & <- & A & B). exists s. split; [exact Hs|]. split; [|auto].
        left. split; [reflexivity|]. split; [eapply elem_of_list_In, nth_error_In, Hs|].
        unfold move_23. apply bind_Done. exists p. split; [exact Hp|exact He].
      - intros (s & Hs & H & A & B). pose proof (NE _ H) as N.
        destruct H as [(_ & _ & H)|[(K & _)|[(K & _)|[(K & _)|(K & _)]]]]; [|discriminate K..].
        unfold move_23 in H. apply bind_Done in H as (p & Hp & He). exists s, p. split; [exact Hs|]. split; [exact Hp|].
        exists (m_cells m'). cbn. auto. }
    destruct (k =? THREE_TWO) eqn:K2; [apply Z.eqb_eq in K2 as ->|].
    { cbn [api_32 propose_api]. unfold propose_32. rewrite propose_one_iff. split.
      - intros (s & p & Hs & Hp & T & He & _ & <- & A & B). exists s. split; [exact Hs|]. split; [|auto].
        right; left. split; [reflexivity|]. split; [eapply elem_of_list_In, nth_error_In, Hs|].
        unfold move_32. apply bind_Done. exists p. split; [exact Hp|exact He].
      - intros (s & Hs & H & A & B). pose proof (NE _ H) as N.
        destruct H as [(K & _)|[(_ & _ & H)|[(K & _)|[(K & _)|(K & _)]]]]; [discriminate K| |discriminate K..].
        unfold move_32 in H. apply bind_Done in H as (p & Hp & He). exists s, p. split; [exact Hs|]. split; [exact Hp|].
        exists (m_cells m'). cbn. auto. }
    destruct (k =? TWO_SIX) eqn:K3; [apply Z.eqb_eq in K3 as ->|].
    { cbn [api_26 propose_api]. unfold propose_26, do_26_impl, canonical_random_element. split.
      - intros H. destruct (sites_26 W m) as [|s0 r] eqn:E26; [discriminate H|]. revert H.
        destruct (draw_index R (length (s0 :: r)) g) as [i g1]. cbn [fst snd].
        destruct (nth_error (s0 :: r) i) as [s|] eqn:Hs; [|discriminate].
        rewrite finish_iff. intros (T & HT & _ & <- & A & B). exists s. split; [reflexivity|]. split; [|auto].
        right; right; left. split; [reflexivity|]. split; [rewrite E26; eapply elem_of_list_In, nth_error_In, Hs|].
        unfold move_26. apply bind_Done. cbn in HT. unfold prep_26 in HT.
        destruct (prepare_26 (label_of W m) (w_junk W) (m_cells m) s) as [p|e|]; [|discriminate HT..].
        exists p. split; [reflexivity|]. unfold exec_26 in HT.
        destruct (execute_26 (w_locates W) (w_centroid W) (m_cells m) s (snd p)); cbn in HT; congruence.
      - intros (s & Hs & H & A & B). pose proof (NE _ H) as N.
        destruct H as [(K & _)|[(K & _)|[(_ & _ & H)|[(K & _)|(K & _)]]]]; [discriminate K|discriminate K| |discriminate K..].
        unfold move_26 in H. apply bind_Done in H as (p & Hp & He).
        destruct (sites_26 W m) as [|s0 r]; [destruct (fst (draw_index R _ g)); discriminate Hs|]. revert Hs.
        destruct (draw_index R (length (s0 :: r)) g) as [i g1]. cbn [fst snd]. intros ->.
        rewrite finish_iff. exists (m_cells m'). split; [|auto]. cbn [try_sites]. unfold prep_26. rewrite Hp.
        unfold exec_26. rewrite He. reflexivity. }
    destruct (k =? SIX_TWO) eqn:K4; [apply Z.eqb_eq in K4 as ->|].
    { cbn [api_62 propose_api]. unfold propose_62. rewrite propose_one_iff, map_length.
      set (i := fst (draw_index R (length (sites_62 m)) g)). set (g1 := snd (draw_index R (length (sites_62 m)) g)).
      assert (EX : forall v p T, fst (exec_62 W R m v p g1) = Done T <->
        exists edges, w_locates W (m_cells m) v = true /\ edges = fst (shuffle R simplex (canonicalize (finite_incident_edges (m_cells m) v)) g1) /\
          execute_62 (label_of W m) (w_locates W) (m_cells m) v edges = Done T).
      { intros v p T. unfold exec_62. destruct (w_locates W (m_cells m) v); cbn [negb]; [|split; [discriminate|intros (? & [=] & _)]].
        destruct (shuffle R simplex _ g1) as [edges g2]. cbn [fst]. split; [eauto|intros (x & _ & -> & H); exact H]. }
      assert (PE : forall v, fst (shuffle R simplex (canonicalize (finite_incident_edges (m_cells m) v)) g1) ≡ₚ finite_incident_edges (m_cells m) v).
      { intros v. rewrite SP. apply merge_sort_Permutation. }
      split.
      - intros (v & p & Hs & Hp & T & He & _ & <- & A & B). exists {[v]}.
        split; [apply map_nth_error, Hs|]. split; [|auto]. apply EX in He as (edges & HL & -> & He).
        right; right; right; left. split; [reflexivity|]. eexists v, _. split; [reflexivity|].
        split; [eapply elem_of_list_In, nth_error_In, Hs|]. split; [apply PE|].
        unfold move_62. apply bind_Done. exists p. split; [exact Hp|exact He].
      - intros (s & Hs & H & A & B). pose proof (NE _ H) as N.
        destruct H as [(K & _)|[(K & _)|[(K & _)|[(_ & v & edges & -> & Hv & HE & H)|(K & _)]]]]; [discriminate K|discriminate K|discriminate K| |discriminate K].
        apply (exact_62 _ _ _ _ _ _ _ V HE) in H. pose proof H as (_ & _ & _ & _ & _ & _ & _ & HL & _).
        apply (exact_62 _ (w_junk W) _ _ _ _ _ V (PE v)) in H.
        unfold move_62 in H. apply bind_Done in H as (p & Hp & He).
        rewrite nth_error_map in Hs. destruct (nth_error (sites_62 m) i) as [v'|] eqn:Ev; [|discriminate Hs].
        cbn in Hs. assert (v' = v) as -> by (assert (E : ({[v']} : simplex) = {[v]}) by congruence; set_solver + E).
        exists v, p. split; [reflexivity|]. split; [exact Hp|]. exists (m_cells m'). split; [|auto]. apply EX. eauto. }
    destruct (k =? FOUR_FOUR) eqn:K5; [apply Z.eqb_eq in K5 as ->|].
    { cbn [api_44 propose_api]. unfold propose_44. rewrite propose_one_iff. split.
      - intros (s & p & Hs & Hp & T & He & _ & <- & A & B). exists s. split; [exact Hs|]. split; [|auto].
        right; right; right; right. split; [reflexivity|]. split; [eapply elem_of_list_In, nth_error_In, Hs|].
        unfold move_44. apply bind_Done. exists p. split; [exact Hp|exact He].
      - intros (s & Hs & H & A & B). pose proof (NE _ H) as N.
        destruct H as [(K & _)|[(K & _)|[(K & _)|[(K & _)|(_ & _ & H)]]]]; [discriminate K..|].
        unfold move_44 in H. apply bind_Done in H as (p & Hp & He). exists s, p. split; [exact Hs|]. split; [exact Hp|].
        exists (m_cells m'). cbn. auto. }
    split; [discriminate|]. intros (s & Hs & _). destruct (fst (draw_index R _ g)); discriminate Hs.
  Qed.
End Candidates.
