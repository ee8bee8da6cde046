(** The searches fail only if no place fits the pattern. *)
From Verif Require Import Base Tracker Command Geom Simplex Pachner Foliation Moves Links MoveCore MoveTools Move23 Move44 Move26 Move26Site Move62Site MoveSpec MoveSound Manifold ManifoldFacts ManifoldMoves ClassFacts Reverse Reverse44 Seams SeamSpec Flip ApplySpec Apply.
From stdpp Require Import fin_sets gmap sorting.
From Verif Require Import Foliation.
Local Open Scope Z_scope.

Section Do.
  Variable W : world.
  Context {G : Type}.
  Variable R : choices G.
  Hypothesis RO : choices_ok R.
  Variable escape : manifold -> G -> move_result manifold * G.
  Hypothesis ER : forall m g, exists x, fst (escape m g) = Raised x.
  Variable m : manifold.
  Let T := m_cells m.
  Let label := label_of W m.
  Hypothesis V : valid T.

  Lemma try_failed {S P} (prepare : S -> outcome P) (execute : S -> P -> G -> outcome tds * G) last order g e g' :
    try_sites prepare execute false last order g = (Fail e, g') ->
    forall s p, s ∈ order -> prepare s = Done p -> exists g1 e1 g2, execute s p g1 = (Fail e1, g2).
  Proof using.
    revert last g. induction order as [|y l IH]; intros last g H s p Hs Hp; [inversion Hs|]. cbn in H.
    destruct (prepare y) as [p'|e'|] eqn:Ey; [|apply elem_of_cons in Hs as [->|Hs]; [congruence|]; eapply IH; eassumption|discriminate].
    destruct (execute y p' g) as [[T1|e1|] g1] eqn:Ex; try discriminate.
    apply elem_of_cons in Hs as [->|Hs]; [|eapply IH; eassumption].
    rewrite Ey in Hp. injection Hp as <-. eauto.
  Qed.
  Lemma do_loop_failed {S P} k (sites : list S) (prepare : S -> outcome P) (execute : S -> P -> G -> outcome tds * G) g err g' :
    do_loop R escape m k sites prepare execute g = (Failed err, g') ->
    forall s p, s ∈ sites -> prepare s = Done p -> exists g1 e1 g2, execute s p g1 = (Fail e1, g2).
  Proof using RO ER.
    unfold do_loop. destruct (shuffle R S sites g) as [order g1] eqn:E. intros H s p Hs Hp.
    pose proof (shuffle_perm R RO S sites g) as HP. rewrite E in HP. cbn [fst] in HP. rewrite <- HP in Hs.
    destruct order as [|y l]; [inversion Hs|].
    destruct (try_sites prepare execute false NO_CANDIDATE (y :: l) g1) as [[T1|e1|] g2] eqn:Et; unfold finish in H.
    - unfold make_manifold in H. destruct (bool_decide _) in H; discriminate.
    - eapply try_failed; eassumption.
    - destruct (ER m g2) as [x Ex]. rewrite H in Ex. discriminate.
  Qed.

  Lemma edge_in_sites tl p q s : p <> q -> infinite ∉ [p; q] -> s ∈ T -> p ∈ s -> q ∈ s ->
    (if tl : bool then label p <> label q else label p = label q) -> of_list [p; q] ∈ canonicalize (edge_sites label tl T).
  Proof using.
    intros N F Hs Hp Hq L. apply elem_of_canonicalize. unfold edge_sites. apply elem_of_elements, elem_of_filter. split.
    - apply andb_true_iff. split; [apply finite_spec; rewrite elem_of_of_list; exact F|].
      destruct tl; [rewrite timelike_of_list by exact N; apply negb_true_iff, Z.eqb_neq, L|rewrite spacelike_of_list by exact N; apply Z.eqb_eq, L].
    - apply elem_of_faces. split; [apply of_list_size; repeat constructor; rewrite ?elem_of_cons, ?elem_of_nil; intuition congruence|].
      exists s. split; [exact Hs|]. apply sub_iff. intros y Hy. cases_list Hy; subst y; assumption.
  Qed.
  Lemma cell_in_sites k c : c ∈ T -> infinite ∉ c -> cell_type label c = k -> c ∈ canonicalize (cell_sites label (w_junk W) k T).
  Proof using.
    intros Hc Fc K. apply elem_of_canonicalize. unfold cell_sites. apply elem_of_elements, elem_of_filter. split; [|exact Hc].
    assert (F : finite_simplex c = true) by (apply finite_spec, Fc). unfold cell_info. rewrite F, K, Z.eqb_refl. reflexivity.
  Qed.

  Lemma fails_32 g err g' : do_32 W R escape m g = (Failed err, g') ->
    ~ exists v w a b x, site_32 label T v w a b x /\ w_locates W T v = true /\ w_locates W T w = true /\ w_geo_edge W T (of_list [v; w]) = true.
  Proof using RO ER V.
    intros H (v & w & a & b & x & S & L1 & L2 & HG).
    pose proof (ok_32 _ _ _ _ _ _ _ S) as ok. pose proof S as (N & F & A & B & C & D & _).
    assert (L : labels_23 label v w a b x) by (apply labels_32_iff; auto).
    destruct (three_two_sound label T v w a b x ok V F L) as [_ (_ & _ & RR & _)]. apply replaces_sym in RR.
    assert (HM : move_32 label (w_junk W) (w_locates W) (w_geo_edge W) T (of_list [v; w]) = Done (pachner T [a; b; x] [v; w])).
    { apply exact_32; [exact V|]. exists v, w, a, b, x. auto 10. }
    assert (Hs : of_list [v; w] ∈ sites_32 W m).
    { pose proof (proj1 (NoDup_5 _ _ _ _ _) N) as N'. pose proof (proj2 (A (of_list [v; w; a; b])) ltac:(rewrite !elem_of_cons; tauto)) as [Hc Hi].
      apply (edge_in_sites true v w (of_list [v; w; a; b])); [clear - N'; tauto|clear - F; rewrite !elem_of_cons, !elem_of_nil in *; tauto|exact Hc|apply Hi; set_solver +|apply Hi; set_solver +|].
      intros E. rewrite E in B. lia. }
    unfold move_32, bind in HM. destruct (prepare_32 label (w_junk W) T (of_list [v; w])) as [p|?|] eqn:PR; try discriminate.
    destruct (do_loop_failed _ _ _ _ _ _ _ H _ p Hs PR) as (g1 & e1 & g2 & X). unfold exec_32 in X. injection X as X _.
    fold T in X. rewrite HM in X. discriminate.
  Qed.
  Lemma fails_44 g err g' : do_44 W R escape m g = (Failed err, g') ->
    ~ exists p q a b top bot, site_44 label T p q a b top bot /\ forall y, y ∈ [p; q; top; bot] -> w_locates W T y = true.
  Proof using RO ER V.
    intros H (p & q & a & b & top & bot & S & HL).
    destruct (site_44_moves label (w_junk W) (w_locates W) T p q a b top bot V S) as (PR & T' & RR & HM). specialize (HM HL).
    assert (Hs : of_list [p; q] ∈ sites_44 W m).
    { destruct S as (N & F & A & (t & Lp & Lq & _) & _). pose proof (proj1 (nodup6 _ _ _ _ _ _) N) as N'.
      pose proof (proj2 (A (of_list [p; q; a; top])) ltac:(rewrite !elem_of_cons; tauto)) as [Hc Hi].
      apply (edge_in_sites false p q (of_list [p; q; a; top])); [clear - N'; tauto|clear - F; rewrite !elem_of_cons, !elem_of_nil in *; tauto|exact Hc|apply Hi; set_solver +|apply Hi; set_solver +|congruence]. }
    unfold move_44, bind in HM. rewrite PR in HM. cbn [fst snd] in HM.
    destruct (do_loop_failed _ _ _ _ _ _ _ H _ _ Hs PR) as (g1 & e1 & g2 & X). unfold exec_44 in X. injection X as X _.
    fold T in X. cbn [fst snd] in X. rewrite HM in X. discriminate.
  Qed.
  Lemma fails_23 g err g' : do_23 W R escape m g = (Failed err, g') ->
    ~ exists c v w a b x, first_site_23 label T c v w a b x /\ nowhere T [v; w] /\ (forall y, y ∈ c -> w_locates W T y = true) /\ w_geo_facet W T c v = true.
  Proof using RO ER V.
    intros H (c & v & w & a & b & x & FS & Z & HL & HG). pose proof FS as (Ec & S & _).
    destruct (site_23_types _ _ _ _ _ _ _ S) as [K _].
    assert (ok : pachner_ok T [v; w] [a; b; x]) by (apply (ok_23 label); assumption).
    assert (HM : move_23 label (w_junk W) (w_locates W) (w_geo_facet W) T c = Done (pachner T [v; w] [a; b; x])).
    { apply exact_23; [exact V|]. exists v, w, a, b, x. split; [exact FS|]. split; [exact Z|]. split; [exact HL|]. split; [exact HG|]. exact (replaces_23 T v w a b x ok). }
    assert (Hs : c ∈ sites_23 W m).
    { destruct S as (N & F & Hc & _). apply cell_in_sites; [rewrite Ec; exact Hc| |rewrite Ec; exact K].
      rewrite Ec, elem_of_of_list. clear - F. rewrite !elem_of_cons, !elem_of_nil in *. tauto. }
    unfold move_23, bind in HM. destruct (prepare_23 label (w_junk W) T c) as [u|?|] eqn:PR; try discriminate.
    destruct (do_loop_failed _ _ _ _ _ _ _ H _ _ Hs PR) as (g1 & e1 & g2 & X). unfold exec_23 in X. injection X as X _.
    fold T in X. rewrite HM in X. discriminate.
  Qed.
  Lemma fails_62 g err g' : causal label T -> do_62 W R escape m g = (Failed err, g') ->
    ~ exists a b c v d e, site_62 label T a b c v d e /\ w_locates W T v = true.
  Proof using RO ER V.
    intros HC H (a & b & c & v & d & e & S & HL).
    destruct (site_62_pachner _ _ _ _ _ _ _ _ S) as [okA okB].
    assert (HR : exists T', replaces T [of_list [v; a; b; d]; of_list [v; b; c; d]; of_list [v; a; c; d];
                of_list [v; a; b; e]; of_list [v; b; c; e]; of_list [v; a; c; e]] [of_list [a; b; c; d]; of_list [a; b; c; e]] T') by (eapply replaces_62; exact S).
    destruct HR as (T' & RR).
    assert (HM : forall edges, edges ≡ₚ finite_incident_edges T v -> move_62 label (w_junk W) (w_locates W) T v edges = Done T').
    { intros edges HE. apply exact_62; [exact V|exact HE|]. exists a, b, c, d, e. auto. }
    assert (Hs : v ∈ sites_62 m).
    { destruct S as (N & F & A & _). unfold sites_62. rewrite (elem_of_Permutation_proper v _ _ (merge_sort_Permutation _ _)).
      unfold vertex_sites. apply elem_of_elements. unfold finite_vertices. rewrite elem_of_difference, elem_of_singleton. split.
      - apply elem_of_vertices. pose proof (proj2 (A (of_list [v; a; b; d])) ltac:(rewrite !elem_of_cons; tauto)) as [Hc Hi].
        exists (of_list [v; a; b; d]). split; [exact Hc|apply Hi; constructor].
      - intros ->. apply F. rewrite !elem_of_cons. tauto. }
    assert (PR : prepare_62 label (w_junk W) T v = Done tt).
    { specialize (HM _ (reflexivity _)). unfold move_62, bind in HM. destruct (prepare_62 label (w_junk W) T v) as [[]|?|]; [reflexivity|discriminate..]. }
    destruct (do_loop_failed _ _ _ _ _ _ _ H _ _ Hs PR) as (g1 & e1 & g2 & X). unfold exec_62 in X. fold T in X. rewrite HL in X. cbn [negb] in X.
    pose proof (shuffle_perm R RO _ (canonicalize (finite_incident_edges T v)) g1) as HP.
    destruct (shuffle R simplex (canonicalize (finite_incident_edges T v)) g1) as [edges g3]. cbn [fst] in HP.
    injection X as X _. specialize (HM edges). unfold move_62, bind in HM. rewrite PR in HM. fold label in X. rewrite HM in X; [discriminate|].
    rewrite HP. unfold canonicalize. apply merge_sort_Permutation.
  Qed.
  Lemma try_failed_26 last order (g : G) e g' :
    (forall y, w_locates W T y = true) ->
    try_sites (prep_26 W m) (exec_26 (G:=G) W m) true last order g = (Fail e, g') ->
    forall c, c ∈ order -> forall p, prep_26 W m c = Done p -> False.
  Proof using V.
    intros HL. revert last g. induction order as [|y l IH]; intros last g H c Hc p Hp; [inversion Hc|]. cbn in H.
    destruct (prep_26 W m y) as [[n v]|e'|] eqn:Ey; [|apply elem_of_cons in Hc as [->|Hc]; [congruence|]; eapply IH; eassumption|discriminate].
    cbn [snd] in H. unfold execute_26 in H. fold T in H.
    assert (LE : forallb (w_locates W T) (elements y) = true) by (apply forallb_forall; intros; apply HL).
    rewrite LE in H. cbn [andb] in H.
    unfold prep_26, prepare_26 in Ey. fold T in Ey.
    destruct (bool_decide (y ∈ T)) eqn:HyT; cbn [negb] in Ey; [|discriminate]. apply bool_decide_eq_true_1 in HyT.
    destruct (find_adjacent_31_cell _ _ T y) as [n'|] eqn:Ef; [|discriminate].
    destruct (mirror_vertex y n') as [v'|] eqn:Em; [|discriminate].
    assert (Hv : v' = v) by (destruct (map _ _) as [|? [|? [|? [|? ?]]]] in Ey; try discriminate; destruct (_ && _) in Ey; [|discriminate]; congruence). subst v'.
    assert (Hvy : v ∈ y).
    { unfold mirror_vertex in Em. destruct (elements (y ∖ n')) as [|k r] eqn:Ee; [discriminate|]. injection Em as ->.
      assert (HH : v ∈ elements (y ∖ n')) by (rewrite Ee; constructor). apply elem_of_elements, elem_of_difference in HH. tauto. }
    rewrite (bool_decide_eq_true_2 _ Hvy) in H. cbn [negb] in H.
    destruct (neighbor T y v); [|discriminate]. destruct (_ || _) in H; discriminate.
  Qed.
  Lemma fails_26 g err g' : (forall y, w_locates W T y = true) -> do_26 W R escape m g = (Failed err, g') ->
    ~ exists a b c d e, site_26 label T a b c d e.
  Proof using RO ER V.
    intros HL H (a & b & c & d & e & S).
    destruct (site_26_prepares label (w_junk W) T a b c d e V S) as (_ & _ & PR).
    assert (Hs : of_list [a; b; c; d] ∈ sites_26 W m).
    { destruct S as (N & F & Hd & _ & t & La & Lb & Lc & Ld & _). pose proof (proj1 (NoDup_5 _ _ _ _ _) N) as N'. apply cell_in_sites; [exact Hd| |].
      - rewrite elem_of_of_list. clear - F. rewrite !elem_of_cons, !elem_of_nil in *. tauto.
      - rewrite cell_type_of_list by (apply nodup4; clear - N'; intuition congruence). cbn [map]. rewrite La, Lb, Lc, Ld.
        pose proof (classify4 t 0 0 0 (-1)) as Q. rewrite Z.add_0_r in Q. change (t + -1) with (t - 1) in Q. rewrite Q. reflexivity. }
    unfold do_26, do_26_impl in H. destruct (sites_26 W m) as [|s0 l0] eqn:E; [inversion Hs|]. rewrite <- E in *.
    pose proof (shuffle_perm R RO _ (sites_26 W m) g) as HP. destruct (shuffle R simplex (sites_26 W m) g) as [order g1]. cbn [fst] in HP. rewrite <- HP in Hs.
    destruct (try_sites (prep_26 W m) (exec_26 (G:=G) W m) true NO_CANDIDATE order g1) as [[T1|e1|] g2] eqn:Et; unfold finish in H.
    - unfold make_manifold in H. destruct (bool_decide _) in H; discriminate.
    - exact (try_failed_26 _ _ _ _ _ HL Et _ Hs _ PR).
    - destruct (ER m g2) as [x Ex]. rewrite H in Ex. discriminate.
  Qed.
End Do.

Lemma searches_fail_without_place W (G : Type) (R : choices G) : choices_ok R ->
  forall escape, (forall m g, exists x, fst (escape m g) = Raised x) ->
  forall m, valid (m_cells m) -> let T := m_cells m in let label := label_of W m in
  (forall g err g', do_23 W R escape m g = (Failed err, g') ->
     ~ exists c v w a b x, first_site_23 label T c v w a b x /\ nowhere T [v; w] /\
         (forall y, y ∈ c -> w_locates W T y = true) /\ w_geo_facet W T c v = true) /\
  (forall g err g', do_32 W R escape m g = (Failed err, g') ->
     ~ exists v w a b x, site_32 label T v w a b x /\ w_locates W T v = true /\ w_locates W T w = true /\ w_geo_edge W T (of_list [v; w]) = true) /\
  (forall g err g', (forall y, w_locates W T y = true) -> do_26 W R escape m g = (Failed err, g') ->
     ~ exists a b c d e, site_26 label T a b c d e) /\
  (forall g err g', causal label T -> do_62 W R escape m g = (Failed err, g') ->
     ~ exists a b c v d e, site_62 label T a b c v d e /\ w_locates W T v = true) /\
  (forall g err g', do_44 W R escape m g = (Failed err, g') ->
     ~ exists p q a b top bot, site_44 label T p q a b top bot /\ forall y, y ∈ [p; q; top; bot] -> w_locates W T y = true).
Proof.
  intros RO escape ER m V T label. split; [|split; [|split; [|split]]]; intros.
  - eapply fails_23; eassumption. - eapply fails_32; eassumption. - eapply fails_26; eassumption.
  - eapply fails_62; eassumption. - eapply fails_44; eassumption.
Qed.
