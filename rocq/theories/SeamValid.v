(** Post-mutation validators, and the variants that change a triangulation in place. *)
From Verif Require Import Base Tracker Command Geom Simplex Pachner Foliation Moves Links MoveCore MoveTools Move23 Move26 Move26Site MoveSpec MoveSound Manifold StarSpec StarFacts Seams Circulator.
From stdpp Require Import fin_sets gmap sorting.
From Verif Require Import Foliation Move44 Incident SeamSpec Reverse Flip FlipFacts SeamFacts.
Local Open Scope Z_scope.

Lemma execute_44_validated locates validator T e top bottom :
  execute_44_with locates validator T e top bottom =
  match execute_44 locates T e top bottom with
  | Done T' => if validator T' then Done T' else Fail INVARIANT_VIOLATION
  | r => r
  end.
Proof.
  unfold execute_44_with, execute_44. destruct (negb _); [reflexivity|].
  destruct (elements _); [reflexivity|]. destruct (mirror_vertex _ _); [|reflexivity].
  destruct (tds_flip_facet _ _ _); try reflexivity. destruct (tds_flip_edge _ _); try reflexivity.
  destruct (validator _) eqn:E, (tds_valid _); cbn [negb orb]; rewrite ?E; reflexivity.
Qed.

Lemma flip_validated locates validator T e top bottom :
  bistellar_flip_impl locates validator T e top bottom =
  match bistellar_flip locates T e top bottom with
  | Flip T' => if validator T' then Flip T' else Nullopt
  | r => r
  end.
Proof.
  unfold bistellar_flip, bistellar_flip_impl. destruct (prepare_flip T e top bottom) as [[[[edge t] b]|?|]|]; try reflexivity.
  rewrite !execute_44_validated. destruct (execute_44 _ _ _ _ _) as [T'|?|]; [|reflexivity..]. cbn [accept_post_mutation].
  destruct (validator T'); reflexivity.
Qed.

Lemma try_62_validated label junk locates validator T v edges :
  try_62_move_impl label junk locates validator T v edges =
  match try_62_move label junk locates T v edges with
  | Done T' => if validator T' then Done T' else Fail INVARIANT_VIOLATION
  | r => r
  end.
Proof.
  unfold try_62_move, try_62_move_impl. destruct v as [| |v]; try reflexivity.
  unfold bind. destruct (prepare_62 _ _ _ _) as [[]|?|]; try reflexivity.
  unfold execute_62_with. destruct (negb _); [reflexivity|]. destruct (flip_some_edge _ _ _) as [T1| |]; try reflexivity.
  destruct (_ || _); [reflexivity|]. cbv zeta. cbn [accept_post_mutation negb orb].
  destruct (validator _) eqn:E; cbn [negb orb].
  - destruct (_ || _ || _); [reflexivity|]. destruct (forallb _ _); [|reflexivity]. rewrite E. reflexivity.
  - destruct (_ || _ || _); [reflexivity|]. destruct (forallb _ _); [|reflexivity]. rewrite E. reflexivity.
Qed.
Lemma try_62_is label junk locates T v edges :
  try_62_move label junk locates T (OwnVertex v) edges = move_62 label junk locates T v (edges v).
Proof. reflexivity. Qed.

(** ** (2,6) *)
Lemma executed_26 locates centroid T c v T' : pure T -> execute_26 locates centroid T c v = Done T' ->
  finite_vertices T' <> ∅.
Proof.
  intros HP. unfold execute_26.
  destruct (forallb (locates T) (elements c) && bool_decide (c ∈ T) && bool_decide (v ∈ c)) eqn:E; cbn [negb]; [|discriminate].
  rewrite !andb_true_iff in E. destruct E as [[_ Hc] Hv]. apply bool_decide_eq_true_1 in Hc, Hv.
  destruct (neighbor T c v) as [n|]; [|discriminate].
  destruct (bool_decide (centroid (c ∖ {[v]}) ∈ vertices T)) eqn:E1; cbn [orb]; [discriminate|].
  destruct (bool_decide (centroid (c ∖ {[v]}) = infinite)) eqn:E2; cbn [orb]; [discriminate|]. apply bool_decide_eq_false_1 in E2.
  intros [= <-] E. set (x := centroid (c ∖ {[v]})) in *.
  assert (H : x ∈ finite_vertices (insert_in_facet T c n v x)).
  { unfold finite_vertices. apply elem_of_difference. split; [|rewrite elem_of_singleton; exact E2].
    apply elem_of_vertices.
    assert (Hs : size (c ∖ {[v]}) = 3%nat) by (rewrite size_difference by set_solver + Hv; rewrite (HP c Hc), size_singleton; reflexivity).
    destruct (elements_three _ Hs) as (a & b & y & Ee & _ & Ef).
    unfold insert_in_facet. rewrite Ee. exists ({[x]} ∪ c ∖ {[a]}). split; [|set_solver +].
    cbn. set_solver +. }
  rewrite E in H. apply not_elem_of_empty in H. exact H.
Qed.

Section Do26.
  Variable W : world.
  Context {G : Type}.
  Variable R : choices G.
  Variable escape : manifold -> G -> move_result manifold * G.
  Hypothesis ES : forall m g m', fst (escape m g) <> Moved m'.
  Variable validator : tds -> bool.
  Variable m : manifold.
  Hypothesis HP : pure (m_cells m).

  Definition screened (r : outcome tds * G) : outcome tds * G :=
    match r with (Done T, g) => if validator T then (Done T, g) else (Fail INVARIANT_VIOLATION, g) | r => r end.
  Lemma exec_screened c p g : exec_26_with W validator m c p g = screened (exec_26 W m c p g).
  Proof using.
    unfold exec_26_with, exec_26, execute_26_with, screened.
    destruct (execute_26 _ _ _ _ _) as [T|?|]; [|reflexivity..]. destruct (validator T); reflexivity.
  Qed.
  Lemma sites_screened last sites g :
    try_sites (prep_26 W m) (exec_26_with W validator m) true last sites g =
    screened (try_sites (prep_26 W m) (exec_26 W m) true last sites g).
  Proof using.
    revert last g. induction sites as [|c r IH]; intros last g; [reflexivity|]. cbn [try_sites].
    destruct (prep_26 W m c) as [p|?|]; [|apply IH|reflexivity]. rewrite exec_screened.
    destruct (exec_26 W m c p g) as [[T|?|] g']; cbn [screened]; [|reflexivity..]. destruct (validator T); reflexivity.
  Qed.
  Lemma sites_nonempty last sites g T g' :
    try_sites (prep_26 W m) (exec_26 (G:=G) W m) true last sites g = (Done T, g') -> finite_vertices T <> ∅.
  Proof using HP.
    revert last g. induction sites as [|c r IH]; intros last g; cbn [try_sites]; [discriminate|].
    destruct (prep_26 W m c) as [p|?|]; [|apply IH|discriminate]. unfold exec_26.
    destruct (execute_26 _ _ _ _ _) as [T0|?|] eqn:E; [|discriminate..]. intros [= <- <-]. eapply executed_26; eassumption.
  Qed.
  Definition checked (r : move_result manifold * G) : move_result manifold * G :=
    match r with
    | (Moved m', g) => if validator (m_cells m') then (Moved m', g) else (Failed (mkMoveError INVARIANT_VIOLATION TWO_SIX), g)
    | r => r
    end.
  Lemma finish_screened last sites g :
    finish escape m TWO_SIX (screened (try_sites (prep_26 W m) (exec_26 W m) true last sites g)) =
    checked (finish escape m TWO_SIX (try_sites (prep_26 W m) (exec_26 W m) true last sites g)).
  Proof using HP ES.
    destruct (try_sites _ _ _ _ _ _) as [[T|?|] g'] eqn:E; cbn [screened finish].
    - apply sites_nonempty in E. unfold make_manifold. rewrite (bool_decide_eq_false_2 _ E). cbn [checked m_cells].
      destruct (validator T); cbn [finish]; [unfold make_manifold; rewrite (bool_decide_eq_false_2 _ E)|]; reflexivity.
    - reflexivity.
    - unfold checked. pose proof (ES m g') as H. destruct (escape m g') as [[m'|?|] g2]; try reflexivity.
      exfalso. exact (H m' eq_refl).
  Qed.
  Lemma do_26_validated b g : do_26_impl_with W R escape validator m b g = checked (do_26_impl W R escape m b g).
  Proof using HP ES.
    unfold do_26_impl_with, do_26_impl. destruct (sites_26 W m) as [|c0 l0] eqn:E0; [reflexivity|]. rewrite <- E0. destruct b.
    - destruct (canonical_random_element R (sites_26 W m) g) as [[c|] g']; [|reflexivity]. rewrite sites_screened. apply finish_screened.
    - destruct (shuffle R simplex (sites_26 W m) g) as [order g']. rewrite sites_screened. apply finish_screened.
  Qed.
End Do26.

(** ** In place *)
Section InPlace.
  Variable label : vertex -> Z.
  Variable junk : tds -> simplex -> Z.
  Variable locates : tds -> vertex -> bool.
  Variable geo_facet : tds -> simplex -> vertex -> bool.
  Variable geo_edge : tds -> simplex -> bool.
  Variable T : tds.
  Hypothesis V : valid T.
  Hypothesis HJ : joined_stars T.

  Lemma try_23_effect c ok T' : try_23_move label junk locates geo_facet T c = Some (ok, T') ->
    if ok then (exists h, c = OwnCell h /\ length h = 4%nat /\ of_list h ∈ T) /\ valid T' /\
               exists v w a b x, two_three label T T' v w a b x
    else T' = T.
  Proof using V.
    unfold try_23_move. destruct c as [| |h]; [intros [= <- <-]; reflexivity..|].
    destruct (tds_is_cell T (OwnCell h)) eqn:Hc; [|intros [= <- <-]; reflexivity].
    destruct (prepare_23 label junk T (of_list h)) as [v|?|] eqn:Hp; [|intros [= <- <-]; reflexivity|discriminate].
    destruct (execute_23 locates geo_facet T (of_list h) v) as [T1|?|] eqn:Hx; [|intros [= <- <-]; reflexivity|discriminate].
    intros [= <- <-]. assert (H : move_23 label junk locates geo_facet T (of_list h) = Done T1) by (unfold move_23, bind; rewrite Hp; exact Hx).
    apply move_23_effect in H as (v' & w & a & b & x & N & F & E & ok & -> & L); [|exact V].
    split; [|split].
    - exists h. cbn [tds_is_cell] in Hc. rewrite andb_true_iff, Nat.eqb_eq in Hc. destruct Hc as [A B]. apply bool_decide_eq_true_1 in B. auto.
    - apply pachner_valid; assumption.
    - exists v', w, a, b, x. apply pachner_23_spec; assumption.
  Qed.
  Lemma try_32_effect e ok T' : try_32_move label junk locates geo_edge T e = Some (ok, T') ->
    if ok then exists v w a b x, (names_edge T e v w \/ names_edge T e w v) /\ valid T' /\ two_three label T' T v w a b x
    else T' = T.
  Proof using V HJ.
    unfold try_32_move. destruct (tds_is_edge T e) eqn:He.
    2: { unfold raw_prepare_32. rewrite He, orb_true_r. intros [= <- <-]. reflexivity. }
    destruct (edge_ends T e He) as (_ & p & q & Ee). assert (NE : names_edge T e p q) by (apply names_edge_iff; auto).
    rewrite (prepare_32_agrees T (va_pure _ V) (va_closed _ V) HJ label junk e p q NE).
    destruct (prepare_32 label junk T (of_list [p; q])) as [[]|?|] eqn:Hp; [|intros [= <- <-]; reflexivity|discriminate].
    destruct (execute_32 locates geo_edge T (of_list [p; q])) as [T1|?|] eqn:Hx; [|intros [= <- <-]; reflexivity|discriminate].
    intros [= <- <-]. assert (H : move_32 label junk locates geo_edge T (of_list [p; q]) = Done T1) by (unfold move_32, bind; rewrite Hp; exact Hx).
    apply move_32_effect in H as (v & w & a & b & x & N & F & E & ok & -> & L); [|exact V].
    destruct (three_two_sound _ _ _ _ _ _ _ ok V F L) as [S Q].
    assert (Pe : [v; w] ≡ₚ [p; q]).
    { apply of_list_eq_perm; [apply (sublist_NoDup _ [v; w; a; b; x]); [repeat constructor|exact N]| |congruence].
      destruct (named_distinct T (va_pure _ V) e p q NE) as [Hpq _]. repeat constructor; set_solver + Hpq. }
    symmetry in Pe. apply Permutation_length_2_inv in Pe. exists v, w, a, b, x. split; [|split; [apply pachner_valid; assumption|exact Q]].
    destruct Pe as [[= -> ->]|[= -> ->]]; auto.
  Qed.
End InPlace.
