(** Proofs about objects: every history keeps every object coherent and apart. *)
From Verif Require Import Base Geom Simplex Foliation Repair Objects ObjectsSpec ObjectsFacts ObjectsRuns ObjectsReads.
From stdpp Require Import fin_sets gmap sorting.
From Verif Require Import Base Geom Simplex Foliation Objects ObjectsSpec ObjectsFacts ObjectsRuns ObjectsReads.
Local Open Scope Z_scope.

Lemma set_same x v f : set_var x v f x = v.
Proof. unfold set_var. rewrite Nat.eqb_refl. reflexivity. Qed.
Lemma set_other x v f y : y <> x -> set_var x v f y = f y.
Proof. intros N. unfold set_var. rewrite (proj2 (Nat.eqb_neq y x) N). reflexivity. Qed.

Section World.
  Variable timevalue : fp -> fp -> positive -> Z.
  Variable C : cgal.
  Variable luck : nat -> nat.
  Hypothesis CO : cgal_ok C.
  Notation coherent := (coherent timevalue).
  Notation coherent_value := (coherent_value timevalue).

  Definition good (w : world) : Prop :=
    (forall x v, w_var w x = Some v -> coherent_value (w_heap w) v) /\ separate w.

  Lemma value_made H v t : coherent_value H v -> triangulation_in v = Some t -> well_made H t.
  Proof using.
    destruct v as [o|m|u]; cbn; intros K E.
    - apply (K t E).
    - destruct (K t E) as [X _]. apply X.
    - apply (K t E).
  Qed.
  Lemma value_frame H H' v : (forall t, triangulation_in v = Some t -> agree t H H') -> coherent_value H v -> coherent_value H' v.
  Proof using.
    destruct v as [o|m|u]; cbn; intros A K t E.
    - eapply coherent_frame; [apply A, E|apply K, E].
    - destruct (K t E) as [X Y]. split; [eapply coherent_frame; [apply A, E|exact X]|exact Y].
    - eapply agree_made; [apply A, E|apply K, E].
  Qed.
  Lemma read_value_frame H H' v : intact v -> (forall t, triangulation_in v = Some t -> agree t H H') -> coherent_value H v ->
    read timevalue H' v = read timevalue H v.
  Proof using.
    unfold intact. destruct v as [o|m|u]; cbn [triangulation_in]; intros I A K.
    - destruct (f_tri o) as [t|] eqn:E; [|congruence]. apply (read_frame _ _ _ _ _ t); [apply A; reflexivity|apply K, E].
    - destruct (f_tri (m_triangulation m)) as [t|] eqn:E; [|congruence].
      apply (read_frame _ _ _ _ _ t); [apply A; reflexivity|apply K, E].
    - destruct u as [t|]; [|congruence]. apply plain_frame; [apply A|apply K]; reflexivity.
  Qed.

  Lemma good_frame_read w H' z v : good w -> w_var w z = Some v -> intact v ->
    (forall t, triangulation_in v = Some t -> agree t (w_heap w) H') -> read timevalue H' v = read timevalue (w_heap w) v.
  Proof using. intros [G _] E I A. apply read_value_frame; [exact I|exact A|eapply G; exact E]. Qed.
  Lemma quiet_frame w H' z v t : good w -> quiet (w_heap w) H' -> w_var w z = Some v -> triangulation_in v = Some t -> agree t (w_heap w) H'.
  Proof using.
    intros [G _] Q E T. apply quiet_agree; [exact Q|]. apply (value_made _ v), T. eapply G; exact E.
  Qed.

  Lemma good_quiet w H' k : good w -> quiet (w_heap w) H' ->
    good (World H' k (w_var w)) /\ unchanged_except timevalue [] w (World H' k (w_var w)).
  Proof using.
    intros GW Q. pose proof GW as [G S]. split; [split|].
    - cbn. intros x v E. eapply value_frame; [|eapply G; exact E]. intros t T. eapply quiet_frame; eassumption.
    - exact S.
    - intros z _. split; [reflexivity|]. cbn. intros v E I. eapply good_frame_read; [exact GW|exact E|exact I|].
      intros t T. eapply quiet_frame; eassumption.
  Qed.
  Lemma good_set w H' k x v : good w -> quiet (w_heap w) H' -> coherent_value H' v ->
    (forall t, triangulation_in v = Some t -> makes (w_heap w) H' t) ->
    good (World H' k (set_var x (Some v) (w_var w))) /\ unchanged_except timevalue [x] w (World H' k (set_var x (Some v) (w_var w))).
  Proof using.
    intros GW Q Kv Mv. pose proof GW as [G S]. split; [split|].
    - cbn. intros y u E. destruct (decide (y = x)) as [->|N].
      + rewrite set_same in E. injection E as <-. exact Kv.
      + rewrite set_other in E by exact N. eapply value_frame; [|eapply G; exact E]. intros t T. eapply quiet_frame; eassumption.
    - intros y z u u' t t' N E E' T T'. cbn in E, E'. destruct (decide (y = x)) as [->|Ny], (decide (z = x)) as [->|Nz].
      + contradiction.
      + rewrite set_same in E. rewrite set_other in E' by exact Nz. injection E as <-.
        apply (proj1 (makes_apart (w_heap w) H' t t' (Mv t T) (wm_below _ _ (value_made _ u' t' (G _ _ E') T')))).
      + rewrite set_same in E'. rewrite set_other in E by exact Ny. injection E' as <-.
        apply (proj2 (makes_apart (w_heap w) H' t' t (Mv t' T') (wm_below _ _ (value_made _ u t (G _ _ E) T)))).
      + rewrite set_other in E, E' by assumption. eapply S; [exact N|exact E|exact E'|exact T|exact T'].
    - intros z Z. rewrite elem_of_list_singleton in Z. cbn. rewrite set_other by exact Z. split; [reflexivity|].
      intros u E I. eapply good_frame_read; [exact GW|exact E|exact I|]. intros t T. eapply quiet_frame; eassumption.
  Qed.
  (** Statements that only pass objects around. *)
  Lemma good_move w k f (s : nat -> nat) l : good w ->
    (forall z v t, f z = Some v -> triangulation_in v = Some t ->
       coherent_value (w_heap w) v /\ exists v0, w_var w (s z) = Some v0 /\ triangulation_in v0 = Some t) ->
    (forall z z' v v', f z = Some v -> f z' = Some v' -> intact v -> intact v' -> s z = s z' -> z = z') ->
    (forall z, z ∉ l -> f z = w_var w z) ->
    good (World (w_heap w) k f) /\ unchanged_except timevalue l w (World (w_heap w) k f).
  Proof using.
    intros [G S] F I U. split; [split|].
    - cbn. intros x v E. destruct (triangulation_in v) as [t|] eqn:T; [apply (F x v t E T)|].
      destruct v; cbn in *; congruence.
    - intros y z u u' t t' N E E' T T'. cbn in E, E'. destruct (F y u t E T) as (_ & v0 & E0 & T0).
      destruct (F z u' t' E' T') as (_ & v1 & E1 & T1). eapply S; [|exact E0|exact E1|exact T0|exact T1].
      intros X. apply N. eapply I; [exact E|exact E'| | |exact X]; unfold intact; congruence.
    - intros z Z. cbn. split; [apply U, Z|reflexivity].
  Qed.
  (** Statements that change one triangulation in place. *)
  Lemma good_edit w H' k x y vy v t t' f l : good w -> w_var w y = Some vy -> triangulation_in vy = Some t ->
    edits t (w_heap w) H' t' -> triangulation_in v = Some t' -> coherent_value H' v ->
    f x = Some v -> (forall z, z <> x -> f z = w_var w z /\ z <> y \/ z = y /\ forall v', f z = Some v' -> triangulation_in v' = None) ->
    (forall z, z ∉ l -> f z = w_var w z) -> y ∈ l ->
    good (World H' k f) /\ unchanged_except timevalue l w (World H' k f).
  Proof using.
    intros GW Ey Ty Ed Tv Kv Fx F U L. pose proof GW as [G S]. pose proof Ed as (Wr & _).
    assert (Fr : forall z u t0, z <> y -> w_var w z = Some u -> triangulation_in u = Some t0 -> agree t0 (w_heap w) H').
    { intros z u t0 N E T. destruct (S z y u vy t0 t N E Ey T Ty) as [A B]. eapply writes_agree; [exact Wr| |exact A|exact B].
      apply (value_made _ u), T. eapply G; exact E. }
    assert (Old : forall z u t0, z <> x -> f z = Some u -> triangulation_in u = Some t0 -> w_var w z = Some u /\ z <> y).
    { intros z u t0 N E T. destruct (F z N) as [[X Y]|[_ X]]; [split; congruence|]. specialize (X u E). congruence. }
    split; [split|].
    - cbn. intros z u E. destruct (decide (z = x)) as [->|N]; [congruence|].
      destruct (triangulation_in u) as [t0|] eqn:T; [|destruct u; cbn in *; congruence].
      destruct (Old z u t0 N E T) as [E0 N0]. eapply value_frame; [|eapply G; exact E0].
      intros t1 T1. rewrite T in T1. injection T1 as <-. eapply Fr; eassumption.
    - intros a b u u' ta tb N E E' T T'. cbn in E, E'. destruct (decide (a = x)) as [->|Na], (decide (b = x)) as [->|Nb].
      + contradiction.
      + assert (u = v) by congruence. subst u. destruct (Old b u' tb Nb E' T') as [E0 N0].
        assert (ta = t') by congruence. subst ta.
        apply (proj1 (edits_apart t (w_heap w) H' t' tb Ed (wm_below _ _ (value_made _ u' tb (G _ _ E0) T')) (S y b vy u' t tb (not_eq_sym N0) Ey E0 Ty T'))).
      + assert (u' = v) by congruence. subst u'. destruct (Old a u ta Na E T) as [E0 N0].
        assert (tb = t') by congruence. subst tb.
        apply (proj2 (edits_apart t (w_heap w) H' t' ta Ed (wm_below _ _ (value_made _ u ta (G _ _ E0) T)) (S y a vy u t ta (not_eq_sym N0) Ey E0 Ty T))).
      + destruct (Old a u ta Na E T) as [E0 N0]. destruct (Old b u' tb Nb E' T') as [E1 N1].
        eapply S; [exact N|exact E0|exact E1|exact T|exact T'].
    - intros z Z. cbn. split; [apply U, Z|]. intros u E I. eapply good_frame_read; [exact GW|exact E|exact I|].
      intros t0 T. eapply (Fr z); [|exact E|exact T]. intros ->. contradiction.
  Qed.

  (** What holds after a statement. *)
  Definition after (w : world) (a : action) (r : result) : Prop :=
    match r with
    | Done w' => good w' /\ unchanged_except timevalue (changed_by a) w w'
    | Thrown w' => good w' /\ unchanged_except timevalue (consumed_by a) w w'
    | Undefined => False
    end.
  (** Statements that make one new object. *)
  Lemma after_run {A} w a (m : M A) (x : nat) (mk : A -> value) : good w -> changed_by a = [x] -> consumed_by a = [] ->
    wp m (fun b H' => quiet (w_heap w) H' /\ coherent_value H' (mk b) /\ forall t, triangulation_in (mk b) = Some t -> makes (w_heap w) H' t)
      (quiet (w_heap w)) (w_heap w) ->
    after w a (run w m (fun b => set_var x (Some (mk b)) (w_var w))).
  Proof using.
    intros G E1 E2 X. specialize (X (w_clock w)). unfold run, after. destruct (m (w_heap w) (w_clock w)) as [b H' k|H' k|].
    - rewrite E1. destruct X as (Q & K & Mk). apply good_set; assumption.
    - rewrite E2. apply good_quiet; assumption.
    - exact X.
  Qed.
  Lemma new_value H o H' : new_object timevalue H o H' ->
    quiet H H' /\ coherent_value H' (VF o) /\ forall t, triangulation_in (VF o) = Some t -> makes H H' t.
  Proof using.
    intros (t & Mk & K). split; [apply Mk|]. pose proof (co_tri _ _ _ _ K) as T. split.
    - intros u E. assert (u = t) by congruence. subst. exact K.
    - cbn. intros u E. assert (u = t) by congruence. subst. exact Mk.
  Qed.
  Lemma new_manifold H m H' : new_object timevalue H (m_triangulation m) H' -> geometric m ->
    quiet H H' /\ coherent_value H' (VM m) /\ forall t, triangulation_in (VM m) = Some t -> makes H H' t.
  Proof using.
    intros (t & Mk & K) Ge. split; [apply Mk|]. pose proof (co_tri _ _ _ _ K) as T. split.
    - intros u E. assert (u = t) by congruence. subst. split; [exact K|exact Ge].
    - cbn. intros u E. assert (u = t) by congruence. subst. exact Mk.
  Qed.
  Lemma copied_new H o t o' H' : copied timevalue H o t o' H' -> new_object timevalue H o' H'.
  Proof using. intros (t' & Mk & K & _). exists t'. auto. Qed.
  (** Copies have the geometry of the original. *)
  Lemma copied_geometry H o t o' H' : coherent H o t -> copied timevalue H o t o' H' -> geometry_of_object o' = geometry_of_object o.
  Proof using.
    intros K X. pose proof (copied_reads timevalue H o t o' H' None K X) as R.
    apply (reading_geometry timevalue); [exact (sr_counts _ _ R)|exact (sr_edge_counts _ _ R)].
  Qed.
  Lemma wp_manifold_copy m t H : coherent H (m_triangulation m) t -> geometric m ->
    wp (manifold_copy timevalue C luck m) (fun m' H' => copied timevalue H (m_triangulation m) t (m_triangulation m') H' /\ m_geometry m' = m_geometry m /\ geometric m') (quiet H) H.
  Proof using CO.
    intros K Ge. apply wp_bind. eapply wp_mono; [apply wp_foliated_copy; [exact CO|exact K]| |auto]. intros o' H' X. apply wp_ret. cbn.
    split; [exact X|]. split; [reflexivity|]. unfold geometric in *. cbn. rewrite Ge. symmetry. eapply copied_geometry; eassumption.
  Qed.
  Lemma wp_manifold_assign_copy this m t H : coherent H (m_triangulation m) t -> geometric m ->
    wp (manifold_assign_copy timevalue C luck this m) (fun m' H' => copied timevalue H (m_triangulation m) t (m_triangulation m') H' /\ m_geometry m' = m_geometry m /\ geometric m') (quiet H) H.
  Proof using CO.
    intros K Ge. apply wp_bind. eapply wp_mono; [apply wp_assign_copy; [exact CO|exact K]| |auto]. intros o' H' X. apply wp_ret. cbn.
    split; [exact X|]. split; [reflexivity|]. unfold geometric in *. cbn. rewrite Ge. symmetry. eapply copied_geometry; eassumption.
  Qed.
  Lemma wp_updated m t H : coherent H (m_triangulation m) t -> 
    wp (manifold_updated timevalue C luck m)
       (fun m' H' => new_object timevalue H (m_triangulation m') H' /\ geometric m' /\
          (t_vertices t <> [] -> copied timevalue H (m_triangulation m) t (m_triangulation m') H')) (quiet H) H.
  Proof using CO.
    intros K. pose proof (co_made _ _ _ _ K) as W. unfold manifold_updated. rewrite (co_tri _ _ _ _ K).
    destruct (bool_decide_reflect (t_vertices t = [])) as [N|N].
    - eapply wp_mono; [apply (wp_manifold_default timevalue luck)| |auto]. intros m' H' [A B]. split; [exact A|]. split; [exact B|]. congruence.
    - apply wp_bind. eapply wp_mono; [eapply wp_snapshot; [exact CO|exact K]| |auto]. intros t1 H1 [M1 S1].
      apply wp_bind. eapply wp_mono; [apply wp_of_new, M1| |auto]. intros o' H2 (R & M2 & K2 & Er & Es). apply wp_ret. cbn.
      split; [exists t1; auto|]. split; [apply of_foliated_geometric|]. intros _. exists t1. split; [exact M2|]. split; [exact K2|].
      split; [exact Er|]. split; [exact Es|]. left. eapply same_contents_relabel; eassumption.
  Qed.

  Lemma geometric_of_value H m : coherent_value H (VM m) -> intact (VM m) -> geometric m /\ exists t, coherent H (m_triangulation m) t.
  Proof using.
    intros K I. unfold intact in I. cbn in I, K. destruct (f_tri (m_triangulation m)) as [t|]; [|congruence].
    destruct (K t eq_refl) as [A B]. split; [exact B|exists t; exact A].
  Qed.
  Lemma coherent_of_value H o : coherent_value H (VF o) -> f_tri o <> None -> exists t, coherent H o t.
  Proof using. intros K I. cbn in K. destruct (f_tri o) as [t|]; [|congruence]. exists t. apply K. reflexivity. Qed.

  (** The repairing members. *)
  Lemma after_member w a x o f : good w -> changed_by a = [x] -> consumed_by a = [] -> w_var w x = Some (VF o) -> f_tri o <> None ->
    editing f -> after w a (run w (member timevalue C luck f o) (fun p => set_var x (Some (VF (fst p))) (w_var w))).
  Proof using CO.
    intros G E1 E2 Ex I Ef. destruct (coherent_of_value (w_heap w) o) as [t K]; [apply G in Ex; exact Ex|exact I|].
    pose proof (wp_member timevalue C luck CO f o t (w_heap w) Ef K (w_clock w)) as X. unfold run, after.
    destruct (member timevalue C luck f o (w_heap w) (w_clock w)) as [[o' b] H' k|H' k|].
    - rewrite E1. cbn [fst snd] in *. destruct b.
      + destruct X as [N _]. destruct (new_value _ _ _ N) as (Q & K' & Mk). apply good_set; assumption.
      + destruct X as [Q ->]. destruct (good_quiet w H' k G Q) as [[G1 S1] U1].
        assert (Ev : forall z, set_var x (Some (VF o)) (w_var w) z = w_var w z).
        { intros z. destruct (decide (z = x)) as [->|N]; [rewrite set_same; auto|apply set_other, N]. }
        split; [split|].
        * cbn. intros z v. rewrite Ev. apply (G1 z v).
        * intros z z' v v' u u' N. cbn. rewrite !Ev. apply (S1 z z' v v' u u' N).
        * intros z _. cbn. rewrite Ev. destruct (U1 z) as [_ U]; [apply not_elem_of_nil|]. split; [reflexivity|exact U].
    - rewrite E2. apply good_quiet; assumption.
    - exact X.
  Qed.

  (** Two variables exchange their objects. *)
  Lemma after_swap w a x y vx vy : good w -> changed_by a = [x; y] -> x <> y -> w_var w x = Some vx -> w_var w y = Some vy ->
    after w a (pure w (set_var x (Some vy) (set_var y (Some vx) (w_var w)))).
  Proof using.
    intros G Ca N Ex Ey. unfold pure, after. rewrite Ca. pose proof (proj1 G) as GV.
    apply (good_move w (w_clock w) _ (fun z => if (z =? x)%nat then y else if (z =? y)%nat then x else z) [x; y] G).
    - intros z v t. destruct (Nat.eqb_spec z x) as [->|Nx].
      + rewrite set_same. intros [= <-] T. split; [eapply GV; exact Ey|exists vy; auto].
      + rewrite set_other by exact Nx. destruct (Nat.eqb_spec z y) as [->|Ny].
        * rewrite set_same. intros [= <-] T. split; [eapply GV; exact Ex|exists vx; auto].
        * rewrite set_other by exact Ny. intros Ez T. split; [eapply GV; exact Ez|exists v; auto].
    - intros z z' v v' _ _ _ _.
      destruct (Nat.eqb_spec z x), (Nat.eqb_spec z' x), (Nat.eqb_spec z y), (Nat.eqb_spec z' y); congruence.
    - intros z Z. rewrite !not_elem_of_cons in Z. destruct Z as (Z1 & Z2 & _). rewrite !set_other by assumption. reflexivity.
  Qed.
  Lemma after_self w a : good w -> after w a (pure w (w_var w)).
  Proof using.
    intros G. destruct (good_quiet w (w_heap w) (w_clock w) G (writes_refl _ _ _)) as [A B]. split; [exact A|].
    intros z _. apply B, not_elem_of_nil.
  Qed.

  Lemma after_act w a : good w -> allowed w a -> after w a (act timevalue C luck w a).
  Proof using CO.
    intros G Al. pose proof (proj1 G) as GV. destruct a as [x|x|x r s|x r s|x ps r s|x ps r s|x y b r s|x y b|x y|x y|x y|x y|x y|x y|x|x|x|x y|x r s|x f|x].
    - cbn [act]; apply (after_run w _ _ x VF G); [reflexivity|reflexivity|]. eapply wp_mono; [apply (wp_default timevalue luck)| |auto]. intros o H' (N & _). apply new_value, N.
    - cbn [act]; apply (after_run w _ _ x VM G); [reflexivity|reflexivity|]. eapply wp_mono; [apply (wp_manifold_default timevalue luck)| |auto]. intros m H' (N & Ge). apply new_manifold; assumption.
    - cbn [act]; apply (after_run w _ _ x VF G); [reflexivity|reflexivity|]. eapply wp_mono; [apply wp_random, CO| |auto]. intros o H' (N & _). apply new_value, N.
    - cbn [act]; apply (after_run w _ _ x VM G); [reflexivity|reflexivity|]. eapply wp_mono; [apply wp_manifold_random, CO| |auto]. intros m H' (N & Ge & _). apply new_manifold; assumption.
    - cbn [act]; apply (after_run w _ _ x VF G); [reflexivity|reflexivity|]. eapply wp_mono; [apply wp_of_vertices, CO| |auto]. intros o H' (N & _). apply new_value, N.
    - cbn [act]; apply (after_run w _ _ x VM G); [reflexivity|reflexivity|]. eapply wp_mono; [apply wp_manifold_of_vertices, CO| |auto]. intros m H' (N & Ge & _). apply new_manifold; assumption.
    - destruct Al as (D & t & Ey). cbn [act]. rewrite Ey. pose proof (GV y _ Ey) as Wy. cbn in Wy. specialize (Wy t eq_refl). destruct b.
      + assert (N : x <> y) by congruence. unfold run. cbn [w_heap w_clock].
        pose proof (wp_of_state timevalue luck t r s (w_heap w) Wy (w_clock w)) as X.
        change (foliated_of_delaunay timevalue luck t r s) with (foliated_of_state timevalue luck t r s).
        destruct (foliated_of_state timevalue luck t r s (w_heap w) (w_clock w)) as [o H' k|H' k|]; cbn [after w_var].
        * destruct X as (R & K & _). cbn [changed_by].
          apply (good_edit w H' k x y (VP (Some t)) (VF o) t t); [exact G|exact Ey|reflexivity| | | | | | |].
          -- eapply relabels_edits; [exact R|exact Wy|apply in_vertices|apply in_cells].
          -- exact (co_tri _ _ _ _ K).
          -- intros u U. pose proof (co_tri _ _ _ _ K). assert (u = t) by congruence. subst. exact K.
          -- apply set_same.
          -- intros z Nz. rewrite set_other by exact Nz. destruct (decide (z = y)) as [->|Ny]; [right|left; rewrite set_other by exact Ny; auto].
             split; [reflexivity|]. intros v'. rewrite set_same. intros [= <-]. reflexivity.
          -- intros z Z. rewrite !not_elem_of_cons in Z. destruct Z as (Z1 & Z2 & _). rewrite !set_other by assumption. reflexivity.
          -- right. left.
        * subst H'. cbn [consumed_by]. apply (good_move w k _ (fun z => z) [y] G).
          -- intros z v u. destruct (decide (z = y)) as [->|Ny]; [rewrite set_same; intros [= <-]; cbn; congruence|].
             rewrite set_other by exact Ny. intros Ez Tz. split; [eapply GV; exact Ez|exists v; auto].
          -- auto.
          -- intros z Z. rewrite elem_of_list_singleton in Z. apply set_other, Z.
        * exact X.
      + cbn [act]; apply (after_run w _ _ x VF G); [reflexivity|reflexivity|]. apply wp_bind. eapply wp_mono; [apply wp_copy; [exact CO|exact Wy]| |intros ? ->; apply writes_refl].
        intros t' H' [M1 _]. eapply wp_mono; [apply wp_of_new, M1| |auto]. intros o H2 (_ & M2 & K & _). apply new_value. exists t'. auto.
    - destruct Al as (D & o & Ey & I). cbn [act]. rewrite Ey. assert (N : x <> y) by congruence. destruct b.
      + cbn [foliated_move]. unfold pure. cbn [after changed_by].
        apply (good_move w (w_clock w) _ (fun z => if (z =? x)%nat then y else z) [x; y] G).
        * intros z v u. destruct (Nat.eqb_spec z x) as [->|Nx].
          -- rewrite set_same. intros [= <-] T. cbn in T. split; [|exists (VF o); auto].
             pose proof (GV y _ Ey) as K. intros u' U. split; [apply K, U|reflexivity].
          -- rewrite set_other by exact Nx. destruct (decide (z = y)) as [->|Ny]; [rewrite set_same; intros [= <-]; cbn; congruence|].
             rewrite set_other by exact Ny. intros Ez Tz. split; [eapply GV; exact Ez|exists v; auto].
        * intros z z' v v' Ez Ez' I1 I2. destruct (Nat.eqb_spec z x) as [->|Nx], (Nat.eqb_spec z' x) as [->|Nx']; auto; intros E; subst.
          -- rewrite set_other, set_same in Ez' by exact Nx'. injection Ez' as <-. destruct I2. reflexivity.
          -- rewrite set_other, set_same in Ez by exact Nx. injection Ez as <-. destruct I1. reflexivity.
        * intros z Z. rewrite !not_elem_of_cons in Z. destruct Z as (Z1 & Z2 & _). rewrite !set_other by assumption. reflexivity.
      + destruct (coherent_of_value (w_heap w) o (GV y _ Ey) I) as [t K].
        cbn [act]; apply (after_run w _ _ x VM G); [reflexivity|reflexivity|]. apply wp_bind. eapply wp_mono; [apply wp_foliated_copy; [exact CO|exact K]| |auto].
        intros o' H' X. apply wp_ret. apply new_manifold; [exact (copied_new _ _ _ _ _ X)|reflexivity].
    - destruct Al as (D & v & Ey & I). cbn [act]. rewrite Ey. destruct v as [o|m|[t|]]; [| | |destruct I; reflexivity].
      + destruct (coherent_of_value (w_heap w) o (GV y _ Ey) I) as [t K].
        cbn [act]; apply (after_run w _ _ x VF G); [reflexivity|reflexivity|]. eapply wp_mono; [apply wp_foliated_copy; [exact CO|exact K]| |auto].
        intros o' H' X. apply new_value, (copied_new _ _ _ _ _ X).
      + destruct (geometric_of_value (w_heap w) m (GV y _ Ey) I) as [Ge [t K]].
        cbn [act]; apply (after_run w _ _ x VM G); [reflexivity|reflexivity|]. eapply wp_mono; [apply wp_manifold_copy; [exact K|exact Ge]| |auto].
        intros m' H' (X & _ & Ge'). apply new_manifold; [exact (copied_new _ _ _ _ _ X)|exact Ge'].
      + pose proof (GV y _ Ey t eq_refl) as W.
        cbn [act]; apply (after_run w _ _ x (fun t => VP (Some t)) G); [reflexivity|reflexivity|]. eapply wp_mono; [apply wp_copy; [exact CO|exact W]| |intros ? ->; apply writes_refl].
        intros t' H' (Mk & _). split; [apply Mk|]. split; cbn; intros u [= <-]; [apply Mk|exact Mk].
    - destruct Al as (D & L). cbn [act]. destruct (w_var w y) as [v|] eqn:Ey; [|congruence]. assert (N : x <> y) by congruence.
      assert (X : forall v' : value, triangulation_in v' = None ->
        after w (Move x y) (pure w (set_var x (Some v) (set_var y (Some v') (w_var w))))).
      { intros v' T'. unfold pure. cbn [after changed_by].
        apply (good_move w (w_clock w) _ (fun z => if (z =? x)%nat then y else z) [x; y] G).
        * intros z u t. destruct (Nat.eqb_spec z x) as [->|Nx].
          -- rewrite set_same. intros [= <-] T. split; [eapply GV; exact Ey|exists v; auto].
          -- rewrite set_other by exact Nx. destruct (decide (z = y)) as [->|Ny]; [rewrite set_same; intros [= <-]; congruence|].
             rewrite set_other by exact Ny. intros Ez Tz. split; [eapply GV; exact Ez|exists u; auto].
        * intros z z' u u' Ez Ez' I1 I2. destruct (Nat.eqb_spec z x) as [->|Nx], (Nat.eqb_spec z' x) as [->|Nx']; auto; intros E; subst.
          -- rewrite set_other, set_same in Ez' by exact Nx'. injection Ez' as <-. destruct I2. exact T'.
          -- rewrite set_other, set_same in Ez by exact Nx. injection Ez as <-. destruct I1. exact T'.
        * intros z Z. rewrite !not_elem_of_cons in Z. destruct Z as (Z1 & Z2 & _). rewrite !set_other by assumption. reflexivity. }
      destruct v as [o|m|t]; cbn [foliated_move manifold_move].
      + apply X. reflexivity.
      + destruct m as [o g]. apply X. reflexivity.
      + apply X. reflexivity.
    - destruct Al as (v & v' & Ex & Ey & Ty & I). cbn [act]. destruct (Nat.eqb_spec x y) as [->|N].
      { apply after_self, G. }
      rewrite Ex, Ey. destruct v as [this|this|], v' as [o|m|]; try destruct Ty.
      + destruct (coherent_of_value (w_heap w) o (GV y _ Ey) I) as [t K].
        cbn [act]; apply (after_run w _ _ x VF G); [reflexivity|reflexivity|]. eapply wp_mono; [apply wp_assign_copy; [exact CO|exact K]| |auto].
        intros o' H' X. apply new_value, (copied_new _ _ _ _ _ X).
      + destruct (geometric_of_value (w_heap w) m (GV y _ Ey) I) as [Ge [t K]].
        cbn [act]; apply (after_run w _ _ x VM G); [reflexivity|reflexivity|]. eapply wp_mono; [apply wp_manifold_assign_copy; [exact K|exact Ge]| |auto].
        intros m' H' (X & _ & Ge'). apply new_manifold; [exact (copied_new _ _ _ _ _ X)|exact Ge'].
    - destruct Al as (v & v' & Ex & Ey & Ty). cbn [act]. destruct (Nat.eqb_spec x y) as [->|N]; [apply after_self, G|].
      rewrite Ex, Ey. destruct v as [this|this|], v' as [o|m|]; try destruct Ty.
      + unfold foliated_assign_move. rewrite swap_right. apply (after_swap w _ x y (VF this) (VF o) G); [reflexivity|exact N|exact Ex|exact Ey].
      + unfold manifold_assign_move. rewrite manifold_swap_right. apply (after_swap w _ x y (VM this) (VM m) G); [reflexivity|exact N|exact Ex|exact Ey].
    - destruct Al as (v & v' & Ex & Ey & Ty). cbn [act]. destruct (Nat.eqb_spec x y) as [->|N]; [apply after_self, G|].
      rewrite Ex, Ey. destruct v as [this|this|], v' as [o|m|]; try destruct Ty.
      + rewrite swap_right. apply (after_swap w _ x y (VF this) (VF o) G); [reflexivity|exact N|exact Ex|exact Ey].
      + rewrite manifold_swap_right. apply (after_swap w _ x y (VM this) (VM m) G); [reflexivity|exact N|exact Ex|exact Ey].
    - destruct Al as (D & m & Ey & I). cbn [act]. rewrite Ey.
      destruct (geometric_of_value (w_heap w) m (GV y _ Ey) I) as [Ge [t K]].
      cbn [act]; apply (after_run w _ _ x VM G); [reflexivity|reflexivity|]. eapply wp_mono; [apply wp_updated, K| |auto].
      intros m' H' (X & Ge' & _). apply new_manifold; assumption.
    - destruct Al as (o & Ex & I). cbn [act]. rewrite Ex. apply (after_member w _ x o); [exact G|reflexivity|reflexivity|exact Ex|exact I|]. apply editing_vertices.
    - destruct Al as (o & Ex & I). cbn [act]. rewrite Ex. apply (after_member w _ x o); [exact G|reflexivity|reflexivity|exact Ex|exact I|]. apply editing_cells.
    - destruct Al as (o & Ex & I). cbn [act]. rewrite Ex. apply (after_member w _ x o); [exact G|reflexivity|reflexivity|exact Ex|exact I|]. apply editing_is_fixed, CO.
    - destruct Al as (D & v & Ey & I & NP). cbn [act]. rewrite Ey.
      assert (X : forall o t, coherent (w_heap w) o t ->
        after w (Snapshot x y) (run w (delaunay_snapshot C luck o) (fun t => set_var x (Some (VP (Some t))) (w_var w)))).
      { intros o t K. cbn [act]; apply (after_run w _ _ x (fun t => VP (Some t)) G); [reflexivity|reflexivity|]. eapply wp_mono; [eapply wp_snapshot; [exact CO|exact K]| |auto].
        intros t' H' (Mk & _). split; [apply Mk|]. split; cbn; intros u [= <-]; [apply Mk|exact Mk]. }
      destruct v as [o|m|t]; [| |destruct (NP t); reflexivity].
      + destruct (coherent_of_value (w_heap w) o (GV y _ Ey) I) as [t K]. exact (X o t K).
      + destruct (geometric_of_value (w_heap w) m (GV y _ Ey) I) as [Ge [t K]]. exact (X _ t K).
    - cbn [act]; apply (after_run w _ _ x (fun t => VP (Some t)) G); [reflexivity|reflexivity|]. eapply wp_mono; [apply wp_make, CO| |auto].
      intros t Hn Mk. split; [apply Mk|]. split; cbn; intros u [= <-]; [apply Mk|exact Mk].
    - destruct Al as (t & Ex & E). cbn [act]. rewrite Ex. destruct (f (w_heap w) t) as [H' t'] eqn:F. specialize (E H' t' eq_refl).
      cbn [after changed_by]. apply (good_edit w H' (w_clock w) x x (VP (Some t)) (VP (Some t')) t t'); auto.
      + intros u [= <-]. apply E.
      + apply set_same.
      + intros z N. left. rewrite set_other by exact N. auto.
      + intros z Z. rewrite elem_of_list_singleton in Z. apply set_other, Z.
      + left.
    - unfold act, pure. cbn [after changed_by]. apply (good_move w (w_clock w) _ (fun z => z) [x] G).
      + intros z v u. destruct (decide (z = x)) as [->|Ny]; [rewrite set_same; congruence|].
        rewrite set_other by exact Ny. intros Ez Tz. split; [eapply GV; exact Ez|exists v; auto].
      + auto.
      + intros z Z. rewrite elem_of_list_singleton in Z. apply set_other, Z.
  Qed.

  (** ** Histories *)
  Lemma start_good H : good (start H).
  Proof using. split; [intros x v E; discriminate E|intros x y v v' t t' _ E; discriminate E]. Qed.
  Lemma history_good w l w' : history timevalue C luck w l w' -> good w -> good w'.
  Proof using CO.
    intros Hi. induction Hi as [w|w a w1 l w2 Al E Hi IH|w a w1 l w2 Al E Hi IH]; intros G; [exact G| |];
      pose proof (after_act w a G Al) as X; rewrite E in X; apply IH, X.
  Qed.
End World.
