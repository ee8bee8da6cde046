(** C34: the do_* functions as searches over the shuffled sites. *)
From Verif Require Import Base Tracker Command Geom Simplex Pachner Foliation Moves Links MoveCore MoveTools MoveSound Manifold ManifoldFacts ManifoldMoves.
From stdpp Require Import fin_sets gmap sorting.
From Verif Require Import Foliation.
Local Open Scope Z_scope.

(** ** Specification *)
(** [attempt s g]: one site, prepared and executed. [all_fail l g errs g']: every
    site of [l] fails in turn, with these errors, the generator going from [g] to
    [g']. *)
Inductive all_fail {G S A} (attempt : S -> G -> outcome A * G) : list S -> G -> list MoveFailure -> G -> Prop :=
| AF_nil g : all_fail attempt [] g [] g
| AF_cons s l g e g1 errs g2 : attempt s g = (Fail e, g1) -> all_fail attempt l g1 errs g2 ->
    all_fail attempt (s :: l) g (e :: errs) g2.

(** A function that looks for the first site that works: [order] is the shuffled
    list of sites. *)
Record searches_all {G S} (R : choices G) (m : manifold) (kind : MoveType) (sites : list S)
    (attempt : S -> G -> outcome tds * G) (f : G -> move_result manifold * G) : Prop := {
  sa_empty : forall g g1, shuffle R S sites g = ([], g1) -> f g = (Failed (mkMoveError NO_CANDIDATE kind), g1);
  sa_all_fail : forall g order g1 errs e g2, shuffle R S sites g = (order, g1) -> all_fail attempt order g1 errs g2 ->
    last errs = Some e -> f g = (Failed (mkMoveError e kind), g2);
  sa_success : forall g before s after g1 errs g2 T g3, shuffle R S sites g = (before ++ s :: after, g1) ->
    all_fail attempt before g1 errs g2 -> attempt s g2 = (Done T, g3) -> f g = (make_manifold T m, g3);
  sa_complete : forall g order g1, shuffle R S sites g = (order, g1) ->
    order = [] \/ (exists errs e g2, all_fail attempt order g1 errs g2 /\ last errs = Some e) \/
    exists before s after errs g2, order = before ++ s :: after /\ all_fail attempt before g1 errs g2 /\
      ((exists T g3, attempt s g2 = (Done T, g3)) \/ (exists g3, attempt s g2 = (Unmodelled, g3))) }.

(** The attempts of the five moves. *)
Definition attempt_23 {G} W m (c : simplex) (g : G) :=
  (move_23 (label_of W m) (w_junk W) (w_locates W) (w_geo_facet W) (m_cells m) c, g).
Definition attempt_32 {G} W m (e : simplex) (g : G) :=
  (move_32 (label_of W m) (w_junk W) (w_locates W) (w_geo_edge W) (m_cells m) e, g).
Definition attempt_44 {G} W m (e : simplex) (g : G) :=
  (move_44 (label_of W m) (w_junk W) (w_locates W) (m_cells m) e, g).
Definition attempt_26 {G} W m (c : simplex) (g : G) :=
  (move_26 (label_of W m) (w_junk W) (w_locates W) (w_centroid W) (m_cells m) c, g).
Definition attempt_62 {G} (R : choices G) W m (v : vertex) (g : G) :=
  if negb (w_locates W (m_cells m) v) then
    (bind (prepare_62 (label_of W m) (w_junk W) (m_cells m) v) (fun _ => Fail STALE_CANDIDATE), g)
  else match prepare_62 (label_of W m) (w_junk W) (m_cells m) v with
  | Fail e => (Fail e, g)
  | Unmodelled => (Unmodelled, g)
  | Done _ => let '(edges, g') := shuffle R simplex (canonicalize (finite_incident_edges (m_cells m) v)) g in
              (move_62 (label_of W m) (w_junk W) (w_locates W) (m_cells m) v edges, g')
  end.

(** ** Proofs *)
Section Search.
  Context {G : Type}.
  Variable R : choices G.
  Variable escape : manifold -> G -> move_result manifold * G.

  Lemma all_fail_try {S P} (prepare : S -> outcome P) (execute : S -> P -> G -> outcome tds * G) (attempt : S -> G -> outcome tds * G) before rest g errs g' :
    (forall s g, attempt s g = match prepare s with Done p => execute s p g | Fail e => (Fail e, g) | Unmodelled => (Unmodelled, g) end) ->
    all_fail attempt before g errs g' ->
    forall d, try_sites prepare execute false d (before ++ rest) g = try_sites prepare execute false (List.last errs d) rest g'.
  Proof.
    intros A. induction 1 as [g|s l g e g1 errs g2 Hs _ IH]; intros d; [reflexivity|]. rewrite A in Hs.
    assert (Q : List.last (e :: errs) d = List.last errs e).
    { cbn. destruct errs as [|x l']; [reflexivity|]. clear. revert x. induction l' as [|y l' IH]; intros x; [reflexivity|]. cbn in *. apply IH. }
    rewrite Q, <- (IH e). cbn [app try_sites]. destruct (prepare s) as [p|e'|].
    - destruct (execute s p g) as [[T|e''|] g'']; try discriminate. injection Hs as -> ->. reflexivity.
    - injection Hs as -> ->. reflexivity.
    - discriminate.
  Qed.

  Lemma search_complete {S} (attempt : S -> G -> outcome tds * G) order g1 :
    (exists errs g2, all_fail attempt order g1 errs g2 /\ length errs = length order) \/
    exists before s after errs g2, order = before ++ s :: after /\ all_fail attempt before g1 errs g2 /\
      ((exists T g3, attempt s g2 = (Done T, g3)) \/ (exists g3, attempt s g2 = (Unmodelled, g3))).
  Proof.
    revert g1. induction order as [|s l IH]; intros g1.
    - left. exists [], g1. split; [constructor|reflexivity].
    - destruct (attempt s g1) as [[T|e|] g2] eqn:E.
      + right. exists [], s, l, [], g1. split; [reflexivity|]. split; [constructor|]. left. eauto.
      + destruct (IH g2) as [(errs & g3 & H & L)|(before & s' & after & errs & g3 & -> & H & K)].
        * left. exists (e :: errs), g3. split; [econstructor; eassumption|]. cbn. rewrite L. reflexivity.
        * right. exists (s :: before), s', after, (e :: errs), g3. split; [reflexivity|]. split; [econstructor; eassumption|exact K].
      + right. exists [], s, l, [], g1. split; [reflexivity|]. split; [constructor|]. right. eauto.
  Qed.

  Lemma last_default {A} (l : list A) d e : last l = Some e -> List.last l d = e.
  Proof.
    induction l as [|x l IH]; [discriminate|]. destruct l as [|y l]; cbn in *; [congruence|]. exact IH.
  Qed.
  Lemma last_exists {A} (l : list A) : l <> [] -> exists e, last l = Some e.
  Proof. induction l as [|x l IH]; [congruence|]. intros _. destruct l as [|y l]; [cbn; eauto|]. apply IH. discriminate. Qed.

  Lemma do_loop_searches {S P} m kind (sites : list S) (prepare : S -> outcome P) (execute : S -> P -> G -> outcome tds * G) (attempt : S -> G -> outcome tds * G) :
    (forall s g, attempt s g = match prepare s with Done p => execute s p g | Fail e => (Fail e, g) | Unmodelled => (Unmodelled, g) end) ->
    searches_all R m kind sites attempt (do_loop R escape m kind sites prepare execute).
  Proof.
    intros A. constructor; unfold do_loop.
    - intros g g1 ->. reflexivity.
    - intros g order g1 errs e g2 -> H L. destruct order as [|s0 l0]; [inversion H; subst; discriminate|].
      pose proof (all_fail_try prepare execute attempt _ [] _ _ _ A H NO_CANDIDATE) as Q.
      rewrite app_nil_r in Q. rewrite Q. cbn. rewrite (last_default _ NO_CANDIDATE e L). reflexivity.
    - intros g before s after g1 errs g2 T g3 -> H D.
      pose proof (all_fail_try prepare execute attempt _ (s :: after) _ _ _ A H NO_CANDIDATE) as Q.
      destruct (before ++ s :: after) as [|s0 l0] eqn:E; [destruct before; discriminate|]. rewrite Q. cbn.
      rewrite A in D. destruct (prepare s) as [p|e|]; [|discriminate|discriminate]. rewrite D. reflexivity.
    - intros g order g1 _. destruct order as [|s l]; [left; reflexivity|]. right.
      destruct (search_complete attempt (s :: l) g1) as [(errs & g2 & H & L)|H]; [left|right; exact H].
      destruct (last_exists errs) as [e He]; [intros ->; discriminate|]. eauto 6.
  Qed.
End Search.

Section Moves.
  Variable W : world.
  Context {G : Type}.
  Variable R : choices G.
  Hypothesis RO : choices_ok R.
  Variable escape : manifold -> G -> move_result manifold * G.

  Lemma searches_23 m : searches_all R m TWO_THREE (sites_23 W m) (attempt_23 W m) (do_23 W R escape m).
  Proof. apply do_loop_searches. intros s g. unfold attempt_23, move_23, bind, prep_23, exec_23. destruct (prepare_23 _ _ _ _); reflexivity. Qed.
  Lemma searches_32 m : searches_all R m THREE_TWO (sites_32 W m) (attempt_32 W m) (do_32 W R escape m).
  Proof. apply do_loop_searches. intros s g. unfold attempt_32, move_32, bind, prep_32, exec_32. destruct (prepare_32 _ _ _ _); reflexivity. Qed.
  Lemma searches_44 m : searches_all R m FOUR_FOUR (sites_44 W m) (attempt_44 W m) (do_44 W R escape m).
  Proof. apply do_loop_searches. intros s g. unfold attempt_44, move_44, bind, prep_44, exec_44. destruct (prepare_44 _ _ _ _); reflexivity. Qed.
  Lemma searches_62 m : searches_all R m SIX_TWO (sites_62 m) (attempt_62 R W m) (do_62 W R escape m).
  Proof.
    apply do_loop_searches. intros s g. unfold attempt_62, move_62, bind, prep_62, exec_62.
    destruct (prepare_62 _ _ _ _); destruct (w_locates W (m_cells m) s); cbn; reflexivity.
  Qed.

  (** Sites never fail for lack of a site. *)
  Ltac inner_cases H := repeat match type of H with
    context [match ?x with _ => _ end] => lazymatch x with context [match _ with _ => _ end] => fail | _ => destruct x end end.
  Ltac nocand H := inner_cases H; try discriminate; injection H as <-; discriminate.
  Lemma attempt_23_reason m c (g : G) e g' : attempt_23 W m c g = (Fail e, g') -> e <> NO_CANDIDATE.
  Proof. intros H. unfold attempt_23, move_23, bind, prepare_23, execute_23 in H. injection H as H _. nocand H. Qed.
  Lemma attempt_32_reason m c (g : G) e g' : attempt_32 W m c g = (Fail e, g') -> e <> NO_CANDIDATE.
  Proof. intros H. unfold attempt_32, move_32, bind, prepare_32, execute_32 in H. injection H as H _. nocand H. Qed.
  Lemma attempt_44_reason m c (g : G) e g' : attempt_44 W m c g = (Fail e, g') -> e <> NO_CANDIDATE.
  Proof. intros H. unfold attempt_44, move_44, bind, prepare_44, execute_44 in H. injection H as H _. nocand H. Qed.
  Lemma attempt_26_reason m c (g : G) e g' : attempt_26 W m c g = (Fail e, g') -> e <> NO_CANDIDATE.
  Proof. intros H. unfold attempt_26, move_26, bind, prepare_26, execute_26 in H. injection H as H _. nocand H. Qed.
  Lemma attempt_62_reason m v (g : G) e g' : attempt_62 R W m v g = (Fail e, g') -> e <> NO_CANDIDATE.
  Proof.
    intros H. unfold attempt_62 in H. destruct (w_locates W (m_cells m) v); cbn [negb] in H.
    - unfold prepare_62 in H. destruct (negb _ || _); [injection H as <- _; discriminate|].
      destruct (negb (is_62_movable _ _ _ _)) eqn:EM; [injection H as <- _; discriminate|].
      destruct (shuffle R simplex _ g) as [edges g2]. injection H as H _. unfold move_62, bind, prepare_62, execute_62 in H. nocand H.
    - unfold bind, prepare_62 in H. injection H as H _. nocand H.
  Qed.

  Lemma all_fail_reason {S} (attempt : S -> G -> outcome tds * G) l g errs g' :
    (forall s g e g', attempt s g = (Fail e, g') -> e <> NO_CANDIDATE) ->
    all_fail attempt l g errs g' -> NO_CANDIDATE ∉ errs.
  Proof.
    intros N. induction 1 as [g|s l g e g1 errs g2 Hs _ IH]; [apply not_elem_of_nil|].
    apply not_elem_of_cons. split; [intros <-; eapply N; eauto|exact IH].
  Qed.
  Lemma no_candidate_iff {S} m kind (sites : list S) attempt (f : G -> move_result manifold * G) :
    searches_all R m kind sites attempt f ->
    (forall s g e g', attempt s g = (Fail e, g') -> e <> NO_CANDIDATE) ->
    (forall s g g', s ∈ sites -> attempt s g <> (Unmodelled, g')) ->
    forall g, (exists k g', f g = (Failed (mkMoveError NO_CANDIDATE k), g')) <-> sites = [].
  Proof using RO.
    intros SA N U g. destruct (shuffle R S sites g) as [order g1] eqn:E.
    pose proof (shuffle_perm R RO S sites g) as P. rewrite E in P. cbn in P. split.
    - intros (k & g' & H). destruct (sa_complete _ _ _ _ _ _ SA g order g1 E) as [->|[(errs & e & g2 & F & L)|(b & s & a & errs & g2 & -> & F & K)]].
      + apply Permutation_nil. exact P.
      + rewrite (sa_all_fail _ _ _ _ _ _ SA g order g1 errs e g2 E F L) in H. injection H as -> _ _.
        exfalso. apply (all_fail_reason _ _ _ _ _ N F). apply last_Some in L as [l' ->]. apply elem_of_app. right. constructor.
      + destruct K as [(T & g3 & K)|(g3 & K)].
        * rewrite (sa_success _ _ _ _ _ _ SA g b s a g1 errs g2 T g3 E F K) in H. unfold make_manifold in H.
          destruct (bool_decide _); discriminate.
        * exfalso. apply (U s g2 g3); [|exact K]. rewrite <- P. apply elem_of_app. right. constructor.
    - intros ->. symmetry in P. apply Permutation_nil in P. subst order. rewrite (sa_empty _ _ _ _ _ _ SA g g1 E). eauto.
  Qed.

  (** do_26_move stops at the first site that can be prepared. *)
  Definition prepares_26 W m (c : simplex) : bool :=
    match prepare_26 (label_of W m) (w_junk W) (m_cells m) c with Done _ => true | _ => false end.
  Lemma prepare_26_modelled m c : prepare_26 (label_of W m) (w_junk W) (m_cells m) c <> Unmodelled.
  Proof. unfold prepare_26. repeat (match goal with |- context [match ?x with _ => _ end] => destruct x end); discriminate. Qed.

  Lemma try_26_skip m before rest d (g : G) : (forall c, c ∈ before -> prepares_26 W m c = false) ->
    exists e, try_sites (prep_26 W m) (exec_26 W m) true d (before ++ rest) g = try_sites (prep_26 W m) (exec_26 W m) true e rest g /\
              (before = [] -> e = d) /\ (before <> [] -> e <> NO_CANDIDATE).
  Proof.
    revert d. induction before as [|c l IH]; intros d H.
    - exists d. split; [reflexivity|]. split; congruence.
    - cbn [app try_sites]. assert (Hc : prepares_26 W m c = false) by (apply H; constructor).
      unfold prepares_26 in Hc. unfold prep_26 at 1. destruct (prepare_26 _ _ _ c) as [p|e|] eqn:E; [discriminate| |].
      + destruct (IH e) as (e' & Q & A & B); [intros c' Hc'; apply H; constructor; exact Hc'|].
        exists e'. rewrite <- Q. split; [reflexivity|]. split; [discriminate|]. intros _.
        destruct l as [|c' l']; [rewrite A by reflexivity|apply B; discriminate].
        eapply (attempt_26_reason m c g e g). unfold attempt_26, move_26, bind. rewrite E. reflexivity.
      + exfalso. exact (prepare_26_modelled m c E).
  Qed.

  (** The outcome of do_26_move. *)
  Lemma do_26_searches m g order g1 : shuffle R simplex (sites_26 W m) g = (order, g1) -> 
    (sites_26 W m = [] -> do_26 W R escape m g = (Failed (mkMoveError NO_CANDIDATE TWO_SIX), g)) /\
    (sites_26 W m <> [] -> (forall c, c ∈ order -> prepares_26 W m c = false) ->
       exists e, do_26 W R escape m g = (Failed (mkMoveError e TWO_SIX), g1) /\ e <> NO_CANDIDATE) /\
    (forall before c after, order = before ++ c :: after -> (forall c', c' ∈ before -> prepares_26 W m c' = false) ->
       prepares_26 W m c = true ->
       do_26 W R escape m g = finish escape m TWO_SIX (attempt_26 W m c g1)).
  Proof using RO.
    intros E. pose proof (shuffle_perm R RO simplex (sites_26 W m) g) as P. rewrite E in P. cbn in P.
    unfold do_26, do_26_impl. split; [|split].
    - intros ->. reflexivity.
    - intros NE H. destruct (sites_26 W m) as [|c0 l0]; [congruence|]. rewrite E.
      destruct (try_26_skip m order [] NO_CANDIDATE g1 H) as (e & Q & _ & B). rewrite app_nil_r in Q. rewrite Q. cbn.
      exists e. split; [reflexivity|]. apply B. intros ->. apply Permutation_nil in P. discriminate.
    - intros before c after -> H Hc.
      destruct (sites_26 W m) as [|c0 l0]; [symmetry in P; apply Permutation_nil in P; destruct before; discriminate|]. rewrite E.
      destruct (try_26_skip m before (c :: after) NO_CANDIDATE g1 H) as (e & -> & _). cbn [try_sites].
      unfold prepares_26 in Hc. unfold prep_26 at 1. unfold attempt_26, move_26, bind.
      destruct (prepare_26 _ _ _ c) as [p|e'|]; try discriminate. unfold exec_26.
      destruct (execute_26 _ _ _ _ _); reflexivity.
  Qed.
End Moves.
