(** How far whole runs reach (C105): the steps of a run that changed the manifold
    are those its counters count. *)
From Verif Require Import Base Tracker Command Run Fnv Geom Metropolis Simplex Foliation Moves Links MoveSpec Manifold ManifoldMoves ManifoldFacts MoveProps PropsRunLemmas NoThrow EngineSpec EngineProps EngineFacts Lookup LookupSpec LookupFacts.
From stdpp Require Import fin_sets gmap relations.
From Verif Require Import Foliation.
Local Open Scope Z_scope.

Lemma checked_supported W m m' k : check_move W m m' k = true -> supported k.
Proof.
  intros C. apply check_move_spec in C as (_ & _ & _ & _ & _ & _ & d & D & _). unfold move_delta in D.
  repeat match type of D with context [k =? ?c] => destruct (k =? c) eqn:?E end; try discriminate D;
    apply Z.eqb_eq in E || apply Z.eqb_eq in E0 || apply Z.eqb_eq in E1 || apply Z.eqb_eq in E2 || apply Z.eqb_eq in E3;
    subst k; unfold supported, TWO_THREE, THREE_TWO, TWO_SIX, SIX_TWO, FOUR_FOUR; lia.
Qed.

(** Entries of the five kinds. *)
Definition five_of (f : MoveType -> Z) : Z := f TWO_THREE + f THREE_TWO + f TWO_SIX + f SIX_TWO + f FOUR_FOUR.
Lemma five_ext f f' : (forall k, supported k -> f k = f' k) -> five_of f = five_of f'.
Proof. intros H. unfold five_of. rewrite !H; [reflexivity|unfold supported; cbv; intuition discriminate..]. Qed.

Lemma tally_cons k ok p h : tally k ok (p :: h) = (if (fst p =? k) && Bool.eqb (snd p) ok then 1 else 0) + tally k ok h.
Proof. unfold tally. cbn [List.filter]. destruct (_ && _); cbn [length]; lia. Qed.
Lemma count_of_cons k f p h : count_of k f (p :: h) = (if (fst p =? k) && f (snd p) then 1 else 0) + count_of k f h.
Proof. unfold count_of. cbn [List.filter]. destruct (_ && _); cbn [length]; lia. Qed.
Lemma five_tally_cons k (b : bool) h : supported k ->
  five_of (fun j => tally j true ((k, b) :: h)) = (if b then 1 else 0) + five_of (fun j => tally j true h).
Proof.
  intros S. unfold five_of. rewrite !tally_cons. cbn [fst snd].
  destruct (supported_cases k S) as [->|[->|[->|[->| ->]]]]; destruct b; cbn; lia.
Qed.
Lemma five_tally_false k h : five_of (fun j => tally j true ((k, false) :: h)) = five_of (fun j => tally j true h).
Proof. unfold five_of. rewrite !tally_cons. cbn [fst snd Bool.eqb]. rewrite !andb_false_r. lia. Qed.
Lemma five_count_cons k o h : supported k ->
  five_of (fun j => count_of j is_accepted ((k, o) :: h)) = (if is_accepted o then 1 else 0) + five_of (fun j => count_of j is_accepted h).
Proof.
  intros S. unfold five_of. rewrite !count_of_cons. cbn [fst snd].
  destruct (supported_cases k S) as [->|[->|[->|[->| ->]]]]; destruct (is_accepted o); cbn; lia.
Qed.
Lemma five_tally_app h h' : five_of (fun j => tally j true (h ++ h')) = five_of (fun j => tally j true h) + five_of (fun j => tally j true h').
Proof. unfold five_of, tally. rewrite !List.filter_app, !app_length. lia. Qed.
Lemma five_count_app h h' : five_of (fun j => count_of j is_accepted (h ++ h')) = five_of (fun j => count_of j is_accepted h) + five_of (fun j => count_of j is_accepted h').
Proof. unfold five_of. rewrite !count_of_app. lia. Qed.
Lemma nsteps_app {A} (Q : relation A) n n' x y z : nsteps Q n x y -> nsteps Q n' y z -> nsteps Q (n + n') x z.
Proof. apply nsteps_trans. Qed.

Section Runs.
  Context {G : Type}.
  Variable W : world.
  Variable R : choices G.
  Variable escape : manifold -> G -> move_result manifold * G.
  Notation step := (some_move W R escape).

  Lemma history_steps m g h m' g' : history (do_api W R escape) (check_move W) m g h m' g' ->
    exists n, Z.of_nat n = five_of (fun j => tally j true h) /\ nsteps step n m m'.
  Proof using Type.
    induction 1 as [m g|m g k cand g1 h m' g' E C _ (n & En & Hn)|m g k cand g1 h m' g' E C _ (n & En & Hn)|m g k e g1 h m' g' E _ (n & En & Hn)].
    - exists 0%nat. split; [reflexivity|constructor].
    - exists (S n). split; [rewrite five_tally_cons by (exact (checked_supported _ _ _ _ C)); lia|].
      eapply nsteps_l; [|exact Hn]. exists k. split; [|exact C]. exists g, g1. left. exact E.
    - exists n. split; [rewrite five_tally_false; exact En|exact Hn].
    - exists n. split; [rewrite five_tally_false; exact En|exact Hn].
  Qed.
  Lemma always_steps N3 draw m g hs m' g' : passes (always_pass N3 (do_api W R escape) (check_move W) draw) m g hs m' g' ->
    exists n, Z.of_nat n = five_of (fun j => tally j true (concat hs)) /\ nsteps step n m m'.
  Proof using Type.
    induction 1 as [m g|m g h m1 g1 hs m2 g2 (g0 & _ & _ & H) _ (n & En & Hn)].
    - exists 0%nat. split; [reflexivity|constructor].
    - apply history_steps in H as (n0 & E0 & H0). exists (n0 + n)%nat. cbn [concat]. rewrite five_tally_app.
      split; [lia|exact (nsteps_app _ _ _ _ _ _ H0 Hn)].
  Qed.

  Context {P : Type}.
  Variable geometry : manifold -> Geometry.
  Variable accept : Geometry -> Geometry -> MoveType -> P + exn.
  Variable at_least : P -> fp -> bool.
  Variable draw_int : Z -> Z -> G -> Z * G.
  Variable draw_p : G -> fp * G.
  Lemma proposal_moved cur k g cand g' : propose_candidate (propose_api W R escape) cur k g = (Moved cand, g') ->
    moved W R escape k cur cand.
  Proof using Type. intros E. exists g, g'. right. rewrite <- E. symmetry. apply propose_same. Qed.
  Lemma chain_steps m g h m' g' :
    sampled_chain geometry (propose_api W R escape) (check_move W) accept at_least draw_int draw_p m g h m' g' ->
    exists n, Z.of_nat n = five_of (fun j => count_of j is_accepted h) /\ nsteps step n m m'.
  Proof using Type.
    induction 1 as [m g|m g k g1 t g2 o m1 g3 h m2 g4 _ _ Sk _ Q _ (n & En & Hn)].
    - exists 0%nat. split; [reflexivity|constructor].
    - rewrite five_count_cons by exact Sk. destruct Q as [cur g0 m t e g' E|cur g0 m t cand g' E C|cur g0 m t cand g' q E C A L|cur g0 m t cand g' q E C A L].
      + exists n. split; [destruct e as [[] ?]; cbn; lia|exact Hn].
      + exists n. split; [cbn; lia|exact Hn].
      + exists (S n). split; [cbn; lia|]. eapply nsteps_l; [|exact Hn]. exists m. split; [apply (proposal_moved _ _ _ _ _ E)|exact C].
      + exists n. split; [cbn; lia|exact Hn].
  Qed.
  Lemma metropolis_steps m g hs m' g' :
    passes (metropolis_pass geometry (propose_api W R escape) (check_move W) accept at_least draw_int draw_p) m g hs m' g' ->
    exists n, Z.of_nat n = five_of (fun j => count_of j is_accepted (concat hs)) /\ nsteps step n m m'.
  Proof using Type.
    induction 1 as [m g|m g h m1 g1 hs m2 g2 (_ & H) _ (n & En & Hn)].
    - exists 0%nat. split; [reflexivity|constructor].
    - apply chain_steps in H as (n0 & E0 & H0). exists (n0 + n)%nat. cbn [concat]. rewrite five_count_app.
      split; [lia|exact (nsteps_app _ _ _ _ _ _ H0 Hn)].
  Qed.

  Hypothesis RO : choices_ok R.
  Hypothesis ES : stays_modelled escape.
  Lemma steps_reach n (z : Z) m m' : valid (m_cells m) -> Z.of_nat n = z -> nsteps step n m m' ->
    exists S, Z.of_nat (size S) <= 6 * z /\ infinite ∉ S /\ same_outside W S m m'.
  Proof using RO ES.
    intros V E H. destruct (run_same W R RO escape ES n m m' V H) as (S & A & B & C). exists S.
    split; [lia|]. split; [exact B|exact C].
  Qed.
  Lemma always_reach {X : Type} N3 draw print write s (w : X) m s' w' m' : valid (m_cells m) ->
    ma_run N3 (do_api W R escape) (check_move W) draw print write s w m = Ret (s', w') m' ->
    exists S, Z.of_nat (size S) <= 6 * all_five (succeeded (ma_results s')) /\ infinite ∉ S /\ same_outside W S m m'.
  Proof using RO ES.
    intros V H. apply always_engine in H as (hs & _ & H & _ & _ & T). apply always_steps in H as (n & E & H).
    eapply steps_reach; [exact V| |exact H]. rewrite E. symmetry. apply (five_ext (slot (succeeded (ma_results s')))).
    intros k Sk. apply (T k Sk).
  Qed.
  Lemma metropolis_reach {X : Type} max_time update print write (x : metropolis G) (w : X) m x' w' m' :
    (forall g k g', draw_int 0 4 g = (k, g') -> supported k) -> valid (m_cells m) ->
    mh_run geometry (propose_api W R escape) (check_move W) accept at_least draw_int draw_p max_time update print write x w m = Ret (x', w') m' ->
    exists S, Z.of_nat (size S) <= 6 * all_five (st_accepted (mh_stats x')) /\ infinite ∉ S /\ same_outside W S m m'.
  Proof using RO ES.
    intros D V H. apply metropolis_engine in H as (hs & _ & H & _ & _ & _ & _ & T & _); [|exact D]. apply metropolis_steps in H as (n & E & H).
    eapply steps_reach; [exact V| |exact H]. rewrite E. symmetry. apply (five_ext (slot (st_accepted (mh_stats x')))).
    intros k Sk. apply (T k Sk).
  Qed.
End Runs.
