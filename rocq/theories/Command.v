(** Model of include/Move_command.hpp. *)
From Verif Require Import Base Tracker.

Section Command.
  (** [M]: ManifoldType; [G]: state of the uniform random bit generator. *)
  Context {M G : Type}.

  (** What a move function does: an expected manifold, a structured error
      (std::expected<Manifold, MoveError>, Move_outcome.hpp:78-80), or an
      exception escaping from it. *)
  Inductive move_result : Type :=
  | Moved (m : M)
  | Failed (e : MoveError)
  | Raised (x : exn).

  (** The five public move functions of include/Ergodic_moves_3.hpp (do_23_move
      ... do_44_move), arbitrary here; Moves.v provides concrete ones. They take
      the manifold by const reference, and advance the generator. *)
  Record move_api : Type := mkMoveApi {
    api_23 : M -> G -> move_result * G;
    api_32 : M -> G -> move_result * G;
    api_26 : M -> G -> move_result * G;
    api_62 : M -> G -> move_result * G;
    api_44 : M -> G -> move_result * G }.

  Variable api : move_api.
  (** ergodic_moves::detail::check_move, include/Ergodic_moves_3.hpp:1847-1923. *)
  Variable check_move : M -> M -> MoveType -> bool.

  (** include/Move_command.hpp:189-208 [apply_random_move]: the dispatch. *)
  Definition apply_random_move (man : M) (m : MoveType) (g : G) : move_result * G :=
    if m =? TWO_THREE then api_23 api man g
    else if m =? THREE_TWO then api_32 api man g
    else if m =? TWO_SIX then api_26 api man g
    else if m =? SIX_TWO then api_62 api man g
    else if m =? FOUR_FOUR then api_44 api man g
    else (Failed (mkMoveError UNKNOWN_MOVE m), g).

  (** include/Move_command.hpp:25-54: members of MoveCommand. The deque is a
      list whose head is the front. *)
  Record command : Type := mkCommand {
    cm_manifold : M;
    cm_moves : list MoveType;
    cm_attempted : tracker;
    cm_succeeded : tracker;
    cm_failed : tracker }.

  (** include/Move_command.hpp:69-71: constructor. *)
  Definition make_command (man : M) : command :=
    mkCommand man [] tracker_zero tracker_zero tracker_zero.

  (** include/Move_command.hpp:131-132 [enqueue]: push_front. *)
  Definition enqueue (c : command) (m : MoveType) : command :=
    mkCommand (cm_manifold c) (m :: cm_moves c) (cm_attempted c) (cm_succeeded c) (cm_failed c).

  (** include/Move_command.hpp:138 [size]. *)
  Definition size (c : command) : nat := length (cm_moves c).

  (** include/Move_command.hpp:120-125 [reset_counters]. *)
  Definition reset_counters (c : command) : command :=
    mkCommand (cm_manifold c) (cm_moves c) (reset (cm_attempted c))
              (reset (cm_succeeded c)) (reset (cm_failed c)).

  (** One iteration of the loop of [execute], include/Move_command.hpp:149-181,
      for a nonempty queue with last element [m] and the other elements [rest]. *)
  Definition execute_one (c : command) (rest : list MoveType) (m : MoveType) (g : G)
    : res (command * G) unit :=
    (* ++m_attempted[move] *)
    match bump (cm_attempted c) m with
    | CUB => UB
    | CAbort => Abort
    | COk att =>
        let '(result, g') := apply_random_move (cm_manifold c) m g in
        match result with
        | Raised x =>
            Thr (mkCommand (cm_manifold c) (cm_moves c) att (cm_succeeded c) (cm_failed c), g') x
        | _ =>
            let outcome0 := match result with
                            | Moved _ => SUCCEEDED
                            | Failed e => outcome_from e
                            | Raised _ => EXECUTION_FAILED
                            end in
            let outcome := match result with
                           | Moved cand =>
                               if negb (check_move (cm_manifold c) cand m)
                               then EXECUTION_FAILED else outcome0
                           | _ => outcome0
                           end in
            if outcome_eqb outcome SUCCEEDED then
              match result with
              | Moved cand =>
                  match bump (cm_succeeded c) m with
                  | CUB => UB
                  | CAbort => Abort
                  | COk suc => Ret (mkCommand cand rest att suc (cm_failed c), g') tt
                  end
              | _ => UB (* result.value() without a value; unreachable *)
              end
            else
              match bump (cm_failed c) m with
              | CUB => UB
              | CAbort => Abort
              | COk fl => Ret (mkCommand (cm_manifold c) rest att (cm_succeeded c) fl, g') tt
              end
        end
    end.

  (** The while loop of [execute], include/Move_command.hpp:149-182.  Each
      iteration removes one element, so the queue length bounds the number of
      iterations. *)
  Fixpoint execute_loop (fuel : nat) (c : command) (g : G) : res (command * G) unit :=
    match fuel, list.last (cm_moves c) with
    | S fuel', Some m =>
        match execute_one c (removelast (cm_moves c)) m g with
        | Ret (c', g') _ => execute_loop fuel' c' g'
        | Thr s x => Thr s x
        | UB => UB
        | Abort => Abort
        end
    | _, _ => Ret (c, g) tt
    end.

  Definition execute (c : command) (g : G) : res (command * G) unit :=
    execute_loop (length (cm_moves c)) c g.

  (** ** Independent specification *)

  (** [history man g h man' g']: starting from [man], the moves listed in [h]
      were attempted one after the other; each either produced a checked
      candidate that became the new state, or failed and left the state. *)
  Inductive history : M -> G -> list (MoveType * bool) -> M -> G -> Prop :=
  | history_nil man g : history man g [] man g
  | history_commit man g m cand g1 h man' g' :
      apply_random_move man m g = (Moved cand, g1) ->
      check_move man cand m = true ->
      history cand g1 h man' g' ->
      history man g ((m, true) :: h) man' g'
  | history_reject man g m cand g1 h man' g' :
      apply_random_move man m g = (Moved cand, g1) ->
      check_move man cand m = false ->
      history man g1 h man' g' ->
      history man g ((m, false) :: h) man' g'
  | history_fail man g m e g1 h man' g' :
      apply_random_move man m g = (Failed e, g1) ->
      history man g1 h man' g' ->
      history man g ((m, false) :: h) man' g'.

  (** Number of entries of a history with a given kind and verdict. *)
  Definition tally (k : MoveType) (ok : bool) (h : list (MoveType * bool)) : Z :=
    Z.of_nat (length (List.filter (fun p => (fst p =? k) && Bool.eqb (snd p) ok) h)).
  Definition occurrences (k : MoveType) (ms : list MoveType) : Z :=
    Z.of_nat (length (List.filter (Z.eqb k) ms)).

  (** The moves waiting to be executed, next one first. *)
  Definition pending (c : command) : list MoveType := rev (cm_moves c).

  Definition counters_ok (c : command) : Prop :=
    tracker_ok (cm_attempted c) /\ tracker_ok (cm_succeeded c) /\ tracker_ok (cm_failed c).

  (** ** Proofs *)

  Lemma last_removelast (l : list MoveType) m r :
    rev l = m :: r -> list.last l = Some m /\ removelast l = rev r.
  Proof.
    intros H. assert (Hl : l = rev r ++ [m]).
    { rewrite <- (rev_involutive l), H. reflexivity. }
    subst l. split.
    - apply last_snoc.
    - apply removelast_last.
  Qed.

  Lemma tally_cons k ok m b h :
    tally k ok ((m, b) :: h) = (if (m =? k) && Bool.eqb b ok then 1 else 0) + tally k ok h.
  Proof.
    unfold tally. cbn [List.filter fst snd].
    destruct ((m =? k) && Bool.eqb b ok); cbn [length]; lia.
  Qed.

  Lemma occurrences_cons k m ms :
    occurrences k (m :: ms) = (if k =? m then 1 else 0) + occurrences k ms.
  Proof.
    unfold occurrences. cbn [List.filter]. destruct (k =? m); cbn [length]; lia.
  Qed.

  Lemma tally_occurrences k h :
    tally k true h + tally k false h = occurrences k (map fst h).
  Proof.
    induction h as [|[m b] h IH]; [reflexivity|].
    rewrite !tally_cons. cbn [map fst]. rewrite occurrences_cons, <- IH.
    rewrite (Z.eqb_sym k m). destruct (m =? k), b; cbn; lia.
  Qed.

  (** What one iteration guarantees. *)
  Lemma execute_one_Ret c rest m g c' g' u :
    counters_ok c ->
    execute_one c rest m g = Ret (c', g') u ->
    supported m /\ counters_ok c' /\ cm_moves c' = rest /\
    exists b,
      (forall h man'' g'', history (cm_manifold c') g' h man'' g'' ->
                           history (cm_manifold c) g ((m, b) :: h) man'' g'') /\
      (forall k, supported k ->
         slot (cm_attempted c') k = slot (cm_attempted c) k + (if m =? k then 1 else 0) /\
         slot (cm_succeeded c') k = slot (cm_succeeded c) k + (if (m =? k) && b then 1 else 0) /\
         slot (cm_failed c') k = slot (cm_failed c) k + (if (m =? k) && negb b then 1 else 0)).
  Proof.
    intros (Ha & Hs & Hf) H. unfold execute_one in H.
    destruct (bump (cm_attempted c) m) as [att| |] eqn:Eatt; [|discriminate|discriminate].
    destruct (bump_ok _ _ _ Ha Eatt) as (Hm & Hatt & Hatt1 & _ & Hattk).
    destruct (apply_random_move (cm_manifold c) m g) as [result g1] eqn:Eap.
    assert (AttSlots : forall k, supported k ->
      slot att k = slot (cm_attempted c) k + (if m =? k then 1 else 0)).
    { intros k Hk. destruct (m =? k) eqn:Emk.
      - apply Z.eqb_eq in Emk as <-. exact Hatt1.
      - apply Z.eqb_neq in Emk. rewrite Hattk by (auto; congruence). lia. }
    destruct result as [cand|e|x]; [| |discriminate].
    - destruct (check_move (cm_manifold c) cand m) eqn:Eck; cbn in H.
      + destruct (bump (cm_succeeded c) m) as [suc| |] eqn:Esuc; [|discriminate|discriminate].
        destruct (bump_ok _ _ _ Hs Esuc) as (_ & Hsuc & Hsuc1 & _ & Hsuck).
        injection H as <- <- <-. split; [assumption|]. split; [repeat split; assumption|].
        split; [reflexivity|]. exists true. split.
        * intros h man'' g'' Hh. cbn in Hh. eapply history_commit; eauto.
        * intros k Hk. cbn. split; [auto|]. destruct (m =? k) eqn:Emk; cbn.
          -- apply Z.eqb_eq in Emk as <-. repeat split; lia.
          -- apply Z.eqb_neq in Emk. rewrite Hsuck by (auto; congruence). repeat split; lia.
      + destruct (bump (cm_failed c) m) as [fl| |] eqn:Efl; [|discriminate|discriminate].
        destruct (bump_ok _ _ _ Hf Efl) as (_ & Hfl & Hfl1 & _ & Hflk).
        injection H as <- <- <-. split; [assumption|]. split; [repeat split; assumption|].
        split; [reflexivity|]. exists false. split.
        * intros h man'' g'' Hh. cbn in Hh. eapply history_reject; eauto.
        * intros k Hk. cbn. split; [auto|]. destruct (m =? k) eqn:Emk; cbn.
          -- apply Z.eqb_eq in Emk as <-. repeat split; lia.
          -- apply Z.eqb_neq in Emk. rewrite Hflk by (auto; congruence). repeat split; lia.
    - assert (Hne : outcome_eqb (outcome_from e) SUCCEEDED = false).
      { destruct e as [[] ?]; reflexivity. }
      rewrite Hne in H.
      destruct (bump (cm_failed c) m) as [fl| |] eqn:Efl; [|discriminate|discriminate].
      destruct (bump_ok _ _ _ Hf Efl) as (_ & Hfl & Hfl1 & _ & Hflk).
      injection H as <- <- <-. split; [assumption|]. split; [repeat split; assumption|].
      split; [reflexivity|]. exists false. split.
      + intros h man'' g'' Hh. cbn in Hh. eapply history_fail; eauto.
      + intros k Hk. cbn. split; [auto|]. destruct (m =? k) eqn:Emk; cbn.
        -- apply Z.eqb_eq in Emk as <-. repeat split; lia.
        -- apply Z.eqb_neq in Emk. rewrite Hflk by (auto; congruence). repeat split; lia.
  Qed.

  (** Counter relation between two command states separated by a history. *)
  Definition counted (c c' : command) (h : list (MoveType * bool)) : Prop :=
    forall k, supported k ->
      slot (cm_attempted c') k = slot (cm_attempted c) k + occurrences k (map fst h) /\
      slot (cm_succeeded c') k = slot (cm_succeeded c) k + tally k true h /\
      slot (cm_failed c') k = slot (cm_failed c) k + tally k false h.

  Lemma execute_loop_Ret fuel : forall c g c' g' u,
    counters_ok c -> fuel = length (cm_moves c) ->
    execute_loop fuel c g = Ret (c', g') u ->
    counters_ok c' /\ cm_moves c' = [] /\ Forall supported (cm_moves c) /\
    exists h, map fst h = pending c /\
      history (cm_manifold c) g h (cm_manifold c') g' /\ counted c c' h.
  Proof.
    induction fuel as [|fuel IH]; intros c g c' g' u Hc Hlen H.
    - destruct (cm_moves c) as [|x l] eqn:Em; [|discriminate Hlen].
      cbn in H. injection H as <- <- <-.
      split; [assumption|]. split; [assumption|]. split; [constructor|].
      exists []. unfold pending. rewrite Em. split; [reflexivity|].
      split; [constructor|]. intros k Hk. unfold tally, occurrences. cbn. lia.
    - destruct (pending c) as [|m r] eqn:Ep.
      { unfold pending in Ep. apply (f_equal (@length _)) in Ep.
        rewrite rev_length in Ep. cbn in Ep. lia. }
      destruct (last_removelast _ _ _ Ep) as [Hl Hr].
      cbn [execute_loop] in H. rewrite Hl, Hr in H.
      destruct (execute_one c (rev r) m g) as [[c1 g1] []|? ?| |] eqn:E1; try discriminate.
      destruct (execute_one_Ret _ _ _ _ _ _ _ Hc E1) as (Hm & Hc1 & Hq & b & Hh & Hcnt).
      assert (Hlen1 : fuel = length (cm_moves c1)).
      { rewrite Hq, rev_length. unfold pending in Ep.
        apply (f_equal (@length _)) in Ep. rewrite rev_length in Ep. cbn in Ep. lia. }
      destruct (IH _ _ _ _ _ Hc1 Hlen1 H) as (Hc' & Hq' & Hsup & h & Hfst & Hhist & Hcounted).
      split; [assumption|]. split; [assumption|]. split.
      { rewrite <- (rev_involutive (cm_moves c)). unfold pending in Ep. rewrite Ep.
        cbn [rev]. apply Forall_app. split; [|constructor; [assumption|constructor]].
        rewrite <- Hq. assumption. }
      exists ((m, b) :: h). split.
      { cbn [map fst]. f_equal. rewrite Hfst. unfold pending. rewrite Hq. apply rev_involutive. }
      split; [apply Hh; assumption|].
      intros k Hk. specialize (Hcounted k Hk). specialize (Hcnt k Hk).
      cbn [map fst]. rewrite !tally_cons, occurrences_cons, (Z.eqb_sym k m).
      destruct (m =? k), b; cbn in Hcnt |- *; lia.
  Qed.

  (** C04/C05/C06. *)
  Lemma execute_Ret c g c' g' u :
    counters_ok c -> execute c g = Ret (c', g') u ->
    counters_ok c' /\ size c' = 0%nat /\
    exists h, map fst h = pending c /\
      history (cm_manifold c) g h (cm_manifold c') g' /\ counted c c' h.
  Proof.
    intros Hc H. destruct (execute_loop_Ret _ _ _ _ _ _ Hc eq_refl H)
      as (H1 & H2 & _ & h & H3 & H4 & H5).
    split; [assumption|]. split; [unfold size; rewrite H2; reflexivity|]. eauto.
  Qed.

  Lemma execute_one_Thr c rest m g c' g' x :
    counters_ok c ->
    execute_one c rest m g = Thr (c', g') x ->
    supported m /\ counters_ok c' /\
    apply_random_move (cm_manifold c) m g = (Raised x, g') /\
    cm_manifold c' = cm_manifold c /\ cm_moves c' = cm_moves c /\
    cm_succeeded c' = cm_succeeded c /\ cm_failed c' = cm_failed c /\
    (forall k, supported k ->
       slot (cm_attempted c') k = slot (cm_attempted c) k + (if m =? k then 1 else 0)).
  Proof.
    intros (Ha & Hs & Hf) H. unfold execute_one in H.
    destruct (bump (cm_attempted c) m) as [att| |] eqn:Eatt; [|discriminate|discriminate].
    destruct (bump_ok _ _ _ Ha Eatt) as (Hm & Hatt & Hatt1 & _ & Hattk).
    destruct (apply_random_move (cm_manifold c) m g) as [result g1] eqn:Eap.
    destruct result as [cand|e|y].
    - destruct (check_move (cm_manifold c) cand m); cbn in H.
      + destruct (bump (cm_succeeded c) m); discriminate.
      + destruct (bump (cm_failed c) m); discriminate.
    - assert (Hne : outcome_eqb (outcome_from e) SUCCEEDED = false).
      { destruct e as [[] ?]; reflexivity. }
      rewrite Hne in H. destruct (bump (cm_failed c) m); discriminate.
    - injection H as <- <- <-. cbn. split; [assumption|].
      split; [split; [assumption|split; assumption]|].
      do 5 (split; [first [assumption|reflexivity]|]).
      intros k Hk. destruct (m =? k) eqn:Emk.
      + apply Z.eqb_eq in Emk as <-. exact Hatt1.
      + apply Z.eqb_neq in Emk. rewrite Hattk by (auto; congruence). repeat split; lia.
  Qed.

  (** C07: an exception commits exactly the moves before the throwing one. *)
  Lemma execute_loop_Thr fuel : forall c g c' g' x,
    counters_ok c -> fuel = length (cm_moves c) ->
    execute_loop fuel c g = Thr (c', g') x ->
    counters_ok c' /\
    exists h m rest gm, pending c = map fst h ++ m :: rest /\
      pending c' = m :: rest /\ supported m /\
      history (cm_manifold c) g h (cm_manifold c') gm /\
      apply_random_move (cm_manifold c') m gm = (Raised x, g') /\
      forall k, supported k ->
        slot (cm_attempted c') k =
          slot (cm_attempted c) k + occurrences k (map fst h) + (if m =? k then 1 else 0) /\
        slot (cm_succeeded c') k = slot (cm_succeeded c) k + tally k true h /\
        slot (cm_failed c') k = slot (cm_failed c) k + tally k false h.
  Proof.
    induction fuel as [|fuel IH]; intros c g c' g' x Hc Hlen H.
    - cbn in H. destruct (list.last (cm_moves c)); discriminate.
    - destruct (pending c) as [|m r] eqn:Ep.
      { unfold pending in Ep. apply (f_equal (@length _)) in Ep.
        rewrite rev_length in Ep. cbn in Ep. lia. }
      destruct (last_removelast _ _ _ Ep) as [Hl Hr].
      cbn [execute_loop] in H. rewrite Hl, Hr in H.
      destruct (execute_one c (rev r) m g) as [[c1 g1] []|[c1 g1] y| |] eqn:E1; try discriminate.
      + destruct (execute_one_Ret _ _ _ _ _ _ _ Hc E1) as (Hm & Hc1 & Hq & b & Hh & Hcnt).
        assert (Hlen1 : fuel = length (cm_moves c1)).
        { rewrite Hq, rev_length. unfold pending in Ep.
          apply (f_equal (@length _)) in Ep. rewrite rev_length in Ep. cbn in Ep. lia. }
        destruct (IH _ _ _ _ _ Hc1 Hlen1 H)
          as (Hc' & h & m2 & rest & gm & Hp & Hp' & Hm2 & Hhist & Hap & Hcounted).
        split; [assumption|].
        exists ((m, b) :: h), m2, rest, gm. split.
        { cbn [map fst app]. f_equal. rewrite <- Hp. unfold pending.
          rewrite Hq. symmetry. apply rev_involutive. }
        split; [assumption|]. split; [assumption|].
        split; [apply Hh; assumption|]. split; [assumption|].
        intros k Hk. specialize (Hcounted k Hk). specialize (Hcnt k Hk).
        cbn [map fst]. rewrite !tally_cons, occurrences_cons, (Z.eqb_sym k m).
        destruct (m =? k), b; cbn in Hcnt |- *; lia.
      + injection H as -> -> ->.
        destruct (execute_one_Thr _ _ _ _ _ _ _ Hc E1)
          as (Hm & Hc' & Hap & HM & HQ & HS & HF & Hatt).
        split; [assumption|].
        exists [], m, r, g. split; [reflexivity|]. split.
        { unfold pending. rewrite HQ. exact Ep. }
        split; [assumption|]. rewrite HM. split; [constructor|]. split; [assumption|].
        intros k Hk. rewrite HS, HF, Hatt by assumption.
        unfold tally, occurrences. cbn. lia.
  Qed.

  (** UB needs a counter at INT32_MAX. *)
  Definition counters_bounded (n : Z) (c : command) : Prop :=
    forall k, supported k ->
      0 <= slot (cm_attempted c) k <= n /\
      0 <= slot (cm_succeeded c) k <= n /\
      0 <= slot (cm_failed c) k <= n.

  Lemma execute_one_defined c rest m g n :
    counters_ok c -> counters_bounded n c -> n < INT32_MAX -> supported m ->
    execute_one c rest m g <> UB /\ execute_one c rest m g <> Abort.
  Proof.
    intros (Ha & Hs & Hf) Hb Hn Hm. destruct (Hb m Hm) as (B1 & B2 & B3).
    unfold execute_one.
    assert (R : forall v, 0 <= v <= n -> in_int32 (v + 1)).
    { intros v Hv. unfold in_int32, INT32_MIN, INT32_MAX in *. lia. }
    destruct (bump_defined _ _ Ha Hm (R _ B1)) as [att ->].
    destruct (bump_defined _ _ Hs Hm (R _ B2)) as [suc ->].
    destruct (bump_defined _ _ Hf Hm (R _ B3)) as [fl ->].
    destruct (apply_random_move (cm_manifold c) m g) as [[cand|e|x] g1].
    - destruct (check_move (cm_manifold c) cand m); cbn; split; discriminate.
    - destruct e as [[] ?]; cbn; split; discriminate.
    - split; discriminate.
  Qed.

  Lemma execute_loop_defined fuel : forall c g n,
    counters_ok c -> fuel = length (cm_moves c) -> Forall supported (cm_moves c) ->
    counters_bounded n c -> n + Z.of_nat fuel <= INT32_MAX ->
    execute_loop fuel c g <> UB /\ execute_loop fuel c g <> Abort.
  Proof.
    induction fuel as [|fuel IH]; intros c g n Hc Hlen Hsup Hb Hn.
    - cbn. destruct (list.last (cm_moves c)); split; discriminate.
    - destruct (pending c) as [|m r] eqn:Ep.
      { unfold pending in Ep. apply (f_equal (@length _)) in Ep.
        rewrite rev_length in Ep. cbn in Ep. lia. }
      destruct (last_removelast _ _ _ Ep) as [Hl Hr].
      assert (Hmoves : cm_moves c = rev r ++ [m]).
      { rewrite <- (rev_involutive (cm_moves c)). unfold pending in Ep. rewrite Ep. reflexivity. }
      rewrite Hmoves in Hsup. apply Forall_app in Hsup as [Hsup Hm].
      apply Forall_inv in Hm.
      cbn [execute_loop]. rewrite Hl, Hr.
      destruct (execute_one_defined c (rev r) m g n) as [N1 N2]; auto; [lia|].
      destruct (execute_one c (rev r) m g) as [[c1 g1] []|? ?| |] eqn:E1; try congruence.
      2:{ split; discriminate. }
      destruct (execute_one_Ret _ _ _ _ _ _ _ Hc E1) as (_ & Hc1 & Hq & b & Hh & Hcnt).
      apply (IH c1 g1 (n + 1)); auto.
      + rewrite Hq, rev_length. unfold pending in Ep.
        apply (f_equal (@length _)) in Ep. rewrite rev_length in Ep. cbn in Ep. lia.
      + rewrite Hq. assumption.
      + intros k Hk. destruct (Hcnt k Hk) as (-> & -> & ->). destruct (Hb k Hk) as (B1 & B2 & B3).
        destruct (m =? k), b; cbn; lia.
      + lia.
  Qed.

  (** A command reset and reused: enqueueing in order. *)
  Definition enqueue_all (c : command) (ms : list MoveType) : command := fold_left enqueue ms c.

  Lemma enqueue_all_pending ms : forall c,
    pending (enqueue_all c ms) = pending c ++ ms /\
    cm_manifold (enqueue_all c ms) = cm_manifold c /\
    cm_attempted (enqueue_all c ms) = cm_attempted c /\
    cm_succeeded (enqueue_all c ms) = cm_succeeded c /\
    cm_failed (enqueue_all c ms) = cm_failed c.
  Proof.
    induction ms as [|m ms IH]; intros c.
    - unfold enqueue_all. cbn. rewrite app_nil_r. auto.
    - unfold enqueue_all in *. cbn [fold_left].
      destruct (IH (enqueue c m)) as (-> & -> & -> & -> & ->).
      unfold pending, enqueue. cbn. rewrite <- app_assoc. auto.
  Qed.
  (** ** Histories of calls on one command object *)

  (** [commanded man ms c]: [c] was constructed from [man] and then only used by
      enqueue and by execute calls that returned; [ms] is everything enqueued. *)
  Inductive commanded (man : M) : list MoveType -> command -> Prop :=
  | cmd_make : commanded man [] (make_command man)
  | cmd_enqueue ms c m : commanded man ms c -> commanded man (ms ++ [m]) (enqueue c m)
  | cmd_execute ms c g c' g' u : commanded man ms c -> execute c g = Ret (c', g') u ->
      commanded man ms c'.

  Lemma occurrences_app k a b : occurrences k (a ++ b) = occurrences k a + occurrences k b.
  Proof. unfold occurrences. rewrite List.filter_app, app_length. apply Nat2Z.inj_add. Qed.
  Lemma occurrences_nil k : occurrences k [] = 0.
  Proof. reflexivity. Qed.
  Lemma occurrences_rev k a : occurrences k (rev a) = occurrences k a.
  Proof.
    induction a as [|x a IH]; [reflexivity|]. cbn [rev].
    rewrite occurrences_app, IH, !occurrences_cons, occurrences_nil. lia.
  Qed.
  Lemma tally_nonneg k b h : 0 <= tally k b h.
  Proof. unfold tally. lia. Qed.

  Lemma commanded_counts man ms c : commanded man ms c ->
    counters_ok c /\
    forall k, supported k ->
      slot (cm_attempted c) k + occurrences k (cm_moves c) = occurrences k ms /\
      slot (cm_attempted c) k = slot (cm_succeeded c) k + slot (cm_failed c) k /\
      0 <= slot (cm_succeeded c) k /\ 0 <= slot (cm_failed c) k.
  Proof.
    induction 1 as [|ms c m H [IH1 IH2]|ms c g c' g' u H [IH1 IH2] Hx].
    - split; [repeat split|]. intros k Hk. cbn [cm_attempted cm_succeeded cm_failed cm_moves make_command]. rewrite slot_zero, !occurrences_nil. lia.
    - split; [exact IH1|]. intros k Hk. destruct (IH2 k Hk) as (E1 & E2 & E3 & E4).
      cbn [cm_attempted cm_succeeded cm_failed cm_moves enqueue].
      rewrite occurrences_cons, occurrences_app, occurrences_cons, occurrences_nil. lia.
    - unfold execute in Hx.
      destruct (execute_loop_Ret _ _ _ _ _ _ IH1 eq_refl Hx) as (O & Hq & _ & h & Hf & _ & Hc).
      split; [exact O|]. intros k Hk. destruct (IH2 k Hk) as (E1 & E2 & E3 & E4).
      destruct (Hc k Hk) as (F1 & F2 & F3). rewrite Hf in F1. unfold pending in F1.
      rewrite occurrences_rev in F1. pose proof (tally_occurrences k h) as T. rewrite Hf in T.
      unfold pending in T. rewrite occurrences_rev in T.
      pose proof (tally_nonneg k true h). pose proof (tally_nonneg k false h).
      rewrite Hq, occurrences_nil. lia.
  Qed.

  (** A chain of [n] validated candidates leading from one manifold to another. *)
  Inductive validated_chain : M -> nat -> M -> Prop :=
  | vc_nil man : validated_chain man 0 man
  | vc_cons man m g cand g1 n man' :
      apply_random_move man m g = (Moved cand, g1) -> check_move man cand m = true ->
      validated_chain cand n man' -> validated_chain man (S n) man'.

  Definition successes (h : list (MoveType * bool)) : nat := length (List.filter snd h).

  Lemma history_chain man g h man' g' : history man g h man' g' ->
    validated_chain man (successes h) man'.
  Proof.
    induction 1; unfold successes in *; cbn in *; [constructor|econstructor; eassumption|assumption..].
  Qed.

  Lemma successes_tally h : Forall supported (map fst h) ->
    Z.of_nat (successes h) = tally TWO_THREE true h + tally THREE_TWO true h + tally TWO_SIX true h
      + tally SIX_TWO true h + tally FOUR_FOUR true h.
  Proof.
    induction h as [|[m b] h IH]; [reflexivity|]. cbn [map fst]. intros H.
    destruct (Forall_cons_1 _ _ _ H) as [Hm Hh]. rewrite !tally_cons.
    unfold successes in *. cbn [List.filter snd]. specialize (IH Hh).
    destruct (supported_cases m Hm) as [->|[->|[->|[->| ->]]]]; destruct b; cbn in *; lia.
  Qed.

  (** C06. *)
  Lemma execute_chain c g c' g' u : counters_ok c -> execute c g = Ret (c', g') u ->
    exists n, validated_chain (cm_manifold c) n (cm_manifold c') /\
      Z.of_nat n = slot_sum (cm_succeeded c') - slot_sum (cm_succeeded c).
  Proof.
    intros Hc H. unfold execute in H.
    destruct (execute_loop_Ret _ _ _ _ _ _ Hc eq_refl H) as (_ & _ & Hsup & h & Hf & Hh & Hcnt).
    exists (successes h). split; [eapply history_chain; exact Hh|].
    rewrite successes_tally.
    2:{ rewrite Hf. unfold pending. apply Forall_rev. exact Hsup. }
    assert (S5 : forall k, 0 <= k < 5 -> supported k) by (unfold supported; lia).
    unfold slot_sum.
    destruct (Hcnt TWO_THREE (S5 0 ltac:(lia))) as (_ & -> & _).
    destruct (Hcnt THREE_TWO (S5 1 ltac:(lia))) as (_ & -> & _).
    destruct (Hcnt TWO_SIX (S5 2 ltac:(lia))) as (_ & -> & _).
    destruct (Hcnt SIX_TWO (S5 3 ltac:(lia))) as (_ & -> & _).
    destruct (Hcnt FOUR_FOUR (S5 4 ltac:(lia))) as (_ & -> & _). lia.
  Qed.
End Command.
Arguments move_result M : clear implicits.
Arguments move_api M G : clear implicits.
Arguments command M : clear implicits.
