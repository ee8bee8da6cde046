(** The printed counters of a command and the printed counts of a manifold. *)
From Verif Require Import Base Config Tracker Command Run Metropolis Text PersistSpec TextFacts Geom Transcript TranscriptSpec TranscriptFacts TranscriptLines TranscriptRuns.
From stdpp Require Import list.
From Verif Require Import Base Config Tracker Command Run Metropolis Text PersistSpec TextFacts Geom Transcript TranscriptSpec TranscriptFacts TranscriptLines TranscriptRuns.
Local Open Scope Z_scope.
Local Open Scope list_scope.

Lemma read_one p parts ns : no_newline (concat parts) -> read_pieces p (concat parts) = Some ns -> read_text [p] (line parts) = Some [ns].
Proof.
  intros N R. unfold read_text. replace (line parts) with (unlines [concat parts]) by (unfold unlines, line; cbn [map concat]; rewrite app_nil_r; reflexivity).
  rewrite split_unlines by (constructor; [exact N|constructor]). cbn [read_shapes]. rewrite R. reflexivity.
Qed.
Lemma read_two p q parts parts' ns ms : no_newline (concat parts) -> no_newline (concat parts') ->
  read_pieces p (concat parts) = Some ns -> read_pieces q (concat parts') = Some ms -> read_text [p; q] (line parts ++ line parts') = Some [ns; ms].
Proof.
  intros N N' R R'. unfold read_text.
  replace (line parts ++ line parts') with (unlines [concat parts; concat parts']) by (unfold unlines, line; cbn [map concat]; rewrite app_nil_r; reflexivity).
  rewrite split_unlines by (constructor; [exact N|constructor; [exact N'|constructor]]). cbn [read_shapes]. rewrite R, R'. reflexivity.
Qed.
Ltac pieces := repeat (first [rewrite read_words | rewrite read_num by reflexivity]); reflexivity.
Definition adjectives : list text := [B "attempted"; B "successful"; B "failed"].
Lemma read_counts adj a b c d e : adj ∈ adjectives -> exists t, print_counts adj [a; b; c; d; e] = Some t /\
  read_text [counts_shape adj] t = Some [[a; b; c; d; e]].
Proof.
  intros H. eexists. split; [reflexivity|]. apply read_one.
  - unfold adjectives in H. rewrite !elem_of_cons in H. destruct H as [-> | [-> | [-> | H]]]; [clean..|inversion H].
  - cbn [concat]. unfold counts_shape.
    replace (B "There were " ++ print_int a ++ B " " ++ adj ++ B " (2,3) moves and " ++ print_int b ++ B " " ++ adj ++
       B " (3,2) moves and " ++ print_int c ++ B " " ++ adj ++ B " (2,6) moves and " ++ print_int d ++ B " " ++ adj ++
       B " (6,2) moves and " ++ print_int e ++ B " " ++ adj ++ B " (4,4) moves." ++ [])
    with (B "There were " ++ print_int a ++ (B " " ++ adj ++ B " (2,3) moves and ") ++ print_int b ++ (B " " ++ adj ++ B " (3,2) moves and ") ++
       print_int c ++ (B " " ++ adj ++ B " (2,6) moves and ") ++ print_int d ++ (B " " ++ adj ++ B " (6,2) moves and ") ++ print_int e ++ (B " " ++ adj ++ B " (4,4) moves.") ++ [])
    by (rewrite <- !app_assoc; reflexivity).
    pieces.
Qed.
Lemma counts_of t : tracker_ok t -> t = map (slot t) kinds.
Proof. intros H. destruct (tracker_ok_inv t H) as (a & b & c & d & e & ->). reflexivity. Qed.
Lemma command_printed {M} (c : command M) : counters_ok c ->
  (exists t, print_attempts c = Some t /\ read_text [counts_shape (B "attempted")] t = Some [map (slot (cm_attempted c)) kinds]) /\
  (exists t, print_successful c = Some t /\ read_text [counts_shape (B "successful")] t = Some [map (slot (cm_succeeded c)) kinds]) /\
  ((forall k, supported k -> slot (cm_failed c) k = 0) -> print_errors c = Some (B "There were no failed moves." ++ [NL])) /\
  ((exists k, supported k /\ slot (cm_failed c) k <> 0) ->
   exists t, print_errors c = Some t /\ read_text [counts_shape (B "failed")] t = Some [map (slot (cm_failed c)) kinds]).
Proof.
  intros (A & S & F). unfold print_attempts, print_successful, print_errors.
  rewrite <- (counts_of _ A), <- (counts_of _ S), <- (counts_of _ F).
  destruct (tracker_ok_inv _ A) as (a1 & a2 & a3 & a4 & a5 & ->). destruct (tracker_ok_inv _ S) as (s1 & s2 & s3 & s4 & s5 & ->).
  destruct (tracker_ok_inv _ F) as (f1 & f2 & f3 & f4 & f5 & ->).
  split; [apply read_counts; left|]. split; [apply read_counts; right; left|].
  split; intros H.
  - assert (Z5 : f1 = 0 /\ f2 = 0 /\ f3 = 0 /\ f4 = 0 /\ f5 = 0).
    { pose proof (H 0 ltac:(unfold supported; lia)) as H0. pose proof (H 1 ltac:(unfold supported; lia)) as H1. pose proof (H 2 ltac:(unfold supported; lia)) as H2.
      pose proof (H 3 ltac:(unfold supported; lia)) as H3. pose proof (H 4 ltac:(unfold supported; lia)) as H4. auto. }
    destruct Z5 as (-> & -> & -> & -> & ->). reflexivity.
  - destruct (forallb (fun v => v =? 0) [f1; f2; f3; f4; f5]) eqn:E.
    + exfalso. destruct H as (k & Hk & Ne). cbn [forallb] in E. rewrite !andb_true_iff, !Z.eqb_eq in E. destruct E as (-> & -> & -> & -> & -> & _).
      apply Ne. unfold supported in Hk. assert (D : k = 0 \/ k = 1 \/ k = 2 \/ k = 3 \/ k = 4) by lia. destruct D as [-> | [-> | [-> | [-> | ->]]]]; reflexivity.
    + apply read_counts. right. right. left.
Qed.
Lemma manifold_printed g :
  read_text [manifold_shape] (print_manifold g) = Some [[gN0 g; gN1 g; gN2 g; gN3 g]] /\
  read_text [simplices_shape; edges_shape] (print_details g) = Some [[gN3_31 g; gN3_22 g; gN3_13 g]; [gN1_TL g; gN1_SL g]].
Proof.
  split; [apply read_one; [clean|cbn [concat]; unfold manifold_shape; pieces]|].
  apply read_two; [clean|clean|cbn [concat]; unfold simplices_shape; pieces|cbn [concat]; unfold edges_shape; pieces].
Qed.

Lemma kinds_supported k : In k kinds -> supported k.
Proof. cbn. unfold supported, TWO_THREE, THREE_TWO, TWO_SIX, SIX_TWO, FOUR_FOUR. lia. Qed.
Lemma zero_slot {M} (man : M) k : supported k -> slot (cm_attempted (make_command man)) k = 0 /\ slot (cm_succeeded (make_command man)) k = 0 /\ slot (cm_failed (make_command man)) k = 0.
Proof. unfold supported. intros H. assert (k = 0 \/ k = 1 \/ k = 2 \/ k = 3 \/ k = 4) as [-> | [-> | [-> | [-> | ->]]]] by lia; repeat split. Qed.

(** A new command, its moves, and what it prints after executing them. *)
Lemma executed_printed {M G} (api : move_api M G) check (man : M) ms g c' g' u :
  execute api check (enqueue_all (make_command man) ms) g = Ret (c', g') u ->
  exists h, history api check man g h (cm_manifold c') g' /\ map fst h = ms /\
    let counts p := map (fun k => number (fun x => (fst x =? k) && p (snd x)) h) kinds in
    (exists t, print_attempts c' = Some t /\ read_text [counts_shape (B "attempted")] t = Some [counts (fun _ => true)]) /\
    (exists t, print_successful c' = Some t /\ read_text [counts_shape (B "successful")] t = Some [counts (fun b => b)]) /\
    (if forallb snd h then print_errors c' = Some (B "There were no failed moves." ++ [NL])
     else exists t, print_errors c' = Some t /\ read_text [counts_shape (B "failed")] t = Some [counts negb]).
Proof.
  intros E. 
  destruct (enqueue_all_pending ms (make_command man)) as (K5 & K1 & K2 & K3 & K4).
  assert (O : counters_ok (enqueue_all (make_command man) ms)) by (unfold counters_ok; rewrite K2, K3, K4; repeat split).
  destruct (execute_loop_Ret _ _ _ _ _ _ _ _ O eq_refl E) as (O' & _ & Sup & h & H1 & H2 & H3). rewrite K1 in H2. rewrite K5 in H1.
  exists h. split; [exact H2|]. split; [exact H1|].
  assert (Sup' : Forall (fun x => supported (fst x)) h).
  { apply List.Forall_forall. intros x Hx. apply (in_map fst) in Hx. rewrite H1 in Hx.
    cbn [make_command pending cm_moves rev app] in Hx. rewrite List.Forall_forall in Sup. apply Sup. apply in_rev.
    unfold pending in K5. rewrite K5. exact Hx. }
  assert (Ca : map (slot (cm_attempted c')) kinds = map (fun k => number (fun x => (fst x =? k) && true) h) kinds).
  { apply map_ext_in. intros k Hk. apply kinds_supported in Hk. destruct (H3 k Hk) as (-> & _ & _). rewrite K2, (proj1 (zero_slot man k Hk)).
    unfold occurrences, number. rewrite <- (map_length fst (List.filter _ h)). rewrite Z.add_0_l. do 2 f_equal.
    clear. induction h as [|[a b] h IH]; [reflexivity|]. cbn [map List.filter fst]. rewrite (Z.eqb_sym k a), andb_true_r. destruct (a =? k); cbn [map fst]; rewrite <- IH; reflexivity. }
  assert (Cs : map (slot (cm_succeeded c')) kinds = map (fun k => number (fun x => (fst x =? k) && snd x) h) kinds).
  { apply map_ext_in. intros k Hk. apply kinds_supported in Hk. destruct (H3 k Hk) as (_ & -> & _). rewrite K3, (proj1 (proj2 (zero_slot man k Hk))). rewrite tally_number. apply Z.add_0_l. }
  assert (Cf : forall k, supported k -> slot (cm_failed c') k = number (fun x => (fst x =? k) && negb (snd x)) h).
  { intros k Hk. destruct (H3 k Hk) as (_ & _ & ->). rewrite K4, (proj2 (proj2 (zero_slot man k Hk))). rewrite tally_number. apply Z.add_0_l. }
  destruct (command_printed c' O') as (A & S & F0 & F1). cbv zeta.
  rewrite Ca in A. rewrite Cs in S. split; [exact A|]. split; [exact S|].
  destruct (forallb snd h) eqn:All.
  - apply F0. intros k Hk. rewrite (Cf k Hk). unfold number. replace (List.filter (fun x => (fst x =? k) && negb (snd x)) h) with (@nil (Z * bool)); [reflexivity|].
    clear - All. induction h as [|[a b] h IH]; [reflexivity|]. cbn [forallb snd] in All. apply andb_true_iff in All as [-> All]. cbn [List.filter fst snd negb]. rewrite andb_false_r. exact (IH All).
  - replace (map (fun k => number (fun x => (fst x =? k) && negb (snd x)) h) kinds) with (map (slot (cm_failed c')) kinds)
      by (apply map_ext_in; intros k Hk; apply Cf, kinds_supported, Hk).
    apply F1. apply not_true_iff_false in All. rewrite forallb_forall in All.
    assert (Ex : exists x, In x h /\ snd x = false).
    { clear - All. induction h as [|[a b] h IH]; [exfalso; apply All; intros x []|]. destruct b; [|exists (a, false); split; [left|]; reflexivity].
      destruct IH as (x & Hx & Fx); [intros H; apply All; intros x [<- | Hx]; [reflexivity|exact (H x Hx)]|]. exists x. split; [right; exact Hx|exact Fx]. }
    destruct Ex as ([k b] & Hx & Fb). cbn in Fb. subst b. exists k.
    assert (Hk : supported k) by (rewrite List.Forall_forall in Sup'; exact (Sup' _ Hx)).
    split; [exact Hk|]. rewrite (Cf k Hk). unfold number.
    assert (In (k, false) (List.filter (fun x => (fst x =? k) && negb (snd x)) h)) by (apply List.filter_In; split; [exact Hx|]; cbn; rewrite Z.eqb_refl; reflexivity).
    destruct (List.filter _ h); [contradiction|cbn [length]; lia].
Qed.
