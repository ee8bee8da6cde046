(** Every line a run prints is read back. *)
From Verif Require Import Base Config Tracker Command Run Metropolis Text PersistSpec TextFacts Geom Transcript TranscriptSpec TranscriptFacts.
From stdpp Require Import list.
From Verif Require Import Base Config Tracker Command Run Metropolis Text PersistSpec TextFacts Geom Transcript TranscriptSpec TranscriptFacts.
Local Open Scope Z_scope.
Local Open Scope list_scope.

Ltac clean := cbn [concat]; repeat (first [apply no_newline_app | apply no_newline_nil | apply no_newline_int | apply no_newline_lit; reflexivity]).
Ltac skip := repeat (rewrite read_skip by reflexivity).
Ltac hit := match goal with |- read_line (?x :: _) _ = _ => eapply (eq_trans (y := Some (snd x _))); [eapply read_hit|] end;
  [repeat (first [rewrite read_words | rewrite read_num by reflexivity]); reflexivity|reflexivity].
Ltac start := cbn [concat]; unfold always_shapes, metropolis_shapes, common_shapes, move_names; cbn [app map].

Definition strategy_shapes (shs : list shape) : Prop := shs = always_shapes \/ shs = metropolis_shapes.

Lemma reads_moving shs : strategy_shapes shs -> reads shs (line [B "Making random moves ..."]) [Moving].
Proof. intros H. apply reads_line; [clean|]. destruct H as [-> | ->]; start; skip; hit. Qed.
Lemma reads_seed shs seed stream : strategy_shapes shs -> 0 <= seed -> 0 <= stream ->
  reads shs (line [B "Effective random seed: "; print_unsigned seed; B " (stream "; print_unsigned stream; B ")."]) [Seeded seed stream].
Proof.
  intros H A C. rewrite !print_unsigned_int by assumption. apply reads_line; [clean|]. destruct H as [-> | ->]; start; skip; hit.
Qed.
Lemma reads_pass shs n : strategy_shapes shs -> reads shs (line [B "=== Pass "; print_int n; B " ==="]) [Pass n].
Proof. intros H. apply reads_line; [clean|]. destruct H as [-> | ->]; start; skip; hit. Qed.
Lemma reads_results shs : strategy_shapes shs -> reads shs (line [B "=== Move Results ==="]) [Results].
Proof. intros H. apply reads_line; [clean|]. destruct H as [-> | ->]; start; skip; hit. Qed.
Lemma reads_writing shs n : strategy_shapes shs -> reads shs (line [B "Writing checkpoint for pass "; print_int n; B "."]) [Writing n].
Proof. intros H. apply reads_line; [clean|]. destruct H as [-> | ->]; start; skip; hit. Qed.
Lemma reads_finished shs : strategy_shapes shs -> reads shs (line [B "=== Run results ==="]) [Finished].
Proof. intros H. apply reads_line; [clean|]. destruct H as [-> | ->]; start; skip; hit. Qed.
Lemma reads_started_always :
  reads always_shapes (line [B "Starting "; B "Move Always"; B " algorithm in "; print_int (3 - 1); B "+1 dimensions ..."]) [Started].
Proof. apply reads_line; [clean|]. vm_compute. reflexivity. Qed.
Lemma reads_started_metropolis :
  reads metropolis_shapes (line [B "Starting "; B "Metropolis-Hastings"; B " algorithm in "; print_int (3 - 1); B "+1 dimensions ..."]) [Started].
Proof. apply reads_line; [clean|]. vm_compute. reflexivity. Qed.

Lemma reads_ma_line k name a s f : (k, name) ∈ move_names -> reads always_shapes (ma_line name a s f) [Tally k [a; s; f]].
Proof.
  intros H. unfold ma_line. unfold move_names in H. rewrite !elem_of_cons in H.
  destruct H as [H|[H|[H|[H|[H|H]]]]]; [injection H as -> -> ..|inversion H];
    (apply reads_line; [clean|]; start; match goal with |- read_line _ (?n ++ ?m ++ ?r) = _ => rewrite (app_assoc n m r) end; skip; hit).
Qed.
Lemma reads_mh_line k name p ac rj a s f : (k, name) ∈ move_names ->
  reads metropolis_shapes (mh_line name p ac rj a s f) [Tally k [p; ac; rj; a; s; f]].
Proof.
  intros H. unfold mh_line. unfold move_names in H. rewrite !elem_of_cons in H.
  destruct H as [H|[H|[H|[H|[H|H]]]]]; [injection H as -> -> ..|inversion H];
    (apply reads_line; [clean|]; start; match goal with |- read_line _ (?n ++ ?m ++ ?r) = _ => rewrite (app_assoc n m r) end; skip; hit).
Qed.
Lemma reads_totals p ac rj : reads metropolis_shapes
  (line [B "There were "; print_int p; B " proposed moves with "; print_int ac; B " accepted moves and "; print_int rj; B " rejected moves."])
  [Totals [p; ac; rj]].
Proof. apply reads_line; [clean|]. start. skip. hit. Qed.
Lemma reads_candidates a s f : reads metropolis_shapes
  (line [B "There were "; print_int a; B " candidate construction attempts with "; print_int s; B " successful candidates and "; print_int f; B " failed candidates."])
  [Candidates [a; s; f]].
Proof.
  apply reads_line; [clean|]. start. skip.
  cbn [read_line]. rewrite read_words, read_num by reflexivity. rewrite read_differ by reflexivity.
  rewrite read_words, read_num by reflexivity.
  repeat (first [rewrite read_words | rewrite read_num by reflexivity]). reflexivity.
Qed.
