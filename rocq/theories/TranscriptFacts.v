(** Reading back what a run prints. *)
From Verif Require Import Base Config Tracker Command Run Metropolis Text PersistSpec TextFacts Geom Transcript TranscriptSpec.
From stdpp Require Import list.
From Verif Require Import Base Config Tracker Command Run Metropolis Text PersistSpec TextFacts Geom Transcript TranscriptSpec.
Local Open Scope Z_scope.
Local Open Scope list_scope.

(** ** Numbers *)
Definition nodigit (t : text) : Prop := match t with [] => True | c :: _ => digit_value 10 c = None end.
Lemma take_digits_app t : forall ds rest, take_digits 10 t = (ds, []) -> nodigit rest ->
  take_digits 10 (t ++ rest) = (ds, rest).
Proof.
  induction t as [|c t IH]; intros ds rest H N; cbn [app take_digits] in *.
  - injection H as <-. destruct rest as [|c r]; [reflexivity|]. cbn [take_digits nodigit] in *. rewrite N. reflexivity.
  - destruct (digit_value 10 c) as [v|]; [|discriminate].
    destruct (take_digits 10 t) as [ds' r'] eqn:E. injection H as <- ->. rewrite (IH _ _ eq_refl N). reflexivity.
Qed.
Lemma take_printed n rest : 0 <= n -> nodigit rest ->
  exists ds, ds <> [] /\ digits_value 10 ds = n /\ take_digits 10 (digits 10 n ++ rest) = (ds, rest).
Proof.
  intros Hn N. destruct (numeral_take 10 _ n ltac:(lia) (digits_numeral 10 n ltac:(lia) Hn)) as (ds & E & Ne & V).
  exists ds. split; [exact Ne|]. split; [exact V|]. apply take_digits_app; assumption.
Qed.
Lemma digits_head n : 0 <= n -> exists c r, digits 10 n = c :: r /\ c <> MINUS.
Proof.
  intros Hn. pose proof (digits_numeral 10 n ltac:(lia) Hn) as H. pose proof (numeral_no _ _ _ H) as (_ & _ & _ & M).
  pose proof (numeral_nonempty _ _ _ H) as K. destruct (digits 10 n) as [|c r]; [congruence|]. exists c, r.
  split; [reflexivity|]. intros ->. apply M. left. reflexivity.
Qed.
Lemma read_printed z rest : nodigit rest -> read_number (print_int z ++ rest) = Some (z, rest).
Proof.
  intros N. unfold print_int. destruct (Z.ltb_spec z 0) as [H|H].
  - destruct (take_printed (- z) rest ltac:(lia) N) as (ds & Ne & V & E).
    unfold read_number. cbn [app]. rewrite Z.eqb_refl. cbv beta iota zeta. rewrite E. destruct ds as [|d ds]; [congruence|].
    rewrite V. f_equal. f_equal. lia.
  - destruct (take_printed z rest H N) as (ds & Ne & V & E). destruct (digits_head z H) as (c & r & D & C).
    unfold read_number. rewrite D in *. cbn [app] in *. rewrite (proj2 (Z.eqb_neq _ _) C). cbv beta iota zeta. rewrite E.
    destruct ds as [|d ds]; [congruence|]. rewrite V. reflexivity.
Qed.
Lemma print_unsigned_int n : 0 <= n -> print_unsigned n = print_int n.
Proof. intros H. unfold print_unsigned, print_int. rewrite (proj2 (Z.ltb_ge n 0) H). reflexivity. Qed.

(** ** Lines *)
Definition no_newline (t : text) : Prop := ~ In NL t.
Lemma no_newline_app a b : no_newline a -> no_newline b -> no_newline (a ++ b).
Proof. intros A C K. apply in_app_iff in K as [K|K]; [exact (A K)|exact (C K)]. Qed.
Lemma no_newline_nil : no_newline [].
Proof. intros []. Qed.
Lemma no_newline_int z : no_newline (print_int z).
Proof.
  unfold print_int. destruct (Z.ltb_spec z 0) as [H|H].
  - intros [K|K]; [discriminate K|]. revert K. apply (numeral_no 10 _ (- z)). apply digits_numeral; lia.
  - apply (numeral_no 10 _ z). apply digits_numeral; lia.
Qed.
Lemma no_newline_lit t : forallb (fun c => negb (c =? NL)) t = true -> no_newline t.
Proof. intros H K. rewrite forallb_forall in H. apply H in K. rewrite Z.eqb_refl in K. discriminate K. Qed.

Lemma read_words w ps t : read_pieces (Words w :: ps) (w ++ t) = read_pieces ps t.
Proof. cbn [read_pieces]. rewrite (proj2 (strip_prefix_spec w (w ++ t) t) eq_refl). reflexivity. Qed.
Lemma read_num ps z t : nodigit t ->
  read_pieces (Number :: ps) (print_int z ++ t) = match read_pieces ps t with Some l => Some (z :: l) | None => None end.
Proof. intros N. cbn [read_pieces]. rewrite (read_printed _ _ N). reflexivity. Qed.
(** Two texts that differ at a common position. *)
Fixpoint differ (a b : text) : bool :=
  match a, b with x :: a, y :: b => negb (x =? y) || differ a b | _, _ => false end.
Lemma strip_differ w : forall v t, differ w v = true -> strip_prefix w (v ++ t) = None.
Proof.
  intros v t D. destruct (strip_prefix w (v ++ t)) as [r|] eqn:E; [|reflexivity]. exfalso.
  apply strip_prefix_spec in E. revert v D E. induction w as [|x w IH]; intros [|y v] D E; cbn [differ] in D; try discriminate D.
  cbn [app] in E. injection E as -> E. rewrite Z.eqb_refl in D. cbn [negb orb] in D. eapply IH; eassumption.
Qed.
Lemma read_skip w ps t v f shs : differ w v = true ->
  read_line ((Words w :: ps, f) :: shs) (v ++ t) = read_line shs (v ++ t).
Proof. intros D. cbn [read_line read_pieces]. rewrite (strip_differ _ _ _ D). reflexivity. Qed.
Lemma read_hit ps f shs l ns : read_pieces ps l = Some ns -> read_line ((ps, f) :: shs) l = Some (f ns).
Proof. intros H. cbn [read_line]. rewrite H. reflexivity. Qed.
Lemma read_differ w ps t v : differ w v = true -> read_pieces (Words w :: ps) (v ++ t) = None.
Proof. intros D. cbn [read_pieces]. rewrite (strip_differ _ _ _ D). reflexivity. Qed.

(** ** Texts made of readable lines *)
Definition reads (shs : list shape) (t : text) (es : list entry) : Prop :=
  exists ls, t = unlines ls /\ Forall no_newline ls /\ Forall2 (fun l e => read_line shs l = Some e) ls es.
Lemma reads_nil shs : reads shs [] [].
Proof. exists []. split; [reflexivity|]. split; constructor. Qed.
Lemma reads_app shs t es t' es' : reads shs t es -> reads shs t' es' -> reads shs (t ++ t') (es ++ es').
Proof.
  intros (ls & -> & N & R) (ls' & -> & N' & R'). exists (ls ++ ls'). split; [|split].
  - unfold unlines. rewrite map_app, concat_app. reflexivity.
  - apply Forall_app. split; assumption.
  - apply Forall2_app; assumption.
Qed.
Lemma reads_line shs parts e : no_newline (concat parts) -> read_line shs (concat parts) = Some e -> reads shs (line parts) [e].
Proof.
  intros N R. exists [concat parts]. split; [|split].
  - unfold unlines, line. cbn [map concat]. rewrite app_nil_r. reflexivity.
  - constructor; [exact N|constructor].
  - constructor; [exact R|constructor].
Qed.
Lemma split_unlines ls : Forall no_newline ls -> split_lines (unlines ls) = Some ls.
Proof.
  induction 1 as [|l ls N F IH]; [reflexivity|]. change (unlines (l :: ls)) with ((l ++ [NL]) ++ unlines ls).
  induction l as [|c l IHl]; cbn [app split_lines].
  - rewrite IH, Z.eqb_refl. reflexivity.
  - rewrite IHl; [|intros K; apply N; right; exact K]. destruct (Z.eqb_spec c NL) as [->|D]; [exfalso; apply N; left; reflexivity|reflexivity].
Qed.
Lemma reads_log shs t es : reads shs t es -> read_log shs t = Some es.
Proof.
  intros (ls & -> & N & R). unfold read_log. rewrite (split_unlines _ N). clear N.
  induction R as [|l e ls es H R IH]; [reflexivity|]. cbn [read_all]. rewrite H, IH. reflexivity.
Qed.
