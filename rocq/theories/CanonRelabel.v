(** The search without exceptions does not depend on the numbering (used by C49). *)
From Coq Require Import Permutation Sorted.
From stdpp Require Import list_numbers.
From Verif Require Import Base Config Fnv Text PersistSpec TextFacts Persist PersistFacts FingerprintSpec Canon.
Local Open Scope Z_scope.
Local Open Scope list_scope.

(** * The least list of records *)
Lemma lex2_total a : forall b, lex_leb2 a b = true \/ lex_leb2 b a = true.
Proof.
  induction a as [|x a IH]; intros [|y b]; cbn; auto.
  destruct (text_eqb x y) eqn:E.
  - apply text_eqb_spec in E as ->. rewrite (proj2 (text_eqb_spec y y) eq_refl). apply IH.
  - destruct (text_eqb y x) eqn:E2; [apply text_eqb_spec in E2 as ->; rewrite (proj2 (text_eqb_spec x x) eq_refl) in E; discriminate|].
    apply lex_total.
Qed.
Lemma lex2_antisym a : forall b, lex_leb2 a b = true -> lex_leb2 b a = true -> a = b.
Proof.
  induction a as [|x a IH]; intros [|y b]; cbn; try discriminate; [reflexivity|].
  destruct (text_eqb x y) eqn:E.
  - apply text_eqb_spec in E as ->. rewrite (proj2 (text_eqb_spec y y) eq_refl). intros H1 H2. f_equal. auto.
  - destruct (text_eqb y x) eqn:E2; [apply text_eqb_spec in E2 as ->; rewrite (proj2 (text_eqb_spec x x) eq_refl) in E; discriminate|].
    intros H1 H2. rewrite (lex_antisym _ _ H1 H2), (proj2 (text_eqb_spec y y) eq_refl) in E. discriminate.
Qed.
Lemma lex2_trans a : forall b c, lex_leb2 a b = true -> lex_leb2 b c = true -> lex_leb2 a c = true.
Proof.
  induction a as [|x a IH]; intros [|y b] [|z c]; cbn; try discriminate; [reflexivity..|].
  destruct (text_eqb x y) eqn:Exy, (text_eqb y z) eqn:Eyz, (text_eqb x z) eqn:Exz;
    repeat match goal with H : text_eqb _ _ = true |- _ => apply text_eqb_spec in H; subst end;
    repeat match goal with H : text_eqb ?u ?u = false |- _ => rewrite (proj2 (text_eqb_spec u u) eq_refl) in H; discriminate end;
    intros H1 H2; auto.
  - apply IH with b; assumption.
  - exfalso. pose proof (lex_antisym _ _ H1 H2) as E. apply (proj2 (text_eqb_spec _ _)) in E.
    first [rewrite E in Exy; discriminate | rewrite E in Eyz; discriminate].
  - eapply lex_trans; eassumption.
Qed.

Definition least2 (r r' : list text) : list text := if lex_leb2 r' r then r' else r.
Lemma least2_comm r r' : least2 r r' = least2 r' r.
Proof.
  unfold least2. destruct (lex_leb2 r' r) eqn:E1, (lex_leb2 r r') eqn:E2; auto.
  - apply lex2_antisym; assumption.
  - destruct (lex2_total r r'); congruence.
Qed.
Lemma least2_assoc a b c : least2 a (least2 b c) = least2 (least2 a b) c.
Proof.
  unfold least2. destruct (lex_leb2 c b) eqn:E1, (lex_leb2 b a) eqn:E2; rewrite ?E1, ?E2; auto.
  - rewrite (lex2_trans c b a E1 E2). reflexivity.
  - destruct (lex_leb2 c a) eqn:E3; [|reflexivity]. destruct (lex2_total b a) as [K|K]; [congruence|].
    destruct (lex2_total b c) as [K2|K2]; [|congruence].
    rewrite (lex2_trans b c a K2 E3) in E2. discriminate.
Qed.
Lemma join_comm a b : join a b = join b a.
Proof.
  destruct a as [[r k]|], b as [[r' k']|]; cbn; auto. fold (least2 r r') (least2 r' r).
  rewrite least2_comm. do 2 f_equal. lia.
Qed.
Lemma join_assoc a b c : join a (join b c) = join (join a b) c.
Proof.
  destruct a as [[r k]|], b as [[r' k']|], c as [[r'' k'']|]; cbn; auto.
  fold (least2 r' r'') (least2 r r'). fold (least2 r (least2 r' r'')) (least2 (least2 r r') r'').
  rewrite least2_assoc. do 2 f_equal. lia.
Qed.
Lemma join_all_app l : forall x y, join_all l (join x y) = join x (join_all l y).
Proof.
  induction l as [|z l IH]; intros x y; cbn [join_all]; [reflexivity|].
  rewrite join_assoc, (join_comm z x), <- join_assoc. apply IH.
Qed.
Lemma join_all_swap l x y : join_all l (join x y) = join_all l (join y x).
Proof. rewrite join_comm. reflexivity. Qed.
Lemma join_all_perm l k : Permutation l k -> forall x, join_all l x = join_all k x.
Proof.
  induction 1; intros z; cbn [join_all]; auto.
  - rewrite !join_assoc, (join_comm y x). reflexivity.
  - rewrite IHPermutation1. auto.
Qed.
Lemma join_some_perm l k : Permutation l k -> join_some l = join_some k.
Proof.
  induction 1; cbn [join_some join_all]; auto.
  - apply join_all_perm. assumption.
  - rewrite join_comm. reflexivity.
  - congruence.
Qed.

(** * Renumbered graphs *)
Definition relab_adj (p : nat -> nat) (adj adj' : list (list nat)) : Prop :=
  length adj' = length adj /\
  forall i, (i < length adj)%nat -> Permutation (map p (nth i adj [])) (nth (p i) adj' []).

Section Relabel.
Variable p : nat -> nat.
Variables adj adj' : list (list nat).
Hypothesis R : renumbering (length adj) p.
Hypothesis A : relab_adj p adj adj'.
Hypothesis S : sized adj.
Notation n := (length adj).

Lemma color_relab l l' i : length l = n -> relab p l l' -> (i < n)%nat -> color l' (p i) = color l i.
Proof using.
  clear A S. intros L [L' H] Hi. unfold color. assert (Hl : (i < length l)%nat) by lia. specialize (H i Hl).
  destruct (nth_error l i) as [c|] eqn:E; [|apply nth_error_None in E; lia].
  rewrite (nth_error_nth _ _ 0 E), (nth_error_nth _ _ 0 H). reflexivity.
Qed.

Lemma near_relab l l' i : length l = n -> relab p l l' -> (i < n)%nat -> near adj' l' (p i) = near adj l i.
Proof using A S.
  intros L Q Hi. unfold near. apply sort_by_unique.
  - intros a b. rewrite !Z.leb_le. lia.
  - intros a b c. rewrite !Z.leb_le. lia.
  - intros a b. rewrite !Z.leb_le. lia.
  - rewrite <- (proj2 A i Hi), map_map. apply Permutation_refl'. apply map_ext_in.
    intros j Hj. apply color_relab; [exact L|exact Q|]. eapply adj_bound; eassumption.
Qed.

Lemma nth_error_seq m i : (i < m)%nat -> nth_error (seq 0 m) i = Some i.
Proof. intros H. rewrite nth_error_lookup. apply lookup_seq_lt, H. Qed.

Lemma sigs_relab l l' : length l = n -> relab p l l' ->
  relab p (map (pure_signature adj l) (seq 0 n)) (map (pure_signature adj' l') (seq 0 (length adj'))).
Proof using A R S.
  intros L Q. pose proof (proj1 A) as La. split; [rewrite !map_length, !seq_length; exact La|].
  intros i Hi. rewrite map_length, seq_length in Hi. rewrite La, !nth_error_map.
  pose proof (proj1 R i Hi) as Hp. rewrite !nth_error_seq by assumption. cbn. f_equal. unfold pure_signature.
  rewrite (color_relab l l' i), (near_relab l l' i) by assumption. reflexivity.
Qed.

Lemma refine_relab m : forall l l', length l = n -> relab p l l' ->
  relab p (fst (pure_refine m adj l)) (fst (pure_refine m adj' l')) /\
  snd (pure_refine m adj' l') = snd (pure_refine m adj l).
Proof using A R S.
  induction m as [|m IH]; intros l l' L Q; cbn [pure_refine]; [auto|].
  pose proof (sigs_relab l l' L Q) as Hs.
  set (s := map (pure_signature adj l) (seq 0 n)) in *.
  set (s' := map (pure_signature adj' l') (seq 0 (length adj'))) in *.
  assert (Ls : length s = n) by (unfold s; rewrite map_length, seq_length; reflexivity).
  assert (Hc : relab p (canonical_colors s) (canonical_colors s')).
  { apply canonical_colors_relab; [rewrite Ls; exact R|exact Hs]. }
  assert (Lc : length (canonical_colors s) = n) by (rewrite canonical_colors_length; exact Ls).
  assert (E : text_eqb (canonical_colors s') l' = text_eqb (canonical_colors s) l).
  { pose proof (relab_eq p (canonical_colors s) (canonical_colors s') l l') as K.
    rewrite Lc in K. specialize (K R L Hc Q). apply eq_true_iff_eq. rewrite !text_eqb_spec. symmetry. exact K. }
  rewrite E. destruct (text_eqb (canonical_colors s) l); [auto|].
  destruct (IH _ _ Lc Hc) as [I1 I2]. destruct (pure_refine m adj _), (pure_refine m adj' _). cbn [fst snd] in *.
  split; [exact I1|lia].
Qed.

Lemma count_color_perm l l' c : Permutation l l' -> count_color l' c = count_color l c.
Proof using.
  clear. unfold count_color. induction 1; cbn; auto.
  - destruct (c =? x); cbn; congruence.
  - destruct (c =? x), (c =? y); reflexivity.
  - congruence.
Qed.
Lemma ambiguous_relab l l' : length l = n -> relab p l l' -> ambiguous l' = ambiguous l.
Proof using R.
  intros L Q. unfold ambiguous. rewrite (proj1 Q). f_equal. apply map_ext. intros i. apply count_color_perm.
  apply (relab_perm p); [rewrite L; exact R|exact Q].
Qed.
Lemma max_perm l l' : Permutation l l' -> fold_right Z.max 0 l' = fold_right Z.max 0 l.
Proof using. clear. induction 1; cbn; lia. Qed.
Lemma filter_map_swap {X Y} (h : X -> Y) (P : Y -> bool) l : List.filter P (map h l) = map h (List.filter (fun x => P (h x)) l).
Proof. induction l as [|x l IH]; cbn; [reflexivity|]. rewrite IH. destruct (P (h x)); reflexivity. Qed.
Lemma filter_perm {X} (P : X -> bool) l k : Permutation l k -> Permutation (List.filter P l) (List.filter P k).
Proof.
  induction 1; cbn; auto.
  - destruct (P x); auto.
  - destruct (P x), (P y); auto. apply perm_swap.
  - etransitivity; eassumption.
Qed.
Lemma candidates_relab l l' a : length l = n -> relab p l l' -> Permutation (map p (candidates l a)) (candidates l' a).
Proof using R.
  intros L Q. unfold candidates. rewrite (proj1 Q), L.
  rewrite <- (filter_perm (fun i => color l' i =? a) _ _ (renumbering_perm _ _ R)), filter_map_swap.
  apply Permutation_refl'. f_equal. clear S. apply filter_ext_in.
  intros i Hi. apply in_seq in Hi. rewrite (color_relab l l') by (assumption || lia). reflexivity.
Qed.

Lemma node_of_relab l l' c : length l = n -> relab p l l' -> NoDup l ->
  Forall (fun c => 0 <= c < Z.of_nat (length l)) l -> (c < n)%nat ->
  node_of l' (Z.of_nat c) = p (node_of l (Z.of_nat c)) /\ (node_of l (Z.of_nat c) < n)%nat.
Proof using R.
  intros L Q D F Hc. assert (Hin : In (Z.of_nat c) l) by (apply dense_colors; [exact F|exact D|lia]).
  apply In_nth_error in Hin as (i & Hi).
  assert (Hl : (i < length l)%nat) by (apply nth_error_Some; congruence).
  assert (Ec : color l i = Z.of_nat c) by (unfold color; apply nth_error_nth, Hi).
  rewrite <- Ec, node_of_spec by assumption. split; [|lia].
  assert (Hi' : (i < n)%nat) by lia. pose proof (proj1 R i Hi') as Hp.
  assert (D' : NoDup l').
  { apply NoDup_ListNoDup. eapply Permutation_NoDup; [apply (relab_perm p); [|exact Q]|apply NoDup_ListNoDup, D]. rewrite L. exact R. }
  rewrite <- (color_relab l l' i L Q Hi'). apply node_of_spec; [|exact D'].
  rewrite (proj1 Q), L. exact Hp.
Qed.

Lemma records_relab bases bases' l l' : length bases = n -> relab p bases bases' -> length l = n -> relab p l l' ->
  NoDup l -> Forall (fun c => 0 <= c < Z.of_nat (length l)) l ->
  pure_records bases' adj' l' = pure_records bases adj l.
Proof using A R S.
  intros Lb Qb L Q D F. unfold pure_records. rewrite (proj1 Q). apply map_ext_in. intros c Hc. apply in_seq in Hc.
  destruct (node_of_relab l l' c) as [E Hn]; try assumption; [lia|]. rewrite E. unfold pure_record.
  rewrite (near_relab l l') by assumption.
  assert (Eb : nth (p (node_of l (Z.of_nat c))) bases' [] = nth (node_of l (Z.of_nat c)) bases []).
  { destruct Qb as [_ Qb]. assert (Hb : (node_of l (Z.of_nat c) < length bases)%nat) by lia. specialize (Qb _ Hb).
    destruct (nth_error bases (node_of l (Z.of_nat c))) as [x|] eqn:Ex; [|apply nth_error_None in Ex; lia].
    transitivity x; [exact (nth_error_nth _ _ [] Qb)|symmetry; exact (nth_error_nth _ _ [] Ex)]. }
  rewrite Eb. reflexivity.
Qed.

Lemma canon_relab bases bases' fuel : length bases = n -> relab p bases bases' -> adj <> [] ->
  forall l l', length l = n -> relab p l l' -> canon fuel bases' adj' l' = canon fuel bases adj l.
Proof using A R S.
  intros Lb Qb Ne. induction fuel as [|f IH]; intros l l' L Q; cbn [canon]; [reflexivity|].
  pose proof (proj1 A) as La. rewrite La.
  destruct (refine_relab n l l' L Q) as [Qr Ek].
  pose proof (pure_refine_length n adj l L) as Lr.
  assert (Fr : Forall (fun c => 0 <= c < Z.of_nat (length (fst (pure_refine n adj l)))) (fst (pure_refine n adj l))).
  { rewrite Lr. rewrite List.Forall_forall. intros c Hc. destruct adj as [|x adj0]; [congruence|].
    eapply pure_refine_range; [exact L|exact Hc]. }
  destruct (pure_refine n adj l) as [cs k], (pure_refine n adj' l') as [cs' k']. cbn [fst snd] in *. subst k'.
  f_equal. rewrite (ambiguous_relab cs cs') by assumption. destruct (ambiguous cs) as [a|] eqn:Ea.
  - apply join_some_perm. rewrite <- (candidates_relab cs cs' a Lr Qr), map_map. apply Permutation_refl'.
    apply map_ext_in. intros i Hi. apply filter_In in Hi as [Hi _]. apply in_seq in Hi.
    assert (Rc : renumbering (length cs) p) by (rewrite Lr; exact R).
    rewrite (max_perm cs cs') by (apply (relab_perm p); assumption). apply IH.
    + rewrite insert_length. exact Lr.
    + apply relab_insert; [exact Rc|exact Qr|lia].
  - do 2 f_equal. apply records_relab; try assumption. apply unambiguous; assumption.
Qed.

Lemma sized_relab : sized adj'.
Proof using A R S.
  unfold sized. rewrite List.Forall_forall. intros ns Hns. rewrite List.Forall_forall. intros j Hj.
  apply In_nth_error in Hns as (k & Hk). assert (Hl : (k < length adj')%nat) by (apply nth_error_Some; congruence).
  rewrite (proj1 A) in Hl. destruct (relab_surj _ _ _ R Hl) as (i & Hi & <-).
  pose proof (proj2 A i Hi) as P. rewrite (nth_error_nth _ _ [] Hk) in P.
  assert (Hin : In j (map p (nth i adj []))) by (eapply Permutation_in; [symmetry; exact P|exact Hj]).
  apply in_map_iff in Hin as (j' & <- & Hj'). rewrite (proj1 A). apply (proj1 R). eapply adj_bound; eassumption.
Qed.

Lemma search_relab bases bases' fuel l l' b : length bases = n -> relab p bases bases' -> adj <> [] ->
  length l = n -> relab p l l' -> 0 <= b < Z.of_nat fuel ->
  search fuel bases' adj' l' b = search fuel bases adj l b.
Proof using A R S.
  intros Lb Qb Ne L Q Hb. rewrite !search_canon; try assumption.
  - f_equal. apply canon_relab; assumption.
  - apply sized_relab.
  - rewrite (proj1 Qb), (proj1 A). exact Lb.
  - intros E. apply Ne. apply length_zero_iff_nil. rewrite <- (proj1 A), E. reflexivity.
  - rewrite (proj1 Q), (proj1 A). exact L.
Qed.
End Relabel.
