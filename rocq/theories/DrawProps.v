(** What drawing calls return: evenness over the generator's cycle. *)
From Coq Require Import QArith_base.
From Verif Require Import Base Tracker Run Pcg PcgFacts PcgProps Manifold Draw DrawFacts.
From Coq Require Import ZArith.
Local Open Scope Z_scope.

(** The calls in one cycle of the generator (2^128 calls) with a property. *)
Definition calls_exactly (count : Z) (P : nat -> Prop) : Prop :=
  exists calls : list nat, List.NoDup calls /\ Z.of_nat (length calls) = count /\
    forall i, In i calls <-> Z.of_nat i < 2 ^ 128 /\ P i.
Lemma calls_ext c P Q : (forall i, P i <-> Q i) -> calls_exactly c P -> calls_exactly c Q.
Proof. intros E (l & A & B & C). exists l. split; [exact A|]. split; [exact B|]. intros i. rewrite C, E. reflexivity. Qed.
Lemma calls_unique c c' P : calls_exactly c P -> calls_exactly c' P -> c = c'.
Proof.
  intros (l & A & B & C) (l' & A' & B' & C'). rewrite <- B, <- B'. f_equal.
  apply Permutation_length. apply Permutation.NoDup_Permutation; [exact A|exact A'|]. intros x. rewrite C, C'. reflexivity.
Qed.

Lemma Drawn_eq {A} (v v' : A) g g' : Drawn v g = Drawn v' g' <-> v = v' /\ g = g'.
Proof. split; [intros H; injection H; auto|intros [-> ->]; reflexivity]. Qed.
(** A generator does not come back to a state within its cycle. *)
Lemma after_inj r i j : random_ok r -> Z.of_nat i < 2 ^ 128 -> Z.of_nat j < 2 ^ 128 ->
  random_after i r = random_after j r -> i = j.
Proof.
  intros Hr.
  assert (H : forall i j, (i <= j)%nat -> Z.of_nat j < 2 ^ 128 -> random_after i r = random_after j r -> i = j).
  { clear i j. intros i j L B E. assert (D : (2 ^ 128 | Z.of_nat (j - i))).
    { apply (values_period (random_after i r) (j - i) (after_ok i r Hr)). intros k.
      rewrite !value_add. replace (i + (j - i + k))%nat with (j + k)%nat by lia. rewrite <- !value_add, E. reflexivity. }
    destruct D as [q Q]. set (M := 2 ^ 128) in *. assert (0 < M) by reflexivity. assert (q = 0) by nia. subst q. lia. }
  intros Bi Bj E. destruct (Nat.le_ge_cases i j) as [L|L]; [apply H; assumption|]. symmetry. apply H; [exact L|exact Bi|symmetry; exact E].
Qed.

Section Choice.
  Variables (t : int_type) (a b : Z).
  Hypothesis Ha : in_type t a.
  Hypothesis Hb : in_type t b.
  Hypothesis Hab : a <= b.

  (** One word settles the draw exactly when it is not rejected. *)
  Lemma one_word g v : random_ok g ->
    uniform_int t a b g = Drawn v (random_after 1 g) <-> word_gives a b (value_at g 0) v.
  Proof.
    intros Hg. destruct (uniform_int_spec t a b g Hg Ha Hb Hab) as (k & K1 & K2 & K3 & K4). rewrite K3. unfold word_gives. split.
    - intros E. injection E as E1 E2. assert (k = O) as ->.
      { destruct k as [|k]; [reflexivity|]. assert (Hk : 1%nat = S (S k) \/ 1%nat <> S (S k)) by lia. destruct Hk as [Hk|Hk]; [lia|].
        assert (F : (0 = S k)%nat); [|lia].
        apply (after_inj (random_after 1 g)); [apply after_ok; exact Hg|reflexivity|lia|].
        rewrite <- (after_add 1 (S k) g), <- (after_add 1 0 g). exact (eq_sym E2). }
      split; [exact K2|symmetry; exact E1].
    - intros [R E]. destruct k as [|k]; [subst v; reflexivity|]. destruct (R (K1 O ltac:(lia))).
  Qed.
  Lemma skipped g : random_ok g -> rejected (choices_of a b) (value_at g 0) ->
    uniform_int t a b g = uniform_int t a b (random_after 1 g).
  Proof.
    intros Hg R. destruct (uniform_int_spec t a b g Hg Ha Hb Hab) as (k & K1 & K2 & K3 & _).
    destruct (uniform_int_spec t a b (random_after 1 g) (after_ok 1 g Hg) Ha Hb Hab) as (l & L1 & L2 & L3 & _).
    destruct k as [|k]; [destruct (K2 R)|]. rewrite K3, L3. assert (E : k = l).
    { destruct (lt_eq_lt_dec k l) as [[L|L]|L]; [|exact L|].
      - apply L1 in L. rewrite value_add in L. destruct (K2 L).
      - rewrite value_add in L2. destruct (L2 (K1 (S l) ltac:(lia))). }
    subst l. rewrite value_add, <- (after_add 1 (S k)). reflexivity.
  Qed.
  Lemma choice_result g : random_ok g ->
    exists v n, uniform_int t a b g = Drawn v (random_after (S n) g) /\ a <= v <= b /\ Z.of_nat n < 2 ^ 128.
  Proof.
    intros Hg. destruct (uniform_int_spec t a b g Hg Ha Hb Hab) as (k & _ & _ & K3 & K4).
    exists (a + value_at g k * choices_of a b / two64), k. split; [exact K3|]. split; [|exact K4].
    pose proof (value_bound g k Hg) as V. pose proof (width_le t a b Ha Hb) as W.
    assert (N : 0 < choices_of a b) by (unfold choices_of; lia).
    set (n := choices_of a b) in *. assert (0 <= value_at g k * n / two64) by (apply Z.div_pos; [nia|reflexivity]).
    assert (value_at g k * n / two64 < n) by (apply Z.div_lt_upper_bound; [reflexivity|nia]). unfold n, choices_of in *. lia.
  Qed.
  Lemma one_word_after g i v : random_ok g ->
    uniform_int t a b (random_after i g) = Drawn v (random_after (S i) g) <-> word_gives a b (value_at g i) v.
  Proof.
    intros Hg. rewrite <- (Nat.add_0_r i) at 3. rewrite <- value_add. rewrite <- one_word by (apply after_ok; exact Hg).
    rewrite <- after_add, Nat.add_1_r. reflexivity.
  Qed.
  Lemma choice_even g v : random_ok g -> a <= v <= b ->
    calls_exactly (2 ^ 64 * (2 ^ 64 / (b - a + 1)))
      (fun i => uniform_int t a b (random_after i g) = Drawn v (random_after (S i) g)).
  Proof.
    intros Hg Hv. destruct (words_list t a b v Ha Hb Hv) as (words & N & L & E).
    destruct (calls_of_words g words Hg N (fun w H => proj1 (proj1 (E w) H))) as (calls & C1 & C2 & C3).
    exists calls. split; [exact C1|]. split; [rewrite C2, L; reflexivity|]. intros i. rewrite C3, E, one_word_after by exact Hg.
    pose proof (value_bound g i Hg). tauto.
  Qed.

  (** The rest of the words. *)
  Lemma kept_words : forall k, (Z.of_nat k <= choices_of a b) ->
    exists words, List.NoDup words /\ Z.of_nat (length words) = Z.of_nat k * (two64 / choices_of a b) /\
      forall w, In w words <-> 0 <= w < two64 /\ exists v, a <= v < a + Z.of_nat k /\ word_gives a b w v.
  Proof.
    induction k as [|k IH]; intros Hk.
    - exists []. split; [constructor|]. split; [reflexivity|]. intros w. split; [intros []|]. intros (_ & v & V & _). lia.
    - destruct (IH ltac:(lia)) as (ws & N & L & E).
      destruct (words_list t a b (a + Z.of_nat k) Ha Hb ltac:(unfold choices_of in Hk; lia)) as (ws' & N' & L' & E').
      exists (ws' ++ ws). split; [|split].
      + apply NoDup_ListNoDup, list.NoDup_app. rewrite !NoDup_ListNoDup. split; [exact N'|]. split; [|exact N].
        intros w I1 I2. apply elem_of_list_In in I1, I2. apply E' in I1. apply E in I2.
        destruct I1 as (_ & _ & V1). destruct I2 as (_ & v & V & _ & V2). lia.
      + rewrite app_length, Nat2Z.inj_add, L, L'. rewrite Nat2Z.inj_succ. ring.
      + intros w. rewrite in_app_iff, E, E'. split.
        * intros [(B & G) | (B & v & V & G)]; (split; [exact B|]); [exists (a + Z.of_nat k); split; [lia|exact G]|exists v; split; [lia|exact G]].
        * intros (B & v & V & G). destruct (Z.eq_dec v (a + Z.of_nat k)) as [-> | Ne]; [left; split; assumption|].
          right. split; [exact B|]. exists v. split; [lia|exact G].
  Qed.
  Lemma rejected_words : exists words, List.NoDup words /\ Z.of_nat (length words) = two64 mod choices_of a b /\
    forall w, In w words <-> 0 <= w < two64 /\ rejected (choices_of a b) w.
  Proof.
    assert (W : 0 < choices_of a b) by (unfold choices_of; lia). pose proof (width_le t a b Ha Hb) as W2. set (n := choices_of a b) in *.
    destruct (kept_words (Z.to_nat n) ltac:(lia)) as (ws & N & L & E). fold n in L, E.
    assert (E1 : forall w, In w ws <-> 0 <= w < two64 /\ ~ rejected n w).
    { intros w. rewrite E. split.
      - intros (B & v & V & R & _). split; assumption.
      - intros (B & R). split; [exact B|]. exists (a + w * n / two64). split; [|split; [exact R|reflexivity]].
        assert (0 <= w * n / two64) by (apply Z.div_pos; [nia|reflexivity]).
        assert (w * n / two64 < n) by (apply Z.div_lt_upper_bound; [reflexivity|nia]). lia. }
    assert (ER : exists rest, List.NoDup rest /\ forall w, In w rest <-> 0 <= w < two64 /\ rejected n w).
    { exists (List.filter (fun w => (w * n) mod two64 <? two64 mod n) (interval 0 two64)). split; [apply List.NoDup_filter, interval_nodup|].
      intros w. rewrite List.filter_In, interval_in by discriminate. rewrite Z.ltb_lt. reflexivity. }
    destruct ER as (rest & NR & E2). exists rest. split; [exact NR|]. split; [|exact E2].
    assert (EA : exists all, List.NoDup all /\ Z.of_nat (length all) = two64 /\ forall w, In w all <-> 0 <= w < two64).
    { exists (interval 0 two64). split; [apply interval_nodup|]. split; [apply interval_length; discriminate|].
      intros w. rewrite interval_in by discriminate. reflexivity. }
    destruct EA as (all & NA & LA & E3).
    assert (P : Permutation all (ws ++ rest)).
    { apply Permutation.NoDup_Permutation; [exact NA| |].
      - apply NoDup_ListNoDup, list.NoDup_app. rewrite !NoDup_ListNoDup. split; [exact N|]. split; [|exact NR].
        intros w I1 I2. apply elem_of_list_In in I1, I2. apply E1 in I1. apply E2 in I2. tauto.
      - intros w. rewrite in_app_iff, E1, E2, E3. unfold rejected. lia. }
    apply Permutation_length in P. rewrite app_length in P. rewrite P, Nat2Z.inj_add, L in LA.
    pose proof (Z.div_mod two64 n ltac:(lia)). rewrite Z2Nat.id in LA by lia. lia.
  Qed.
  Lemma more_words g i : random_ok g ->
    (~ exists v, uniform_int t a b (random_after i g) = Drawn v (random_after (S i) g)) <-> rejected (choices_of a b) (value_at g i).
  Proof.
    intros Hg. split.
    - intros H. destruct (Z_lt_ge_dec ((value_at g i * choices_of a b) mod two64) (two64 mod choices_of a b)) as [R|R]; [exact R|].
      exfalso. apply H. eexists. apply one_word_after; [exact Hg|]. split; [unfold rejected; lia|reflexivity].
    - intros R (v & E). apply one_word_after in E; [|exact Hg]. destruct E as [E _]. exact (E R).
  Qed.
  Lemma skip_count g : random_ok g ->
    calls_exactly (2 ^ 64 * (2 ^ 64 mod (b - a + 1)))
      (fun i => ~ exists v, uniform_int t a b (random_after i g) = Drawn v (random_after (S i) g)).
  Proof.
    intros Hg. destruct rejected_words as (words & N & L & E).
    destruct (calls_of_words g words Hg N (fun w H => proj1 (proj1 (E w) H))) as (calls & C1 & C2 & C3).
    exists calls. split; [exact C1|]. split; [rewrite C2, L; reflexivity|]. intros i. rewrite C3, E, more_words by exact Hg.
    pose proof (value_bound g i Hg). tauto.
  Qed.
  Lemma skip_next g : random_ok g ->
    (~ exists v, uniform_int t a b g = Drawn v (random_after 1 g)) -> uniform_int t a b g = uniform_int t a b (random_after 1 g).
  Proof. intros Hg H. apply skipped; [exact Hg|]. exact (proj1 (more_words g 0 Hg) H). Qed.
End Choice.

(** * Moves and sites *)
Lemma in_int32_small v : - 2 ^ 31 <= v < 2 ^ 31 -> in_type Int32 v.
Proof. unfold in_type. cbn [type_min type_size]. lia. Qed.
Lemma move_range g : random_ok g -> exists n, 0 <= fst (random_move g) < 5 /\ snd (random_move g) = random_after (S n) g.
Proof.
  intros Hg. destruct (choice_result Int32 0 4 (in_int32_small 0 ltac:(lia)) (in_int32_small 4 ltac:(lia)) ltac:(lia) g Hg) as (v & n & E & V & _).
  exists n. unfold random_move, generate_random_move_3, pcg_draw_int. change (NUMBER_OF_3D_MOVES - 1) with 4. rewrite E. cbn [draw_total fst snd]. split; [lia|reflexivity].
Qed.
Lemma move_even g m : random_ok g -> 0 <= m < 5 ->
  calls_exactly (2 ^ 64 * (2 ^ 64 / 5)) (fun i => random_move (random_after i g) = (m, random_after (S i) g)).
Proof.
  intros Hg Hm. pose proof (choice_even Int32 0 4 (in_int32_small 0 ltac:(lia)) (in_int32_small 4 ltac:(lia)) ltac:(lia) g m Hg ltac:(lia)) as H.
  revert H. apply calls_ext. intros i. unfold random_move, generate_random_move_3, pcg_draw_int. change (NUMBER_OF_3D_MOVES - 1) with 4.
  destruct (choice_result Int32 0 4 (in_int32_small 0 ltac:(lia)) (in_int32_small 4 ltac:(lia)) ltac:(lia) (random_after i g) (after_ok i g Hg)) as (v & n & E & V & _).
  rewrite E. cbn [draw_total]. rewrite Drawn_eq, pair_equal_spec. reflexivity.
Qed.

Lemma value_any r n : 0 <= value_at r n < two64.
Proof.
  unfold value_at. set (x := random_after n r). unfold random_next. destruct (pcg_next (rnd_engine x)) as [v e] eqn:E.
  unfold pcg_next in E. injection E as <- _. cbn [fst]. 
  destruct (split_state (bump (pcg_inc (rnd_engine x)) (pcg_state (rnd_engine x)))) as (hi & lo & _ & Hh & Hl & -> & Hr).
  { unfold bump. apply Z.mod_pos_bound. reflexivity. }
  apply rotr64_range; [apply lxor_bound; assumption|exact Hr].
Qed.
Lemma loop_inr {S B} d (step : S -> S + B) x b : loop d step x = inr b -> exists y, step y = inr b.
Proof.
  revert x; induction d as [|d IH]; intros x H; [exists x; exact H|]. cbn [loop] in H.
  destruct (loop d step x) as [y|b'] eqn:E; [exact (IH _ H)|]. injection H as ->. exact (IH _ E).
Qed.
Lemma nd_below n g v g' : 0 < n -> nd n g = Drawn v g' -> 0 <= v < n.
Proof.
  intros Hn. assert (B : forall w, 0 <= w < two64 -> 0 <= w * n / two64 < n).
  { intros w Hw. split; [apply Z.div_pos; [nia|reflexivity]|apply Z.div_lt_upper_bound; [reflexivity|nia]]. }
  unfold nd. rewrite next_value. cbv zeta.
  assert (D : Drawn (value_at g 0 * n / two64) (random_after 1 g) = Drawn v g' -> 0 <= v < n).
  { intros E. injection E as <- _. apply B, value_any. }
  destruct (_ <? n); [|exact D]. destruct (_ <? nd_threshold n); [|exact D].
  destruct (loop 128 (nd_again n) (random_after 1 g)) as [y|[v' g'']] eqn:E; [intros K; discriminate K|].
  intros K. injection K as -> ->. apply loop_inr in E. destruct E as (y & E). unfold nd_again in E. rewrite next_value in E. cbv zeta in E.
  destruct (_ <? _) in E; [discriminate E|]. injection E as <- _. apply B, value_any.
Qed.
Lemma index_range n g : (0 < n)%nat -> (fst (pcg_draw_index n g) < n)%nat.
Proof.
  intros Hn. unfold pcg_draw_index. destruct (uniform_int UInt64 0 (Z.of_nat n - 1) g) as [v g'| |] eqn:E; cbn [draw_total fst]; [|lia|lia].
  enough (0 <= v < Z.of_nat n) by lia. unfold uniform_int in E. rewrite (proj2 (Z.ltb_ge _ 0)) in E by lia. cbv zeta in E.
  assert (T : forall z, 0 <= to_type UInt64 z < two64).
  { intros z. unfold to_type. cbn [type_min type_size]. rewrite Z.sub_0_r, Z.add_0_l. apply Z.mod_pos_bound. reflexivity. }
  destruct (Z_lt_ge_dec two64 (Z.of_nat n)) as [Big|Small].
  - enough (0 <= v < two64) by lia. destruct (_ <? _) in E.
    + destruct (nd _ g) in E; try discriminate E. injection E as <- _. apply T.
    + rewrite next_value in E. injection E as <- _. apply T.
  - rewrite Z.mod_0_l, Z.sub_0_r, Zmod_mod in E by discriminate. rewrite (Z.mod_small (Z.of_nat n - 1)) in E by lia.
    assert (ID : forall z, 0 <= z < two64 -> to_type UInt64 ((z + 0) mod two64) = z).
    { intros z Hz. rewrite Z.add_0_r. apply to_type_id. unfold in_type. cbn [type_min type_size]. exact Hz. }
    destruct (Z.of_nat n - 1 <? two64 - 1) eqn:F.
    + destruct (nd (Z.of_nat n - 1 + 1) g) as [x g''| |] eqn:Ex; try discriminate E. injection E as <- _.
      apply nd_below in Ex; [|lia]. rewrite ID by lia. lia.
    + rewrite next_value in E. injection E as <- _. rewrite ID by apply value_any. pose proof (value_any g 0). apply Z.ltb_ge in F. lia.
Qed.

Lemma iter_swap_perm {A} (l : list A) i j : iter_swap l i j ≡ₚ l.
Proof.
  unfold iter_swap. destruct (l !! i) as [x|] eqn:Ei; [|reflexivity]. destruct (l !! j) as [y|] eqn:Ej; [|reflexivity].
  destruct (Nat.eq_dec i j) as [-> | N].
  - rewrite Ei in Ej. injection Ej as ->. rewrite !list_insert_id; [reflexivity|exact Ei|]. rewrite list_lookup_insert; [reflexivity|]. apply lookup_lt_is_Some. eauto.
  - apply Permutation_inj. split; [rewrite !insert_length; reflexivity|].
    exists (fun k => if decide (k = i) then j else if decide (k = j) then i else k). split.
    + intros k l'. repeat case_decide; lia.
    + intros k. pose proof (lookup_lt_Some _ _ _ Ei). pose proof (lookup_lt_Some _ _ _ Ej). repeat case_decide; subst.
      * rewrite list_lookup_insert by (rewrite insert_length; assumption). symmetry. assumption.
      * rewrite list_lookup_insert_ne by congruence. rewrite list_lookup_insert by assumption. symmetry. assumption.
      * rewrite !list_lookup_insert_ne by congruence. reflexivity.
Qed.
Lemma pairs_perm {A} p : forall i (l : list A) g l' g', shuffle_pairs p i l g = Drawn l' g' -> l' ≡ₚ l.
Proof.
  induction p as [|p IH]; intros i l g l' g' H; [injection H as <- _; reflexivity|]. cbn [shuffle_pairs] in H.
  destruct (uniform_int _ _ _ _) in H; try discriminate H. apply IH in H. rewrite H, !iter_swap_perm. reflexivity.
Qed.
Lemma singles_perm {A} c : forall i (l : list A) g l' g', shuffle_singles c i l g = Drawn l' g' -> l' ≡ₚ l.
Proof.
  induction c as [|c IH]; intros i l g l' g' H; [injection H as <- _; reflexivity|]. cbn [shuffle_singles] in H.
  destruct (uniform_int _ _ _ _) in H; try discriminate H. apply IH in H. rewrite H, !iter_swap_perm. reflexivity.
Qed.
Lemma shuffle_result_perm {A} (l : list A) g l' g' : std_shuffle l g = Drawn l' g' -> l' ≡ₚ l.
Proof.
  intros H. destruct l as [|x0 l0]; [injection H as <- _; reflexivity|]. unfold std_shuffle in H. set (l := x0 :: l0) in *. cbv zeta in H.
  destruct (_ <=? _) in H; [|exact (singles_perm _ _ _ _ _ _ H)]. destruct (Nat.even _) in H; [|exact (pairs_perm _ _ _ _ _ _ H)].
  destruct (uniform_int _ _ _ _) in H; try discriminate H. apply pairs_perm in H. rewrite H, iter_swap_perm. reflexivity.
Qed.
(** The library meets the contract the move theorems assume of it. *)
Lemma pcg_choices_ok : choices_ok pcg_choices.
Proof.
  constructor.
  - exact index_range.
  - intros A l g. cbn [shuffle pcg_choices]. unfold pcg_shuffle. destruct (std_shuffle l g) eqn:E; cbn [fst]; [|reflexivity|reflexivity].
    exact (shuffle_result_perm _ _ _ _ E).
Qed.

Lemma nth_error_at {A} (l : list A) k : nth_error l k = l !! k.
Proof. revert k; induction l as [|x l IH]; intros [|k]; try reflexivity. exact (IH k). Qed.
Lemma element_even {S : Type} (sorted : list S) g x : random_ok g -> NoDup sorted -> In x sorted -> Z.of_nat (length sorted) <= 2 ^ 64 ->
  calls_exactly (2 ^ 64 * (2 ^ 64 / Z.of_nat (length sorted)))
    (fun i => canonical_random_element pcg_choices sorted (random_after i g) = (Some x, random_after (Datatypes.S i) g)).
Proof.
  intros Hg N I L. apply elem_of_list_In in I. apply elem_of_list_lookup in I. destruct I as (k & K). pose proof (lookup_lt_Some _ _ _ K) as KL.
  assert (T : forall z, 0 <= z < 2 ^ 64 -> in_type UInt64 z) by (intros z Hz; unfold in_type; cbn [type_min type_size]; lia).
  pose proof (choice_even UInt64 0 (Z.of_nat (length sorted) - 1) (T 0 ltac:(lia)) (T (Z.of_nat (length sorted) - 1) ltac:(lia)) ltac:(lia) g (Z.of_nat k) Hg ltac:(lia)) as H.
  replace (Z.of_nat (length sorted) - 1 - 0 + 1) with (Z.of_nat (length sorted)) in H by ring.
  revert H. apply calls_ext. intros i.
  destruct (choice_result UInt64 0 (Z.of_nat (length sorted) - 1) (T 0 ltac:(lia)) (T (Z.of_nat (length sorted) - 1) ltac:(lia)) ltac:(lia) (random_after i g) (after_ok i g Hg)) as (v & n & E & V & _).
  unfold canonical_random_element. destruct sorted as [|x0 rest] eqn:Es; [discriminate K|]. rewrite <- Es in *. cbn [draw_index pcg_choices]. unfold pcg_draw_index.
  rewrite E. cbn [draw_total]. rewrite nth_error_at. split.
  - intros Q. apply Drawn_eq in Q. destruct Q as [-> ->]. rewrite Nat2Z.id, K. reflexivity.
  - intros Q. apply pair_equal_spec in Q. destruct Q as [Q1 Q2]. rewrite Q2. pose proof (NoDup_lookup _ _ _ _ N Q1 K) as Q3. f_equal. lia.
Qed.
