(** The distributions of Draw.v: range, termination, evenness. *)
From Coq Require Import QArith_base.
From Verif Require Import Base Tracker Run Pcg PcgFacts PcgProps Manifold Draw.
From Coq Require Import ZArith.
Local Open Scope Z_scope.

(** * Loops *)
Section Loops.
  Context {S B : Type}.
  Variable step : S -> S + B.
  Inductive goes : nat -> S -> S -> Prop :=
  | goes_O x : goes O x x
  | goes_S n x y z : step x = inl y -> goes n y z -> goes (Datatypes.S n) x z.
  Lemma goes_split n1 n2 x z : goes (n1 + n2) x z -> exists y, goes n1 x y /\ goes n2 y z.
  Proof.
    revert x; induction n1 as [|n1 IH]; intros x H; [exists x; split; [constructor|exact H]|].
    inversion H as [|? ? y ? E K]; subst. destruct (IH _ K) as (u & U1 & U2). exists u. split; [econstructor; eassumption|exact U2].
  Qed.
  Lemma loop_goes d : (forall n x z, goes n x z -> Z.of_nat n = 2 ^ Z.of_nat d -> loop d step x = inl z) /\
    (forall n x z b, goes n x z -> step z = inr b -> Z.of_nat n < 2 ^ Z.of_nat d -> loop d step x = inr b).
  Proof.
    induction d as [|d [IA IB]].
    - change (2 ^ Z.of_nat 0) with 1. split.
      + intros n x z H E. assert (n = 1%nat) by lia. subst n. inversion H as [|? ? y ? E1 K]; subst. inversion K; subst. exact E1.
      + intros n x z b H E L. assert (n = O) by lia. subst n. inversion H; subst. exact E.
    - assert (E2 : 2 ^ Z.of_nat (Datatypes.S d) = 2 * 2 ^ Z.of_nat d) by (rewrite Nat2Z.inj_succ, Z.pow_succ_r by lia; reflexivity).
      assert (P : 0 < 2 ^ Z.of_nat d) by (apply Z.pow_pos_nonneg; lia).
      split.
      + intros n x z H E. set (k := Z.to_nat (2 ^ Z.of_nat d)). assert (Hk : Z.of_nat k = 2 ^ Z.of_nat d) by (unfold k; lia).
        assert (n = (k + k)%nat) by lia. subst n. destruct (goes_split _ _ _ _ H) as (y & Y1 & Y2).
        cbn [loop]. rewrite (IA _ _ _ Y1 Hk). exact (IA _ _ _ Y2 Hk).
      + intros n x z b H E L. cbn [loop]. destruct (Z_lt_ge_dec (Z.of_nat n) (2 ^ Z.of_nat d)) as [SM|GE].
        * rewrite (IB _ _ _ _ H E SM). reflexivity.
        * set (k := Z.to_nat (2 ^ Z.of_nat d)). assert (Hk : Z.of_nat k = 2 ^ Z.of_nat d) by (unfold k; lia).
          assert (n = (k + (n - k))%nat) by lia. rewrite H0 in H. destruct (goes_split _ _ _ _ H) as (y & Y1 & Y2).
          rewrite (IA _ _ _ Y1 Hk). apply (IB _ _ _ _ Y2 E). lia.
  Qed.
End Loops.

(** * Calls of the generator *)
Lemma next_value r : random_next r = (value_at r 0, random_after 1 r).
Proof. unfold value_at. cbn [random_after]. destruct (random_next r). reflexivity. Qed.
Lemma after_add m n r : random_after (m + n) r = random_after n (random_after m r).
Proof. revert r; induction m as [|m IH]; intros r; [reflexivity|]. cbn [Nat.add random_after]. apply IH. Qed.
Lemma value_add m n r : value_at (random_after m r) n = value_at r (m + n).
Proof. unfold value_at. rewrite after_add. reflexivity. Qed.
Lemma value_bound r n : random_ok r -> 0 <= value_at r n < two64.
Proof. exact (value_range r n). Qed.

(** Some word comes up in the next 2^128. *)
Lemma word_comes r w : random_ok r -> 0 <= w < two64 -> exists n, Z.of_nat n < 2 ^ 128 /\ value_at r n = w.
Proof.
  intros H Hw. destruct (equally_often r w H Hw) as (calls & _ & L & E).
  destruct calls as [|n calls]; [exfalso; change (Z.of_nat (length (@nil nat))) with 0 in L; revert L; clear; intros L; discriminate L|].
  exists n. apply E. left. reflexivity.
Qed.
Lemma least (P : nat -> Prop) (D : forall n, P n \/ ~ P n) n : P n -> exists m, (m <= n)%nat /\ P m /\ forall i, (i < m)%nat -> ~ P i.
Proof.
  induction n as [n IH] using lt_wf_ind. intros H.
  assert (E : (exists i, (i < n)%nat /\ P i) \/ forall i, (i < n)%nat -> ~ P i).
  { clear IH H. induction n as [|n [(i & A & B) | A]].
    - right. lia.
    - left. exists i. split; [lia|exact B].
    - destruct (D n) as [B|B]; [left; exists n; split; [lia|exact B]|].
      right. intros i L. destruct (Nat.eq_dec i n) as [-> | N]; [exact B|apply A; lia]. }
  destruct E as [(i & A & B)|A].
  - destruct (IH i A B) as (m & M1 & M2 & M3). exists m. split; [lia|split; assumption].
  - exists n. split; [lia|split; assumption].
Qed.

(** * Lemire's method *)
Definition rejected (n w : Z) : Prop := (w * n) mod two64 < two64 mod n.
Lemma L_pos : 0 < two64. Proof. reflexivity. Qed.
Lemma threshold_eq n : 0 < n < two64 -> nd_threshold n = two64 mod n.
Proof.
  intros H. unfold nd_threshold. rewrite (Z_mod_nz_opp_full n two64) by (rewrite Z.mod_small by lia; lia).
  rewrite (Z.mod_small n two64) by lia. replace two64 with (two64 - n + 1 * n) at 2 by ring. rewrite Z_mod_plus_full. reflexivity.
Qed.
Lemma last_word_accepted n : 0 < n < two64 -> ~ rejected n (two64 - 1).
Proof.
  intros H. unfold rejected. replace ((two64 - 1) * n) with (two64 - n + (n - 1) * two64) by ring. rewrite Z_mod_plus_full.
  rewrite (Z.mod_small (two64 - n)) by lia. pose proof (Z.mod_le (two64 - n) n ltac:(lia) ltac:(lia)).
  replace two64 with (two64 - n + 1 * n) at 2 by ring. rewrite Z_mod_plus_full. lia.
Qed.

Lemma nd_goes n g k : 0 < n < two64 -> (forall i, (i < k)%nat -> rejected n (value_at g i)) ->
  goes (nd_again n) k g (random_after k g).
Proof.
  intros Hn. revert g; induction k as [|k IH]; intros g H; [constructor|].
  econstructor; [|exact (IH (random_after 1 g) (fun i L => eq_ind_r (rejected n) (H (S i) ltac:(lia)) (value_add 1 i g)))].
  unfold nd_again. rewrite next_value, threshold_eq by exact Hn. pose proof (H O ltac:(lia)) as R. unfold rejected in R.
  rewrite (proj2 (Z.ltb_lt _ _) R). reflexivity.
Qed.
Lemma nd_spec n g : random_ok g -> 0 < n < two64 ->
  exists k, (forall i, (i < k)%nat -> rejected n (value_at g i)) /\ ~ rejected n (value_at g k) /\
    nd n g = Drawn (value_at g k * n / two64) (random_after (S k) g) /\ Z.of_nat k < 2 ^ 128.
Proof.
  intros Hg Hn.
  enough (H : exists k, (forall i, (i < k)%nat -> rejected n (value_at g i)) /\ ~ rejected n (value_at g k) /\
    nd n g = Drawn (value_at g k * n / two64) (random_after (S k) g)).
  { destruct H as (k & K1 & K2 & K3). exists k. split; [exact K1|]. split; [exact K2|]. split; [exact K3|].
    destruct (word_comes g (two64 - 1) Hg ltac:(lia)) as (m & M1 & M2).
    destruct (Nat.lt_ge_cases m k) as [L|L]; [|lia]. apply K1 in L. rewrite M2 in L. destruct (last_word_accepted n Hn L). }
  assert (D : forall w, rejected n w \/ ~ rejected n w) by (intros w; unfold rejected; lia).
  unfold nd. rewrite next_value. cbv zeta. rewrite threshold_eq by exact Hn.
  pose proof (Z.mod_pos_bound two64 n ltac:(lia)) as T.
  destruct (D (value_at g 0)) as [R|R].
  - pose proof R as R'. unfold rejected in R. rewrite (proj2 (Z.ltb_lt _ n)) by lia. rewrite (proj2 (Z.ltb_lt _ _) R).
    set (g1 := random_after 1 g). assert (Hg1 : random_ok g1) by (apply after_ok; exact Hg).
    destruct (word_comes g1 (two64 - 1) Hg1 ltac:(lia)) as (m & M1 & M2).
    destruct (least (fun i => ~ rejected n (value_at g1 i)) ltac:(intros i; destruct (D (value_at g1 i)); tauto) m) as (k & K1 & K2 & K3).
    { rewrite M2. apply last_word_accepted. exact Hn. }
    assert (K4 : forall i, (i < k)%nat -> rejected n (value_at g1 i)).
    { intros i L. destruct (D (value_at g1 i)) as [Y|N]; [exact Y|]. destruct (K3 i L N). }
    pose proof (nd_goes n g1 k Hn K4) as GO.
    assert (ST : nd_again n (random_after k g1) = inr (value_at g1 k * n / two64, random_after (S k) g1)).
    { unfold nd_again. rewrite next_value, threshold_eq by exact Hn. rewrite value_add, Nat.add_0_r, <- after_add, Nat.add_1_r.
      unfold rejected in K2. rewrite (proj2 (Z.ltb_ge _ _)) by lia. reflexivity. }
    rewrite (proj2 (loop_goes (nd_again n) 128) k g1 _ _ GO ST) by (change (2 ^ Z.of_nat 128) with (2 ^ 128); lia).
    exists (S k). split; [|split].
    + intros [|i] L; [exact R'|]. pose proof (K4 i ltac:(lia)) as X. unfold g1 in X. rewrite value_add in X. exact X.
    + unfold g1 in K2. rewrite value_add in K2. exact K2.
    + unfold g1. rewrite value_add, <- after_add. reflexivity.
  - exists O. split; [lia|]. split; [exact R|]. unfold rejected in R.
    destruct (value_at g 0 * n mod two64 <? n); [|reflexivity]. rewrite (proj2 (Z.ltb_ge _ _)) by lia. reflexivity.
Qed.

(** * uniform_int_distribution *)
Lemma to_type_id t z : in_type t z -> to_type t (z mod two64) = z.
Proof.
  intros H. unfold to_type. assert (D : (type_size t | two64)) by (destruct t; [exists (2 ^ 32)|exists (2 ^ 32)|exists 1]; reflexivity).
  destruct D as [q Q]. assert (P : 0 < type_size t) by (destruct t; reflexivity).
  replace ((z mod two64 - type_min t) mod type_size t) with ((z - type_min t) mod type_size t).
  - rewrite Z.mod_small by (unfold in_type in H; lia). lia.
  - rewrite (Z.mod_eq z two64) by discriminate. rewrite Q.
    replace (z - q * type_size t * (z / (q * type_size t)) - type_min t) with
      (z - type_min t + (- (q * (z / (q * type_size t)))) * type_size t) by ring. symmetry. apply Z_mod_plus_full.
Qed.
Definition choices_of (a b : Z) : Z := b - a + 1.
Lemma width_le t a b : in_type t a -> in_type t b -> choices_of a b <= two64.
Proof. unfold in_type, choices_of. destruct t; cbn [type_min type_size]; unfold two64; lia. Qed.
Lemma uniform_int_spec t a b g : random_ok g -> in_type t a -> in_type t b -> a <= b ->
  exists k, (forall i, (i < k)%nat -> rejected (choices_of a b) (value_at g i)) /\ ~ rejected (choices_of a b) (value_at g k) /\
    uniform_int t a b g = Drawn (a + value_at g k * choices_of a b / two64) (random_after (S k) g) /\ Z.of_nat k < 2 ^ 128.
Proof.
  intros Hg Ha Hb L. unfold uniform_int. rewrite (proj2 (Z.ltb_ge b a) L). cbv zeta.
  pose proof (width_le t a b Ha Hb) as W. unfold choices_of in *. set (n := b - a + 1) in *.
  assert (U : (b mod two64 - a mod two64) mod two64 = n - 1).
  { rewrite <- Zminus_mod. rewrite Z.mod_small by lia. unfold n. ring. }
  rewrite U. assert (Hr : forall w, 0 <= w < two64 -> in_type t (w * n / two64 + a)).
  { intros w Hw. assert (0 <= w * n / two64) by (apply Z.div_pos; nia). assert (w * n / two64 < n) by (apply Z.div_lt_upper_bound; nia).
    unfold in_type in *. unfold n in *. lia. }
  destruct (n - 1 <? two64 - 1) eqn:E.
  - apply Z.ltb_lt in E. replace (n - 1 + 1) with n by ring.
    destruct (nd_spec n g Hg ltac:(lia)) as (k & K1 & K2 & K3 & K4). exists k. split; [exact K1|]. split; [exact K2|]. split; [|exact K4].
    rewrite K3. rewrite to_type_id by (apply Hr, value_bound, Hg). f_equal. ring.
  - apply Z.ltb_ge in E. assert (N : n = two64) by lia. exists O. rewrite next_value. rewrite N in *.
    split; [lia|]. split; [unfold rejected; rewrite Z_mod_mult, Z_mod_same_full; lia|]. split; [|lia].
    specialize (Hr (value_at g 0) (value_bound g 0 Hg)). rewrite Z_div_mult_full in Hr by discriminate.
    rewrite to_type_id by exact Hr. rewrite Z_div_mult_full by discriminate. f_equal. ring.
Qed.

(** * How many words give each value *)
Definition word_gives (a b w v : Z) : Prop := ~ rejected (choices_of a b) w /\ v = a + w * choices_of a b / two64.
Lemma words_of n v : 0 < n <= two64 -> 0 <= v < n ->
  exists c, 0 <= c /\ c + two64 / n <= two64 /\
    forall w, 0 <= w < two64 -> (~ rejected n w /\ w * n / two64 = v <-> c <= w < c + two64 / n).
Proof.
  intros Hn Hv. set (L := two64). set (k := L / n). set (t := L mod n).
  assert (E : L = n * k + t) by (apply Z.div_mod; lia). pose proof (Z.mod_pos_bound L n ltac:(lia)) as T. fold t in T.
  assert (P : 0 < L) by reflexivity.
  exists ((v * L + t + n - 1) / n). set (c := (v * L + t + n - 1) / n).
  assert (C : n * c <= v * L + t + n - 1 < n * c + n).
  { unfold c. pose proof (Z.mul_div_le (v * L + t + n - 1) n ltac:(lia)). pose proof (Z.mul_succ_div_gt (v * L + t + n - 1) n ltac:(lia)). lia. }
  assert (K : 0 <= k) by (apply Z.div_pos; lia).
  assert (V : v * L + L <= n * L) by nia.
  split; [apply Z.div_pos; nia|]. split.
  { assert (n * (c + k) < n * (L + 1)) by nia. nia. }
  intros w Hw. unfold rejected. fold L t. pose proof (Z.mod_pos_bound (w * n) L P) as M. pose proof (Z.div_mod (w * n) L ltac:(lia)) as DM.
  split.
  - intros [R Q]. rewrite Q in DM. split; nia.
  - intros [A B].
    assert (LO : v * L + t <= w * n) by nia. assert (HI : w * n < v * L + L) by nia.
    assert (Q : w * n / L = v) by (symmetry; apply (Z.div_unique_pos (w * n) L v (w * n - v * L)); lia).
    split; [|exact Q]. rewrite Q in DM. lia.
Qed.
Definition interval (c k : Z) : list Z := map (fun i => c + Z.of_nat i) (seq 0 (Z.to_nat k)).
Lemma interval_in c k w : 0 <= k -> In w (interval c k) <-> c <= w < c + k.
Proof.
  intros K. unfold interval. rewrite in_map_iff. split.
  - intros (i & <- & H). apply in_seq in H. lia.
  - intros H. exists (Z.to_nat (w - c)). split; [lia|]. apply in_seq. lia.
Qed.
Lemma interval_nodup c k : List.NoDup (interval c k).
Proof. apply FinFun.Injective_map_NoDup; [intros i j H; lia|apply seq_NoDup]. Qed.
Lemma interval_length c k : 0 <= k -> Z.of_nat (length (interval c k)) = k.
Proof. intros K. unfold interval. rewrite map_length, seq_length. lia. Qed.
Lemma words_list t a b v : in_type t a -> in_type t b -> a <= v <= b ->
  exists words, List.NoDup words /\ Z.of_nat (length words) = two64 / choices_of a b /\
    forall w, In w words <-> 0 <= w < two64 /\ word_gives a b w v.
Proof.
  intros Ha Hb Hv. pose proof (width_le t a b Ha Hb) as W. set (n := choices_of a b) in *.
  assert (Hn : 0 < n <= two64) by (unfold n, choices_of in *; lia).
  destruct (words_of n (v - a) Hn ltac:(unfold n, choices_of; lia)) as (c & C0 & C1 & C).
  assert (K : 0 <= two64 / n) by (apply Z.div_pos; lia || exact L_pos).
  exists (interval c (two64 / n)). split; [apply interval_nodup|]. split; [apply interval_length; exact K|].
  intros w. rewrite interval_in by exact K. unfold word_gives. fold n. split.
  - intros B. assert (Hw : 0 <= w < two64) by lia. split; [exact Hw|]. destruct (proj2 (C w Hw) B) as [R Q]. split; [exact R|lia].
  - intros (Hw & R & Q). apply (C w Hw). split; [exact R|lia].
Qed.

(** The calls whose word is in a list. *)
Lemma calls_of_words r words : random_ok r -> List.NoDup words -> (forall w, In w words -> 0 <= w < two64) ->
  exists calls : list nat, List.NoDup calls /\ Z.of_nat (length calls) = 2 ^ 64 * Z.of_nat (length words) /\
    forall i, In i calls <-> Z.of_nat i < 2 ^ 128 /\ In (value_at r i) words.
Proof.
  intros Hr. induction words as [|w words IH]; intros N B.
  - exists []. split; [constructor|]. split; [reflexivity|]. intros i. split; [intros []|intros [_ []]].
  - inversion N as [|? ? N1 N2]; subst. destruct (IH N2 (fun x X => B x (or_intror X))) as (calls & D & Len & E).
    destruct (equally_often r w Hr (B w (or_introl eq_refl))) as (cw & Dw & Lw & Ew).
    exists (cw ++ calls). split; [|split].
    + apply NoDup_ListNoDup, list.NoDup_app. rewrite !NoDup_ListNoDup. split; [exact Dw|]. split; [|exact D].
      intros i I1 I2. apply elem_of_list_In in I1, I2. apply Ew in I1. apply E in I2. destruct I1 as [_ X]. destruct I2 as [_ Y]. rewrite X in Y. exact (N1 Y).
    + rewrite app_length, Nat2Z.inj_add. cbn [length]. rewrite Nat2Z.inj_succ, Len, Lw. change two64 with (2 ^ 64). lia.
    + intros i. rewrite in_app_iff, Ew, E. cbn [In]. split.
      * intros [[A X] | [A X]]; (split; [exact A|]); [left; symmetry; exact X|right; exact X].
      * intros [A [X | X]]; [left; split; [exact A|symmetry; exact X]|right; split; assumption].
Qed.
