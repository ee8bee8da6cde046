(** What calls of a [cdt::Random] return. *)
From Verif Require Import Base Run Pcg PcgFacts.
From Coq Require Import ZArith.
Local Open Scope Z_scope.

Notation A := pcg_multiplier.
Lemma A4 : A mod 4 = 1. Proof. reflexivity. Qed.
Lemma A_odd : Z.odd A = true. Proof. reflexivity. Qed.
Lemma M_pos : 0 < two128. Proof. reflexivity. Qed.

(** * Runs *)
Lemma lcg_first c n x : lcg A c (S n) x = lcg A c n (A * x + c).
Proof. induction n; [reflexivity|]. cbn [lcg] in *. rewrite IHn. reflexivity. Qed.
Lemma after_inc n r : pcg_inc (rnd_engine (random_after n r)) = pcg_inc (rnd_engine r).
Proof. revert r; induction n as [|n IH]; intros r; [reflexivity|]. cbn [random_after]. rewrite IH. reflexivity. Qed.
Lemma after_seed n r : rnd_seed (random_after n r) = rnd_seed r /\ rnd_stream (random_after n r) = rnd_stream r.
Proof. revert r; induction n as [|n IH]; intros r; [split; reflexivity|]. cbn [random_after]. exact (IH (snd (random_next r))). Qed.
Lemma after_state n r : random_ok r ->
  pcg_state (rnd_engine (random_after n r)) = lcg A (pcg_inc (rnd_engine r)) n (pcg_state (rnd_engine r)) mod two128.
Proof.
  revert r; induction n as [|n IH]; intros r (H1 & H2 & H3).
  - cbn [random_after lcg]. rewrite Z.mod_small by exact H1. reflexivity.
  - cbn [random_after]. rewrite IH.
    + rewrite lcg_first. cbn [random_next pcg_next snd rnd_engine advance pcg_state pcg_inc bump]. unfold bump.
      rewrite !lcg_closed. set (x := pcg_state (rnd_engine r)). set (c := pcg_inc (rnd_engine r)).
      rewrite (Z.mul_comm x A). pose proof (Z.mod_eq (A * x + c) two128 ltac:(discriminate)) as E. rewrite E.
      set (q := (A * x + c) / two128).
      replace (A * x + c - two128 * q + geom A n * ((A - 1) * (A * x + c - two128 * q) + c))
        with (A * x + c + geom A n * ((A - 1) * (A * x + c) + c) + (- q - geom A n * (A - 1) * q) * two128) by ring.
      apply Z_mod_plus_full.
    + split; [|split; assumption]. cbn [random_next pcg_next snd rnd_engine advance pcg_state]. apply Z.mod_pos_bound. exact M_pos.
Qed.
Lemma after_ok n r : random_ok r -> random_ok (random_after n r).
Proof.
  intros H. split; [|rewrite after_inc; apply H]. rewrite after_state by exact H. apply Z.mod_pos_bound. exact M_pos.
Qed.
Lemma random_of_ok seed stream : random_ok (random_of seed stream).
Proof.
  unfold random_ok, random_of, make_random, seed_pcg. cbn [rnd_engine pcg_state pcg_inc].
  split; [apply Z.mod_pos_bound; exact M_pos|].
  unfold increment. set (y := Z.shiftl stream 1 mod two128).
  assert (Y : 0 <= y < two128) by (apply Z.mod_pos_bound; exact M_pos).
  assert (O : Z.odd (Z.lor y 1) = true).
  { rewrite <- Z.bit0_odd, Z.lor_spec. apply Bool.orb_true_r. }
  split; [|exact O]. split; [apply Z.lor_nonneg; lia|].
  destruct (Z.eq_dec (Z.lor y 1) 0) as [-> | N]; [reflexivity|].
  assert (0 <= Z.lor y 1) by (apply Z.lor_nonneg; lia).
  change two128 with (2 ^ 128). apply Z.log2_lt_pow2; [lia|]. rewrite Z.log2_lor by lia.
  apply Z.max_lub_lt; [|reflexivity]. destruct (Z.eq_dec y 0) as [-> | ]; [reflexivity|]. apply Z.log2_lt_pow2; [lia|]. apply Y.
Qed.
Lemma value_state r n : random_ok r ->
  value_at r n = xsl_rr (lcg A (pcg_inc (rnd_engine r)) n (A * pcg_state (rnd_engine r) + pcg_inc (rnd_engine r)) mod two128).
Proof.
  intros H. rewrite <- lcg_first. change (S n) with (1 + n)%nat.
  assert (E : random_after (S n) r = snd (random_next (random_after n r))).
  { clear H. revert r. induction n as [|n IH]; intros r; [reflexivity|]. cbn [random_after] in *. apply IH. }
  rewrite <- (after_state (S n)) by exact H. rewrite E. reflexivity.
Qed.

Definition congr (x y : Z) : Prop := (two128 | x - y).
Lemma congr_mod x y : congr x y <-> x mod two128 = y mod two128.
Proof.
  unfold congr. split.
  - intros [q Q]. replace x with (y + q * two128) by lia. apply Z_mod_plus_full.
  - intros E. rewrite !Z.mod_eq in E by discriminate. exists (x / two128 - y / two128). lia.
Qed.
Lemma congr_small x y : congr x y -> 0 <= x < two128 -> 0 <= y < two128 -> x = y.
Proof. intros H X Y. apply congr_mod in H. rewrite !Z.mod_small in H by assumption. exact H. Qed.
Lemma geom_reach u : exists n, Z.of_nat n < two128 /\ congr (geom A n) u.
Proof. exact (geom_onto A A4 128 u). Qed.

(** Every state comes up. *)
Lemma state_reached r z : random_ok r ->
  exists n, Z.of_nat n < two128 /\ congr (lcg A (pcg_inc (rnd_engine r)) n (A * pcg_state (rnd_engine r) + pcg_inc (rnd_engine r))) z.
Proof.
  intros (H1 & H2 & H3). set (c := pcg_inc (rnd_engine r)) in *. set (x := A * pcg_state (rnd_engine r) + c).
  set (w := (A - 1) * x + c). assert (W : Z.odd w = true).
  { unfold w. rewrite Z.odd_add, Z.odd_mul, H3. reflexivity. }
  destruct (odd_inverse w 128 W) as (v & q & V). change (2 ^ Z.of_nat 128) with two128 in V.
  destruct (geom_reach (v * (z - x))) as (n & B & [k G]). exists n. split; [exact B|]. rewrite lcg_closed. fold w.
  exists (q * (z - x) + k * w). replace (geom A n) with (v * (z - x) + k * two128) by lia.
  replace (x + (v * (z - x) + k * two128) * w - z) with (x - z + (v * w) * (z - x) + k * w * two128) by ring. rewrite V. ring.
Qed.
(** Generators that cannot be told apart are equal. *)
Lemma same_values r r' : random_ok r -> random_ok r' ->
  (forall n, Z.of_nat n < two128 -> value_at r n = value_at r' n) -> rnd_engine r = rnd_engine r'.
Proof.
  intros Hr Hr' S. pose proof Hr as (X & C & O). pose proof Hr' as (Y & C' & O').
  destruct (rnd_engine r) as [x0 c] eqn:Er. destruct (rnd_engine r') as [y0 c'] eqn:Er'. cbn [pcg_state pcg_inc] in *.
  set (x := A * x0 + c). set (y := A * y0 + c').
  assert (S' : forall n, Z.of_nat n < two128 -> xsl_rr (lcg A c n x mod two128) = xsl_rr (lcg A c' n y mod two128)).
  { intros n B. specialize (S n B). rewrite !value_state in S by assumption. rewrite Er, Er' in S. exact S. }
  clear S. set (w := (A - 1) * x + c). set (w' := (A - 1) * y + c').
  assert (W : Z.odd w = true) by (unfold w; rewrite Z.odd_add, Z.odd_mul, O; reflexivity).
  assert (W' : Z.odd w' = true) by (unfold w'; rewrite Z.odd_add, Z.odd_mul, O'; reflexivity).
  destruct (odd_inverse w 128 W) as (v & q & V). change (2 ^ Z.of_nat 128) with two128 in V.
  assert (VO : Z.odd v = true).
  { assert (Z.odd (v * w) = true) as K by (rewrite V, Z.odd_add, Z.odd_mul; cbn; rewrite Bool.andb_false_r; reflexivity).
    rewrite Z.odd_mul in K. apply Bool.andb_true_iff in K. apply K. }
  destruct (affine_identity (w' * v) (y - w' * v * x)) as [Al Be].
  - rewrite Z.odd_mul, W', VO. reflexivity.
  - intros z. destruct (geom_reach (v * (z - x))) as (n & B & [k G]). specialize (S' n B). rewrite !lcg_closed in S'.
    fold w w' in S'. replace (geom A n) with (v * (z - x) + k * two128) in S' by lia.
    replace (x + (v * (z - x) + k * two128) * w) with (z + (q * (z - x) + k * w) * two128) in S'.
    2:{ replace (x + (v * (z - x) + k * two128) * w) with (x + (v * w) * (z - x) + k * w * two128) by ring. rewrite V. ring. }
    replace (y + (v * (z - x) + k * two128) * w') with (w' * v * z + (y - w' * v * x) + (k * w') * two128) in S' by ring.
    rewrite !Z_mod_plus_full in S'. exact S'.
  - assert (Wc : congr w' w).
    { destruct Al as [k Hk]. exists (k * w - w' * q). 
      replace (w' - w) with (w' * (v * w) - w - w' * q * two128) by (rewrite V; ring). replace (w' * (v * w)) with ((w' * v) * w) by ring.
      replace (w' * v) with (1 + k * two128) by lia. ring. }
    assert (Xc : congr y x).
    { destruct Al as [k Hk]. destruct Be as [l Hl]. exists (l + k * x). replace y with (w' * v * x + l * two128) by lia.
      replace (w' * v) with (1 + k * two128) by lia. ring. }
    assert (Cc : congr c' c).
    { destruct Wc as [k Hk]. destruct Xc as [l Hl]. exists (k - (A - 1) * l). unfold w, w' in Hk.
      replace (c' - c) with (((A - 1) * y + c' - ((A - 1) * x + c)) - (A - 1) * (y - x)) by ring. rewrite Hk, Hl. ring. }
    assert (E1 : c' = c) by (apply congr_small; assumption). subst c'.
    assert (E2 : y0 = x0).
    { apply congr_small; [|assumption|assumption]. destruct (odd_inverse A 128 A_odd) as (i & j & I).
      change (2 ^ Z.of_nat 128) with two128 in I. destruct Xc as [l Hl]. unfold x, y in Hl. exists (i * l - j * (y0 - x0)).
      replace ((i * l - j * (y0 - x0)) * two128) with (i * (l * two128) - j * two128 * (y0 - x0)) by ring. rewrite <- Hl.
      replace (i * (A * y0 + c - (A * x0 + c))) with ((i * A) * (y0 - x0)) by ring. rewrite I. ring. }
    subst y0. reflexivity.
Qed.

(** * Seeds and streams *)
Lemma increment_small s : 0 <= s < 2 ^ 64 -> increment s = 2 * s + 1.
Proof.
  intros H. unfold increment. rewrite Z.shiftl_mul_pow2 by lia. change (2 ^ 1) with 2.
  rewrite Z.mod_small by (unfold two128; lia).
  replace (s * 2) with (Z.double s) by (rewrite Z.double_spec; lia). destruct s as [|p|p]; [reflexivity|reflexivity|lia].
Qed.
Lemma seed_pcg_inj s t s' t' : 0 <= s < 2 ^ 64 -> 0 <= t < 2 ^ 64 -> 0 <= s' < 2 ^ 64 -> 0 <= t' < 2 ^ 64 ->
  seed_pcg s t = seed_pcg s' t' -> s = s' /\ t = t'.
Proof.
  intros Hs Ht Hs' Ht' E. unfold seed_pcg in E. apply (f_equal pcg_state) in E as E1. apply (f_equal pcg_inc) in E. cbn [pcg_state pcg_inc] in *.
  rewrite !increment_small in E by assumption. assert (t = t') by lia. subst t'. split; [|reflexivity].
  rewrite !increment_small in E1 by assumption. unfold bump in E1.
  rewrite (Z.mod_small (s + _)), (Z.mod_small (s' + _)) in E1 by (unfold two128; lia).
  apply congr_mod in E1. destruct (odd_inverse A 128 A_odd) as (i & j & I). change (2 ^ Z.of_nat 128) with two128 in I.
  destruct E1 as [l Hl]. apply congr_small; [|unfold two128; lia|unfold two128; lia]. exists (i * l - j * (s - s')).
  replace ((i * l - j * (s - s')) * two128) with (i * (l * two128) - j * two128 * (s - s')) by ring. rewrite <- Hl.
  replace (i * ((s + (2 * t + 1)) * A + (2 * t + 1) - ((s' + (2 * t + 1)) * A + (2 * t + 1)))) with ((i * A) * (s - s')) by ring.
  rewrite I. ring.
Qed.

(** * Telling generators apart *)
Lemma search (P : nat -> Prop) (dec : forall n, {P n} + {~ P n}) N : (forall n, (n < N)%nat -> P n) \/ exists n, (n < N)%nat /\ ~ P n.
Proof.
  induction N as [|N [IH|(n & H & K)]]; [left; lia| |right; exists n; split; [lia|exact K]].
  destruct (dec N) as [Y|Y]; [left|right; exists N; split; [lia|exact Y]].
  intros n H. destruct (Nat.eq_dec n N) as [-> | ]; [exact Y|apply IH; lia].
Qed.
Lemma told_apart r r' : random_ok r -> random_ok r' -> rnd_engine r <> rnd_engine r' ->
  exists n, Z.of_nat n < two128 /\ value_at r n <> value_at r' n.
Proof.
  intros H H' N. destruct (search (fun n => value_at r n = value_at r' n) (fun n => Z.eq_dec _ _) (Z.to_nat two128)) as [E|(n & B & K)].
  - exfalso. apply N, same_values; [exact H|exact H'|]. intros n B. apply E. apply Nat2Z.inj_lt. rewrite Z2Nat.id by discriminate. exact B.
  - exists n. split; [|exact K]. apply Nat2Z.inj_lt in B. rewrite Z2Nat.id in B by discriminate. exact B.
Qed.
Lemma distinct_streams s t s' t' : 0 <= s < 2 ^ 64 -> 0 <= t < 2 ^ 64 -> 0 <= s' < 2 ^ 64 -> 0 <= t' < 2 ^ 64 ->
  (s, t) <> (s', t') -> exists n, Z.of_nat n < two128 /\ value_at (random_of s t) n <> value_at (random_of s' t') n.
Proof.
  intros Hs Ht Hs' Ht' N. apply told_apart; [apply random_of_ok|apply random_of_ok|].
  intros E. apply N. destruct (seed_pcg_inj s t s' t' Hs Ht Hs' Ht' E) as [-> ->]. reflexivity.
Qed.
(** * Period *)
Lemma after_add m n r : random_after (m + n) r = random_after n (random_after m r).
Proof. revert r. induction m as [|m IH]; intros r; [reflexivity|]. cbn [random_after Nat.add]. apply IH. Qed.
Lemma value_after m n r : value_at (random_after m r) n = value_at r (m + n).
Proof. unfold value_at. rewrite after_add. reflexivity. Qed.
Lemma engine_returns r n : random_ok r -> rnd_engine (random_after n r) = rnd_engine r <-> (two128 | Z.of_nat n).
Proof.
  intros H. pose proof H as (X & C & O). rewrite <- (geom_divisible A A4 128 n : (two128 | geom A n) <-> _).
  set (w := (A - 1) * pcg_state (rnd_engine r) + pcg_inc (rnd_engine r)).
  assert (W : Z.odd w = true) by (unfold w; rewrite Z.odd_add, Z.odd_mul, O; reflexivity).
  destruct (odd_inverse w 128 W) as (v & q & V). change (2 ^ Z.of_nat 128) with two128 in V.
  pose proof (after_state n r H) as S. rewrite lcg_closed in S. fold w in S. pose proof (after_inc n r) as I.
  split.
  - intros E. rewrite E in S. assert (K : congr (pcg_state (rnd_engine r) + geom A n * w) (pcg_state (rnd_engine r))).
    { apply congr_mod. rewrite <- S. symmetry. apply Z.mod_small. exact X. }
    destruct K as [k K]. exists (v * k - geom A n * q). 
    assert (K' : geom A n * w = k * two128) by lia.
    replace ((v * k - geom A n * q) * two128) with (v * (k * two128) - geom A n * q * two128) by ring. rewrite <- K'.
    replace (v * (geom A n * w)) with (geom A n * (v * w)) by ring. rewrite V. ring.
  - intros [k K]. rewrite K in S. replace (k * two128 * w) with ((k * w) * two128) in S by ring.
    rewrite Z_mod_plus_full, Z.mod_small in S by exact X.
    destruct (rnd_engine (random_after n r)) as [x1 c1], (rnd_engine r) as [x2 c2]. cbn [pcg_state pcg_inc] in *. congruence.
Qed.
Lemma values_period r n : random_ok r -> (forall i, value_at r (n + i) = value_at r i) <-> (two128 | Z.of_nat n).
Proof.
  intros H. rewrite <- (engine_returns r n H). split.
  - intros E. apply same_values; [apply after_ok; exact H|exact H|]. intros i _. rewrite value_after. apply E.
  - intros E i. rewrite <- value_after. revert E. generalize (random_after n r). intros r' E.
    assert (K : forall j r1 r2, rnd_engine r1 = rnd_engine r2 -> rnd_engine (random_after j r1) = rnd_engine (random_after j r2)).
    { intros j. induction j as [|j IH]; intros r1 r2 E'; [exact E'|]. cbn [random_after]. apply IH.
      unfold random_next. rewrite E'. reflexivity. }
    specialize (K i r' r E). unfold value_at, random_next. rewrite K. reflexivity.
Qed.

(** * Each value is drawn equally often *)
(** The state whose upper half is [hi] and whose output is [v]. *)
Definition rotl64 (v r : Z) : Z := rotr64 v ((- r) mod 64).
Definition state_for (v hi : Z) : Z := hi * 2 ^ 64 + Z.lxor hi (rotl64 v (hi / 2 ^ 58)).
Lemma rotr64_bits x r i : 0 <= x < 2 ^ 64 -> 0 <= r < 64 -> 0 <= i < 64 -> Z.testbit (rotr64 x r) i = Z.testbit x ((i + r) mod 64).
Proof.
  intros Hx Hr Hi. unfold rotr64. rewrite Z.lor_spec, Z.shiftr_spec, Z.mod_pow2_bits_low by lia.
  assert (T : forall j, 64 <= j -> Z.testbit x j = false).
  { intros j J. destruct (Z.eq_dec x 0) as [-> | N]; [apply Z.bits_0|]. apply Z.bits_above_log2; [lia|].
    apply Z.lt_le_trans with 64; [apply Z.log2_lt_pow2; lia|lia]. }
  destruct (Z.eq_dec r 0) as [-> | N].
  - change ((- 0) mod 64) with 0. rewrite Z.shiftl_0_r, !Z.add_0_r, (Z.mod_small i) by lia. apply Bool.orb_diag.
  - replace ((- r) mod 64) with (64 - r) by (rewrite Z_mod_nz_opp_full, (Z.mod_small r 64) by (rewrite ?Z.mod_small; lia); reflexivity).
    rewrite Z.shiftl_spec by lia. destruct (Z_lt_dec (i + r) 64).
    + rewrite (Z.mod_small (i + r)) by lia. rewrite (Z.testbit_neg_r x (i - (64 - r))) by lia. apply Bool.orb_false_r.
    + rewrite (T (i + r)) by lia. cbn [orb]. f_equal.
      apply Z.mod_unique with (q := 1); lia.
Qed.
Lemma rotr64_range x r : 0 <= x < 2 ^ 64 -> 0 <= r < 64 -> 0 <= rotr64 x r < 2 ^ 64.
Proof.
  intros Hx Hr. unfold rotr64. rewrite Z.shiftr_div_pow2 by lia.
  assert (P : 0 < 2 ^ r) by (apply Z.pow_pos_nonneg; lia).
  assert (B1 : 0 <= x / 2 ^ r < 2 ^ 64).
  { split; [apply Z.div_pos; lia|]. apply Z.le_lt_trans with x; [|lia]. apply Z.div_le_upper_bound; [lia|]. nia. }
  set (y := Z.shiftl x ((- r) mod 64) mod 2 ^ 64). assert (B2 : 0 <= y < 2 ^ 64) by (apply Z.mod_pos_bound; lia).
  split; [apply Z.lor_nonneg; lia|]. destruct (Z.eq_dec (Z.lor (x / 2 ^ r) y) 0) as [-> | N]; [lia|].
  assert (0 <= Z.lor (x / 2 ^ r) y) by (apply Z.lor_nonneg; lia).
  apply Z.log2_lt_pow2; [lia|]. rewrite Z.log2_lor by lia. apply Z.max_lub_lt.
  - destruct (Z.eq_dec (x / 2 ^ r) 0) as [-> | ]; [cbn; lia|]. apply Z.log2_lt_pow2; lia.
  - destruct (Z.eq_dec y 0) as [-> | ]; [cbn; lia|]. apply Z.log2_lt_pow2; lia.
Qed.
Lemma bits64 x y : 0 <= x < 2 ^ 64 -> 0 <= y < 2 ^ 64 -> (forall i, 0 <= i < 64 -> Z.testbit x i = Z.testbit y i) -> x = y.
Proof.
  intros Hx Hy H. apply Z.bits_inj'. intros n Hn. destruct (Z_lt_dec n 64); [apply H; lia|].
  assert (T : forall z, 0 <= z < 2 ^ 64 -> Z.testbit z n = false).
  { intros z Hz. destruct (Z.eq_dec z 0) as [-> | N]; [apply Z.bits_0|]. apply Z.bits_above_log2; [lia|].
    apply Z.lt_le_trans with 64; [apply Z.log2_lt_pow2; lia|lia]. }
  rewrite !T by assumption. reflexivity.
Qed.
Lemma rot_inverse x r : 0 <= x < 2 ^ 64 -> 0 <= r < 64 -> rotr64 (rotl64 x r) r = x /\ rotl64 (rotr64 x r) r = x.
Proof.
  intros Hx Hr. unfold rotl64. assert (R : 0 <= (- r) mod 64 < 64) by (apply Z.mod_pos_bound; lia).
  split; (apply bits64; [apply rotr64_range; [apply rotr64_range; assumption|assumption]|exact Hx|]); intros i Hi.
  - rewrite rotr64_bits; [|apply rotr64_range; assumption|assumption|assumption].
    rewrite rotr64_bits by (try assumption; apply Z.mod_pos_bound; lia). f_equal.
    rewrite <- Z.add_mod by lia. replace (i + r + - r) with i by ring. apply Z.mod_small. exact Hi.
  - rewrite rotr64_bits; [|apply rotr64_range; assumption|assumption|assumption].
    rewrite rotr64_bits by (try assumption; apply Z.mod_pos_bound; lia). f_equal.
    rewrite Z.add_mod_idemp_r, Z.add_mod_idemp_l by lia. replace (i + - r + r) with i by ring. apply Z.mod_small. exact Hi.
Qed.
Lemma split_state z : 0 <= z < two128 -> exists hi lo, z = hi * 2 ^ 64 + lo /\ 0 <= hi < 2 ^ 64 /\ 0 <= lo < 2 ^ 64 /\
  xsl_rr z = rotr64 (Z.lxor hi lo) (hi / 2 ^ 58) /\ 0 <= hi / 2 ^ 58 < 64.
Proof.
  intros Hz. exists (z / 2 ^ 64), (z mod 2 ^ 64). pose proof (Z.div_mod z (2 ^ 64) ltac:(lia)).
  assert (B : 0 <= z / 2 ^ 64 < 2 ^ 64).
  { split; [apply Z.div_pos; lia|]. apply Z.div_lt_upper_bound; [lia|]. change (2 ^ 64 * 2 ^ 64) with two128. lia. }
  split; [lia|]. split; [exact B|]. split; [apply Z.mod_pos_bound; lia|]. split.
  - unfold xsl_rr. rewrite !Z.shiftr_div_pow2 by lia. f_equal. rewrite Z.div_div by lia. reflexivity.
  - split; [apply Z.div_pos; lia|]. apply Z.div_lt_upper_bound; [lia|]. change (2 ^ 58 * 64) with (2 ^ 64). lia.
Qed.
Lemma state_for_spec v : 0 <= v < 2 ^ 64 -> forall z, 0 <= z < two128 ->
  xsl_rr z = v <-> exists hi, 0 <= hi < 2 ^ 64 /\ z = state_for v hi.
Proof.
  intros Hv z Hz. destruct (split_state z Hz) as (hi & lo & E & Hh & Hl & X & Hr). rewrite X.
  assert (LX : 0 <= Z.lxor hi lo < 2 ^ 64) by (apply lxor_bound; assumption).
  split.
  - intros <-. exists hi. split; [exact Hh|]. unfold state_for. rewrite (proj2 (rot_inverse _ _ LX Hr)).
    rewrite <- Z.lxor_assoc, Z.lxor_nilpotent, Z.lxor_0_l. exact E.
  - intros (hi' & Hh' & E'). unfold state_for in E'. set (l := Z.lxor hi' (rotl64 v (hi' / 2 ^ 58))) in E'.
    assert (R : 0 <= hi' / 2 ^ 58 < 64).
    { split; [apply Z.div_pos; lia|]. apply Z.div_lt_upper_bound; [lia|]. change (2 ^ 58 * 64) with (2 ^ 64). lia. }
    assert (L : 0 <= l < 2 ^ 64).
    { apply lxor_bound; [lia|]. apply rotr64_range; [lia|]. apply Z.mod_pos_bound. lia. }
    assert (hi = hi') by lia. subst hi'. assert (lo = l) by lia. subst lo. unfold l.
    rewrite <- Z.lxor_assoc, Z.lxor_nilpotent, Z.lxor_0_l. apply rot_inverse; assumption.
Qed.
Lemma state_for_inj v hi hi' : 0 <= v < 2 ^ 64 -> 0 <= hi < 2 ^ 64 -> 0 <= hi' < 2 ^ 64 -> state_for v hi = state_for v hi' -> hi = hi'.
Proof.
  intros Hv H H' E. unfold state_for in E.
  assert (R : forall h, 0 <= h < 2 ^ 64 -> 0 <= Z.lxor h (rotl64 v (h / 2 ^ 58)) < 2 ^ 64).
  { intros h Hh. apply lxor_bound; [lia|]. apply rotr64_range; [lia|]. apply Z.mod_pos_bound. lia. }
  pose proof (R hi H). pose proof (R hi' H'). lia.
Qed.
Lemma state_for_range v hi : 0 <= v < 2 ^ 64 -> 0 <= hi < 2 ^ 64 -> 0 <= state_for v hi < two128.
Proof.
  intros Hv H. unfold state_for.
  assert (0 <= Z.lxor hi (rotl64 v (hi / 2 ^ 58)) < 2 ^ 64).
  { apply lxor_bound; [lia|]. apply rotr64_range; [lia|]. apply Z.mod_pos_bound. lia. }
  unfold two128. lia.
Qed.

(** The state that call number [n] outputs. *)
Definition drawn (r : Random pcg64) (n : nat) : Z := pcg_state (rnd_engine (random_after (S n) r)).
Lemma drawn_value r n : random_ok r -> value_at r n = xsl_rr (drawn r n).
Proof. intros H. rewrite value_state by exact H. unfold drawn. rewrite after_state, lcg_first by exact H. reflexivity. Qed.
Lemma drawn_range r n : random_ok r -> 0 <= drawn r n < two128.
Proof. intros H. apply (after_ok (S n) r H). Qed.
Lemma drawn_reached r z : random_ok r -> 0 <= z < two128 -> exists n, Z.of_nat n < two128 /\ drawn r n = z.
Proof.
  intros H Hz. destruct (state_reached r z H) as (n & B & K). exists n. split; [exact B|].
  unfold drawn. rewrite after_state, lcg_first by exact H. apply congr_mod in K. rewrite K. apply Z.mod_small. exact Hz.
Qed.
Lemma drawn_once r m n : random_ok r -> Z.of_nat m < two128 -> Z.of_nat n < two128 -> drawn r m = drawn r n -> m = n.
Proof.
  intros H. assert (W : forall m n, (m <= n)%nat -> Z.of_nat n < two128 -> drawn r m = drawn r n -> m = n).
  { intros i j L B E. unfold drawn in E. 
    replace (S j) with (S i + (j - i))%nat in E by lia. rewrite after_add in E.
    assert (K : rnd_engine (random_after (j - i) (random_after (S i) r)) = rnd_engine (random_after (S i) r)).
    { pose proof (after_inc (j - i) (random_after (S i) r)) as I.
      destruct (rnd_engine (random_after (j - i) (random_after (S i) r))) as [x1 c1], (rnd_engine (random_after (S i) r)) as [x2 c2].
      cbn [pcg_state pcg_inc] in *. congruence. }
    apply engine_returns in K; [|apply after_ok; exact H]. destruct K as [q K].
    assert (q = 0) by (unfold two128 in *; nia). lia. }
  intros Bm Bn E. destruct (Nat.le_ge_cases m n) as [L|L]; [apply W; assumption|]. symmetry. apply W; [exact L|exact Bm|symmetry; exact E].
Qed.
Lemma choose_list {X Y : Type} (P : X -> Y -> Prop) l : (forall x, In x l -> exists y, P x y) -> exists l', Forall2 P l l'.
Proof.
  induction l as [|x l IH]; intros H; [exists []; constructor|].
  destruct (H x (or_introl eq_refl)) as [y K]. destruct IH as [l' L]; [intros z I; apply H; right; exact I|].
  exists (y :: l'). constructor; assumption.
Qed.
Definition below (N : Z) : list Z := map Z.of_nat (seq 0 (Z.to_nat N)).
Lemma below_spec N z : 0 <= N -> In z (below N) <-> 0 <= z < N.
Proof.
  intros HN. unfold below. rewrite in_map_iff. split.
  - intros (n & <- & H). apply in_seq in H. lia.
  - intros H. exists (Z.to_nat z). split; [lia|]. apply in_seq. lia.
Qed.
Lemma below_nodup N : List.NoDup (below N).
Proof. unfold below. apply FinFun.Injective_map_NoDup; [intros a b; lia|apply seq_NoDup]. Qed.
Lemma below_length N : 0 <= N -> Z.of_nat (length (below N)) = N.
Proof. intros H. unfold below. rewrite map_length, seq_length. lia. Qed.
Lemma Forall2_in {X Y : Type} (P : X -> Y -> Prop) l l' y : Forall2 P l l' -> In y l' -> exists x, In x l /\ P x y.
Proof.
  induction 1 as [|x z l l' H F IH]; intros K; [destruct K|]. destruct K as [-> | K]; [exists x; split; [left; reflexivity|exact H]|].
  destruct (IH K) as (x' & X' & P'). exists x'. split; [right; exact X'|exact P'].
Qed.
Lemma Forall2_in_l {X Y : Type} (P : X -> Y -> Prop) l l' x : Forall2 P l l' -> In x l -> exists y, In y l' /\ P x y.
Proof.
  induction 1 as [|z y l l' H F IH]; intros K; [destruct K|]. destruct K as [-> | K]; [exists y; split; [left; reflexivity|exact H]|].
  destruct (IH K) as (x' & X' & P'). exists x'. split; [right; exact X'|exact P'].
Qed.
Lemma forall2_nodup {X Y : Type} (P : X -> Y -> Prop) l l' : Forall2 P l l' -> List.NoDup l ->
  (forall x x' y, In x l -> In x' l -> P x y -> P x' y -> x = x') -> List.NoDup l'.
Proof.
  induction 1 as [|x y l l' H F IH]; intros N I; [constructor|]. apply NoDup_cons_iff in N. destruct N as [N1 N2]. constructor.
  - intros K. apply N1. destruct (Forall2_in _ _ _ _ F K) as (x' & X' & P'). 
    rewrite (I x x' y); [exact X'|left; reflexivity|right; exact X'|exact H|exact P'].
  - apply IH; [exact N2|]. intros a b c Ha Hb. apply I; right; assumption.
Qed.

(** [N] stands for 2^64, kept from being computed in unary. *)
Lemma equally_often_N N r v : N = 2 ^ 64 -> 0 <= N -> random_ok r -> 0 <= v < 2 ^ 64 ->
  exists l : list nat, List.NoDup l /\ Z.of_nat (length l) = N /\
    forall n, In n l <-> Z.of_nat n < two128 /\ value_at r n = v.
Proof.
  intros EN PN H Hv.
  destruct (choose_list (fun hi n => Z.of_nat n < two128 /\ drawn r n = state_for v hi) (below N)) as [l F].
  { intros hi Hh. apply below_spec in Hh; [|exact PN]. apply drawn_reached; [exact H|]. apply state_for_range; [exact Hv|]. rewrite <- EN. exact Hh. }
  exists l. split.
  { apply (forall2_nodup _ _ _ F (below_nodup _)). intros x x' n X X' [_ E] [_ E'].
    apply (proj1 (below_spec N x PN)) in X. apply (proj1 (below_spec N x' PN)) in X'. rewrite EN in X, X'.
    apply (state_for_inj v); [exact Hv|exact X|exact X'|congruence]. }
  split.
  { rewrite <- (below_length N PN) at 1. f_equal. symmetry. revert F. generalize (below N). intros l0 F.
    clear -F. induction F; cbn [length]; congruence. }
  intros n. split.
  - intros I. destruct (Forall2_in _ _ _ _ F I) as (hi & Hh & B & E). apply (proj1 (below_spec N hi PN)) in Hh. split; [exact B|].
    rewrite drawn_value by exact H. apply state_for_spec; [exact Hv|apply drawn_range; exact H|]. exists hi.
    rewrite EN in Hh. split; [exact Hh|exact E].
  - intros [B E]. rewrite drawn_value in E by exact H. apply (state_for_spec v Hv) in E; [|apply drawn_range; exact H].
    destruct E as (hi & Hh & E). destruct (Forall2_in_l _ _ _ hi F) as (n' & I & B' & E'); [apply (below_spec N hi PN); rewrite EN; exact Hh|].
    rewrite (drawn_once r n n' H B B'); [exact I|congruence].
Qed.
Lemma equally_often r v : random_ok r -> 0 <= v < 2 ^ 64 ->
  exists l : list nat, List.NoDup l /\ Z.of_nat (length l) = 2 ^ 64 /\
    forall n, In n l <-> Z.of_nat n < two128 /\ value_at r n = v.
Proof. exact (equally_often_N (2 ^ 64) r v eq_refl ltac:(discriminate)). Qed.
Lemma value_range r n : random_ok r -> 0 <= value_at r n < 2 ^ 64.
Proof.
  intros H. rewrite drawn_value by exact H. destruct (split_state _ (drawn_range r n H)) as (hi & lo & _ & Hh & Hl & -> & Hr).
  apply rotr64_range; [apply lxor_bound; assumption|exact Hr].
Qed.
