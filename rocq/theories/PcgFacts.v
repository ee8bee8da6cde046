(** Arithmetic of the pcg64 engine. *)
From Verif Require Import Base Run Pcg.
From Coq Require Import Znumtheory ZArith.
Local Open Scope Z_scope.

(** * Odd numbers are invertible modulo powers of two *)
Lemma odd_inverse w k : Z.odd w = true -> exists v q, v * w = 1 + q * 2 ^ Z.of_nat k.
Proof.
  intros O. induction k as [|k (v & q & IH)]; [exists 1, (w - 1); cbn; lia|].
  rewrite Z.odd_spec in O. destruct O as [h ->]. destruct (Z.odd q) eqn:Q.
  - rewrite Z.odd_spec in Q. destruct Q as [r ->]. exists (v + 2 ^ Z.of_nat k), (r + h + 1).
    rewrite Nat2Z.inj_succ, Z.pow_succ_r, Z.mul_add_distr_r, IH by lia. ring.
  - rewrite <- Z.negb_even in Q. apply Bool.negb_false_iff in Q. rewrite Z.even_spec in Q. destruct Q as [r ->].
    exists v, r. rewrite IH, Nat2Z.inj_succ, Z.pow_succ_r by lia. ring.
Qed.

(** * The linear congruential step *)
Section Lcg.
Variable a : Z.
Hypothesis a4 : a mod 4 = 1.

Fixpoint geom (n : nat) : Z := match n with O => 0 | S n => a * geom n + 1 end.
Fixpoint apow (n : nat) : Z := match n with O => 1 | S n => a * apow n end.
Lemma apow_odd n : apow n mod 4 = 1.
Proof using a4.
  induction n; [reflexivity|]. cbn [apow]. rewrite Z.mul_mod, a4, IHn by lia. reflexivity.
Qed.
Lemma geom_add m n : geom (m + n) = geom n + apow n * geom m.
Proof. induction n; [rewrite Nat.add_0_r; cbn; lia|]. rewrite Nat.add_succ_r. cbn [geom apow]. rewrite IHn. ring. Qed.
Lemma apow_add m n : apow (m + n) = apow m * apow n.
Proof. induction m; cbn [apow Nat.add]; [lia|]. rewrite IHm. ring. Qed.
(** The sum of 2^k powers is an odd multiple of 2^k. *)
Lemma geom_pow2 k : exists q, geom (2 ^ k) = 2 ^ Z.of_nat k * (2 * q + 1).
Proof using a4.
  induction k as [|k [q IH]].
  - exists 0. cbn. lia.
  - assert (E : (2 ^ S k = 2 ^ k + 2 ^ k)%nat) by (cbn; lia). rewrite E, geom_add, IH.
    pose proof (apow_odd (2 ^ k)) as A. pose proof (Z.div_mod (apow (2 ^ k)) 4 ltac:(lia)) as D. rewrite A in D.
    set (r := apow (2 ^ k) / 4) in *. rewrite D. exists (2 * q * r + q + r).
    rewrite Nat2Z.inj_succ, Z.pow_succ_r by lia. ring.
Qed.
(** Every residue is reached. *)
Lemma geom_onto k z : exists n, Z.of_nat n < 2 ^ Z.of_nat k /\ (2 ^ Z.of_nat k | geom n - z).
Proof using a4.
  induction k as [|k (n & B & [r Hr])].
  - exists O. split; [cbn; lia|]. exists (- z). cbn. lia.
  - destruct (Z.odd r) eqn:O.
    + exists (2 ^ k + n)%nat. split.
      { rewrite Nat2Z.inj_succ, Z.pow_succ_r, Nat2Z.inj_add, Nat2Z.inj_pow by lia. change (Z.of_nat 2) with 2. lia. } rewrite geom_add. destruct (geom_pow2 k) as [q Hq]. rewrite Hq.
      pose proof (apow_odd n) as A. pose proof (Z.div_mod (apow n) 4 ltac:(lia)) as D. rewrite A in D.
      rewrite Z.odd_spec in O. destruct O as [s ->]. set (t := apow n / 4) in *.
      exists (s + 1 + q + 2 * t * (2 * q + 1)). rewrite Nat2Z.inj_succ, Z.pow_succ_r by lia.
      replace (geom n + apow n * (2 ^ Z.of_nat k * (2 * q + 1)) - z)
        with ((geom n - z) + apow n * (2 ^ Z.of_nat k * (2 * q + 1))) by ring. rewrite Hr, D. ring.
    + exists n. split; [rewrite Nat2Z.inj_succ, Z.pow_succ_r by lia; lia|].
      rewrite <- Z.negb_even in O. apply Bool.negb_false_iff in O. rewrite Z.even_spec in O. destruct O as [s ->].
      exists s. rewrite Hr, Nat2Z.inj_succ, Z.pow_succ_r by lia. ring.
Qed.

(** How divisible by two a sum of powers is. *)
Lemma geom_parity n : Z.odd (geom n) = Nat.odd n.
Proof using a4.
  assert (O : Z.odd a = true).
  { rewrite (Z.div_mod a 4), a4, Z.odd_add, Z.odd_mul by lia. reflexivity. }
  induction n; [reflexivity|]. cbn [geom]. rewrite Z.odd_add, Z.odd_mul, O, IHn, Nat.odd_succ, <- Nat.negb_odd.
  destruct (Nat.odd n); reflexivity.
Qed.
Lemma geom_divisible k n : (2 ^ Z.of_nat k | geom n) <-> (2 ^ Z.of_nat k | Z.of_nat n).
Proof using a4.
  revert n. induction k as [|k IH]; intros n; [split; intros _; apply Z.divide_1_l|].
  rewrite Nat2Z.inj_succ, Z.pow_succ_r by lia.
  destruct (Nat.odd n) eqn:O.
  - split; intros [q Q]; exfalso.
    + pose proof (geom_parity n) as G. rewrite Q, O in G. rewrite Z.odd_mul, Z.odd_mul in G. cbn in G. rewrite Bool.andb_false_r in G. discriminate.
    + apply Nat.odd_spec in O. destruct O as [m ->]. lia.
  - rewrite <- Nat.negb_even in O. apply Bool.negb_false_iff, Nat.even_spec in O. destruct O as [m ->].
    assert (E : geom (2 * m) = 2 * (geom m * (2 * (apow m / 4) + 1))).
    { replace (2 * m)%nat with (m + m)%nat by lia. rewrite geom_add. pose proof (apow_odd m) as A.
      pose proof (Z.div_mod (apow m) 4 ltac:(lia)) as D. rewrite A in D. rewrite D at 1. ring. }
    rewrite E, Nat2Z.inj_mul. change (Z.of_nat 2) with 2. rewrite !Z.mul_divide_cancel_l by lia. rewrite <- IH.
    split; [|intros H; apply Z.divide_mul_l; exact H]. intros H. rewrite Z.mul_comm in H. apply Z.gauss in H; [exact H|].
    clear. set (o := 2 * (apow m / 4) + 1).
    assert (OO : Z.odd o = true) by (unfold o; rewrite Z.add_comm, Z.odd_add_mul_2; reflexivity).
    destruct (odd_inverse o k OO) as (v & q & V). apply Z.bezout_1_gcd. exists (- q), v. lia.
Qed.

(** [n] steps from [x]. *)
Fixpoint lcg (c : Z) (n : nat) (x : Z) : Z := match n with O => x | S n => a * lcg c n x + c end.
Lemma lcg_closed c n x : lcg c n x = x + geom n * ((a - 1) * x + c).
Proof. induction n; cbn [lcg geom]; [lia|]. rewrite IHn. ring. Qed.
End Lcg.

(** * Output *)
Lemma rotr64_zero x r : 0 <= x < 2 ^ 64 -> 0 <= r < 64 -> rotr64 x r = 0 -> x = 0.
Proof.
  intros Hx Hr H. unfold rotr64 in H. apply Z.lor_eq_0_iff in H. destruct H as [H1 H2].
  rewrite Z.shiftr_div_pow2 in H1 by lia. rewrite Z.shiftl_mul_pow2 in H2 by (apply Z.mod_pos_bound; lia).
  destruct (Z.eq_dec r 0) as [-> | N]; [rewrite Z.div_1_r in H1; exact H1|].
  assert (P : 0 < 2 ^ r) by (apply Z.pow_pos_nonneg; lia).
  pose proof (Z.div_mod x (2 ^ r) ltac:(lia)) as D. pose proof (Z.mod_pos_bound x (2 ^ r) P) as B. rewrite H1 in D.
  replace ((- r) mod 64) with (64 - r) in H2 by (rewrite Z_mod_nz_opp_full, (Z.mod_small r 64) by (rewrite ?Z.mod_small; lia); reflexivity).
  assert (S : 2 ^ r * 2 ^ (64 - r) = 2 ^ 64) by (rewrite <- Z.pow_add_r by lia; f_equal; lia).
  assert (P' : 0 < 2 ^ (64 - r)) by (apply Z.pow_pos_nonneg; lia).
  rewrite Z.mod_small in H2 by nia. nia.
Qed.
(** A state by its parts: the six top bits, the rest of the upper half, the lower half. *)
Definition parts (t m lo : Z) : Z := (t * 2 ^ 58 + m) * 2 ^ 64 + lo.
Lemma xsl_rr_parts t m lo : 0 <= t < 64 -> 0 <= m < 2 ^ 58 -> 0 <= lo < 2 ^ 64 ->
  xsl_rr (parts t m lo) = rotr64 (Z.lxor (t * 2 ^ 58 + m) lo) t.
Proof.
  intros Ht Hm Hl. unfold xsl_rr, parts. rewrite !Z.shiftr_div_pow2 by lia.
  rewrite Z.div_add_l, (Z.div_small lo) by lia. rewrite Z.add_0_r.
  assert (E : ((t * 2 ^ 58 + m) * 2 ^ 64 + lo) mod 2 ^ 64 = lo) by (rewrite Z.add_comm, Z_mod_plus_full, Z.mod_small by lia; reflexivity).
  rewrite E. f_equal.
  symmetry. apply Z.div_unique with (r := m * 2 ^ 64 + lo); [lia|]. change (2 ^ 122) with (2 ^ 58 * 2 ^ 64). ring.
Qed.
Lemma parts_exist z : 0 <= z < two128 -> exists t m lo, z = parts t m lo /\ 0 <= t < 64 /\ 0 <= m < 2 ^ 58 /\ 0 <= lo < 2 ^ 64.
Proof.
  intros Hz. exists (z / 2 ^ 122), (z / 2 ^ 64 mod 2 ^ 58), (z mod 2 ^ 64). unfold parts.
  assert (E : z / 2 ^ 122 = z / 2 ^ 64 / 2 ^ 58) by (rewrite Z.div_div by lia; reflexivity).
  pose proof (Z.div_mod z (2 ^ 64) ltac:(lia)). pose proof (Z.div_mod (z / 2 ^ 64) (2 ^ 58) ltac:(lia)).
  split; [rewrite E; lia|]. split; [|split; apply Z.mod_pos_bound; lia].
  split; [apply Z.div_pos; lia|]. apply Z.div_lt_upper_bound; [lia|]. change (2 ^ 122 * 64) with two128. lia.
Qed.
Lemma xor_top t t' m : 0 <= t < 64 -> 0 <= t' < 64 -> 0 <= m < 2 ^ 58 ->
  Z.lxor (t * 2 ^ 58 + m) (t' * 2 ^ 58 + m) = Z.lxor t t' * 2 ^ 58.
Proof.
  intros Ht Ht' Hm.
  assert (S : forall u, 0 <= u -> u * 2 ^ 58 + m = Z.lxor (Z.shiftl u 58) m).
  { intros u Hu. rewrite Z.shiftl_mul_pow2 by lia. rewrite <- Z.add_nocarry_lxor; [reflexivity|].
    apply Z.bits_inj'. intros n Hn. rewrite Z.land_spec, Z.bits_0. destruct (Z_lt_dec n 58).
    - rewrite Z.mul_pow2_bits_low by lia. reflexivity.
    - rewrite (Z.bits_above_log2 m n), Bool.andb_false_r; [reflexivity|lia|].
      destruct (Z.eq_dec m 0) as [-> | N]; [cbn; lia|]. apply Z.log2_lt_pow2; [lia|].
      apply Z.lt_le_trans with (2 ^ 58); [lia|]. apply Z.pow_le_mono_r; lia. }
  rewrite !S by lia. rewrite <- (Z.shiftl_mul_pow2 (Z.lxor t t')), Z.shiftl_lxor by lia.
  rewrite (Z.lxor_comm (Z.shiftl t' 58)), Z.lxor_assoc, <- (Z.lxor_assoc m m), Z.lxor_nilpotent, Z.lxor_0_l. reflexivity.
Qed.

Lemma mod_parts z : exists t m lo, z mod two128 = parts t m lo /\ 0 <= t < 64 /\ 0 <= m < 2 ^ 58 /\ 0 <= lo < 2 ^ 64.
Proof. apply parts_exist. apply Z.mod_pos_bound. reflexivity. Qed.

(** The pairs of top bits (before, after) compatible with one observed bit. *)
Definition top_pairs : list (Z * Z) :=
  List.filter (fun p => Z.odd (snd p - fst p) && (rotr64 (Z.lxor (snd p) (fst p) * 2 ^ 58) (snd p) =? 2 ^ 57))
    (list_prod (map Z.of_nat (seq 0 64)) (map Z.of_nat (seq 0 64))).
Lemma top_pairs_one : top_pairs = [(0, 1)].
Proof. vm_compute. reflexivity. Qed.
Lemma top_pair t t' : 0 <= t < 64 -> 0 <= t' < 64 -> Z.odd (t' - t) = true ->
  rotr64 (Z.lxor t' t * 2 ^ 58) t' = 2 ^ 57 -> t = 0 /\ t' = 1.
Proof.
  intros H H' O E. assert (I : In (t, t') top_pairs).
  { unfold top_pairs. apply filter_In. split.
    - apply in_prod; apply in_map_iff; [exists (Z.to_nat t)|exists (Z.to_nat t')]; (split; [lia|apply in_seq; lia]).
    - cbn [fst snd]. rewrite O, E. reflexivity. }
  rewrite top_pairs_one in I. destruct I as [[= <- <-]|[]]. auto.
Qed.

(** An affine map of the state space that no output reveals is the identity. *)
Section Affine.
Variables al be : Z.
Hypothesis al_odd : Z.odd al = true.
Hypothesis same : forall z, xsl_rr (z mod two128) = xsl_rr ((al * z + be) mod two128).
Let K := 2 ^ 64 + 1.

Lemma diag m : 0 <= m < 2 ^ 58 -> m * K = parts 0 m m.
Proof. intros. unfold K, parts. ring. Qed.
Lemma parts_range t m lo : 0 <= t < 64 -> 0 <= m < 2 ^ 58 -> 0 <= lo < 2 ^ 64 -> 0 <= parts t m lo < two128.
Proof. intros. unfold parts, two128. lia. Qed.
Lemma lxor_bound x y : 0 <= x < 2 ^ 64 -> 0 <= y < 2 ^ 64 -> 0 <= Z.lxor x y < 2 ^ 64.
Proof.
  intros Hx Hy. split; [apply Z.lxor_nonneg; lia|].
  destruct (Z.eq_dec (Z.lxor x y) 0) as [-> | N]; [lia|].
  assert (P : 0 <= Z.lxor x y) by (apply Z.lxor_nonneg; lia).
  apply Z.log2_lt_pow2; [lia|]. eapply Z.le_lt_trans; [apply Z.log2_lxor; lia|].
  apply Z.max_lub_lt.
  - destruct (Z.eq_dec x 0) as [-> | ]; [cbn; lia|]. apply Z.log2_lt_pow2; lia.
  - destruct (Z.eq_dec y 0) as [-> | ]; [cbn; lia|]. apply Z.log2_lt_pow2; lia.
Qed.
Lemma diag_image m : 0 <= m < 2 ^ 58 -> exists h, 0 <= h < 2 ^ 58 /\ (al * (m * K) + be) mod two128 = h * K /\ al mod 64 = 1.
Proof using al_odd same.
  intros Hm. destruct (mod_parts (al * (m * K) + be)) as (t & b & lo & E & Ht & Hb & Hl).
  assert (Z0 : xsl_rr (parts t b lo) = 0).
  { rewrite <- E, <- same, diag by lia. rewrite Z.mod_small by (apply parts_range; lia).
    rewrite xsl_rr_parts by lia. change (0 * 2 ^ 58 + m) with m. rewrite Z.lxor_nilpotent. reflexivity. }
  rewrite xsl_rr_parts in Z0 by lia.
  apply rotr64_zero in Z0; [|apply lxor_bound; lia|lia]. apply Z.lxor_eq in Z0. subst lo.
  (* the state with the six top bits increased by one *)
  set (t' := (t + al) mod 64). assert (Ht' : 0 <= t' < 64) by (apply Z.mod_pos_bound; lia).
  assert (E' : (al * (m * K + 2 ^ 122) + be) mod two128 = parts t' b (t * 2 ^ 58 + b)).
  { replace (al * (m * K + 2 ^ 122) + be) with ((al * (m * K) + be) + al * 2 ^ 122) by ring.
    rewrite <- Z.add_mod_idemp_l, E by (unfold two128; lia). unfold t'.
    pose proof (Z.div_mod (t + al) 64 ltac:(lia)) as D.
    symmetry. apply Z.mod_unique with (q := (t + al) / 64); [left; apply parts_range; lia|].
    unfold parts, two128 in *. change (2 ^ 122) with (2 ^ 58 * 2 ^ 64). change (2 ^ 128) with (64 * (2 ^ 58 * 2 ^ 64)).
    replace ((t * 2 ^ 58 + b) * 2 ^ 64 + (t * 2 ^ 58 + b) + al * (2 ^ 58 * 2 ^ 64))
      with ((t + al) * (2 ^ 58 * 2 ^ 64) + b * 2 ^ 64 + (t * 2 ^ 58 + b)) by ring.
    rewrite D at 1. ring. }
  assert (O : xsl_rr ((m * K + 2 ^ 122) mod two128) = 2 ^ 57).
  { replace (m * K + 2 ^ 122) with (parts 1 m m) by (unfold K, parts; change (2 ^ 122) with (2 ^ 58 * 2 ^ 64); ring).
    rewrite Z.mod_small by (apply parts_range; lia). rewrite xsl_rr_parts by lia.
    assert (X : Z.lxor (1 * 2 ^ 58 + m) m = 2 ^ 58).
    { replace m with (0 * 2 ^ 58 + m) at 2 by ring. rewrite xor_top by lia. reflexivity. }
    rewrite X. reflexivity. }
  rewrite same, E', xsl_rr_parts, xor_top in O by lia.
  assert (OD : Z.odd (t' - t) = true).
  { unfold t'. rewrite Z.mod_eq by lia. replace (t + al - 64 * ((t + al) / 64) - t) with (al + 2 * (-32 * ((t + al) / 64))) by ring.
    rewrite Z.odd_add_mul_2. exact al_odd. }
  destruct (top_pair t t' Ht Ht' OD O) as [-> T]. exists b. split; [lia|]. split; [rewrite E; unfold K, parts; ring|].
  exact T.
Qed.
Lemma affine_identity : (two128 | al - 1) /\ (two128 | be).
Proof using al_odd same.
  destruct (diag_image 0 ltac:(lia)) as (h0 & R0 & E0 & A). destruct (diag_image 1 ltac:(lia)) as (h1 & R1 & E1 & _).
  destruct (diag_image (2 ^ 58 - 1) ltac:(lia)) as (h2 & R2 & E2 & _).
  assert (P : 0 < two128) by reflexivity.
  assert (KO : Z.odd K = true) by reflexivity. destruct (odd_inverse K 128 KO) as (v & q & V). change (2 ^ Z.of_nat 128) with two128 in V.
  assert (CK : forall x, (two128 | x * K) -> (two128 | x)).
  { intros x [y Y]. exists (v * y - x * q). assert (v * (x * K) = x + x * q * two128) by (rewrite <- (Z.mul_1_r x) at 2; nia). nia. }
  assert (D : forall z h, z mod two128 = h -> (two128 | z - h)).
  { intros z h <-. exists (z / two128). rewrite Z.mod_eq by lia. ring. }
  apply D in E0, E1, E2.
  assert (B0 : (two128 | be - h0 * K)) by (replace (be - h0 * K) with (al * (0 * K) + be - h0 * K) by ring; exact E0).
  assert (A0 : (two128 | al - (h1 - h0))).
  { apply CK. replace ((al - (h1 - h0)) * K) with ((al * (1 * K) + be - h1 * K) - (be - h0 * K)) by ring.
    apply Z.divide_sub_r; assumption. }
  set (d := h1 - h0) in *.
  assert (A2 : (two128 | d * (2 ^ 58 - 1) + h0 - h2)).
  { apply CK. replace ((d * (2 ^ 58 - 1) + h0 - h2) * K)
      with ((al * ((2 ^ 58 - 1) * K) + be - h2 * K) - (be - h0 * K) - (al - d) * ((2 ^ 58 - 1) * K)) by ring.
    apply Z.divide_sub_r; [apply Z.divide_sub_r; assumption|apply Z.divide_mul_l; exact A0]. }
  assert (d * (2 ^ 58 - 1) + h0 = h2).
  { destruct A2 as [w W]. assert (- two128 < d * (2 ^ 58 - 1) + h0 - h2 < two128) by (unfold two128 in *; unfold d; nia).
    assert (w = 0) by nia. subst w. lia. }
  assert (d = 1 \/ d = 0 \/ d = -1) by nia.
  assert (d mod 64 = 1).
  { destruct A0 as [w W]. replace d with (al + (- w * 2 ^ 122) * 64) by (replace al with (d + w * two128) by lia; unfold two128; change (2 ^ 128) with (2 ^ 122 * 64); ring).
    rewrite Z_mod_plus_full. exact A. }
  assert (d = 1) as D1 by (destruct H0 as [ -> | [ -> | -> ]]; [reflexivity|discriminate|discriminate]).
  rewrite D1 in A0. split; [exact A0|]. assert (h0 = 0) by nia. subst h0.
  replace be with (be - 0 * K) by ring. exact B0.
Qed.
End Affine.
