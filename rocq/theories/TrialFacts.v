(** Trial values and entropy seeds. *)
From Coq Require Import QArith_base.
From Verif Require Import Base Tracker Geom Run Pcg PcgFacts PcgProps Manifold Draw DrawFacts DrawProps Metropolis Mp Action Acceptance.
From Coq Require Import ZArith Reals Lra Psatz QArith.Qreals.
Local Open Scope Z_scope.

Lemma trial_word g : random_ok g -> generate_probability g = (Fin (Q64 (value_at g 0)), random_after 1 g).
Proof.
  intros H. unfold generate_probability, generate_canonical. rewrite next_value. pose proof (value_bound g 0 H) as V.
  replace (Qle_bool 1 (Q64 (value_at g 0))) with false; [reflexivity|]. symmetry. apply Bool.not_true_is_false. intros E.
  apply Qle_bool_iff in E. unfold Qle, Q64 in E. cbn [Qnum Qden] in E. change (Z.pos (2 ^ 64)) with two64 in E. lia.
Qed.
Lemma trial_range w : 0 <= w < two64 -> (0 <= Q64 w)%Q /\ (Q64 w < 1)%Q.
Proof. intros H. unfold Qle, Qlt, Q64. cbn [Qnum Qden]. change (Z.pos (2 ^ 64)) with two64. lia. Qed.
Lemma trial_valid w : 0 <= w < two64 -> trial_invalid (Fin (Q64 w)) = false.
Proof.
  intros H. destruct (trial_range w H) as [A B]. unfold trial_invalid. cbn [isfinite negb orb fp_lt].
  rewrite (proj2 (Qle_bool_iff (Qmake 0 1) (Q64 w)) A). rewrite (proj2 (Qle_bool_iff (Q64 w) (Qmake 1 1)) (Qlt_le_weak _ _ B)). reflexivity.
Qed.
Lemma trial_even g w : random_ok g -> 0 <= w < two64 ->
  calls_exactly (2 ^ 64) (fun i => generate_probability (random_after i g) = (Fin (Q64 w), random_after (S i) g)).
Proof.
  intros Hg Hw. destruct (equally_often g w Hg Hw) as (calls & N & L & E). exists calls. split; [exact N|]. split; [exact L|].
  intros i. rewrite E, trial_word by (apply after_ok; exact Hg). rewrite value_add, Nat.add_0_r, <- after_add, Nat.add_1_r.
  rewrite pair_equal_spec. unfold Q64. split; intros [A B]; (split; [exact A|]).
  - rewrite B. split; reflexivity.
  - destruct B as [B _]. injection B as B. exact B.
Qed.

(** * How often a trial is at most a given probability *)
Local Open Scope R_scope.
Lemma Q2R_Q64 w : Q2R (Q64 w) = IZR w / 2 ^ 64.
Proof. unfold Q2R, Q64. cbn [Qnum Qden]. change (Z.pos (2 ^ 64)) with (2 ^ 64)%Z. rewrite (pow_IZR 2 64). reflexivity. Qed.
Lemma accepted_word x w : mp_at_least (PNum x) (Fin (Q64 w)) = true <-> IZR w <= x * 2 ^ 64.
Proof.
  cbn [mp_at_least]. rewrite Rleb_spec, Q2R_Q64. assert (P : 0 < 2 ^ 64) by (apply pow_lt; lra). split; intros H.
  - apply (Rmult_le_compat_r (2 ^ 64)) in H; [|lra]. unfold Rdiv in H. rewrite Rmult_assoc, Rinv_l, Rmult_1_r in H by lra. exact H.
  - apply (Rmult_le_reg_r (2 ^ 64)); [exact P|]. unfold Rdiv. rewrite Rmult_assoc, Rinv_l, Rmult_1_r by lra. exact H.
Qed.
Lemma accepted_words x : 0 <= x <= 1 -> exists k, (0 <= k <= two64)%Z /\
  x * 2 ^ 64 <= IZR k <= x * 2 ^ 64 + 1 /\
  forall w, (0 <= w < two64)%Z -> mp_at_least (PNum x) (Fin (Q64 w)) = true <-> (w < k)%Z.
Proof.
  intros X. assert (L : IZR two64 = 2 ^ 64) by (rewrite (pow_IZR 2 64); reflexivity).
  set (y := x * 2 ^ 64). assert (Y : 0 <= y <= 2 ^ 64).
  { unfold y. assert (P : 0 < 2 ^ 64) by (apply pow_lt; lra). split; [apply Rmult_le_pos; lra|]. rewrite <- (Rmult_1_l (2 ^ 64)) at 2. apply Rmult_le_compat_r; lra. }
  pose proof (archimed y) as [U1 U2].
  assert (UP : forall w, IZR w <= y <-> (w < up y)%Z).
  { intros w. split; intros H.
    - apply lt_IZR. lra.
    - assert (w + 1 <= up y)%Z as K by lia. apply IZR_le in K. rewrite plus_IZR in K. lra. }
  assert (U0 : (0 < up y)%Z) by (apply UP; lra).
  destruct (Z_le_gt_dec (up y) two64) as [S|B].
  - exists (up y). split; [lia|]. split; [split; lra|]. intros w _. rewrite accepted_word. fold y. apply UP.
  - exists two64. split; [change two64 with (2 ^ 64)%Z; lia|]. split; [rewrite L; split; [apply Y|]|].
    + assert (two64 < up y)%Z as K by lia. apply UP in K. rewrite L in K. lra.
    + intros w Hw. rewrite accepted_word. fold y. rewrite UP. lia.
Qed.
Lemma accept_rate g x : random_ok g -> 0 <= x <= 1 -> exists count,
  calls_exactly count (fun i => mp_at_least (PNum x) (fst (generate_probability (random_after i g))) = true) /\
  x <= IZR count / 2 ^ 128 <= x + 1 / 2 ^ 64 /\ IZR count / 2 ^ 128 <= 1.
Proof.
  intros Hg X. destruct (accepted_words x X) as (k & K1 & K2 & K3).
  assert (EA : exists words, List.NoDup words /\ Z.of_nat (length words) = k /\ forall w, In w words <-> (0 <= w < k)%Z).
  { exists (interval 0 k). split; [apply interval_nodup|]. split; [apply interval_length; lia|]. intros w. rewrite interval_in by lia. lia. }
  destruct EA as (words & N & L & E).
  destruct (calls_of_words g words Hg N) as (calls & C1 & C2 & C3).
  { intros w Hw. apply E in Hw. lia. }
  exists (2 ^ 64 * k)%Z. split; [|].
  - exists calls. split; [exact C1|]. split; [rewrite C2, L; reflexivity|]. intros i. rewrite C3, E.
    rewrite trial_word by (apply after_ok; exact Hg). cbn [fst]. rewrite value_add, Nat.add_0_r.
    pose proof (value_bound g i Hg) as V. rewrite K3 by exact V. intuition lia.
  - assert (P : 0 < 2 ^ 64) by (apply pow_lt; lra). assert (L2 : IZR two64 = 2 ^ 64) by (rewrite (pow_IZR 2 64); reflexivity).
    assert (Q : IZR (2 ^ 64 * k) / 2 ^ 128 = IZR k / 2 ^ 64).
    { rewrite mult_IZR. change (IZR (2 ^ 64)) with (IZR two64). rewrite L2. change 128%nat with (64 + 64)%nat. rewrite pow_add. field. }
    assert (KL : IZR k <= 2 ^ 64) by (rewrite <- L2; apply IZR_le; lia).
    rewrite Q. unfold Rdiv. assert (I : 0 < / 2 ^ 64) by (apply Rinv_0_lt_compat; exact P). set (c := 2 ^ 64) in *. set (d := / c) in *.
    assert (CD : c * d = 1) by (unfold d; apply Rinv_r; lra). nra.
Qed.
Local Open Scope Z_scope.

(** * Seeds from the operating system *)
Lemma entropy_words {D} (device : D -> Z * D) d : (forall d, 0 <= fst (device d) < 2 ^ 32) ->
  entropy_seed device d = Some (2 ^ 32 * fst (device d) + fst (device (snd (device d))), snd (device (snd (device d)))).
Proof.
  intros B. unfold entropy_seed.
  assert (E : upscale_again device d = inr (2 ^ 32 * fst (device d) + fst (device (snd (device d))), snd (device (snd (device d))))).
  { unfold upscale_again. pose proof (B d) as B1. destruct (device d) as [hi d1]. cbn [fst snd] in *. pose proof (B d1) as B2.
    destruct (device d1) as [lo d2]. cbn [fst snd] in *. unfold two64. rewrite (Z.mod_small (2 ^ 32 * hi)) by lia. rewrite Z.mod_small by lia.
    rewrite (proj2 (Z.ltb_ge _ _)) by lia. rewrite (proj2 (Z.ltb_ge _ _)) by lia. reflexivity. }
  rewrite (proj2 (loop_goes (upscale_again device) 128) O d d _ (goes_O _ d) E) by reflexivity. reflexivity.
Qed.
