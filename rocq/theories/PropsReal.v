(** C96: random real numbers. *)
From Coq Require Import Reals Lra QArith QArith.Qreals QArith.Qabs.
From Flocq Require Import Core.
From Verif Require Import Base Config Run Pcg PcgFacts PcgProps Draw DrawFacts DrawProps Ieee DrawReal DrawRealSpec DrawRealFacts.
Local Open Scope Z_scope.

(** The values of the types: those of IEEE binary32 and binary64 and of the x87 format. *)
Theorem C96_types : forall q,
  (of_type Float32 q <-> (Qabs q < inject_Z (2 ^ 128))%Q /\
     exists m e, Z.abs m < 2 ^ 24 /\ -149 <= e /\ (q == Q_of m e)%Q) /\
  (of_type Float64 q <-> (Qabs q < inject_Z (2 ^ 1024))%Q /\
     exists m e, Z.abs m < 2 ^ 53 /\ -1074 <= e /\ (q == Q_of m e)%Q) /\
  (of_type Float80 q <-> (Qabs q < inject_Z (2 ^ 16384))%Q /\
     exists m e, Z.abs m < 2 ^ 64 /\ -16445 <= e /\ (q == Q_of m e)%Q).
Proof. intros q. split; [|split]; reflexivity. Qed.
Print Assumptions C96_types.

(** One word is used, and the value is of the type and between the two ends, both
    included. *)
Theorem C96_range : forall t low high, real_range t low high ->
  forall g, random_ok g -> exists r, generate_random_real t g low high = Drawn (Fin r) (random_after 1 g) /\
    of_type t r /\ (low <= r <= high)%Q.
Proof.
  intros t low high H g Hg. rewrite (call_result t low high H g Hg).
  destruct (result_spec t low high H _ (value_bound g 0 Hg)) as (r & -> & R & T & _). exists r. split; [reflexivity|]. split; [exact T|].
  destruct R. split; apply Rle_Qle; assumption.
Qed.
Print Assumptions C96_range.

(** The values are spread evenly: of the 2^128 calls of a cycle, the share with a value
    at most x is (x - low) / (high - low), up to the rounding of the three operations
    relative to the width of the range and to one word in 2^64. *)
Theorem C96_spread : forall t low high, real_range t low high -> (low < high)%Q ->
  forall g x bound, random_ok g -> (Q2R low <= x <= Q2R high)%R -> (Rabs (Q2R low) <= bound)%R -> (Rabs (Q2R high) <= bound)%R ->
  exists count,
    calls_exactly count (fun i => exists r,
      generate_random_real t (random_after i g) low high = Drawn (Fin r) (random_after (S i) g) /\ (Q2R r <= x)%R) /\
    (Rabs (IZR count / 2 ^ 128 - (x - Q2R low) / (Q2R high - Q2R low))
      <= (8 * powerRZ 2 (- digits t) * bound + 2 * powerRZ 2 (3 - max_exponent t - digits t)) / (Q2R high - Q2R low) + 1 / 2 ^ 64)%R.
Proof.
  intros t low high H L g x bound Hg X A B. pose proof (spread t low high H g x bound Hg L X A B) as S. rewrite !bpow_powerRZ in S. exact S.
Qed.
Print Assumptions C96_spread.

(** The upper end is not returned if low <= 0, the difference is a value of the type,
    and the upper end is above the least normal value. *)
Theorem C96_below : forall t low high, real_range t low high -> (low <= 0)%Q -> of_type t (high - low) ->
  (powerRZ 2 (2 - max_exponent t) < Q2R high)%R ->
  forall g r g', random_ok g -> generate_random_real t g low high = Drawn (Fin r) g' -> (low <= r < high)%Q.
Proof.
  intros t low high H L T N g r g' Hg E. rewrite (call_result t low high H g Hg) in E.
  destruct (result_spec t low high H _ (value_bound g 0 Hg)) as (q & Eq & R & _ & _ & K). rewrite Eq in E. injection E as -> _.
  split; [apply Rle_Qle; apply R|]. apply Rlt_Qlt. apply K; [|exact T|].
  - apply Qle_Rle in L. change (Q2R 0) with (0 * / 1)%R in L. lra.
  - change 2%R with (IZR radix2) in N. rewrite <- bpow_powerRZ in N.
    replace (emin (digits t) (max_exponent t) + digits t - 1) with (2 - max_exponent t) by (unfold emin; ring). exact N.
Qed.
Print Assumptions C96_below.

(** The documented exclusive upper bound does not hold in general: in each type, every
    generator has a call of [generate_random_real(generator, 1, 2)] in its cycle that
    returns 2. *)
Theorem C96_exclusive_refuted : forall t g, random_ok g -> exists i r, Z.of_nat i < 2 ^ 128 /\
  generate_random_real t (random_after i g) 1 2 = Drawn (Fin r) (random_after (S i) g) /\ (r == 2)%Q.
Proof. exact end_calls. Qed.
Print Assumptions C96_exclusive_refuted.

(** A range whose ends are in the wrong order, or whose width is not finite, is outside
    the domain. *)
Theorem C96_domain : forall t low high g,
  ((high < low)%Q -> generate_random_real t g low high = OutOfDomain) /\
  ((low <= high)%Q -> random_ok g -> (inject_Z (2 ^ max_exponent t) <= high - low)%Q -> generate_random_real t g low high = OutOfDomain).
Proof. exact real_domain. Qed.
Print Assumptions C96_domain.

(** The trial values of C85 are such calls. *)
Theorem C96_trial : forall g, random_ok g -> exists q v,
  generate_random_real Float80 g 0 1 = Drawn (Fin q) (random_after 1 g) /\
  generate_probability g = (Fin v, random_after 1 g) /\ (q == v)%Q.
Proof. intros g Hg. destruct (trial_real g Hg) as (q & A & v & B & C). exists q, v. split; [exact A|]. split; [exact B|exact C]. Qed.
Print Assumptions C96_trial.

(** The range of the tests, [-2.5, 4.5], and a generator. *)
Example C96_example : real_range Float80 (-5 # 2) (9 # 2) /\ of_type Float80 ((9 # 2) - (-5 # 2)) /\
  (powerRZ 2 (2 - max_exponent Float80) < Q2R (9 # 2))%R /\ random_ok (random_of 42 54) /\ real_range Float64 1 2.
Proof. exact real_example. Qed.
