(** How far the computed Hastings ratio is from the exact one: relative error
    at most 2^-254 with correct rounding to 256 bits. *)
From Verif Require Import Base Tracker Geom Metropolis Mp Action Acceptance MpFlocq.
From Coq Require Import Reals Lra Psatz QArith.Qreals.
From Flocq Require Import Core Relative.
Local Open Scope R_scope.

Local Notation u := (powerRZ 2 (-256)).

Lemma mpfr256_relative x : exists e, Rabs e <= u /\ mpfr256 x = PNum (x * (1 + e)).
Proof.
  destruct (relative_error_N_FLX_ex radix2 256 ltac:(reflexivity) (fun n => negb (Z.even n)) x) as (e & He & E).
  exists e. split.
  - eapply Rle_trans; [exact He|]. change (/2 * bpow radix2 (- 256 + 1) <= u).
    rewrite MpFlocq.bpow_powerRZ. change (-256 + 1)%Z with (1 + -256)%Z. rewrite powerRZ_add by lra.
    rewrite powerRZ_1. lra.
  - unfold mpfr256. f_equal. exact E.
Qed.

Lemma u_small : 0 < u <= 1 / 1000.
Proof.
  split; [apply pow2_pos|]. apply Rle_trans with (powerRZ 2 (-10)); [apply pow2_le; lia|].
  change (powerRZ 2 (-10)) with (/ (2 ^ 10)). lra.
Qed.

Lemma quotient_error a b c v : 0 < v <= 1 / 1000 -> Rabs a <= v -> Rabs b <= v -> Rabs c <= v ->
  Rabs ((1 + a) / (1 + b) * (1 + c) - 1) <= 4 * v.
Proof.
  intros Hv Ha Hb Hc. apply Rabs_le_iff in Ha, Hb, Hc.
  assert (E : (1 + a) / (1 + b) * (1 + c) - 1 = (a + c + a * c - b) / (1 + b)) by (field; lra).
  rewrite E. apply Rabs_le. assert (P : 0 < / (1 + b)) by (apply Rinv_0_lt_compat; lra).
  unfold Rdiv. split.
  - apply Rmult_le_reg_r with (1 + b); [lra|]. rewrite Rmult_assoc, Rinv_l by lra. nra.
  - apply Rmult_le_reg_r with (1 + b); [lra|]. rewrite Rmult_assoc, Rinv_l by lra. nra.
Qed.

Lemma hastings_ratio_error g g' m r : counts_in_range g -> counts_in_range g' ->
  reverse_move m = Some r ->
  (0 < proposal_site_count g m)%Z -> (0 < proposal_site_count g' r)%Z ->
  exists h e, hastings_ratio mpfr256 g g' m = inl (PNum h) /\
    h = IZR (proposal_site_count g m) / IZR (proposal_site_count g' r) * (1 + e) /\
    Rabs e <= powerRZ 2 (-254).
Proof.
  intros Hg Hg' Hrev H H'. unfold hastings_ratio. rewrite Hrev.
  destruct (proposal_probability_rounded _ mpfr256_rounding g m Hg H) as (q & Eq & Bq & Rq).
  destruct (proposal_probability_rounded _ mpfr256_rounding g' r Hg' H') as (q' & Eq' & Bq' & Rq').
  rewrite Eq, Eq'. pose proof (pow2_pos (-34)) as P34. cbn [mp_is_zero].
  rewrite !(proj2 (Reqb_false _ 0)) by lra. cbn [orb].
  unfold divide. rewrite (proj2 (Reqb_false _ 0)) by lra.
  destruct (mpfr256_relative (1 / (5 * sites_R g m))) as (b & Hb & Eb).
  destruct (mpfr256_relative (1 / (5 * sites_R g' r))) as (a & Ha & Ea).
  destruct (mpfr256_relative (q' / q)) as (c & Hc & Ec).
  rewrite Rq in Eb. rewrite Rq' in Ea. injection Eb as Eb. injection Ea as Ea.
  assert (P1 : 0 < sites_R g m) by (apply IZR_lt; exact H).
  assert (P2 : 0 < sites_R g' r) by (apply IZR_lt; exact H').
  pose proof u_small as Hu.
  exists (q' / q * (1 + c)), ((1 + a) / (1 + b) * (1 + c) - 1).
  rewrite Ec. split; [reflexivity|]. split.
  - rewrite Ea, Eb. unfold sites_R in *. pose proof (Rabs_le_iff b _ Hb). field. lra.
  - eapply Rle_trans; [apply (quotient_error a b c u); assumption|].
    change (-254)%Z with (2 + -256)%Z. rewrite powerRZ_add by lra. rewrite powerRZ_2_2. lra.
Qed.

(** ** Example data used beside the theorems of PropsAcceptance.v *)
Definition example_params : PhysicalParameters :=
  mkParams (QArith_base.Qmake 3 5) (QArith_base.Qmake 1 1) (QArith_base.Qmake 1 10).
Definition example_before : Geometry := mkGeometry 20 6 4 10 10 43 46 29 17 20.
Definition example_after : Geometry := mkGeometry 21 6 4 10 11 45 47 30 17 20.
Lemma ld_range_small x : Rabs x <= 1 -> ld_range x.
Proof.
  intros H. unfold ld_range. eapply Rle_trans; [exact H|]. change 1 with (powerRZ 2 0). apply pow2_le. lia.
Qed.
Lemma example_parameters :
  (exists a k l, make_physical_parameters a k l = inl example_params) /\ reverse_move TWO_THREE = Some THREE_TWO /\ (0 < proposal_site_count example_before TWO_THREE)%Z /\ (0 < proposal_site_count example_after THREE_TWO)%Z /\ counts_in_range example_before /\ counts_in_range example_after /\ params_in_range example_params /\ rounding mpfr256.
Proof.
  split. { exists (Fin (QArith_base.Qmake 3 5)), (Fin (QArith_base.Qmake 1 1)), (Fin (QArith_base.Qmake 1 10)). reflexivity. }
  split; [reflexivity|]. split; [reflexivity|]. split; [reflexivity|].
  split; [unfold counts_in_range, in_int32, INT32_MIN, INT32_MAX; cbn; lia|].
  split; [unfold counts_in_range, in_int32, INT32_MIN, INT32_MAX; cbn; lia|].
  split; [|exact mpfr256_rounding].
  split; [|split]; apply ld_range_small; unfold Q2R, example_params; cbn; apply Rabs_le; lra.
Qed.
Lemma example_hastings : hastings_ratio PNum example_before example_after TWO_THREE = inl (PNum (10 / 30)).
Proof. exact (hastings_ratio_exact example_before example_after TWO_THREE THREE_TWO eq_refl eq_refl eq_refl). Qed.
Lemma example_ranges : 1 / 2 < 3 / 5 /\ ld_range (3 / 5) /\ ld_range 1 /\ ld_range (1 / 10).
Proof. split; [lra|]. split; [|split]; apply ld_range_small; apply Rabs_le; lra. Qed.
Lemma site_table : forall g,
  proposal_site_count g TWO_THREE = gN3_22 g /\ proposal_site_count g THREE_TWO = gN1_TL g /\
  proposal_site_count g TWO_SIX = gN3_13 g /\ proposal_site_count g SIX_TWO = gN0 g /\
  proposal_site_count g FOUR_FOUR = gN1_SL g /\
  reverse_move TWO_THREE = Some THREE_TWO /\ reverse_move THREE_TWO = Some TWO_THREE /\
  reverse_move TWO_SIX = Some SIX_TWO /\ reverse_move SIX_TWO = Some TWO_SIX /\
  reverse_move FOUR_FOUR = Some FOUR_FOUR.
Proof. intros g. repeat split. Qed.
