(** Correct rounding to nearest even at 256 bits (include/Settings.hpp:44
    PRECISION; MPFR_RNDN), with unbounded exponents, satisfies the contract
    [rounding] of Mp.v: the contract is not vacuous and covers the real thing
    away from MPFR's exponent limits. *)
From Verif Require Import Base Mp.
From Coq Require Import Reals Lra.
From Flocq Require Import Core.
Local Open Scope R_scope.

Definition mpfr256 (x : R) : mp := PNum (Generic_fmt.round radix2 (FLX_exp 256) ZnearestE x).

Lemma bpow_powerRZ e : bpow radix2 e = powerRZ 2 e.
Proof. rewrite bpow_powerRZ. reflexivity. Qed.

Lemma mpfr256_pow2 e : mpfr256 (powerRZ 2 e) = PNum (powerRZ 2 e).
Proof.
  unfold mpfr256. f_equal. rewrite <- bpow_powerRZ. apply round_generic; [typeclasses eauto|].
  apply generic_format_bpow. unfold FLX_exp. lia.
Qed.

Lemma mpfr256_rounding : rounding mpfr256.
Proof.
  split.
  - intros x y H. cbn. apply round_le; [apply FLX_exp_valid; reflexivity|typeclasses eauto|exact H].
  - intros e _. apply mpfr256_pow2.
  - intros e _. unfold mpfr256. rewrite round_NE_opp. f_equal. f_equal.
    pose proof (mpfr256_pow2 e) as H. unfold mpfr256 in H. congruence.
  - intros n Hn. unfold mpfr256. f_equal. apply round_generic; [typeclasses eauto|].
    apply generic_format_FLX. exists (Float radix2 n 0); cbn; [unfold F2R; cbn; ring|].
    apply Z.le_lt_trans with (2 ^ 62)%Z; [exact Hn|reflexivity].
Qed.
