(** Theorems about the acceptance rule and the bulk action
    (C18, C19, C20, C36, C37, C38). [round] ranges over every function
    satisfying the contract [rounding] (monotone, exact on small integers and
    on powers of two); [PNum] is exact real arithmetic. *)
From Verif Require Import Base Tracker Geom Metropolis Mp Action Acceptance MpFlocq HastingsError.
From Coq Require Import Reals Lra QArith.Qreals.
Local Open Scope R_scope.

(** ** C18 *)
Theorem C18_exact : forall p g g' m r, valid_parameters p -> reverse_move m = Some r ->
  (0 < proposal_site_count g m)%Z -> (0 < proposal_site_count g' r)%Z ->
  exists a, acceptance_probability PNum p g g' m = inl (PNum a) /\
    a = Rmin 1 (IZR (proposal_site_count g m) / IZR (proposal_site_count g' r)
                * exp (params_action p g - params_action p g')) /\ 0 < a <= 1.
Proof. exact acceptance_exact_range. Qed.
Print Assumptions C18_exact.

Theorem C18_any_rounding : forall round p g g' m r, rounding round -> valid_parameters p -> params_in_range p ->
  counts_in_range g -> counts_in_range g' -> reverse_move m = Some r ->
  (0 < proposal_site_count g m)%Z -> (0 < proposal_site_count g' r)%Z ->
  exists a, acceptance_probability round p g g' m = inl (PNum a) /\ 0 <= a <= 1 /\
    forall q, mp_at_least (PNum a) (Fin q) = true <-> Q2R q <= a.
Proof. exact zero_trial_accepted. Qed.
Print Assumptions C18_any_rounding.

Theorem C18_zero_trial : forall a, 0 <= a -> mp_at_least (PNum a) (Fin (QArith_base.Qmake 0 1)) = true.
Proof. exact zero_accepts. Qed.
Print Assumptions C18_zero_trial.

Theorem C18_positive : forall round, rounding round -> forall p g g' m r a d,
  valid_parameters p -> params_in_range p ->
  counts_in_range g -> counts_in_range g' -> reverse_move m = Some r ->
  (0 < proposal_site_count g m)%Z -> (0 < proposal_site_count g' r)%Z ->
  subtract round (s3_bulk_action round (gN1_TL g) (gN3_31_13 g) (gN3_22 g) p)
                 (s3_bulk_action round (gN1_TL g') (gN3_31_13 g') (gN3_22 g') p) = PNum d ->
  -20000 <= d ->
  acceptance_probability round p g g' m = inl (PNum a) -> 0 < a.
Proof. exact acceptance_positive. Qed.
Print Assumptions C18_positive.

(** Concrete parameters and geometries meeting the hypotheses: a (2,3) move
    ([example_params], [example_before], [example_after] in HastingsError.v). *)
Example C18_example :
  (exists a k l, make_physical_parameters a k l = inl example_params) /\
  reverse_move TWO_THREE = Some THREE_TWO /\
  (0 < proposal_site_count example_before TWO_THREE)%Z /\
  (0 < proposal_site_count example_after THREE_TWO)%Z /\
  counts_in_range example_before /\ counts_in_range example_after /\ params_in_range example_params /\
  rounding mpfr256.
Proof. exact example_parameters. Qed.

(** ** C19 *)
Theorem C19_exact : forall g g' m r, reverse_move m = Some r ->
  (0 < proposal_site_count g m)%Z -> (0 < proposal_site_count g' r)%Z ->
  exists h, hastings_ratio PNum g g' m = inl (PNum h) /\ hastings_ratio PNum g' g r = inl (PNum (/ h)) /\
    h = IZR (proposal_site_count g m) / IZR (proposal_site_count g' r) /\ 0 < h.
Proof. exact hastings_reciprocal. Qed.
Print Assumptions C19_exact.

Theorem C19_refusal : forall round, rounding round -> forall g g' m r, counts_in_range g -> counts_in_range g' ->
  reverse_move m = Some r ->
  (hastings_ratio round g g' m = inr LogicError <->
     (proposal_site_count g m <= 0)%Z \/ (proposal_site_count g' r <= 0)%Z) /\
  ((0 < proposal_site_count g m)%Z -> (0 < proposal_site_count g' r)%Z ->
     exists h, hastings_ratio round g g' m = inl (PNum h) /\ powerRZ 2 (-34) <= h <= powerRZ 2 34).
Proof. exact hastings_refusal. Qed.
Print Assumptions C19_refusal.

(** With correct rounding to 256 bits the computed ratio is the exact one up to
    a relative error of 2^-254. *)
Theorem C19_mpfr_error : forall g g' m r, counts_in_range g -> counts_in_range g' ->
  reverse_move m = Some r ->
  (0 < proposal_site_count g m)%Z -> (0 < proposal_site_count g' r)%Z ->
  exists h e, hastings_ratio mpfr256 g g' m = inl (PNum h) /\
    h = IZR (proposal_site_count g m) / IZR (proposal_site_count g' r) * (1 + e) /\
    Rabs e <= powerRZ 2 (-254).
Proof. exact hastings_ratio_error. Qed.
Print Assumptions C19_mpfr_error.
(** Which raw sites belong to which move. *)
Theorem C19_sites : forall g,
  proposal_site_count g TWO_THREE = gN3_22 g /\ proposal_site_count g THREE_TWO = gN1_TL g /\
  proposal_site_count g TWO_SIX = gN3_13 g /\ proposal_site_count g SIX_TWO = gN0 g /\
  proposal_site_count g FOUR_FOUR = gN1_SL g /\
  reverse_move TWO_THREE = Some THREE_TWO /\ reverse_move THREE_TWO = Some TWO_THREE /\
  reverse_move TWO_SIX = Some SIX_TWO /\ reverse_move SIX_TWO = Some TWO_SIX /\
  reverse_move FOUR_FOUR = Some FOUR_FOUR.
Proof. exact site_table. Qed.
Print Assumptions C19_sites.
Example C19_example : hastings_ratio PNum example_before example_after TWO_THREE = inl (PNum (10 / 30)).
Proof. exact example_hastings. Qed.

(** ** C20 *)
Theorem C20_detailed_balance : forall p g g' m r, valid_parameters p -> reverse_move m = Some r ->
  (0 < proposal_site_count g m)%Z -> (0 < proposal_site_count g' r)%Z ->
  exists a a',
    acceptance_probability PNum p g g' m = inl (PNum a) /\
    acceptance_probability PNum p g' g r = inl (PNum a') /\
    exp (- params_action p g) * (1 / (5 * IZR (proposal_site_count g m))) * a
      = exp (- params_action p g') * (1 / (5 * IZR (proposal_site_count g' r))) * a'.
Proof. exact detailed_balance. Qed.
Print Assumptions C20_detailed_balance.

(** ** C36 *)
Theorem C36_closed_form : forall n1 n31 n22 alpha k lambda, 1 / 2 < alpha ->
  s3_bulk_action_real PNum n1 n31 n22 alpha k lambda =
  PNum (2 * PI * k * sqrt alpha * IZR n1
    + IZR n31 * (- 3 * k * arcsinh (1 / (sqrt 3 * sqrt (4 * alpha + 1)))
                 - 3 * k * sqrt alpha * acos ((2 * alpha + 1) / (4 * alpha + 1))
                 - lambda / 12 * sqrt (3 * alpha + 1))
    + IZR n22 * (2 * k * arcsinh (2 * sqrt 2 * sqrt (2 * alpha + 1) / (4 * alpha + 1))
                 - 4 * k * sqrt alpha * acos (- 1 / (4 * alpha + 1))
                 - lambda / 12 * sqrt (4 * alpha + 2))).
Proof. exact s3_bulk_action_exact. Qed.
Print Assumptions C36_closed_form.

Theorem C36_finite_with_rounding : forall round, rounding round -> forall n1 n31 n22 alpha k lambda,
  (Z.abs n1 <= 2 ^ 31)%Z -> (Z.abs n31 <= 2 ^ 31)%Z -> (Z.abs n22 <= 2 ^ 31)%Z ->
  1 / 2 < alpha -> ld_range alpha -> ld_range k -> ld_range lambda ->
  exists s, s3_bulk_action_real round n1 n31 n22 alpha k lambda = PNum s /\ Rabs s <= powerRZ 2 50000.
Proof. exact s3_bulk_action_rounded. Qed.
Print Assumptions C36_finite_with_rounding.

Theorem C36_alpha_one : forall n1 n31 n22 k lambda,
  s3_bulk_action_alpha_one PNum n1 n31 n22 k lambda
    = PNum (2 * PI * k * IZR n1 + IZR n31 * (- 3.548 * k - 0.167 * lambda)
            + IZR n22 * (- 5.355 * k - 0.204 * lambda)).
Proof. exact s3_bulk_action_alpha_one_exact. Qed.
Print Assumptions C36_alpha_one.

Theorem C36_alpha_minus_one : forall n1 n31 n22 k lambda,
  s3_bulk_action_alpha_minus_one PNum n1 n31 n22 k lambda
    = PNum (- 2 * PI * k * IZR n1 + IZR n31 * (2.673 * k + 0.118 * lambda)
            + IZR n22 * (7.386 * k + 0.118 * lambda)).
Proof. exact s3_bulk_action_alpha_minus_one_exact. Qed.
Print Assumptions C36_alpha_minus_one.
Example C36_example : 1 / 2 < 3 / 5 /\ ld_range (3 / 5) /\ ld_range 1 /\ ld_range (1 / 10).
Proof. exact example_ranges. Qed.

(** ** C37: the action change depends on the move kind and couplings only *)
Theorem C37_state_independent : forall p m g g' h h',
  count_delta m g g' -> count_delta m h h' ->
  params_action p g' - params_action p g = params_action p h' - params_action p h.
Proof. exact action_change_state_independent. Qed.
Print Assumptions C37_state_independent.

Theorem C37_values : forall p m g g', count_delta m g g' ->
  let a := Q2R (pp_alpha p) in let k := Q2R (pp_k p) in let l := Q2R (pp_lambda p) in
  params_action p g' - params_action p g =
    (if (m =? TWO_THREE)%Z then 2 * PI * k * sqrt a + action_22 a k l
     else if (m =? THREE_TWO)%Z then - (2 * PI * k * sqrt a + action_22 a k l)
     else if (m =? TWO_SIX)%Z then 4 * PI * k * sqrt a + 4 * action_31 a k l
     else if (m =? SIX_TWO)%Z then - (4 * PI * k * sqrt a + 4 * action_31 a k l)
     else 0).
Proof. exact action_change_values. Qed.
Print Assumptions C37_values.

Theorem C37_four_four_always_accepted : forall round p g g' q, rounding round ->
  valid_parameters p -> params_in_range p ->
  counts_in_range g -> counts_in_range g' -> (0 < gN1_SL g)%Z -> gN1_SL g' = gN1_SL g ->
  count_delta FOUR_FOUR g g' -> trial_invalid (Fin q) = false ->
  exists a, acceptance_probability round p g g' FOUR_FOUR = inl a /\ mp_at_least a (Fin q) = true.
Proof. exact four_four_accepted. Qed.
Print Assumptions C37_four_four_always_accepted.
Example C37_example : count_delta TWO_THREE example_before example_after /\
  count_delta FOUR_FOUR example_before example_before.
Proof. repeat split. Qed.

(** ** C38 *)
Theorem C38_parameters : forall a k l,
  (forall p, make_physical_parameters a k l = inl p <->
     exists qa qk ql, a = Fin qa /\ k = Fin qk /\ l = Fin ql /\
       QArith_base.Qlt (QArith_base.Qmake 1 2) qa /\ p = mkParams qa qk ql) /\
  (make_physical_parameters a k l = inr InvalidArgument <->
     isfinite a = false \/ isfinite k = false \/ isfinite l = false) /\
  (make_physical_parameters a k l = inr DomainError <->
     exists qa qk ql, a = Fin qa /\ k = Fin qk /\ l = Fin ql /\ QArith_base.Qle qa (QArith_base.Qmake 1 2)) /\
  (forall e, make_physical_parameters a k l = inr e -> e = InvalidArgument \/ e = DomainError).
Proof. exact parameters_accepted. Qed.
Print Assumptions C38_parameters.
Example C38_example :
  make_physical_parameters NaN (Fin (QArith_base.Qmake 1 1)) (Fin (QArith_base.Qmake 1 1)) = inr InvalidArgument /\
  make_physical_parameters (Fin (QArith_base.Qmake 1 2)) (Fin (QArith_base.Qmake 1 1)) (Fin (QArith_base.Qmake 1 1)) = inr DomainError /\
  make_physical_parameters (Fin (QArith_base.Qmake 3 5)) (Fin (QArith_base.Qmake 1 1)) (Fin (QArith_base.Qmake 1 10)) = inl example_params.
Proof. repeat split. Qed.
