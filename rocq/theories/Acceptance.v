(** Model of the acceptance rule of include/Metropolis.hpp on MPFR values. *)
From Verif Require Import Base Tracker Geom Metropolis Mp Action.
From Coq Require Import Reals Lra Psatz QArith.Qreals.
Local Open Scope R_scope.
Local Notation bounded := Mp.bounded (only parsing).

Section Acceptance.
  Variable round : R -> mp.
  Local Notation from_integer := (from_integer round).
  Local Notation multiply := (multiply round).
  Local Notation divide := (divide round).

  (** include/Metropolis.hpp:348-359 [proposal_probability]. *)
  Definition proposal_probability (g : Geometry) (m : MoveType) : mp :=
    let sites := proposal_site_count g m in
    if (sites <=? 0)%Z then round 0
    else
      let move_count := from_integer NUMBER_OF_3D_MOVES in
      let site_count := from_integer sites in
      let denominator := multiply move_count site_count in
      divide (from_integer 1) denominator.

  (** include/Metropolis.hpp:371-389 [hastings_ratio]. *)
  Definition hastings_ratio (current proposed : Geometry) (m : MoveType) : mp + exn :=
    let forward := proposal_probability current m in
    match reverse_move m with
    | None => inr InvalidArgument
    | Some reverse_type =>
        let reverse := proposal_probability proposed reverse_type in
        if mp_is_zero forward || mp_is_zero reverse then inr LogicError
        else inl (divide reverse forward)
    end.

  (** include/Metropolis.hpp:397-408 [action_ratio]. *)
  Definition action_ratio (p : PhysicalParameters) (current proposed : Geometry) : mp :=
    let current_action := s3_bulk_action round (gN1_TL current) (gN3_31_13 current) (gN3_22 current) p in
    let proposed_action := s3_bulk_action round (gN1_TL proposed) (gN3_31_13 proposed) (gN3_22 proposed) p in
    exponential round (subtract round current_action proposed_action).

  (** include/Metropolis.hpp:416-426 [acceptance_probability]; evaluation order
      of the two factors is irrelevant: action_ratio does not throw. *)
  Definition acceptance_probability (p : PhysicalParameters) (current proposed : Geometry) (m : MoveType)
    : mp + exn :=
    match hastings_ratio current proposed m with
    | inr e => inr e
    | inl h =>
        let ratio := multiply h (action_ratio p current proposed) in
        let one := from_integer 1 in
        inl (if mp_lt ratio one then ratio else one)
    end.
End Acceptance.

(** include/Metropolis.hpp:522: [mpfr_cmp_ld(probability.fr(), trial) >= 0];
    a NaN operand compares as 0. *)
Definition mp_at_least (p : mp) (trial : fp) : bool :=
  match p, trial with
  | PNaN, _ | _, NaN => true
  | PInf s, Inf t => negb (s && negb t)
  | PInf s, Fin _ => negb s
  | PNum _, Inf t => t
  | PNum x, Fin q => Rleb (Q2R q) x
  end.

(** ** Exact arithmetic *)
Definition sites_R (g : Geometry) (m : MoveType) : R := IZR (proposal_site_count g m).
(** The documented target weight exp(-S) and proposal probability
    (docs/metropolis-hastings.md). *)
Definition bulk_action (alpha k lambda : R) (g : Geometry) : R :=
  action_formula (gN1_TL g) (gN3_31_13 g) (gN3_22 g) alpha k lambda.
Definition params_action (p : PhysicalParameters) (g : Geometry) : R :=
  bulk_action (Q2R (pp_alpha p)) (Q2R (pp_k p)) (Q2R (pp_lambda p)) g.
Definition documented_proposal (g : Geometry) (m : MoveType) : R := 1 / (5 * sites_R g m).

(** Parameters built by make_physical_parameters. *)
Definition valid_parameters (p : PhysicalParameters) : Prop :=
  exists a k l, make_physical_parameters a k l = inl p.

Lemma valid_parameters_alpha p : valid_parameters p -> 1 / 2 < Q2R (pp_alpha p).
Proof.
  intros (a & k & l & H). unfold make_physical_parameters in H.
  destruct a, k, l; try discriminate.
  destruct (QArith_base.Qle_bool q (QArith_base.Qmake 1 2)) eqn:E; [discriminate|].
  injection H as <-. cbn [pp_alpha].
  replace (1 / 2) with (Q2R (QArith_base.Qmake 1 2)) by (unfold Q2R; cbn; lra).
  apply Qreals.Qlt_Rlt. apply QArith_base.Qnot_le_lt. intros Hle.
  apply QArith_base.Qle_bool_iff in Hle. congruence.
Qed.

Lemma reverse_move_involutive m r : reverse_move m = Some r -> reverse_move r = Some m.
Proof.
  unfold reverse_move, TWO_THREE, THREE_TWO, TWO_SIX, SIX_TWO, FOUR_FOUR.
  repeat match goal with |- context [(?a =? ?b)%Z] => destruct (Z.eqb_spec a b); subst; cbn end;
    intros H; try discriminate; inversion H; subst; cbn; try reflexivity; try congruence.
Qed.

Lemma proposal_probability_exact g m : (0 < proposal_site_count g m)%Z ->
  proposal_probability PNum g m = PNum (documented_proposal g m).
Proof.
  intros H. unfold proposal_probability, documented_proposal, sites_R.
  rewrite (proj2 (Z.leb_gt _ _)) by exact H. unfold from_integer. cbn.
  assert (0 < IZR (proposal_site_count g m)) by (apply IZR_lt; exact H).
  rewrite (proj2 (Reqb_false _ 0)) by (unfold NUMBER_OF_3D_MOVES; nra). reflexivity.
Qed.

Lemma documented_proposal_pos g m : (0 < proposal_site_count g m)%Z -> 0 < documented_proposal g m.
Proof.
  intros H. unfold documented_proposal, sites_R. apply Rdiv_lt_0_compat; [lra|].
  assert (0 < IZR (proposal_site_count g m)) by (apply IZR_lt; exact H). lra.
Qed.

Lemma hastings_ratio_exact g g' m r : reverse_move m = Some r ->
  (0 < proposal_site_count g m)%Z -> (0 < proposal_site_count g' r)%Z ->
  hastings_ratio PNum g g' m = inl (PNum (sites_R g m / sites_R g' r)).
Proof.
  intros Hr H H'. unfold hastings_ratio. rewrite Hr, !proposal_probability_exact by assumption.
  pose proof (documented_proposal_pos _ _ H). pose proof (documented_proposal_pos _ _ H').
  cbn. rewrite !(proj2 (Reqb_false _ 0)) by lra. cbn. do 2 f_equal.
  unfold documented_proposal, sites_R in *.
  assert (0 < IZR (proposal_site_count g m)) by (apply IZR_lt; exact H).
  assert (0 < IZR (proposal_site_count g' r)) by (apply IZR_lt; exact H').
  field. lra.
Qed.

Lemma acceptance_exact p g g' m r : valid_parameters p -> reverse_move m = Some r ->
  (0 < proposal_site_count g m)%Z -> (0 < proposal_site_count g' r)%Z ->
  acceptance_probability PNum p g g' m =
    inl (PNum (Rmin 1 (sites_R g m / sites_R g' r * exp (params_action p g - params_action p g')))).
Proof.
  intros Hp Hr H H'. unfold acceptance_probability.
  rewrite (hastings_ratio_exact g g' m r Hr H H').
  unfold action_ratio, s3_bulk_action.
  rewrite !s3_bulk_action_exact by (apply valid_parameters_alpha; assumption).
  unfold from_integer. cbn. unfold params_action, bulk_action.
  set (x := sites_R g m / sites_R g' r * _).
  unfold Rltb, Rmin. destruct (Rlt_dec x 1), (Rle_dec 1 x); try reflexivity; lra.
Qed.

Lemma detailed_balance_real w w' q q' e :
  0 < w -> 0 < w' -> 0 < q -> 0 < q' -> w' = w * e ->
  w * q * Rmin 1 (q' / q * e) = w' * q' * Rmin 1 (q / q' * / e).
Proof.
  intros Hw Hw' Hq Hq' He.
  assert (0 < e) by nra.
  assert (Hx : 0 < q' / q * e) by (apply Rmult_lt_0_compat; [apply Rdiv_lt_0_compat|]; assumption).
  assert (Hinv : q / q' * / e = / (q' / q * e)) by (field; lra).
  rewrite Hinv. set (x := q' / q * e) in *.
  assert (Hx2 : w * q * x = w' * q') by (unfold x; rewrite He; field; lra).
  unfold Rmin. destruct (Rle_dec 1 x) as [A|A], (Rle_dec 1 (/ x)) as [B|B].
  - assert (x <= 1). { rewrite <- (Rinv_inv x), <- Rinv_1. apply Rinv_le_contravar; lra. }
    assert (x = 1) by lra. rewrite <- Hx2. nra.
  - rewrite <- Hx2. rewrite !Rmult_assoc, Rinv_r by lra. ring.
  - lra.
  - exfalso. apply B. rewrite <- Rinv_1. apply Rinv_le_contravar; lra.
Qed.

Lemma detailed_balance p g g' m r : valid_parameters p -> reverse_move m = Some r ->
  (0 < proposal_site_count g m)%Z -> (0 < proposal_site_count g' r)%Z ->
  exists a a',
    acceptance_probability PNum p g g' m = inl (PNum a) /\
    acceptance_probability PNum p g' g r = inl (PNum a') /\
    exp (- params_action p g) * documented_proposal g m * a
      = exp (- params_action p g') * documented_proposal g' r * a'.
Proof.
  intros Hp Hr H H'. do 2 eexists.
  split; [apply (acceptance_exact p g g' m r); assumption|].
  split; [apply (acceptance_exact p g' g r m); auto; apply reverse_move_involutive; assumption|].
  assert (P1 : 0 < sites_R g m) by (apply IZR_lt; exact H).
  assert (P2 : 0 < sites_R g' r) by (apply IZR_lt; exact H').
  set (S := params_action p g). set (S' := params_action p g').
  replace (exp (S' - S)) with (/ exp (S - S')).
  2:{ rewrite <- exp_Ropp. f_equal. ring. }
  replace (sites_R g m / sites_R g' r) with (documented_proposal g' r / documented_proposal g m)
    by (unfold documented_proposal; field; lra).
  replace (sites_R g' r / sites_R g m) with (documented_proposal g m / documented_proposal g' r)
    by (unfold documented_proposal; field; lra).
  apply detailed_balance_real; try apply exp_pos; try (apply documented_proposal_pos; assumption).
  rewrite <- exp_plus. f_equal. ring.
Qed.

(** ** Any rounding *)
Section Rounded.
  Variable round : R -> mp.
  Hypothesis Hr : rounding round.

  Definition counts_in_range (g : Geometry) : Prop :=
    in_int32 (gN3_22 g) /\ in_int32 (gN1_TL g) /\ in_int32 (gN3_13 g) /\ in_int32 (gN0 g) /\
    in_int32 (gN1_SL g) /\ in_int32 (gN3_31_13 g).

  Lemma site_count_range g m : counts_in_range g -> in_int32 (proposal_site_count g m).
  Proof.
    intros (H1 & H2 & H3 & H4 & H5 & _). unfold proposal_site_count.
    repeat case_match; auto. unfold in_int32, INT32_MIN, INT32_MAX. lia.
  Qed.

  Lemma pow2_34 : powerRZ 2 (-34) = / IZR (2 ^ 34).
  Proof.
    change (powerRZ 2 (-34)) with (/ (2 ^ Pos.to_nat 34)). f_equal. rewrite (pow_IZR 2). reflexivity.
  Qed.

  (** A positive raw-site probability is at least 2^-34 after rounding. *)
  Lemma proposal_probability_rounded g m : counts_in_range g -> (0 < proposal_site_count g m)%Z ->
    exists q, proposal_probability round g m = PNum q /\ powerRZ 2 (-34) <= q <= 1 /\
              round (1 / (5 * sites_R g m)) = PNum q.
  Proof.
    intros Hg H. pose proof (site_count_range g m Hg) as [_ Hn]. unfold INT32_MAX in Hn.
    unfold proposal_probability. rewrite (proj2 (Z.leb_gt _ _)) by exact H.
    unfold from_integer, NUMBER_OF_3D_MOVES, sites_R. set (n := proposal_site_count g m) in *.
    rewrite (rnd_int _ Hr 5) by lia. rewrite (rnd_int _ Hr n) by lia. rewrite (rnd_int _ Hr 1) by lia.
    unfold multiply. rewrite <- mult_IZR. rewrite (rnd_int _ Hr (5 * n)) by lia.
    assert (Hp : 1 <= IZR (5 * n) <= IZR (2 ^ 34)) by (split; apply IZR_le; lia).
    unfold divide. rewrite (proj2 (Reqb_false _ 0)) by lra.
    destruct (round_within _ Hr (powerRZ 2 (-34)) 1 (1 / IZR (5 * n))) as (q & Eq & Bq).
    { apply (rnd_pow2 _ Hr). unfold exp_range. lia. }
    { apply (rnd_int _ Hr 1). lia. }
    { rewrite pow2_34. unfold Rdiv. rewrite Rmult_1_l. split.
      - apply Rinv_le_contravar; lra.
      - rewrite <- Rinv_1 at 1. apply Rinv_le_contravar; lra. }
    exists q. split; [exact Eq|]. split; [exact Bq|exact Eq].
  Qed.

  Lemma proposal_probability_zero g m : (proposal_site_count g m <= 0)%Z ->
    proposal_probability round g m = PNum 0.
  Proof.
    intros H. unfold proposal_probability. rewrite (proj2 (Z.leb_le _ _)) by exact H.
    apply round_0. exact Hr.
  Qed.

  (** The Hastings ratio throws exactly when a count is nonpositive. *)
  Lemma hastings_refusal g g' m r : counts_in_range g -> counts_in_range g' ->
    reverse_move m = Some r ->
    (hastings_ratio round g g' m = inr LogicError <->
       (proposal_site_count g m <= 0)%Z \/ (proposal_site_count g' r <= 0)%Z) /\
    ((0 < proposal_site_count g m)%Z -> (0 < proposal_site_count g' r)%Z ->
       exists h, hastings_ratio round g g' m = inl (PNum h) /\ powerRZ 2 (-34) <= h <= powerRZ 2 34).
  Proof.
    intros Hg Hg' Hrev.
    assert (Z0 : mp_is_zero (PNum 0) = true) by (cbn; apply Reqb_spec; reflexivity).
    assert (Pos : (0 < proposal_site_count g m)%Z -> (0 < proposal_site_count g' r)%Z ->
       exists h, hastings_ratio round g g' m = inl (PNum h) /\ powerRZ 2 (-34) <= h <= powerRZ 2 34).
    { intros H H'. unfold hastings_ratio. rewrite Hrev.
      destruct (proposal_probability_rounded g m Hg H) as (q & -> & Hq & _).
      destruct (proposal_probability_rounded g' r Hg' H') as (q' & -> & Hq' & _).
      pose proof (pow2_pos (-34)) as P34.
      cbn [mp_is_zero]. rewrite !(proj2 (Reqb_false _ 0)) by lra. cbn [orb].
      unfold divide. rewrite (proj2 (Reqb_false q 0)) by lra.
      destruct (round_within _ Hr (powerRZ 2 (-34)) (powerRZ 2 34) (q' / q)) as (h & Eh & Bh).
      { apply (rnd_pow2 _ Hr). unfold exp_range. lia. }
      { apply (rnd_pow2 _ Hr). unfold exp_range. lia. }
      { assert (Hi : 1 <= / q <= powerRZ 2 34).
        { split.
          - rewrite <- Rinv_1 at 1. apply Rinv_le_contravar; lra.
          - replace (powerRZ 2 34) with (/ powerRZ 2 (-34)).
            + apply Rinv_le_contravar; lra.
            + pose proof (powerRZ_add 2 34 (-34) ltac:(lra)) as E. change (34 + -34)%Z with 0%Z in E.
              cbn [powerRZ] in E. apply Rmult_eq_reg_r with (powerRZ 2 (-34)); [|lra].
              rewrite Rinv_l by lra. exact E. }
        unfold Rdiv. split; [nra|]. pose proof (pow2_pos 34). nra. }
      exists h. rewrite Eh. split; [reflexivity|exact Bh]. }
    split; [|exact Pos].
    destruct (Z_le_gt_dec (proposal_site_count g m) 0) as [H|H].
    { split; [tauto|]. intros _. unfold hastings_ratio.
      rewrite Hrev, (proposal_probability_zero g m H), Z0. reflexivity. }
    destruct (Z_le_gt_dec (proposal_site_count g' r) 0) as [H'|H'].
    { split; [tauto|]. intros _. unfold hastings_ratio.
      rewrite Hrev, (proposal_probability_zero g' r H'), Z0, orb_true_r. reflexivity. }
    destruct Pos as (h & -> & _); [lia|lia|]. split; [discriminate|lia].
  Qed.

  Definition params_in_range (p : PhysicalParameters) : Prop :=
    ld_range (Q2R (pp_alpha p)) /\ ld_range (Q2R (pp_k p)) /\ ld_range (Q2R (pp_lambda p)).

  Lemma action_bounded p g : valid_parameters p -> params_in_range p -> counts_in_range g ->
    bounded 50000 (s3_bulk_action round (gN1_TL g) (gN3_31_13 g) (gN3_22 g) p).
  Proof.
    intros Hp (Ha & Hk & Hl) (H1 & H2 & _ & _ & _ & H3).
    unfold in_int32, INT32_MIN, INT32_MAX in *.
    apply s3_bulk_action_rounded; auto using valid_parameters_alpha; lia.
  Qed.

  (** The action factor is a nonnegative value or an overflow to +Inf. *)
  Lemma action_ratio_rounded p g g' : valid_parameters p -> params_in_range p ->
    counts_in_range g -> counts_in_range g' ->
    exists d, action_ratio round p g g' = round (exp d) /\
      subtract round (s3_bulk_action round (gN1_TL g) (gN3_31_13 g) (gN3_22 g) p)
                     (s3_bulk_action round (gN1_TL g') (gN3_31_13 g') (gN3_22 g') p) = PNum d.
  Proof.
    intros Hp Hq Hg Hg'. unfold action_ratio.
    destruct (bounded_sub _ Hr 50000 _ _ ltac:(unfold exp_range; lia)
                (action_bounded p g Hp Hq Hg) (action_bounded p g' Hp Hq Hg')) as (d & Ed & _).
    exists d. rewrite Ed. split; reflexivity.
  Qed.

  Lemma round_exp d : (exists r, round (exp d) = PNum r /\ 0 <= r) \/ round (exp d) = PInf false.
  Proof.
    pose proof (exp_pos d) as He.
    pose proof (rnd_mono _ Hr 0 (exp d) ltac:(lra)) as M. rewrite (round_0 _ Hr) in M.
    destruct (round (exp d)) as [|[]|r]; cbn in M; try tauto. left. eauto.
  Qed.

  (** C18: never NaN, always in [0,1]. *)
  Lemma acceptance_in_unit p g g' m r : valid_parameters p -> params_in_range p ->
    counts_in_range g -> counts_in_range g' -> reverse_move m = Some r ->
    (0 < proposal_site_count g m)%Z -> (0 < proposal_site_count g' r)%Z ->
    exists a, acceptance_probability round p g g' m = inl (PNum a) /\ 0 <= a <= 1.
  Proof.
    intros Hp Hq Hg Hg' Hrev H H'.
    destruct (proj2 (hastings_refusal g g' m r Hg Hg' Hrev) H H') as (h & Eh & Bh).
    destruct (action_ratio_rounded p g g' Hp Hq Hg Hg') as (d & Ed & _).
    unfold acceptance_probability. rewrite Eh, Ed. unfold from_integer. rewrite (rnd_int _ Hr 1) by lia.
    pose proof (pow2_pos (-34)).
    destruct (round_exp d) as [(x & -> & Hx)|E].
    - cbn [multiply]. pose proof (rnd_mono _ Hr 0 (h * x) ltac:(nra)) as M.
      rewrite (round_0 _ Hr) in M. destruct (round (h * x)) as [|[]|y]; cbn in M; try tauto.
      + cbn. exists 1. split; [reflexivity|lra].
      + cbn. destruct (Rltb y 1) eqn:Ey.
        * apply Rltb_spec in Ey. exists y. split; [reflexivity|lra].
        * exists 1. split; [reflexivity|lra].
    - rewrite E. cbn [multiply]. rewrite (proj2 (Reqb_false h 0)) by lra.
      rewrite (proj2 (Rltb_false h 0)) by lra. cbn. exists 1. split; [reflexivity|lra].
  Qed.

  Lemma exp_neg_nat n : powerRZ 2 (- (2 * Z.of_nat n)) <= exp (- INR n).
  Proof.
    induction n as [|n IH].
    - replace (- INR 0) with 0 by (cbn; ring). rewrite exp_0. change (1 <= 1). lra.
    - rewrite S_INR. replace (- (INR n + 1)) with (- INR n + - 1) by ring. rewrite exp_plus.
      replace (- (2 * Z.of_nat (S n)))%Z with (- (2 * Z.of_nat n) + -2)%Z by lia.
      rewrite powerRZ_add by lra. apply Rmult_le_compat; try (left; apply pow2_pos); [exact IH|].
      change (powerRZ 2 (-2)) with (/ (2 ^ 2)). change (-1) with (Ropp 1); rewrite exp_Ropp. apply Rinv_le_contravar; [apply exp_pos|].
      pose proof exp_le_3. lra.
  Qed.

  (** Strictly positive as long as the action change is not astronomically large. *)
  Lemma acceptance_positive p g g' m r a d : valid_parameters p -> params_in_range p ->
    counts_in_range g -> counts_in_range g' -> reverse_move m = Some r ->
    (0 < proposal_site_count g m)%Z -> (0 < proposal_site_count g' r)%Z ->
    subtract round (s3_bulk_action round (gN1_TL g) (gN3_31_13 g) (gN3_22 g) p)
                   (s3_bulk_action round (gN1_TL g') (gN3_31_13 g') (gN3_22 g') p) = PNum d ->
    -20000 <= d ->
    acceptance_probability round p g g' m = inl (PNum a) -> 0 < a.
  Proof.
    intros Hp Hq Hg Hg' Hrev H H' Hd Hd1 HA.
    destruct (proj2 (hastings_refusal g g' m r Hg Hg' Hrev) H H') as (h & Eh & Bh).
    destruct (action_ratio_rounded p g g' Hp Hq Hg Hg') as (d' & Ed & Ed').
    rewrite Hd in Ed'. injection Ed' as <-.
    unfold acceptance_probability in HA. rewrite Eh, Ed in HA. unfold from_integer in HA.
    rewrite (rnd_int _ Hr 1) in HA by lia.
    pose proof (pow2_pos (-34)).
    assert (He : powerRZ 2 (-40000) <= exp d).
    { eapply Rle_trans; [apply (exp_neg_nat (Z.to_nat 20000))|].
      rewrite INR_IZR_INZ, Z2Nat.id by lia. destruct Hd1 as [Hd1| <-]; [left; apply exp_increasing; lra|].
      right. f_equal. }
    pose proof (pow2_pos (-40000)) as P4. pose proof (pow2_pos (-40034)) as P5.
    destruct (round_exp d) as [(x & Ex & Hx)|Ex]; rewrite Ex in HA.
    - pose proof (rnd_mono _ Hr _ _ He) as M. rewrite Ex, (rnd_pow2 _ Hr) in M by (unfold exp_range; lia).
      cbn [mp_le] in M. cbn [multiply] in HA.
      assert (Hhx : powerRZ 2 (-40034) <= h * x).
      { replace (-40034)%Z with (-34 + -40000)%Z by lia. rewrite powerRZ_add by lra.
        apply Rmult_le_compat; lra. }
      pose proof (rnd_mono _ Hr _ _ Hhx) as M2. rewrite (rnd_pow2 _ Hr) in M2 by (unfold exp_range; lia).
      destruct (round (h * x)) as [|[]|y]; cbn [mp_le] in M2; cbn [mp_lt negb] in HA; try tauto.
      + injection HA as <-. lra.
      + destruct (Rltb y 1); injection HA as <-; lra.
    - cbn [multiply] in HA. rewrite (proj2 (Reqb_false h 0)) in HA by lra.
      rewrite (proj2 (Rltb_false h 0)) in HA by lra. cbn in HA. injection HA as <-. lra.
  Qed.

  (** A candidate with unchanged counts, e.g. every validated (4,4) candidate. *)
  Lemma acceptance_unchanged p g g' m r : valid_parameters p -> params_in_range p ->
    counts_in_range g -> counts_in_range g' -> reverse_move m = Some r ->
    proposal_site_count g m = proposal_site_count g' r -> (0 < proposal_site_count g m)%Z ->
    gN1_TL g = gN1_TL g' -> gN3_31_13 g = gN3_31_13 g' -> gN3_22 g = gN3_22 g' ->
    acceptance_probability round p g g' m = inl (PNum 1).
  Proof.
    intros Hp Hq Hg Hg' Hrev Hs Hpos E1 E2 E3.
    unfold acceptance_probability, hastings_ratio. rewrite Hrev.
    assert (Eqp : proposal_probability round g' r = proposal_probability round g m).
    { unfold proposal_probability. rewrite Hs. reflexivity. }
    rewrite Eqp.
    destruct (proposal_probability_rounded g m Hg Hpos) as (q & -> & Hq1 & _).
    pose proof (pow2_pos (-34)). cbn [mp_is_zero]. rewrite (proj2 (Reqb_false q 0)) by lra. cbn [orb].
    unfold divide. rewrite (proj2 (Reqb_false q 0)) by lra.
    replace (q / q) with 1 by (field; lra).
    unfold action_ratio. rewrite <- E1, <- E2, <- E3.
    destruct (action_bounded p g Hp Hq Hg) as (s & -> & _).
    cbn [subtract]. replace (s - s) with 0 by ring. rewrite (round_0 _ Hr). cbn [exponential].
    rewrite exp_0. unfold from_integer. rewrite !(rnd_int _ Hr 1) by lia.
    cbn [multiply]. rewrite Rmult_1_r, (rnd_int _ Hr 1) by lia. cbn [mp_lt].
    rewrite (proj2 (Rltb_false 1 1)) by lra. reflexivity.
  Qed.
End Rounded.

(** ** Action changes (C37) *)
(** Count changes of the documented deltas (N1_TL, N3_31_13, N3_22). *)
Definition action_delta (m : MoveType) : Z * Z * Z :=
  if (m =? TWO_THREE)%Z then (1, 0, 1)%Z
  else if (m =? THREE_TWO)%Z then (-1, 0, -1)%Z
  else if (m =? TWO_SIX)%Z then (2, 4, 0)%Z
  else if (m =? SIX_TWO)%Z then (-2, -4, 0)%Z
  else (0, 0, 0)%Z.

Lemma action_change alpha k lambda g g' (d1 d31 d22 : Z) :
  gN1_TL g' = (gN1_TL g + d1)%Z -> gN3_31_13 g' = (gN3_31_13 g + d31)%Z -> gN3_22 g' = (gN3_22 g + d22)%Z ->
  bulk_action alpha k lambda g' - bulk_action alpha k lambda g = action_formula d1 d31 d22 alpha k lambda.
Proof.
  intros E1 E2 E3. unfold bulk_action, action_formula. rewrite E1, E2, E3. rewrite !plus_IZR. ring.
Qed.

(** The reciprocal law of the Hastings ratio (exact arithmetic). *)
Lemma hastings_reciprocal g g' m r : reverse_move m = Some r ->
  (0 < proposal_site_count g m)%Z -> (0 < proposal_site_count g' r)%Z ->
  exists h, hastings_ratio PNum g g' m = inl (PNum h) /\ hastings_ratio PNum g' g r = inl (PNum (/ h)) /\
    h = IZR (proposal_site_count g m) / IZR (proposal_site_count g' r) /\ 0 < h.
Proof.
  intros Hr H H'. exists (sites_R g m / sites_R g' r).
  assert (P1 : 0 < sites_R g m) by (apply IZR_lt; exact H).
  assert (P2 : 0 < sites_R g' r) by (apply IZR_lt; exact H').
  split; [apply hastings_ratio_exact; assumption|].
  split; [|split; [reflexivity|apply Rdiv_lt_0_compat; assumption]].
  rewrite (hastings_ratio_exact g' g r m (reverse_move_involutive _ _ Hr) H' H). do 2 f_equal. field. lra.
Qed.

Lemma unsupported_no_reverse m : ~ supported m -> reverse_move m = None.
Proof.
  intros H. unfold reverse_move, TWO_THREE, THREE_TWO, TWO_SIX, SIX_TWO, FOUR_FOUR.
  unfold supported in H.
  repeat match goal with |- context [(?a =? ?b)%Z] => destruct (Z.eqb_spec a b); [lia|] end. reflexivity.
Qed.

Lemma acceptance_exact_range p g g' m r : valid_parameters p -> reverse_move m = Some r ->
  (0 < proposal_site_count g m)%Z -> (0 < proposal_site_count g' r)%Z ->
  exists a, acceptance_probability PNum p g g' m = inl (PNum a) /\
    a = Rmin 1 (IZR (proposal_site_count g m) / IZR (proposal_site_count g' r)
                * exp (params_action p g - params_action p g')) /\ 0 < a <= 1.
Proof.
  intros Hp Hr H H'. eexists. split; [apply (acceptance_exact p g g' m r); assumption|].
  split; [reflexivity|].
  assert (P1 : 0 < sites_R g m) by (apply IZR_lt; exact H).
  assert (P2 : 0 < sites_R g' r) by (apply IZR_lt; exact H').
  assert (0 < sites_R g m / sites_R g' r * exp (params_action p g - params_action p g')).
  { apply Rmult_lt_0_compat; [apply Rdiv_lt_0_compat; assumption|apply exp_pos]. }
  split; [apply Rmin_glb_lt; lra|apply Rmin_l].
Qed.

Lemma zero_trial_accepted round p g g' m r : rounding round -> valid_parameters p -> params_in_range p ->
  counts_in_range g -> counts_in_range g' -> reverse_move m = Some r ->
  (0 < proposal_site_count g m)%Z -> (0 < proposal_site_count g' r)%Z ->
  exists a, acceptance_probability round p g g' m = inl (PNum a) /\ 0 <= a <= 1 /\
    forall q, mp_at_least (PNum a) (Fin q) = true <-> Q2R q <= a.
Proof.
  intros Hr Hp Hq Hg Hg' Hrev H H'.
  destruct (acceptance_in_unit round Hr p g g' m r Hp Hq Hg Hg' Hrev H H') as (a & E & B).
  exists a. split; [exact E|]. split; [exact B|]. intros q. cbn. apply Rleb_spec.
Qed.

Lemma zero_accepts a : 0 <= a -> mp_at_least (PNum a) (Fin (QArith_base.Qmake 0 1)) = true.
Proof. intros H. cbn. apply Rleb_spec. unfold Q2R. cbn. lra. Qed.

Lemma one_accepts_all q : trial_invalid (Fin q) = false -> mp_at_least (PNum 1) (Fin q) = true.
Proof.
  intros H. cbn in *. apply orb_false_iff in H as [_ H]. apply negb_false_iff in H.
  apply QArith_base.Qle_bool_iff in H. apply Rleb_spec. apply Qreals.Qle_Rle in H.
  replace (Q2R (QArith_base.Qmake 1 1)) with 1 in H by (unfold Q2R; cbn; lra). exact H.
Qed.

(** Documented count changes determine the action change. *)
Definition count_delta (m : MoveType) (g g' : Geometry) : Prop :=
  let '(d1, d31, d22) := action_delta m in
  gN1_TL g' = (gN1_TL g + d1)%Z /\ gN3_31_13 g' = (gN3_31_13 g + d31)%Z /\ gN3_22 g' = (gN3_22 g + d22)%Z.

Lemma action_change_state_independent p m g g' h h' :
  count_delta m g g' -> count_delta m h h' ->
  params_action p g' - params_action p g = params_action p h' - params_action p h.
Proof.
  unfold count_delta. destruct (action_delta m) as [[d1 d31] d22].
  intros (A1 & A2 & A3) (B1 & B2 & B3). unfold params_action.
  rewrite (action_change _ _ _ g g' d1 d31 d22), (action_change _ _ _ h h' d1 d31 d22) by assumption.
  reflexivity.
Qed.

Lemma action_change_values p m g g' : count_delta m g g' ->
  let a := Q2R (pp_alpha p) in let k := Q2R (pp_k p) in let l := Q2R (pp_lambda p) in
  params_action p g' - params_action p g =
    (if (m =? TWO_THREE)%Z then 2 * PI * k * sqrt a + action_22 a k l
     else if (m =? THREE_TWO)%Z then - (2 * PI * k * sqrt a + action_22 a k l)
     else if (m =? TWO_SIX)%Z then 4 * PI * k * sqrt a + 4 * action_31 a k l
     else if (m =? SIX_TWO)%Z then - (4 * PI * k * sqrt a + 4 * action_31 a k l)
     else 0).
Proof.
  unfold count_delta. destruct (action_delta m) as [[d1 d31] d22] eqn:E.
  intros (A1 & A2 & A3). unfold params_action. cbv zeta.
  rewrite (action_change _ _ _ g g' d1 d31 d22) by assumption.
  unfold action_delta in E. unfold action_formula.
  repeat match goal with H : context [if ?b then _ else _] |- _ => destruct b end;
    inversion E; subst; ring.
Qed.

Lemma four_four_accepted round p g g' q : rounding round -> valid_parameters p -> params_in_range p ->
  counts_in_range g -> counts_in_range g' -> (0 < gN1_SL g)%Z -> gN1_SL g' = gN1_SL g ->
  count_delta FOUR_FOUR g g' -> trial_invalid (Fin q) = false ->
  exists a, acceptance_probability round p g g' FOUR_FOUR = inl a /\ mp_at_least a (Fin q) = true.
Proof.
  intros Hr Hp Hq Hg Hg' Hpos Hs Hd Ht. exists (PNum 1). split; [|apply one_accepts_all; exact Ht].
  unfold count_delta in Hd. cbn in Hd. destruct Hd as (A1 & A2 & A3).
  apply (acceptance_unchanged round Hr p g g' FOUR_FOUR FOUR_FOUR); auto; cbn; try lia.
Qed.

Lemma parameters_accepted a k l :
  (forall p, make_physical_parameters a k l = inl p <->
     exists qa qk ql, a = Fin qa /\ k = Fin qk /\ l = Fin ql /\
       QArith_base.Qlt (QArith_base.Qmake 1 2) qa /\ p = mkParams qa qk ql) /\
  (make_physical_parameters a k l = inr InvalidArgument <->
     isfinite a = false \/ isfinite k = false \/ isfinite l = false) /\
  (make_physical_parameters a k l = inr DomainError <->
     exists qa qk ql, a = Fin qa /\ k = Fin qk /\ l = Fin ql /\ QArith_base.Qle qa (QArith_base.Qmake 1 2)) /\
  (forall e, make_physical_parameters a k l = inr e -> e = InvalidArgument \/ e = DomainError).
Proof.
  unfold make_physical_parameters.
  destruct a as [| |qa], k as [| |qk], l as [| |ql];
    try (split; [intros p; split; [discriminate|intros (? & ? & ? & E1 & E2 & E3 & _); discriminate]|];
         split; [cbn; tauto|];
         split; [split; [discriminate|intros (? & ? & ? & E1 & E2 & E3 & _); discriminate]|];
         intros e E; injection E as <-; auto).
  destruct (QArith_base.Qle_bool qa (QArith_base.Qmake 1 2)) eqn:E.
  - apply QArith_base.Qle_bool_iff in E.
    split.
    { intros p. split; [discriminate|]. intros (? & ? & ? & E1 & E2 & E3 & HH & _).
      injection E1 as <-. exfalso. apply (QArith_base.Qlt_not_le _ _ HH). exact E. }
    split; [cbn; split; [discriminate|intuition discriminate]|].
    split; [split; [intros _; do 3 eexists; eauto|reflexivity]|].
    intros e EE. injection EE as <-. auto.
  - assert (Hlt : QArith_base.Qlt (QArith_base.Qmake 1 2) qa).
    { apply QArith_base.Qnot_le_lt. intros Hle. apply QArith_base.Qle_bool_iff in Hle. congruence. }
    split.
    { intros p. split.
      - intros EE. injection EE as <-. exists qa, qk, ql. auto.
      - intros (? & ? & ? & E1 & E2 & E3 & _ & ->). injection E1 as <-. injection E2 as <-. injection E3 as <-. reflexivity. }
    split; [cbn; split; [discriminate|intuition discriminate]|].
    split; [split; [discriminate|]|discriminate].
    intros (? & ? & ? & E1 & E2 & E3 & HH). injection E1 as <-. exfalso.
    apply (QArith_base.Qlt_not_le _ _ Hlt). exact HH.
Qed.
