(** IEEE square roots and squares meet the contracts of RadiiSpec.v; spacings below
    the resolution of the radius. *)
From Verif Require Import Base Config ConfigSpec ConfigFacts Repair ViewerScene Radii RadiiSpec.
From Coq Require Import Reals Lra QArith QArith.Qreals QArith.Qabs QArith.Qpower QArith.Qround.
From Flocq Require Import Core.
From Verif Require Import FoliationSpec Ieee.
Local Open Scope R_scope.

(** The double nearest to a real (no overflow considered). *)
Definition nearest_R (x : R) : Q := Q_of (ZnearestE (scaled_mantissa radix2 (fexp 53 1024) x)) (cexp radix2 (fexp 53 1024) x).
(** std::sqrt of IEEE 754: correctly rounded. *)
Definition double_sqrt (x : fp) : fp :=
  match x with
  | Fin q => if Qle_bool 0 q then Fin (nearest_R (sqrt (Q2R q))) else NaN
  | Inf false => Inf false
  | _ => NaN
  end.
(** std::pow(x, 2), correctly rounded. *)
Definition double_square (x : fp) : fp := fmul double_round x x.

Lemma Q2R_0 : Q2R 0 = 0. Proof. unfold Q2R. cbn. lra. Qed.
Lemma Q2R_1 : Q2R 1 = 1. Proof. unfold Q2R. cbn. lra. Qed.
Lemma ieee_sqrt_ok : sqrt_ok double_sqrt.
Proof.
  intros q Q0 QM. exists (nearest_R (sqrt (Q2R q))). cbn [double_sqrt]. rewrite (proj2 (Qle_bool_iff 0 q) Q0). split; [reflexivity|].
  apply Qle_Rle in Q0. rewrite Q2R_0 in Q0. set (s := sqrt (Q2R q)). assert (S0 : 0 <= s) by apply sqrt_pos.
  assert (SS : Q2R q = s * s) by (symmetry; apply sqrt_sqrt; exact Q0).
  assert (E : Q2R (nearest_R s) = Generic_fmt.round radix2 (fexp 53 1024) ZnearestE s) by (unfold nearest_R; rewrite Q2R_Q_of; reflexivity).
  assert (PP : Prec_gt_0 53) by reflexivity. pose proof (FLT_exp_valid (emin 53 1024) 53) as V.
  assert (V0 : 0 <= Q2R (nearest_R s)).
  { rewrite E. apply (round_ge_generic radix2 (FLT_exp (emin 53 1024) 53) ZnearestE); [apply generic_format_0|exact S0]. }
  pose proof (small_error s) as B. rewrite <- E in B. set (v := Q2R (nearest_R s)) in *. rewrite (Rabs_pos_eq s S0) in B.
  split; [apply Rle_Qle; rewrite Q2R_0; exact V0|].
  apply Rle_Qle. rewrite Q2R_abs, Q2R_minus, Q2R_plus, !Q2R_mult, !Q2R_pow2, SS. fold v.
  apply Rabs_le_inv in B. set (eta := bpow radix2 (- (1074))) in *.
  assert (U : bpow radix2 (- (53)) = / 9007199254740992).
  { rewrite bpow_opp, <- (IZR_Zpower radix2 53) by lia. reflexivity. }
  assert (U51 : bpow radix2 (-51) = / 2251799813685248).
  { change (-51)%Z with (- (51))%Z. rewrite bpow_opp, <- (IZR_Zpower radix2 51) by lia. reflexivity. }
  rewrite U in B. rewrite U51.
  assert (ET : 0 < eta) by apply bpow_gt_0.
  assert (E9 : 0 < bpow radix2 (-900)) by apply bpow_gt_0.
  assert (E91 : bpow radix2 (-900) <= / 8) by (change (/ 8) with (bpow radix2 (-3)); apply bpow_le; lia).
  assert (EE : eta <= bpow radix2 (-900) * / 18014398509481984).
  { replace (/ 18014398509481984) with (bpow radix2 (-54)). 2:{ change (-54)%Z with (- (54))%Z. rewrite bpow_opp, <- (IZR_Zpower radix2 54) by lia. reflexivity. }
    rewrite <- bpow_plus. apply bpow_le. lia. }
  set (t := bpow radix2 (-900)) in *.
  destruct (Rlt_or_le s t) as [L|L].
  - (* tiny *)
    assert (V2 : v <= 2 * t) by lra.
    assert (VV : 0 <= v * v <= 4 * (t * t)). { split; [apply Rmult_le_pos; exact V0|]. assert (v * v <= (2 * t) * (2 * t)) by (apply Rmult_le_compat; lra). lra. }
    assert (S2 : 0 <= s * s <= t * t) by (split; [apply Rmult_le_pos; exact S0|apply Rmult_le_compat; lra]).
    assert (T2 : t * t <= t * / 8) by (apply Rmult_le_compat_l; lra).
    apply Rabs_le. lra.
  - assert (V2 : Rabs (v - s) <= (/ 9007199254740992 + / 18014398509481984) * s) by (apply Rabs_le; lra).
    replace (v * v - s * s) with ((v - s) * (v + s)) by ring. rewrite Rabs_mult, (Rabs_pos_eq (v + s)) by lra.
    apply Rabs_le_inv in V2 as V3.
    apply Rle_trans with ((/ 9007199254740992 + / 18014398509481984) * s * (s * (21 / 10))).
    + apply Rmult_le_compat; [apply Rabs_pos|lra|exact V2|lra].
    + assert (0 <= s * s) by (apply Rmult_le_pos; exact S0). lra.
Qed.
Lemma ieee_square_ok : square_ok double_square.
Proof.
  intros q Q1 Q2. cbn [double_square fmul].
  assert (F : (Qabs (q * q) == Qabs q * Qabs q)%Q) by apply Qabs_Qmult.
  assert (P4 : (0 <= pow2 (-400))%Q) by (vm_compute; discriminate).
  assert (L : (pow2 (-400) * pow2 (-400) <= Qabs (q * q))%Q).
  { rewrite F. apply Qmult_le_compat_nonneg; split; try assumption. }
  assert (U : (Qabs (q * q) <= pow2 400 * pow2 400)%Q).
  { rewrite F. apply Qmult_le_compat_nonneg; split; try assumption; apply Qabs_nonneg. }
  destruct (ieee_is_double (q * q)%Q) as (v & E & B).
  { eapply Qle_trans; [exact U|]. vm_compute. discriminate. }
  exists v. split; [exact E|]. eapply Qle_trans; [exact B|].
  assert (A : (Qabs (q * q) == q * q)%Q). { apply Qabs_pos. apply Rle_Qle. rewrite Q2R_0, Q2R_mult. apply Rle_0_sqr. }
  rewrite A in *. apply Qle_Rle in L. apply Rle_Qle. rewrite Q2R_plus, !Q2R_mult in *. rewrite !Q2R_pow2 in *.
  set (x := Q2R q * Q2R q) in *. rewrite <- bpow_plus in L.
  assert (bpow radix2 (-1074) <= bpow radix2 (-53) * x).
  { apply Rle_trans with (bpow radix2 (-53) * bpow radix2 (-400 + -400)).
    - rewrite <- bpow_plus. apply bpow_le. lia.
    - apply Rmult_le_compat_l; [apply bpow_ge_0|exact L]. }
  assert (0 < x). { eapply Rlt_le_trans; [apply bpow_gt_0|exact L]. }
  assert (bpow radix2 (-53) + bpow radix2 (-53) <= bpow radix2 (-50)).
  { change (-50)%Z with (3 + -53)%Z. rewrite bpow_plus. change (bpow radix2 3) with 8. pose proof (bpow_gt_0 radix2 (-53)). lra. }
  assert ((bpow radix2 (-53) + bpow radix2 (-53)) * x <= bpow radix2 (-50) * x) by (apply Rmult_le_compat_r; lra). lra.
Qed.

(** ** A spacing below the resolution of the radius *)
Lemma double_round_ext p q : (p == q)%Q -> double_round p = double_round q.
Proof.
  intros H. apply Qeq_eqR in H. unfold double_round, ieee, nearest, significand, exponent. rewrite H. reflexivity.
Qed.
Lemma double_exact q : exact double_round q -> exists a, double_round q = Fin a /\ (a == q)%Q.
Proof. unfold exact. destruct (double_round q) as [| |a]; intros H; [destruct H..|]. exists a. split; [reflexivity|exact H]. Qed.
Lemma double_int z : in_int32 z -> exact double_round (inject_Z z).
Proof. exact (rd_int _ _ ieee_contract z). Qed.
Lemma absorb q : (0 <= q)%Q -> (q <= pow2 (-54))%Q -> exists r, double_round (1 + q)%Q = Fin r /\ (r == 1)%Q.
Proof.
  intros Q0 Q1. apply Qle_Rle in Q0, Q1. rewrite Q2R_0 in Q0. rewrite Q2R_pow2 in Q1.
  assert (PP : Prec_gt_0 53) by reflexivity. pose proof (FLT_exp_valid (emin 53 1024) 53) as V.
  assert (E54 : bpow radix2 (-54) <= / 8) by (change (/ 8) with (bpow radix2 (-3)); apply bpow_le; lia).
  assert (N : Q2R (nearest 53 1024 (1 + q)) = 1).
  { rewrite Q2R_nearest, Q2R_plus, Q2R_1. unfold fexp. apply Rle_antisym.
    - apply round_N_le_midp; [exact V|apply (generic_format_bpow radix2 _ 0); vm_compute; discriminate|].
      rewrite succ_eq_pos by lra. change 1 with (bpow radix2 0) at 4. rewrite ulp_bpow.
      change (FLT_exp (emin 53 1024) 53 (0 + 1)) with (2 + -54)%Z. rewrite bpow_plus. change (bpow radix2 2) with 4. pose proof (bpow_gt_0 radix2 (-54)). lra.
    - apply round_ge_generic; [exact V|typeclasses eauto|apply (generic_format_bpow radix2 _ 0); vm_compute; discriminate|lra]. }
  assert (P : 1 < bpow radix2 1024) by (change 1 with (bpow radix2 0); apply bpow_lt; lia).
  exists (nearest 53 1024 (1 + q)). split; [|apply eqR_Qeq; rewrite N, Q2R_1; reflexivity].
  unfold double_round, ieee.
  rewrite (proj2 (Qle_bool_false _ _)) by (apply Rlt_Qlt; rewrite Q2R_pow, N by lia; exact P).
  rewrite (proj2 (Qle_bool_false _ _)) by (apply Rlt_Qlt; rewrite inject_Z_opp, Q2R_opp, Q2R_pow, N by lia; lra).
  reflexivity.
Qed.
Lemma nearest_1 : (nearest_R 1 == 1)%Q.
Proof.
  apply eqR_Qeq. unfold nearest_R. rewrite Q2R_Q_of, Q2R_1.
  change (Generic_fmt.round radix2 (fexp 53 1024) ZnearestE 1 = 1). apply round_generic; [typeclasses eauto|].
  apply (generic_format_bpow radix2 _ 0). vm_compute. discriminate.
Qed.
Lemma tiny_exact : exact double_round (pow2 (-60)).
Proof.
  apply exact_iff; [lia|lia|]. unfold representable. rewrite Q2R_pow2. assert (PP : Prec_gt_0 53) by reflexivity. split.
  - apply generic_format_bpow. vm_compute. discriminate.
  - rewrite Rabs_pos_eq by apply bpow_ge_0. apply bpow_lt. lia.
Qed.
Definition unit_point : point3 := mkPoint3 (Fin 1) (Fin 0) (Fin 0).
Lemma collapse : exists r, layer_radius double_round (Fin 1) (Fin (pow2 (-60))) 1 = Fin r /\ on_sphere r unit_point /\
  vertex_time double_round double_sqrt unit_point (Fin 1) (Fin (pow2 (-60))) = Some 1%Z.
Proof.
  destruct (double_exact _ tiny_exact) as (a & Ea & Ha).
  assert (Ea' : double_round (inject_Z 1 * pow2 (-60))%Q = Fin a) by (rewrite <- Ea; apply double_round_ext; apply Qmult_1_l).
  destruct (absorb a) as (r & Er & Hr); [rewrite Ha; vm_compute; discriminate..|].
  exists r. split; [unfold layer_radius, fpz; cbn [fmul]; rewrite Ea'; exact Er|].
  split; [exists 1%Q, 0%Q, 0%Q; split; [repeat split|]; rewrite Hr; vm_compute; discriminate|].
  destruct (double_exact 1 (double_int 1 ltac:(unfold in_int32, INT32_MIN, INT32_MAX; lia))) as (o & Eo & Ho).
  destruct (double_exact 0 (double_int 0 ltac:(unfold in_int32, INT32_MIN, INT32_MAX; lia))) as (w & Ew & Hw).
  assert (EO : forall q, (q == 1)%Q -> double_round q = Fin o) by (intros q Q; rewrite <- Eo; apply double_round_ext; exact Q).
  assert (EW : forall q, (q == 0)%Q -> double_round q = Fin w) by (intros q Q; rewrite <- Ew; apply double_round_ext; exact Q).
  assert (SQ : squared_radius double_round unit_point = Fin o).
  { unfold squared_radius, unit_point. cbn [xc yc zc fmul]. rewrite (EO (1 * 1)%Q), (EW (0 * 0)%Q) by reflexivity. cbn [fadd].
    rewrite (EO (o + w)%Q) by (rewrite Ho, Hw; reflexivity). cbn [fadd]. apply EO. rewrite Ho, Hw. reflexivity. }
  unfold vertex_time. rewrite SQ. cbn [double_sqrt].
  assert (QO : Qle_bool 0 o = true) by (apply Qle_bool_iff; rewrite Ho; discriminate). rewrite QO.
  rewrite (Qeq_eqR _ _ Ho), Q2R_1, sqrt_1. set (v := nearest_R 1). assert (Hv : (v == 1)%Q) by exact nearest_1. clearbody v.
  unfold expected_timevalue, nearest_slice. cbn [Repair.fneg fadd]. rewrite (EW (v + - (1))%Q) by (rewrite Hv; reflexivity). cbn [fadd].
  assert (ES : double_round (w + pow2 (-60))%Q = Fin a) by (rewrite <- Ea; apply double_round_ext; rewrite Hw; apply Qplus_0_l).
  rewrite ES. cbn [fdiv]. assert (QZ : qzero (pow2 (-60)) = false) by (vm_compute; reflexivity). rewrite QZ.
  rewrite (EO (a / pow2 (-60))%Q). 2:{ rewrite Ha. apply Qmult_inv_r. vm_compute. discriminate. }
  assert (LR : lround o = 1%Z).
  { unfold lround. rewrite QO. rewrite (Qfloor_comp (o + (1 # 2)) (3 # 2)) by (rewrite Ho; reflexivity). reflexivity. }
  rewrite LR. reflexivity.
Qed.

(** Such a configuration is accepted. *)
Section Accepted.
  Variable rl : Q -> fp.
  Hypothesis MO : forall p q, (p <= q)%Q -> fp_le (rl p) (rl q) = true.
  Hypothesis EX : forall z, in_int32 z -> exact rl (inject_Z z).
  (** Rounding stays between 32-bit integers. *)
  Lemma between q a b : in_int32 a -> in_int32 b -> (inject_Z a <= q)%Q -> (q <= inject_Z b)%Q ->
    exists v, rl q = Fin v /\ (inject_Z a <= v)%Q /\ (v <= inject_Z b)%Q.
  Proof using MO EX.
    intros A B HA HB. pose proof (MO _ _ HA) as M1. pose proof (MO _ _ HB) as M2. pose proof (EX a A) as EA. pose proof (EX b B) as EB.
    unfold exact in EA, EB. destruct (rl (inject_Z a)) as [| |a']; [destruct EA..|]. destruct (rl (inject_Z b)) as [| |b']; [destruct EB..|].
    destruct (fp_le_fin_bounded _ _ _ M1 M2) as (v & -> & H1 & H2). exists v. split; [reflexivity|]. rewrite EA in H1. rewrite EB in H2. split; assumption.
  Qed.
End Accepted.
Lemma small_accepted tiny : (0 < tiny)%Q -> (tiny <= 1)%Q -> all_hold (triangulation_requirements double_round long_double_round false true false 640 2 3 (Fin 1) (Fin tiny) 1).
Proof.
  intros T00 T1. assert (IN : forall z, (Z.abs z <= 2147483647)%Z -> in_int32 z) by (intros z H; unfold in_int32, INT32_MIN, INT32_MAX; lia).
  pose proof (between double_round (rd_mono _ _ ieee_contract) (rd_int _ _ ieee_contract)) as BD.
  pose proof (between long_double_round (rl_mono _ _ ieee_contract) (rl_int _ _ ieee_contract)) as BL.
  assert (T0 : (0 <= tiny)%Q) by (apply Qlt_le_weak; exact T00).
  assert (PO : population 640 2 = 160%Z) by (vm_compute; reflexivity).
  (* the outer radius is between 1 and 2 *)
  destruct (BL (inject_Z 1 * tiny)%Q 0%Z 1%Z) as (a & Ea & A1 & A2); [apply IN; lia|apply IN; lia|rewrite Qmult_1_l; exact T0|rewrite Qmult_1_l; exact T1|].
  assert (OR : exists o, outer_radius long_double_round 2 (Fin 1) (Fin tiny) = Fin o /\ (1 <= o)%Q /\ (o <= 2)%Q).
  { unfold outer_radius, fpz. change (2 - 1)%Z with 1%Z. cbn [fmul]. rewrite Ea. cbn [fadd].
    apply (BL (1 + a)%Q 1%Z 2%Z); [apply IN; lia|apply IN; lia| |].
    - change (inject_Z 1) with 1%Q. rewrite <- (Qplus_0_r 1) at 1. apply Qplus_le_r. exact A1.
    - change (inject_Z 2) with (1 + 1)%Q. apply Qplus_le_r. exact A2. }
  destruct OR as (o & EO & O1 & O2).
  assert (O0 : (0 < o)%Q) by (apply Qlt_le_trans with 1%Q; [reflexivity|exact O1]).
  assert (MULP : forall r, (1 <= r)%Q -> (r <= 2)%Q -> (inject_Z 160 <= inject_Z 160 * r)%Q /\ (inject_Z 160 * r <= inject_Z 320)%Q).
  { intros r R1 R2. split.
    - rewrite <- (Qmult_1_r (inject_Z 160)) at 1. rewrite !(Qmult_comm (inject_Z 160)). apply Qmult_le_compat_r; [exact R1|discriminate].
    - change (inject_Z 320) with (inject_Z 160 * 2)%Q. rewrite !(Qmult_comm (inject_Z 160)). apply Qmult_le_compat_r; [exact R2|discriminate]. }
  assert (FIT : forall q, (inject_Z 160 <= q)%Q -> (q <= inject_Z 320)%Q -> fits_int (long_double_round q)).
  { intros q Q1 Q2. destruct (BL q 160%Z 320%Z) as (v & Ev & V1 & V2); [apply IN; lia|apply IN; lia|exact Q1|exact Q2|].
    rewrite Ev. unfold fits_int, fpz. apply fp_le_fin. eapply Qle_trans; [exact V2|]. discriminate. }
  unfold all_hold, triangulation_requirements. rewrite PO.
  intros c e H. cbn [List.In] in H.
  repeat (destruct H as [H|H]; [apply pair_equal_spec in H; destruct H as [<- <-]|]); [..|destruct H].
  - discriminate.
  - reflexivity.
  - apply IN. lia.
  - apply IN. lia.
  - apply IN. lia.
  - reflexivity.
  - lia.
  - eexists. reflexivity.
  - eexists. reflexivity.
  - reflexivity.
  - apply fp_le_zero_iff_positive; [eexists; reflexivity|]. exists tiny. split; [reflexivity|exact T00].
  - exists o. exact EO.
  - unfold within_capacity. rewrite EO. unfold fpz. cbn [fdiv].
    assert (QZ : qzero o = false).
    { unfold qzero. destruct (Qeq_bool o 0) eqn:Z; [|reflexivity]. apply Qeq_bool_iff in Z. rewrite Z in O0. discriminate O0. }
    rewrite QZ. destruct (BL (inject_Z INT32_MAX / o)%Q 160%Z 2147483647%Z) as (v & Ev & V1 & V2); [apply IN; lia|apply IN; lia| | |].
    + apply Qle_shift_div_l; [exact O0|]. eapply Qle_trans; [apply MULP; assumption|]. discriminate.
    + apply Qle_shift_div_r; [exact O0|]. change (inject_Z INT32_MAX) with (inject_Z 2147483647 * 1)%Q. rewrite !(Qmult_comm (inject_Z 2147483647)).
      apply Qmult_le_compat_r; [exact O1|discriminate].
    + rewrite Ev. apply fp_le_fin. exact V1.
  - intros i Hi. unfold points_on, fpz. cbn [fmul].
    destruct (BD (inject_Z i * tiny)%Q 0%Z 1%Z) as (b & Eb & B1 & B2); [apply IN; lia|apply IN; lia| | |].
    + apply Qmult_le_0_compat; [change 0%Q with (inject_Z 0); rewrite <- Zle_Qle; lia|exact T0].
    + assert (i = 0%Z \/ i = 1%Z) as [-> | ->] by lia; [rewrite Qmult_0_l; discriminate|rewrite Qmult_1_l; exact T1].
    + rewrite Eb. cbn [fadd]. destruct (BD (1 + b)%Q 1%Z 2%Z) as (r & Er & R1 & R2); [apply IN; lia|apply IN; lia| | |].
      * change (inject_Z 1) with 1%Q. rewrite <- (Qplus_0_r 1) at 1. apply Qplus_le_r. exact B1.
      * change (inject_Z 2) with (1 + 1)%Q. apply Qplus_le_r. exact B2.
      * rewrite Er. cbn [fmul]. apply FIT; apply MULP; assumption.
  - unfold fpz. cbn [fmul]. destruct (BL (inject_Z 160 * 1)%Q 160%Z 320%Z) as (v & Ev & V1 & V2); [apply IN; lia|apply IN; lia|discriminate|discriminate|].
    rewrite Ev. apply fp_le_fin. eapply Qle_trans; [|exact V1]. discriminate.
  - rewrite EO. unfold fpz. cbn [fmul]. apply FIT; apply MULP; assumption.
  - lia.
  - reflexivity.
  - right. reflexivity.
Qed.
Lemma zero_one : exact double_round 0 /\ exact double_round 1.
Proof. split; [apply (double_int 0)|apply (double_int 1)]; unfold in_int32, INT32_MIN, INT32_MAX; lia. Qed.
Lemma pow2_bounds : (0 < pow2 (-60))%Q /\ (pow2 (-60) <= 1)%Q.
Proof. split; vm_compute; [reflexivity|discriminate]. Qed.
