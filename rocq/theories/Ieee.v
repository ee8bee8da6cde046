(** IEEE 754 round-to-nearest-even on the rationals, with gradual underflow and
    overflow to infinity: [ieee 53 1024] is double, [ieee 64 16384] the x87 long
    double. It satisfies the contracts [fp_contract] and [rounds]. *)
From Verif Require Import Base Config ConfigSpec ConfigFacts.
From Coq Require Import Reals Lra QArith QArith.Qreals QArith.Qabs QArith.Qpower.
From Flocq Require Import Core.
From Flocq Require Import Relative.
From Verif Require Import FoliationSpec ViewerSceneSpec.
Local Open Scope R_scope.

Section Ieee.
  Variables prec emax : Z.
  Definition emin : Z := (3 - emax - prec)%Z.
  Definition fexp : Z -> Z := FLT_exp emin prec.

  (** The rational m * 2^e. *)
  Definition Q_of (m e : Z) : Q := if (0 <=? e)%Z then inject_Z (m * 2 ^ e) else Qmake m (Z.to_pos (2 ^ (- e))).
  (** The nearest multiple of the unit in the last place of [x]. *)
  Definition significand (q : Q) : Z := ZnearestE (scaled_mantissa radix2 fexp (Q2R q)).
  Definition exponent (q : Q) : Z := cexp radix2 fexp (Q2R q).
  Definition nearest (q : Q) : Q := Q_of (significand q) (exponent q).
  Definition ieee (q : Q) : fp :=
    if Qle_bool (inject_Z (2 ^ emax)) (nearest q) then Inf false
    else if Qle_bool (nearest q) (inject_Z (- 2 ^ emax)) then Inf true
    else Fin (nearest q).

  Hypothesis Hprec : (1 < prec)%Z.
  Hypothesis Hmax : (prec <= emax)%Z.
  Instance prec_pos : Prec_gt_0 prec. Proof. unfold Prec_gt_0. lia. Qed.

  Lemma Q2R_Q_of m e : Q2R (Q_of m e) = F2R (Float radix2 m e).
  Proof.
    unfold Q_of, F2R. cbn [Fnum Fexp]. destruct (0 <=? e)%Z eqn:E.
    - apply Z.leb_le in E. unfold Q2R, inject_Z. cbn [Qnum Qden]. rewrite mult_IZR. rewrite <- (IZR_Zpower radix2 e E). cbn. field.
    - apply Z.leb_gt in E. unfold Q2R. cbn [Qnum Qden]. rewrite Z2Pos.id by (apply Z.pow_pos_nonneg; lia).
      replace (bpow radix2 e) with (/ bpow radix2 (- e)) by (rewrite bpow_opp; apply Rinv_inv).
      rewrite <- (IZR_Zpower radix2 (- e)) by lia. reflexivity.
  Qed.
  Lemma Q2R_nearest q : Q2R (nearest q) = Generic_fmt.round radix2 fexp ZnearestE (Q2R q).
  Proof. unfold nearest. rewrite Q2R_Q_of. reflexivity. Qed.
  Lemma Q2R_pow k : (0 <= k)%Z -> Q2R (inject_Z (2 ^ k)) = bpow radix2 k.
  Proof. intros H. unfold Q2R, inject_Z. cbn [Qnum Qden]. rewrite <- (IZR_Zpower radix2 k H). cbn. field. Qed.
  Lemma nearest_mono p q : (p <= q)%Q -> (nearest p <= nearest q)%Q.
  Proof.
    intros H. apply Rle_Qle. rewrite !Q2R_nearest. apply round_le; [apply FLT_exp_valid; exact prec_pos|typeclasses eauto|]. apply Qle_Rle. exact H.
  Qed.
  Lemma Qle_bool_false a b : Qle_bool a b = false <-> (b < a)%Q.
  Proof.
    split; intros H.
    - apply Qnot_le_lt. intros K. apply Qle_bool_iff in K. congruence.
    - destruct (Qle_bool a b) eqn:E; [|reflexivity]. apply Qle_bool_iff in E. exfalso. exact (Qlt_not_le _ _ H E).
  Qed.
  Lemma ieee_mono p q : (p <= q)%Q -> fp_le (ieee p) (ieee q) = true.
  Proof.
    intros H. apply nearest_mono in H. unfold ieee. set (x := nearest p) in *. set (y := nearest q) in *.
    set (B := inject_Z (2 ^ emax)). set (C := inject_Z (- 2 ^ emax)).
    destruct (Qle_bool B x) eqn:E1.
    - apply Qle_bool_iff in E1. rewrite (proj2 (Qle_bool_iff B y)); [reflexivity|]. exact (Qle_trans _ _ _ E1 H).
    - destruct (Qle_bool x C) eqn:E3.
      + destruct (Qle_bool B y), (Qle_bool y C); reflexivity.
      + apply Qle_bool_false in E3. rewrite (proj2 (Qle_bool_false y C)) by exact (Qlt_le_trans _ _ _ E3 H).
        destruct (Qle_bool B y); [reflexivity|]. apply fp_le_fin. exact H.
  Qed.

  (** Representable values. *)
  Definition representable (q : Q) : Prop := generic_format radix2 fexp (Q2R q) /\ Rabs (Q2R q) < bpow radix2 emax.
  Lemma exact_iff q : exact ieee q <-> representable q.
  Proof.
    assert (P0 : (0 <= emax)%Z) by lia. split.
    - intros H. unfold exact, ieee in H.
      destruct (Qle_bool (inject_Z (2 ^ emax)) (nearest q)) eqn:E1; [destruct H|].
      destruct (Qle_bool (nearest q) (inject_Z (- 2 ^ emax))) eqn:E2; [destruct H|].
      apply Qle_bool_false in E1. apply Qle_bool_false in E2. apply Qeq_eqR in H. rewrite Q2R_nearest in H. split.
      + rewrite <- H. apply generic_format_round; [apply FLT_exp_valid; exact prec_pos|typeclasses eauto].
      + apply Qlt_Rlt in E1. apply Qlt_Rlt in E2. rewrite Q2R_nearest, H in E1, E2. rewrite Q2R_pow in E1 by exact P0.
        rewrite inject_Z_opp, Q2R_opp, Q2R_pow in E2 by exact P0. apply Rabs_def1; assumption.
    - intros [F B]. assert (N : Q2R (nearest q) = Q2R q).
      { rewrite Q2R_nearest. apply round_generic; [typeclasses eauto|exact F]. }
      unfold exact, ieee. apply Rabs_def2 in B. destruct B as [B1 B2].
      rewrite (proj2 (Qle_bool_false _ _)).
      2:{ apply Rlt_Qlt. rewrite N, Q2R_pow by exact P0. exact B1. }
      rewrite (proj2 (Qle_bool_false _ _)).
      2:{ apply Rlt_Qlt. rewrite N, inject_Z_opp, Q2R_opp, Q2R_pow by exact P0. exact B2. }
      apply eqR_Qeq. exact N.
  Qed.
  Lemma ieee_int z : (Z.abs z < 2 ^ prec)%Z -> (emin <= 0)%Z -> exact ieee (inject_Z z).
  Proof.
    intros H E0. apply exact_iff. assert (Z : Q2R (inject_Z z) = IZR z) by (unfold Q2R, inject_Z; cbn [Qnum Qden]; field). unfold representable. rewrite Z. split.
    - apply generic_format_FLT. exists (Float radix2 z 0); cbn [Fnum Fexp]; [unfold F2R; cbn; ring|exact H|exact E0].
    - rewrite <- abs_IZR, <- (IZR_Zpower radix2 emax) by lia. apply IZR_lt. apply Z.lt_le_trans with (2 ^ prec)%Z; [exact H|].
      cbn. apply Z.pow_le_mono_r; lia.
  Qed.

  (** The error. *)
  Lemma round_error x y : 1 <= y -> Rabs x <= y -> (emin <= - prec)%Z ->
    Rabs (Generic_fmt.round radix2 fexp ZnearestE x - x) <= bpow radix2 (- prec) * y.
  Proof.
    intros Y X E. pose proof (FLT_exp_valid emin prec) as V. fold fexp in V.
    apply Rle_trans with (/ 2 * ulp radix2 fexp x); [apply error_le_half_ulp; exact V|].
    assert (U : ulp radix2 fexp x <= ulp radix2 fexp y).
    { rewrite <- (ulp_abs radix2 fexp x). apply ulp_le; [exact V|apply FLT_exp_monotone|]. rewrite Rabs_Rabsolu. rewrite (Rabs_pos_eq y) by lra. exact X. }
    assert (UY : ulp radix2 fexp y = bpow radix2 (mag radix2 y - prec)).
    { rewrite ulp_neq_0 by lra. unfold cexp, fexp, FLT_exp. f_equal. apply Z.max_l.
      assert (1 <= mag radix2 y)%Z; [|lia]. assert (0 < mag radix2 y)%Z; [|lia]. apply (mag_gt_bpow radix2 y 0). cbn [bpow]. rewrite Rabs_pos_eq; lra. }
    assert (M : bpow radix2 (mag radix2 y - 1) <= y).
    { pose proof (bpow_mag_le radix2 y) as K. rewrite Rabs_pos_eq in K by lra. apply K. lra. }
    rewrite UY in U. replace (mag radix2 y - prec)%Z with (1 + (- prec + (mag radix2 y - 1)))%Z in U by ring.
    rewrite (bpow_plus radix2 1), (bpow_plus radix2 (- prec)) in U. change (bpow radix2 1) with 2 in U.
    pose proof (bpow_gt_0 radix2 (- prec)).
    assert (bpow radix2 (- prec) * bpow radix2 (mag radix2 y - 1) <= bpow radix2 (- prec) * y) by (apply Rmult_le_compat_l; lra).
    lra.
  Qed.
  (** What it computes: the values of the format are the m 2^e with |m| < 2^prec and
      e >= emin that are less than 2^emax in magnitude. *)
  Definition floating (w : Q) : Prop :=
    (Qabs w < inject_Z (2 ^ emax))%Q /\ exists m e, (Z.abs m < 2 ^ prec)%Z /\ (emin <= e)%Z /\ (w == Q_of m e)%Q.
  Lemma Q2R_abs q : Q2R (Qabs q) = Rabs (Q2R q).
  Proof using.
    unfold Rabs. destruct (Rcase_abs (Q2R q)) as [L|L].
    - rewrite <- Q2R_opp. apply Qeq_eqR. apply Qabs_neg. apply Rle_Qle. change (Q2R 0) with (0 * / 1). lra.
    - apply Qeq_eqR. apply Qabs_pos. apply Rle_Qle. change (Q2R 0) with (0 * / 1). lra.
  Qed.
  Lemma floating_iff w : floating w <-> representable w.
  Proof.
    unfold floating, representable. rewrite <- Q2R_abs, <- Q2R_pow by lia. split; intros [A B].
    - split; [|apply Qlt_Rlt; exact B || exact A]. destruct B as (m & e & M & E & W). apply Qeq_eqR in W. rewrite W, Q2R_Q_of.
      apply generic_format_FLT. exists (Float radix2 m e); [reflexivity|exact M|exact E].
    - split; [apply Rlt_Qlt; exact B|]. apply FLT_format_generic in A. 2: exact prec_pos. destruct A as [[m e] W M E]. exists m, e.
      split; [exact M|]. split; [exact E|]. apply eqR_Qeq. rewrite Q2R_Q_of. exact W.
  Qed.
  Lemma ieee_nearest q v : ieee q = Fin v -> floating v /\ forall w, floating w -> (Qabs (v - q) <= Qabs (w - q))%Q.
  Proof.
    intros H. assert (E : representable v /\ Q2R v = Generic_fmt.round radix2 fexp ZnearestE (Q2R q)).
    { assert (P0 : (0 <= emax)%Z) by lia. unfold ieee in H.
      destruct (Qle_bool (inject_Z (2 ^ emax)) (nearest q)) eqn:E1; [discriminate H|].
      destruct (Qle_bool (nearest q) (inject_Z (- 2 ^ emax))) eqn:E2; [discriminate H|]. injection H as <-.
      apply Qle_bool_false in E1. apply Qle_bool_false in E2. unfold representable. rewrite !Q2R_nearest. split; [|reflexivity]. split.
      + apply generic_format_round; [apply FLT_exp_valid; exact prec_pos|typeclasses eauto].
      + apply Qlt_Rlt in E1. apply Qlt_Rlt in E2. rewrite Q2R_nearest in E1, E2. rewrite Q2R_pow in E1 by exact P0.
        rewrite inject_Z_opp, Q2R_opp, Q2R_pow in E2 by exact P0. apply Rabs_def1; assumption. }
    destruct E as [Rv E]. split; [apply floating_iff; exact Rv|]. intros w W. apply floating_iff in W. destruct W as [W _].
    apply Rle_Qle. rewrite !Q2R_abs, !Q2R_minus, E.
    pose proof (FLT_exp_valid emin prec) as V. fold fexp in V.
    destruct (round_N_pt radix2 fexp (fun x => negb (Z.even x)) (Q2R q)) as [_ N]. apply N. exact W.
  Qed.
  (** Overflow: from half a unit below 2^emax on. *)
  Lemma top_pred : pred radix2 fexp (bpow radix2 emax) = bpow radix2 emax - bpow radix2 (emax - prec).
  Proof.
    pose proof (FLT_exp_valid emin prec) as V. fold fexp in V. rewrite pred_bpow. f_equal. f_equal. unfold fexp, FLT_exp, emin. lia.
  Qed.
  Lemma round_top x : bpow radix2 emax <= Generic_fmt.round radix2 fexp ZnearestE x <->
    bpow radix2 emax - bpow radix2 (emax - prec - 1) <= x.
  Proof.
    pose proof (FLT_exp_valid emin prec) as V. fold fexp in V.
    assert (FB : generic_format radix2 fexp (bpow radix2 emax)) by (apply generic_format_bpow; unfold fexp, FLT_exp, emin; lia).
    assert (PB : bpow radix2 (emax - prec) = 2 * bpow radix2 (emax - prec - 1)).
    { replace (emax - prec)%Z with (1 + (emax - prec - 1))%Z at 1 by ring. rewrite bpow_plus. reflexivity. }
    split; intros H.
    - apply Rnot_lt_le. intros L.
      assert (K : Generic_fmt.round radix2 fexp ZnearestE x <= pred radix2 fexp (bpow radix2 emax)).
      { apply round_N_le_midp; [exact V|apply generic_format_pred; [exact V|exact FB]|]. rewrite succ_pred by (exact V || exact FB). rewrite top_pred. lra. }
      rewrite top_pred in K. pose proof (bpow_gt_0 radix2 (emax - prec)). lra.
    - apply Rle_trans with (Generic_fmt.round radix2 fexp ZnearestE (bpow radix2 emax - bpow radix2 (emax - prec - 1))).
      2:{ apply round_le; [exact V|typeclasses eauto|exact H]. }
      right. symmetry. set (y := bpow radix2 emax - bpow radix2 (emax - prec - 1)).
      assert (G : bpow radix2 (emax - 1) <= y < bpow radix2 emax).
      { unfold y. pose proof (bpow_gt_0 radix2 (emax - prec - 1)).
        assert (bpow radix2 (emax - prec - 1) <= bpow radix2 (emax - 1)) by (apply bpow_le; lia).
        assert (bpow radix2 emax = 2 * bpow radix2 (emax - 1)).
        { replace emax with (1 + (emax - 1))%Z at 1 by ring. rewrite (bpow_plus radix2 1). reflexivity. }
        lra. }
      assert (C : cexp radix2 fexp y = (emax - prec)%Z).
      { unfold cexp. rewrite (mag_unique_pos radix2 y emax G). unfold fexp, FLT_exp, emin. lia. }
      unfold Generic_fmt.round, F2R, scaled_mantissa. rewrite C. cbn [Fnum Fexp].
      assert (S : y * bpow radix2 (- (emax - prec)) = IZR (2 ^ prec) - / 2).
      { unfold y. rewrite Rmult_minus_distr_r, <- !bpow_plus. replace (emax + - (emax - prec))%Z with prec by ring.
        replace (emax - prec - 1 + - (emax - prec))%Z with (- (1))%Z by ring. rewrite <- (IZR_Zpower radix2 prec) by lia. reflexivity. }
      rewrite S. replace (ZnearestE (IZR (2 ^ prec) - / 2)) with (2 ^ prec)%Z.
      + rewrite (IZR_Zpower radix2 prec : _ -> IZR (2 ^ prec) = _) by lia. rewrite <- bpow_plus. f_equal. ring.
      + assert (F : Zfloor (IZR (2 ^ prec) - / 2) = (2 ^ prec - 1)%Z). { apply Zfloor_imp. rewrite plus_IZR, minus_IZR. lra. }
        assert (Ce : Zceil (IZR (2 ^ prec) - / 2) = (2 ^ prec)%Z). { apply Zceil_imp. rewrite minus_IZR. lra. }
        unfold Znearest. rewrite F, Ce, minus_IZR. rewrite Rcompare_Eq by lra.
        replace (Z.even (2 ^ prec - 1)) with false; [reflexivity|]. symmetry. rewrite Z.even_sub, Z.even_pow by lia. reflexivity.
  Qed.
  Lemma Q2R_top : Q2R (inject_Z (2 ^ emax - 2 ^ (emax - prec - 1))) = bpow radix2 emax - bpow radix2 (emax - prec - 1) \/ emax = prec.
  Proof.
    destruct (Z.eq_dec emax prec) as [E|E]; [right; exact E|left]. unfold Z.sub at 1.
    rewrite inject_Z_plus, Q2R_plus, inject_Z_opp, Q2R_opp, !Q2R_pow by lia. reflexivity.
  Qed.
  Lemma ieee_overflow q : (prec < emax)%Z -> ieee q = Inf false <-> (inject_Z (2 ^ emax - 2 ^ (emax - prec - 1)) <= q)%Q.
  Proof.
    intros L. destruct Q2R_top as [T|T]; [|lia]. assert (P0 : (0 <= emax)%Z) by lia. unfold ieee. split.
    - intros H. apply Rle_Qle. rewrite T. apply round_top. rewrite <- Q2R_nearest, <- Q2R_pow by exact P0. apply Qle_Rle.
      destruct (Qle_bool (inject_Z (2 ^ emax)) (nearest q)) eqn:E1; [apply Qle_bool_iff; exact E1|].
      destruct (Qle_bool (nearest q) (inject_Z (- 2 ^ emax))); discriminate H.
    - intros H. apply Qle_Rle in H. rewrite T in H. apply round_top in H. rewrite <- Q2R_nearest, <- Q2R_pow in H by exact P0. apply Rle_Qle in H.
      rewrite (proj2 (Qle_bool_iff _ _) H). reflexivity.
  Qed.
End Ieee.

Definition double_round : Q -> fp := ieee 53 1024.
Definition long_double_round : Q -> fp := ieee 64 16384.

Lemma ieee_contract : fp_contract double_round long_double_round.
Proof.
  assert (S : forall z, in_int32 z -> (Z.abs z < 2 ^ 53)%Z /\ (Z.abs z < 2 ^ 64)%Z).
  { intros z H. unfold in_int32, INT32_MIN, INT32_MAX in H. lia. }
  split.
  - intros p q. apply ieee_mono; lia.
  - intros p q. apply ieee_mono; lia.
  - intros z H. apply ieee_int; [lia|lia|apply S; exact H|unfold emin; lia].
  - intros z H. apply ieee_int; [lia|lia|apply S; exact H|unfold emin; lia].
  - intros q H. apply exact_iff in H; [|lia|lia]. apply exact_iff; [lia|lia|]. destruct H as [F B]. split.
    + revert F. apply generic_inclusion_mag. intros N. unfold fexp, FLT_exp, emin. lia.
    + apply Rlt_trans with (1 := B). apply bpow_lt. lia.
Qed.

Lemma ieee_rounds : rounds (1 # 9007199254740992) (inject_Z (2 ^ 1000)) double_round.
Proof.
  intros q m [M1 M2] A. exists (nearest 53 1024 q).
  apply Qle_Rle in M1, M2, A. rewrite Q2R_pow in M2 by lia.
  assert (A' : Rabs (Q2R q) <= Q2R m).
  { unfold Rabs. apply Qle_Rle in A || idtac. destruct (Rcase_abs (Q2R q)) as [L|L].
    - rewrite Qabs_neg in A; [|apply Rle_Qle; change (Q2R 0) with (0 * / 1); lra]. rewrite Q2R_opp in A. exact A.
    - rewrite Qabs_pos in A; [|apply Rle_Qle; change (Q2R 0) with (0 * / 1); lra]. exact A. }
  assert (M1' : 1 <= Q2R m) by (change (Q2R 1) with (1 * / 1) in M1; lra).
  pose proof (round_error 53 1024 ltac:(lia) (Q2R q) (Q2R m) M1' A' ltac:(unfold emin; lia)) as E.
  rewrite <- Q2R_nearest in E. set (v := nearest 53 1024 q) in *.
  assert (U : Q2R (1 # 9007199254740992) = bpow radix2 (- (53))).
  { unfold Q2R. cbn [Qnum Qden]. rewrite bpow_opp, <- (IZR_Zpower radix2 53) by lia. rewrite Rmult_1_l. reflexivity. }
  assert (BB : bpow radix2 1000 < bpow radix2 1022) by (apply bpow_lt; lia).
  assert (B2 : bpow radix2 1022 + bpow radix2 1022 < bpow radix2 1024).
  { change 1024%Z with (2 + 1022)%Z. rewrite bpow_plus. change (bpow radix2 2) with 4. pose proof (bpow_gt_0 radix2 1022). lra. }
  assert (V : Rabs (Q2R v) < bpow radix2 1024).
  { replace (Q2R v) with ((Q2R v - Q2R q) + Q2R q) by ring. eapply Rle_lt_trans; [apply Rabs_triang|].
    assert (bpow radix2 (- (53)) * Q2R m <= Q2R m).
    { rewrite <- (Rmult_1_l (Q2R m)) at 2. apply Rmult_le_compat_r; [lra|]. change 1 with (bpow radix2 0). apply bpow_le. lia. }
    lra. }
  apply Rabs_def2 in V. destruct V as [V1 V2]. split.
  - unfold double_round, ieee. fold v.
    rewrite (proj2 (Qle_bool_false _ _)) by (apply Rlt_Qlt; rewrite Q2R_pow by lia; exact V1).
    rewrite (proj2 (Qle_bool_false _ _)) by (apply Rlt_Qlt; rewrite inject_Z_opp, Q2R_opp, Q2R_pow by lia; exact V2).
    reflexivity.
  - apply Rle_Qle. rewrite Q2R_mult, U. refine (Rle_trans _ _ _ _ E). right.
    unfold Rabs. destruct (Rcase_abs (Q2R v - Q2R q)) as [L|L].
    + rewrite Qabs_neg; [rewrite Q2R_opp, Q2R_minus; ring|]. apply Rle_Qle. rewrite Q2R_minus. change (Q2R 0) with (0 * / 1). lra.
    + rewrite Qabs_pos; [rewrite Q2R_minus; ring|]. apply Rle_Qle. rewrite Q2R_minus. change (Q2R 0) with (0 * / 1). lra.
Qed.

Lemma ieee_sample : is_double double_round (Fin 1) /\ is_double double_round (Fin (inject_Z 5)) /\ floating 53 1024 (3 # 8).
Proof.
  split; [apply (rd_int _ _ ieee_contract 1); unfold in_int32, INT32_MIN, INT32_MAX; lia|].
  split; [apply (rd_int _ _ ieee_contract 5); unfold in_int32, INT32_MIN, INT32_MAX; lia|].
  split; [vm_compute; reflexivity|]. exists 3%Z, (-3)%Z. split; [reflexivity|]. split; [unfold emin; lia|reflexivity].
Qed.

Lemma small_error x : Rabs (Generic_fmt.round radix2 (fexp 53 1024) ZnearestE x - x) <= bpow radix2 (- (53)) * Rabs x + bpow radix2 (- (1074)).
Proof.
  assert (PP : Prec_gt_0 53) by reflexivity.
  pose proof (bpow_gt_0 radix2 (- (53))). pose proof (bpow_gt_0 radix2 (- (1074))). pose proof (Rabs_pos x).
  assert (0 <= bpow radix2 (- (53)) * Rabs x) by (apply Rmult_le_pos; lra).
  destruct (Rlt_or_le (Rabs x) (bpow radix2 (emin 53 1024 + 53))) as [L|L].
  - pose proof (FLT_exp_valid (emin 53 1024) 53) as V.
    pose proof (error_le_half_ulp radix2 (FLT_exp (emin 53 1024) 53) (fun z => negb (Z.even z)) x) as E.
    rewrite (ulp_FLT_small radix2 (emin 53 1024) 53 x L) in E. change (emin 53 1024) with (- (1074))%Z in E.
    unfold fexp. change (emin 53 1024) with (- (1074))%Z. lra.
  - pose proof (relative_error_N_FLT radix2 (emin 53 1024) 53 PP (fun z => negb (Z.even z)) x) as E.
    eapply Rle_trans; [apply E|].
    + eapply Rle_trans; [|exact L]. apply bpow_le. lia.
    + change (- (53) + 1)%Z with (1 + - (53))%Z. rewrite bpow_plus. change (bpow radix2 1) with 2. lra.
Qed.
Lemma Q2R_pow2 n : Q2R (pow2 n) = bpow radix2 n.
Proof.
  assert (P : forall k, (0 <= k)%Z -> Q2R (2 ^ k)%Q = bpow radix2 k).
  { intros k K. rewrite <- Q2R_pow by exact K. apply Qeq_eqR. symmetry. apply (Zpower_Qpower 2 k K). }
  unfold pow2. destruct (Z_le_gt_dec 0 n) as [L|L]; [apply P; exact L|].
  replace n with (- - n)%Z by lia. rewrite (Qeq_eqR _ _ (Qpower_opp 2 (- n))). rewrite Q2R_inv.
  - rewrite P by lia. rewrite <- bpow_opp. reflexivity.
  - intros E. apply Qeq_eqR in E. rewrite P in E by lia. change (Q2R 0) with (0 * / 1) in E. pose proof (bpow_gt_0 radix2 (- n)). lra.
Qed.
Lemma ieee_is_double : ieee_double double_round.
Proof.
  intros q A. apply Qle_Rle in A. rewrite Q2R_abs, Q2R_pow2 in A. exists (nearest 53 1024 q).
  pose proof (small_error (Q2R q)) as E. rewrite <- Q2R_nearest in E. set (v := nearest 53 1024 q) in *.
  assert (BB : bpow radix2 1000 < bpow radix2 1022) by (apply bpow_lt; lia).
  assert (B2 : bpow radix2 1022 + bpow radix2 1022 < bpow radix2 1024).
  { change 1024%Z with (2 + 1022)%Z. rewrite bpow_plus. change (bpow radix2 2) with 4. pose proof (bpow_gt_0 radix2 1022). lra. }
  assert (TT : bpow radix2 (- (1074)) <= bpow radix2 0) by (apply bpow_le; lia).
  assert (TH : 8 * bpow radix2 0 < bpow radix2 1022).
  { change 8 with (bpow radix2 3). rewrite <- bpow_plus. apply bpow_lt. lia. }
  assert (V : Rabs (Q2R v) < bpow radix2 1024).
  { replace (Q2R v) with ((Q2R v - Q2R q) + Q2R q) by ring. eapply Rle_lt_trans; [apply Rabs_triang|].
    assert (bpow radix2 (- (53)) * Rabs (Q2R q) <= / 8 * Rabs (Q2R q)).
    { apply Rmult_le_compat_r; [apply Rabs_pos|]. change (/ 8) with (bpow radix2 (- (3))). apply bpow_le. lia. }
    pose proof (bpow_gt_0 radix2 0). lra. }
  apply Rabs_def2 in V. destruct V as [V1 V2]. split.
  - unfold double_round, ieee. fold v.
    rewrite (proj2 (Qle_bool_false _ _)) by (apply Rlt_Qlt; rewrite Q2R_pow by lia; exact V1).
    rewrite (proj2 (Qle_bool_false _ _)) by (apply Rlt_Qlt; rewrite inject_Z_opp, Q2R_opp, Q2R_pow by lia; exact V2).
    reflexivity.
  - apply Rle_Qle. rewrite Q2R_plus, Q2R_mult, !Q2R_abs, !Q2R_pow2, Q2R_minus. exact E.
Qed.
