(** Facts about [generate_random_real]. *)
From Verif Require Import Base Config ConfigSpec ConfigFacts.
From Coq Require Import Reals Lra QArith QArith.Qreals QArith.Qabs.
From Flocq Require Import Core.
From Flocq Require Import Relative Plus_error Mult_error.
From Verif Require Import Run Pcg PcgFacts PcgProps Draw DrawFacts DrawProps Ieee DrawReal DrawRealSpec.
Local Open Scope R_scope.

Section Format.
  Variables prec emax : Z.
  Hypothesis Hprec : (1 < prec)%Z.
  Hypothesis Hmax : (prec <= emax)%Z.
  Local Instance real_prec_pos : Prec_gt_0 prec. Proof. unfold Prec_gt_0. lia. Qed.
  Notation fe := (fexp prec emax).
  Notation emin := (Ieee.emin prec emax).
  Local Instance real_valid : Valid_exp fe. Proof. apply FLT_exp_valid. exact real_prec_pos. Qed.
  Local Instance real_mono : Monotone_exp fe. Proof. apply FLT_exp_monotone. Qed.
  Notation RN := (Generic_fmt.round radix2 fe ZnearestE).
  Notation F := (generic_format radix2 fe).
  Notation top := (bpow radix2 emax).

  Lemma RN_le x y : x <= y -> RN x <= RN y.
  Proof. intros H. apply round_le; [exact real_valid|typeclasses eauto|exact H]. Qed.
  Lemma RN_F x : F x -> RN x = x.
  Proof. intros H. apply round_generic; [typeclasses eauto|exact H]. Qed.
  Lemma F_RN x : F (RN x).
  Proof. apply generic_format_round; typeclasses eauto. Qed.
  Lemma RN_le_F x y : x <= y -> F y -> RN x <= y.
  Proof. intros H K. rewrite <- (RN_F y K). apply RN_le. exact H. Qed.
  Lemma RN_ge_F x y : x <= y -> F x -> x <= RN y.
  Proof. intros H K. rewrite <- (RN_F x K). apply RN_le. exact H. Qed.
  Lemma F_0 : F 0. Proof. apply generic_format_0. Qed.

  Notation normal := (bpow radix2 (emin + prec - 1)).
  Notation u := (bpow radix2 (- prec)).

  (** A product with a fraction below 1 - 2^-prec stays below a normal number. *)
  Lemma shrink D c : F D -> normal < D -> 0 <= c <= 1 - u -> RN (c * D) <= pred radix2 fe D.
  Proof.
    intros FD ND C. pose proof (bpow_gt_0 radix2 (emin + prec - 1)) as N0. assert (D0 : 0 < D) by lra.
    apply round_N_le_midp; [exact real_valid|apply generic_format_pred; [exact real_valid|exact FD]|].
    rewrite succ_pred by (try exact real_valid; exact FD).
    set (e := mag_val radix2 D (mag radix2 D)).
    assert (E : bpow radix2 (e - 1) <= D < bpow radix2 e).
    { unfold e. destruct (mag radix2 D) as (k & K). cbn. rewrite <- (Rabs_pos_eq D) by lra. apply K. lra. }
    assert (Ee : (emin + prec <= e)%Z).
    { unfold e. apply Z.le_trans with (mag_val radix2 normal (mag radix2 normal)).
      - rewrite mag_bpow. lia.
      - apply mag_le; [exact N0|lra]. }
    assert (fe e = e - prec)%Z as Fe by (unfold fexp, FLT_exp; lia).
    assert (UD : ulp radix2 fe D = bpow radix2 (e - prec)).
    { rewrite ulp_neq_0 by lra. unfold cexp. fold e. rewrite Fe. reflexivity. }
    assert (Ux : bpow radix2 (e - 1 - prec) <= u * D).
    { replace (e - 1 - prec)%Z with (- prec + (e - 1))%Z by ring. rewrite bpow_plus. apply Rmult_le_compat_l; [apply bpow_ge_0|lra]. }
    assert (HU : bpow radix2 (e - prec) = 2 * bpow radix2 (e - 1 - prec)).
    { replace (e - prec)%Z with (1 + (e - 1 - prec))%Z by ring. rewrite bpow_plus. reflexivity. }
    assert (CD : c * D <= D - u * D).
    { apply Rle_trans with ((1 - u) * D); [apply Rmult_le_compat_r; lra|lra]. }
    rewrite pred_eq_pos by lra. unfold pred_pos. fold e. destruct (Req_bool_spec D (bpow radix2 (e - 1))) as [P|P].
    - assert (e <> emin + prec)%Z as G.
      { intros G. rewrite G in P. lra. }
      assert (fe (e - 1) <= e - 1 - prec)%Z as G2 by (unfold fexp, FLT_exp; lia).
      assert (bpow radix2 (fe (e - 1)) <= bpow radix2 (e - 1 - prec)) by (apply bpow_le; exact G2).
      pose proof (bpow_gt_0 radix2 (fe (e - 1))). lra.
    - assert (bpow radix2 (e - 1 - prec) < u * D).
      { replace (e - 1 - prec)%Z with (- prec + (e - 1))%Z by ring. rewrite bpow_plus. apply Rmult_lt_compat_l; [apply bpow_gt_0|]. lra. }
      rewrite UD. lra.
  Qed.

  Lemma difference_small a b : F a -> F b -> Rabs (b - a) <= bpow radix2 (prec + emin) -> F (b - a).
  Proof. intros A B H. apply FLT_format_plus_small; [exact real_prec_pos|exact B|apply generic_format_opp; exact A|exact H]. Qed.

  Section Scale.
    Variables a b c : R.
    Hypothesis Fa : F a.
    Hypothesis Fb : F b.
    Hypothesis ab : a <= b.
    Hypothesis C : 0 <= c <= 1 - u.
    Let D := RN (b - a).
    Let P := RN (c * D).
    Lemma D_pos : 0 <= D.
    Proof. apply RN_ge_F; [lra|exact F_0]. Qed.
    Lemma c_le : 0 <= c <= 1.
    Proof. pose proof (bpow_gt_0 radix2 (- prec)). lra. Qed.
    Lemma P_pos : 0 <= P.
    Proof. apply RN_ge_F; [|exact F_0]. apply Rmult_le_pos; [apply C|exact D_pos]. Qed.
    Lemma P_le_D : P <= D.
    Proof.
      apply RN_le_F; [|apply F_RN]. rewrite <- (Rmult_1_l D) at 2. apply Rmult_le_compat_r; [exact D_pos|apply c_le].
    Qed.
    Lemma P_le : P <= b - a.
    Proof.
      pose proof P_le_D. destruct (Rle_lt_dec D (b - a)) as [L|L]; [lra|].
      destruct (Rle_lt_dec D normal) as [S|S].
      - exfalso. assert (E : D = b - a); [|lra]. apply RN_F. apply difference_small; [exact Fa|exact Fb|].
        rewrite Rabs_pos_eq by lra. apply Rle_trans with normal; [lra|]. apply bpow_le. lia.
      - pose proof (shrink D c (F_RN _) S C) as H1. fold P in H1. apply Rle_trans with (1 := H1).
        destruct (Rle_lt_dec (b - a) (pred radix2 fe D)) as [G|G]; [|lra]. exfalso.
        assert (DP : D <> 0) by (pose proof (bpow_gt_0 radix2 (emin + prec - 1)); lra).
        assert (D <= pred radix2 fe D) by (apply RN_le_F; [exact G|apply generic_format_pred; [exact real_valid|apply F_RN]]).
        pose proof (pred_lt_id radix2 fe D DP). lra.
    Qed.
    Lemma scale_bounds : a <= RN (P + a) <= b.
    Proof.
      pose proof P_pos. pose proof P_le. split; [apply RN_ge_F; [lra|exact Fa]|apply RN_le_F; [lra|exact Fb]].
    Qed.
    Lemma scale_below : a <= 0 -> F (b - a) -> normal < b -> RN (P + a) < b.
    Proof.
      intros A0 FD NB. assert (E : D = b - a) by (apply RN_F; exact FD).
      pose proof (bpow_gt_0 radix2 (emin + prec - 1)) as N0.
      assert (S : normal < D) by lra. pose proof (shrink D c (F_RN _) S C) as H1. fold P in H1.
      assert (UD : pred radix2 fe D + ulp radix2 fe (pred radix2 fe D) = D) by (apply (pred_plus_ulp radix2 fe D); [lra|apply F_RN]).
      assert (UB : pred radix2 fe b + ulp radix2 fe (pred radix2 fe b) = b) by (apply (pred_plus_ulp radix2 fe b); [lra|exact Fb]).
      assert (L : ulp radix2 fe (pred radix2 fe b) <= ulp radix2 fe (pred radix2 fe D)).
      { apply ulp_le_pos; [exact real_valid|exact real_mono|apply pred_ge_0; [exact real_valid|lra|exact Fb]|].
        apply pred_le; [exact real_valid|exact Fb|apply F_RN|lra]. }
      apply Rle_lt_trans with (pred radix2 fe b).
      - apply RN_le_F; [lra|apply generic_format_pred; [exact real_valid|exact Fb]].
      - apply pred_lt_id. lra.
    Qed.

    (** The error. *)
    Lemma RN_error x y : Rabs x <= y -> Rabs (RN x - x) <= u * y + / 2 * bpow radix2 emin.
    Proof.
      intros H. pose proof (relative_error_N_FLT'_ex radix2 emin prec real_prec_pos (fun z => negb (Z.even z)) x) as (d & n & H1 & H2 & _ & H3).
      change (Generic_fmt.round radix2 (FLT_exp emin prec) (Znearest (fun z => negb (Z.even z))) x) with (RN x) in H3.
      rewrite H3. replace (x * (1 + d) + n - x) with (x * d + n) by ring.
      apply Rle_trans with (1 := Rabs_triang _ _). rewrite Rabs_mult. apply Rplus_le_compat; [|exact H2].
      assert (D1 : Rabs d <= u).
      { apply Rle_trans with (1 := H1). unfold u_ro.
        replace (1 - prec)%Z with (1 + - prec)%Z by ring. rewrite bpow_plus. change (bpow radix2 1) with 2.
        pose proof (bpow_gt_0 radix2 (- prec)) as B. set (v := bpow radix2 (- prec)) in *.
        replace (/ 2 * (v * 2)) with v by field. replace (/ 2 * (2 * v)) with v by field.
        apply Rmult_le_reg_r with (1 + v); [lra|]. replace (v / (1 + v) * (1 + v)) with v by (field; lra).
        rewrite Rmult_plus_distr_l, Rmult_1_r. assert (0 < v * v) by (apply Rmult_lt_0_compat; exact B). lra. }
      rewrite Rmult_comm. apply Rmult_le_compat; [apply Rabs_pos|apply Rabs_pos|exact D1|exact H].
    Qed.
    Lemma scale_error t M : Rabs a <= M -> Rabs b <= M -> Rabs (c - t) <= u ->
      Rabs (RN (P + a) - (a + t * (b - a))) <= 8 * u * M + 2 * bpow radix2 emin.
    Proof.
      intros Ma Mb Ct. pose proof P_pos as P0. pose proof P_le as P1. pose proof D_pos as D0. pose proof c_le as C1.
      assert (U : 0 < u <= / 4).
      { split; [apply bpow_gt_0|]. change (/ 4) with (bpow radix2 (-2)). apply bpow_le. lia. }
      assert (A1 : - M <= a <= M) by (apply Rabs_le_inv; exact Ma).
      assert (B1 : - M <= b <= M) by (apply Rabs_le_inv; exact Mb).
      assert (M0 : 0 <= M) by lra. pose proof (bpow_gt_0 radix2 emin) as N0. set (eta := bpow radix2 emin) in *. set (v := u) in *.
      assert (E1 : Rabs (D - (b - a)) <= v * (2 * M) + / 2 * eta) by (apply RN_error; apply Rabs_le; lra).
      assert (DM : D <= 2 * M + v * (2 * M) + / 2 * eta) by (apply Rabs_le_inv in E1; lra).
      assert (CD : 0 <= c * D <= D) by nra.
      assert (E2 : Rabs (P - c * D) <= v * D + / 2 * eta) by (apply RN_error; apply Rabs_le; lra).
      assert (E3 : Rabs (RN (P + a) - (P + a)) <= v * M + / 2 * eta) by (apply RN_error; apply Rabs_le; lra).
      replace (RN (P + a) - (a + t * (b - a))) with
        ((RN (P + a) - (P + a)) + ((P - c * D) + (c * (D - (b - a)) + (c - t) * (b - a)))) by ring.
      assert (E4 : Rabs (c * (D - (b - a))) <= v * (2 * M) + / 2 * eta).
      { rewrite Rabs_mult, (Rabs_pos_eq c) by lra. apply Rle_trans with (1 * Rabs (D - (b - a))); [apply Rmult_le_compat_r; [apply Rabs_pos|lra]|lra]. }
      assert (E5 : Rabs ((c - t) * (b - a)) <= v * (2 * M)).
      { rewrite Rabs_mult. apply Rmult_le_compat; [apply Rabs_pos|apply Rabs_pos|exact Ct|apply Rabs_le; lra]. }
      apply Rle_trans with ((v * M + / 2 * eta) + ((v * D + / 2 * eta) + ((v * (2 * M) + / 2 * eta) + v * (2 * M)))).
      - apply Rle_trans with (1 := Rabs_triang _ _). apply Rplus_le_compat; [exact E3|].
        apply Rle_trans with (1 := Rabs_triang _ _). apply Rplus_le_compat; [exact E2|].
        apply Rle_trans with (1 := Rabs_triang _ _). apply Rplus_le_compat; [exact E4|exact E5].
      - assert (VD : v * D <= v * (2 * M + v * (2 * M) + / 2 * eta)) by (apply Rmult_le_compat_l; lra).
        assert (VM : 0 <= v * M) by (apply Rmult_le_pos; lra). assert (VV : v * (v * M) <= / 4 * (v * M)) by (apply Rmult_le_compat_r; lra).
        assert (VE : v * eta <= / 4 * eta) by (apply Rmult_le_compat_r; lra).
        replace (v * (2 * M + v * (2 * M) + / 2 * eta)) with (2 * (v * M) + 2 * (v * (v * M)) + / 2 * (v * eta)) in VD by ring.
        replace (8 * v * M) with (8 * (v * M)) by ring. lra.
    Qed.
  End Scale.

  (** Rationals. *)
  Lemma ieee_Fin q : Rabs (RN (Q2R q)) < top -> exists v, ieee prec emax q = Fin v /\ Q2R v = RN (Q2R q).
  Proof.
    intros H. exists (nearest prec emax q). split; [|apply Q2R_nearest]. apply Rabs_def2 in H. unfold ieee.
    assert (P0 : (0 <= emax)%Z) by lia.
    assert ((2 ^ emax)%Z = (2 ^ emax)%Z) by reflexivity.
    destruct (Qle_bool (inject_Z (2 ^ emax)) (nearest prec emax q)) eqn:E1.
    { apply Qle_bool_iff, Qle_Rle in E1. rewrite Q2R_pow, Q2R_nearest in E1 by exact P0. lra. }
    destruct (Qle_bool (nearest prec emax q) (inject_Z (- 2 ^ emax))) eqn:E2; [|reflexivity].
    apply Qle_bool_iff, Qle_Rle in E2. rewrite inject_Z_opp, Q2R_opp, Q2R_pow, Q2R_nearest in E2 by exact P0. lra.
  Qed.
  Lemma ieee_Fin_inv q v : ieee prec emax q = Fin v -> Q2R v = RN (Q2R q) /\ Rabs (Q2R v) < top.
  Proof.
    unfold ieee. assert (P0 : (0 <= emax)%Z) by lia.
    destruct (Qle_bool (inject_Z (2 ^ emax)) (nearest prec emax q)) eqn:E1; [discriminate|].
    destruct (Qle_bool (nearest prec emax q) (inject_Z (- 2 ^ emax))) eqn:E2; [discriminate|].
    intros H. injection H as <-. split; [apply Q2R_nearest|]. apply Qle_bool_false, Qlt_Rlt in E1, E2.
    rewrite inject_Z_opp, Q2R_opp, Q2R_pow in E2 by exact P0. rewrite Q2R_pow in E1 by exact P0. apply Rabs_def1; lra.
  Qed.
End Format.

(** ** The three types *)
Lemma type_facts t : (1 < digits t)%Z /\ (digits t <= max_exponent t)%Z /\ (128 <= max_exponent t)%Z /\ (digits t <= 64)%Z.
Proof. destruct t; cbn; lia. Qed.
Notation tfe t := (fexp (digits t) (max_exponent t)).
Notation tRN t := (Generic_fmt.round radix2 (tfe t) ZnearestE).
Notation tu t := (bpow radix2 (- digits t)).
Lemma of_type_F t q : of_type t q -> generic_format radix2 (tfe t) (Q2R q) /\ Rabs (Q2R q) < bpow radix2 (max_exponent t).
Proof. destruct (type_facts t) as (H1 & H2 & _). intros H. exact (proj1 (floating_iff _ _ H1 H2 q) H). Qed.
Lemma F_of_type t q : generic_format radix2 (tfe t) (Q2R q) -> Rabs (Q2R q) < bpow radix2 (max_exponent t) -> of_type t q.
Proof. destruct (type_facts t) as (H1 & H2 & _). intros A B. exact (proj2 (floating_iff _ _ H1 H2 q) (conj A B)). Qed.

Lemma Q2R_Z z : Q2R (inject_Z z) = IZR z.
Proof. unfold Q2R, inject_Z. cbn [Qnum Qden]. field. Qed.
Lemma IZR_two64 : IZR two64 = bpow radix2 64. Proof. reflexivity. Qed.
Lemma Q2R_word w : Q2R (inject_Z w / inject_Z two64) = IZR w / bpow radix2 64.
Proof. unfold Qdiv. rewrite Q2R_mult, Q2R_inv, !Q2R_Z, IZR_two64; [reflexivity|]. discriminate. Qed.
Lemma Q2R_u t : Q2R (Qmake 1 (Z.to_pos (2 ^ digits t))) = tu t.
Proof. destruct t; unfold Q2R; cbn [Qnum Qden]; rewrite Rmult_1_l; reflexivity. Qed.

Section Word.
  Variable t : real_type.
  Notation p := (digits t).
  Notation E := (max_exponent t).
  Lemma Hp : (1 < p)%Z. Proof. apply type_facts. Qed.
  Lemma Hm : (p <= E)%Z. Proof. apply type_facts. Qed.
  Lemma F_pow k : (3 - E - p <= k)%Z -> generic_format radix2 (tfe t) (bpow radix2 k).
  Proof. intros H. apply generic_format_bpow. pose proof Hp. unfold fexp, FLT_exp, Ieee.emin. lia. Qed.
  Lemma pred_one : pred radix2 (tfe t) 1 = 1 - tu t.
  Proof.
    change 1 with (bpow radix2 0). rewrite pred_bpow. f_equal. f_equal. destruct (type_facts t) as (_ & _ & H & H'). unfold fexp, FLT_exp, Ieee.emin. lia.
  Qed.
  Lemma F_below_one : generic_format radix2 (tfe t) (1 - tu t).
  Proof.
    rewrite <- pred_one. apply generic_format_pred; [apply real_valid; exact Hp|]. change 1 with (bpow radix2 0). apply F_pow. pose proof Hp. destruct (type_facts t). lia.
  Qed.
  Lemma u_bounds : bpow radix2 (-64) <= tu t <= / 4.
  Proof. destruct (type_facts t) as (A & _ & _ & B). split; [apply bpow_le; lia|]. change (/ 4) with (bpow radix2 (-2)). apply bpow_le. lia. Qed.
  Lemma F_shift s : generic_format radix2 (tfe t) s -> (s = 0 \/ 1 <= s) -> generic_format radix2 (tfe t) (s / bpow radix2 64).
  Proof.
    intros Fs [->|S]; [unfold Rdiv; rewrite Rmult_0_l; apply generic_format_0|].
    unfold Rdiv. rewrite <- bpow_opp. apply mult_bpow_exact_FLT; [exact Fs|].
    assert (1 <= mag_val radix2 s (mag radix2 s))%Z.
    { replace 1%Z with (mag_val radix2 (bpow radix2 0) (mag radix2 (bpow radix2 0))) by (rewrite mag_bpow; reflexivity).
      apply mag_le; [apply bpow_gt_0|exact S]. }
    destruct (type_facts t) as (_ & _ & H' & _). unfold Ieee.emin. lia.
  Qed.

  (** The fraction. *)
  Lemma canonical_spec w : (0 <= w < two64)%Z -> exists c, canonical t w = Fin c /\
    0 <= Q2R c <= 1 - tu t /\ Rabs (Q2R c - IZR w / bpow radix2 64) <= tu t /\
    (generic_format radix2 (tfe t) (IZR w) -> Q2R c = IZR w / bpow radix2 64) /\
    (w = (two64 - 1)%Z -> Q2R c = 1 - tu t).
  Proof.
    intros W. destruct (type_facts t) as (T1 & T2 & T3 & T4). pose proof u_bounds as U.
    set (S := tRN t (IZR w)). set (B := bpow radix2 64). assert (B0 : 0 < B) by apply bpow_gt_0.
    assert (W0 : 0 <= IZR w) by (apply IZR_le; lia).
    assert (W1 : IZR w <= B - 1). { unfold B. rewrite <- IZR_two64, <- minus_IZR. apply IZR_le. lia. }
    assert (FB : generic_format radix2 (tfe t) B) by (apply F_pow; lia).
    assert (S0 : 0 <= S) by (apply (RN_ge_F p E T1); [exact W0|apply generic_format_0]).
    assert (S1 : S <= B) by (apply (RN_le_F p E T1); [lra|exact FB]).
    assert (SZ : S = 0 \/ 1 <= S).
    { assert (w = 0 \/ 1 <= w)%Z as [->|L] by lia; [left; apply round_0; typeclasses eauto|right].
      apply (RN_ge_F p E T1); [apply IZR_le; exact L|]. change 1 with (bpow radix2 0). apply F_pow. lia. }
    assert (FS : generic_format radix2 (tfe t) S) by (apply (F_RN p E T1)).
    assert (FC : generic_format radix2 (tfe t) (S / B)) by (apply F_shift; assumption).
    assert (SB : S < bpow radix2 E).
    { apply Rle_lt_trans with (1 := S1). apply bpow_lt. lia. }
    destruct (ieee_Fin p E T1 T2 (inject_Z w)) as (s & Es & Vs).
    { rewrite Q2R_Z. fold S. rewrite Rabs_pos_eq by exact S0. exact SB. }
    rewrite Q2R_Z in Vs. fold S in Vs.
    assert (SD : S / B * B = S) by (field; lra).
    assert (C0 : 0 <= S / B) by (apply Rmult_le_reg_r with B; [exact B0|]; rewrite SD; lra).
    assert (C1 : S / B <= 1) by (apply Rmult_le_reg_r with B; [exact B0|]; rewrite SD; lra).
    assert (Q1 : Q2R (s / inject_Z two64) = S / B).
    { unfold Qdiv. rewrite Q2R_mult, Q2R_inv, Q2R_Z, Vs by discriminate. reflexivity. }
    destruct (ieee_Fin p E T1 T2 (s / inject_Z two64)) as (c & Ec & Vc).
    { rewrite Q1, (RN_F p E _ FC), Rabs_pos_eq by exact C0. apply Rle_lt_trans with (1 := C1). change 1 with (bpow radix2 0). apply bpow_lt. lia. }
    rewrite Q1, (RN_F p E _ FC) in Vc.
    assert (ERR : Rabs (S / B - IZR w / B) <= tu t).
    { assert (H : Rabs (S - IZR w) <= tu t * B).
      { apply Rle_trans with (tu t * (B - 1) + / 2 * bpow radix2 (Ieee.emin p E)).
        - apply (RN_error p E T1 (IZR w) (B - 1)). rewrite Rabs_pos_eq by exact W0. exact W1.
        - assert (bpow radix2 (Ieee.emin p E) <= tu t) by (apply bpow_le; unfold Ieee.emin; lia).
          pose proof (bpow_gt_0 radix2 (Ieee.emin p E)). lra. }
      replace (S / B - IZR w / B) with ((S - IZR w) / B) by (field; lra). unfold Rdiv. rewrite Rabs_mult, (Rabs_pos_eq (/ B)) by (left; apply Rinv_0_lt_compat; exact B0).
      apply Rmult_le_reg_r with B; [exact B0|]. rewrite Rmult_assoc, Rinv_l by lra. lra. }
    assert (LAST : w = (two64 - 1)%Z -> 1 - tu t <= S / B).
    { intros ->. apply Rmult_le_reg_r with B; [exact B0|]. rewrite SD.
      assert (FL : generic_format radix2 (tfe t) ((1 - tu t) * B)).
      { unfold B. apply mult_bpow_exact_FLT; [exact F_below_one|].
        assert (M : (0 <= mag_val radix2 (1 - tu t) (mag radix2 (1 - tu t)))%Z).
        { replace 0%Z with (mag_val radix2 (bpow radix2 (-1)) (mag radix2 (bpow radix2 (-1)))) by (rewrite mag_bpow; reflexivity).
          apply mag_le; [apply bpow_gt_0|]. change (bpow radix2 (-1)) with (/ 2). lra. }
        unfold Ieee.emin. lia. }
      apply (RN_ge_F p E T1); [|exact FL]. rewrite minus_IZR, IZR_two64. fold B.
      assert (bpow radix2 (-64) * B = 1) by (unfold B; rewrite <- bpow_plus; reflexivity).
      assert (bpow radix2 (-64) * B <= tu t * B) by (apply Rmult_le_compat_r; lra). lra. }
    unfold canonical, rounded. rewrite Es, Ec.
    destruct (Qle_bool 1 c) eqn:K.
    - apply Qle_bool_iff, Qle_Rle in K. rewrite Vc in K. change (Q2R 1) with (1 * / 1) in K.
      eexists. split; [reflexivity|]. rewrite Q2R_minus, Q2R_u. change (Q2R 1) with (1 * / 1). replace (1 * / 1) with 1 by field.
      split; [lra|]. split; [|split; [|reflexivity]].
      + assert (IZR w / B < 1) by (apply Rmult_lt_reg_r with B; [exact B0|]; unfold Rdiv; rewrite Rmult_assoc, Rinv_l by lra; lra).
        apply Rabs_le_inv in ERR. apply Rabs_le. lra.
      + intros FW. exfalso. assert (S = IZR w) by (apply (RN_F p E); exact FW).
        assert (S / B < 1) by (apply Rmult_lt_reg_r with B; [exact B0|]; rewrite SD; lra). lra.
    - apply Qle_bool_false, Qlt_Rlt in K. rewrite Vc in K. change (Q2R 1) with (1 * / 1) in K.
      assert (CU : S / B <= 1 - tu t).
      { rewrite <- pred_one. apply pred_ge_gt; [apply real_valid; exact T1|exact FC| |lra]. change 1 with (bpow radix2 0). apply F_pow. lia. }
      exists c. split; [reflexivity|]. rewrite Vc. split; [lra|]. split; [exact ERR|]. split.
      + intros FW. assert (S = IZR w) as -> by (apply (RN_F p E); exact FW). reflexivity.
      + intros L. apply LAST in L. lra.
  Qed.
End Word.

Lemma pow_64 : 2 ^ 64 = bpow radix2 64.
Proof. rewrite bpow_powerRZ. reflexivity. Qed.
Lemma pow_128 : 2 ^ 128 = bpow radix2 64 * bpow radix2 64.
Proof. rewrite <- pow_64, <- Rdef_pow_add. reflexivity. Qed.
(** Counting the words whose value is at most x. *)
Lemma count_share (words : list Z) (N : Z) (f : Z -> R) a b x e :
  (0 < N)%Z -> a < b -> a <= x <= b -> 0 <= e -> List.NoDup words ->
  (forall w, In w words <-> (0 <= w < N)%Z /\ f w <= x) ->
  (forall w, (0 <= w < N)%Z -> Rabs (f w - (a + IZR w / IZR N * (b - a))) <= e) ->
  Rabs (INR (length words) / IZR N - (x - a) / (b - a)) <= e / (b - a) + 1 / IZR N.
Proof.
  intros N0 L X e0 Wn Wi FR. remember (length words) as n eqn:En. remember (IZR N) as B eqn:BZ'. assert (BZ : IZR N = B) by (symmetry; exact BZ').
  assert (B0 : 0 < B) by (subst B; apply IZR_lt; exact N0).
    set (T := (x - a) / (b - a)). set (d := e / (b - a)).
    assert (ET : x = a + T * (b - a)) by (unfold T; field; lra). assert (Ed : e = d * (b - a)) by (unfold d; field; lra).
    assert (d0 : 0 <= d). { apply Rmult_le_reg_r with (b - a); [lra|]. rewrite <- Ed. lra. }
    assert (T0 : 0 <= T). { apply Rmult_le_reg_r with (b - a); [lra|]. lra. }
    assert (T1 : T <= 1). { apply Rmult_le_reg_r with (b - a); [lra|]. lra. }
    assert (LO : T - d <= INR n / B).
    { apply Rmult_le_reg_r with B; [exact B0|]. replace (INR n / B * B) with (INR n) by (field; lra).
      set (k := Z.min (Zfloor ((T - d) * B) + 1) N).
      destruct (Z_le_gt_dec k 0) as [Kn|Kp].
      { assert (Zfloor ((T - d) * B) + 1 <= 0)%Z as K1 by (unfold k in Kn; lia). apply IZR_le in K1. rewrite plus_IZR in K1.
        pose proof (Zfloor_ub ((T - d) * B)). pose proof (pos_INR n). lra. }
      assert (KN : (k <= Z.of_nat n)%Z).
      { rewrite <- (interval_length 0 k) by lia. apply inj_le. rewrite En. apply List.NoDup_incl_length; [apply interval_nodup|].
        intros w I. apply interval_in in I; [|lia]. apply Wi. assert (W : (0 <= w < N)%Z) by (unfold k in I; lia). split; [exact W|].
        pose proof (FR w W) as G. destruct (Rle_lt_dec (f w) x) as [Y|Nn]; [exact Y|exfalso].
        apply Rabs_le_inv in G. assert (IW : (w <= Zfloor ((T - d) * B))%Z) by (unfold k in I; lia). apply IZR_le in IW.
        pose proof (Zfloor_lb ((T - d) * B)) as FL.
        assert (IZR w / B <= T - d) by (apply Rmult_le_reg_r with B; [exact B0|]; replace (IZR w / B * B) with (IZR w) by (field; lra); lra).
        assert (IZR w / B * (b - a) <= (T - d) * (b - a)) by (apply Rmult_le_compat_r; lra). lra. }
      apply IZR_le in KN. rewrite <- INR_IZR_INZ in KN. apply Rle_trans with (2 := KN). unfold k.
      destruct (Z.min_spec (Zfloor ((T - d) * B) + 1) N) as [[_ ->]|[_ ->]].
      - rewrite plus_IZR. pose proof (Zfloor_ub ((T - d) * B)). lra.
      - rewrite BZ. rewrite <- (Rmult_1_l B) at 2. apply Rmult_le_compat_r; lra. }
    assert (HI : INR n / B <= T + d + 1 / B).
    { apply Rmult_le_reg_r with B; [exact B0|]. replace (INR n / B * B) with (INR n) by (field; lra).
      replace ((T + d + 1 / B) * B) with ((T + d) * B + 1) by (field; lra).
      set (k := (Zfloor ((T + d) * B) + 1)%Z). pose proof (Zfloor_lb ((T + d) * B)) as FL. pose proof (Zfloor_ub ((T + d) * B)) as FU.
      assert (K0 : (0 <= k)%Z). { assert (-1 < Zfloor ((T + d) * B))%Z; [|unfold k; lia]. apply lt_IZR. assert (0 <= (T + d) * B) by (apply Rmult_le_pos; lra). lra. }
      assert (KN : (Z.of_nat n <= k)%Z).
      { rewrite <- (interval_length 0 k) by exact K0. apply inj_le. rewrite En. apply List.NoDup_incl_length; [exact Wn|].
        intros w I. apply Wi in I. destruct I as (W & G). apply interval_in; [exact K0|]. split; [lia|].
        pose proof (FR w W) as Ge.
        apply Rabs_le_inv in Ge. assert (IZR w / B * (b - a) <= (T + d) * (b - a)) by lra.
        assert (IZR w / B <= T + d) by (apply Rmult_le_reg_r with (b - a); lra).
        assert (WB : IZR w <= (T + d) * B). { replace (IZR w) with (IZR w / B * B) by (field; lra). apply Rmult_le_compat_r; lra. }
        unfold k. assert (w <= Zfloor ((T + d) * B))%Z by (apply Zfloor_lub; exact WB). lia. }
      apply IZR_le in KN. rewrite <- INR_IZR_INZ in KN. unfold k in KN. rewrite plus_IZR in KN. lra. }
    assert (0 < 1 / B) by (apply Rmult_lt_0_compat; [lra|apply Rinv_0_lt_compat; exact B0]).
    apply Rabs_le. lra.
  Qed.

(** ** One call *)
(** The value for a word. *)
Definition real_result (t : real_type) (low high : Q) (w : Z) : fp :=
  match canonical t w with
  | Fin c => match scale t c low high with Some r => r | None => NaN end
  | x => x
  end.
Notation least_normal t := (bpow radix2 (Ieee.emin (digits t) (max_exponent t) + digits t - 1)).

Section Call.
  Variables (t : real_type) (low high : Q).
  Hypothesis H : real_range t low high.
  Notation p := (digits t).
  Notation E := (max_exponent t).
  Notation a := (Q2R low).
  Notation b := (Q2R high).
  Notation D := (tRN t (b - a)).
  Lemma scale_spec c : 0 <= Q2R c <= 1 - tu t -> exists r, scale t c low high = Some (Fin r) /\
    Q2R r = tRN t (tRN t (Q2R c * D) + a) /\ a <= Q2R r <= b /\ of_type t r.
  Proof.
    intros C. destruct (type_facts t) as (T1 & T2 & _). destruct H as (Ha & Hb & L & big & Hbig & L2).
    apply of_type_F in Ha, Hb, Hbig. destruct Ha as (Fa & Ba). destruct Hb as (Fb & Bb). destruct Hbig as (Fg & Bg).
    apply Qle_Rle in L, L2. rewrite Q2R_minus in L2.
    pose proof (D_pos p E T1 a b L) as D0. pose proof (P_pos p E T1 a b (Q2R c) L C) as P0.
    pose proof (P_le_D p E T1 a b (Q2R c) L C) as P1.
    assert (DB : D < bpow radix2 E).
    { apply Rle_lt_trans with (Q2R big); [apply (RN_le_F p E T1); [exact L2|exact Fg]|]. apply Rabs_def2 in Bg. lra. }
    pose proof (scale_bounds p E T1 a b (Q2R c) Fa Fb L C) as R.
    destruct (ieee_Fin p E T1 T2 (high - low)) as (d & Ed & Vd).
    { rewrite Q2R_minus, Rabs_pos_eq by exact D0. exact DB. }
    rewrite Q2R_minus in Vd.
    destruct (ieee_Fin p E T1 T2 (c * d)) as (q & Eq & Vq).
    { rewrite Q2R_mult, Vd, Rabs_pos_eq by exact P0. lra. }
    rewrite Q2R_mult, Vd in Vq.
    assert (RB : Rabs (tRN t (tRN t (Q2R c * D) + a)) < bpow radix2 E).
    { apply Rabs_def2 in Ba, Bb. apply Rabs_def1; lra. }
    destruct (ieee_Fin p E T1 T2 (q + low)) as (r & Er & Vr).
    { rewrite Q2R_plus, Vq. exact RB. }
    rewrite Q2R_plus, Vq in Vr.
    exists r. unfold scale, rounded. rewrite Ed, Eq, Er. split; [reflexivity|]. split; [exact Vr|]. rewrite Vr. split; [exact R|].
    apply F_of_type; rewrite Vr; [apply F_RN; exact T1|exact RB].
  Qed.

  Lemma result_spec w : (0 <= w < two64)%Z -> exists r, real_result t low high w = Fin r /\ a <= Q2R r <= b /\ of_type t r /\
    (forall M, Rabs a <= M -> Rabs b <= M ->
       Rabs (Q2R r - (a + IZR w / bpow radix2 64 * (b - a))) <= 8 * tu t * M + 2 * bpow radix2 (Ieee.emin p E)) /\
    (a <= 0 -> of_type t (high - low) -> least_normal t < b -> Q2R r < b).
  Proof.
    intros W. destruct (type_facts t) as (T1 & T2 & _).
    destruct (canonical_spec t w W) as (c & Ec & C & Err & _). destruct (scale_spec c C) as (r & Er & Vr & R & T).
    exists r. unfold real_result. rewrite Ec, Er. split; [reflexivity|]. split; [exact R|]. split; [exact T|].
    destruct H as (Ha & Hb & L & _). apply of_type_F in Ha, Hb. apply Qle_Rle in L. rewrite Vr. split.
    - intros M Ma Mb. apply (scale_error p E T1 a b (Q2R c)); [apply Ha|apply Hb|exact L|exact C|exact Ma|exact Mb|exact Err].
    - intros A0 HD NB. apply of_type_F in HD. rewrite Q2R_minus in HD.
      apply (scale_below p E T1 a b (Q2R c)); [apply Hb|exact C|exact A0|apply HD|exact NB].
  Qed.
  Lemma call_result g : random_ok g -> generate_random_real t g low high = Drawn (real_result t low high (value_at g 0)) (random_after 1 g).
  Proof.
    intros Hg. unfold generate_random_real. destruct H as (_ & _ & L & _). rewrite (proj2 (Qle_bool_iff _ _) L), next_value.
    unfold real_result. destruct (canonical_spec t _ (value_bound g 0 Hg)) as (c & Ec & C & _). rewrite Ec.
    destruct (scale_spec c C) as (r & Er & _). rewrite Er. reflexivity.
  Qed.

  (** How the values are spread. *)
  Lemma le_calls g x : random_ok g -> exists words : list Z, List.NoDup words /\
    (forall w, In w words <-> (0 <= w < two64)%Z /\ exists r, real_result t low high w = Fin r /\ Q2R r <= x) /\
    calls_exactly (2 ^ 64 * Z.of_nat (length words))
      (fun i => exists r, generate_random_real t (random_after i g) low high = Drawn (Fin r) (random_after (S i) g) /\ Q2R r <= x).
  Proof.
    intros Hg. set (le_x w := match real_result t low high w with Fin r => if Rle_lt_dec (Q2R r) x then true else false | _ => false end).
    assert (EW : exists words, List.NoDup words /\ forall w, In w words <-> (0 <= w < two64)%Z /\ le_x w = true).
    { exists (List.filter le_x (interval 0 two64)). split; [apply List.NoDup_filter, interval_nodup|]. intros w.
      rewrite List.filter_In, interval_in by discriminate. rewrite Z.add_0_l. reflexivity. }
    destruct EW as (words & Wn & Wi).
    assert (Le : forall w, (0 <= w < two64)%Z -> le_x w = true <-> exists r, real_result t low high w = Fin r /\ Q2R r <= x).
    { intros w W. unfold le_x. destruct (result_spec w W) as (r & Er & _). rewrite Er. destruct (Rle_lt_dec (Q2R r) x) as [Y|N].
      - split; [intros _; exists r; split; [reflexivity|exact Y]|reflexivity].
      - split; [discriminate|]. intros (r' & E' & K). injection E' as <-. lra. }
    clearbody le_x.
    exists words. split; [exact Wn|]. split.
    { intros w. rewrite Wi. split; intros (W & K); (split; [exact W|]); apply (Le w W); exact K. }
    destruct (calls_of_words g words Hg Wn (fun w I => proj1 (proj1 (Wi w) I))) as (calls & C1 & C2 & C3).
    exists calls. split; [exact C1|]. split; [exact C2|]. intros i. rewrite C3, Wi.
    pose proof (value_bound g i Hg) as V. rewrite (Le _ V).
    rewrite (call_result _ (after_ok i g Hg)), value_add, Nat.add_0_r, <- (after_add i 1 g), Nat.add_1_r. split.
    - intros (I & _ & r & E' & K). split; [exact I|]. exists r. rewrite E'. split; [reflexivity|exact K].
    - intros (I & r & E' & K). injection E' as E'. split; [exact I|]. split; [exact V|]. exists r. split; [exact E'|exact K].
  Qed.
  Lemma spread g x M : random_ok g -> (low < high)%Q -> a <= x <= b -> Rabs a <= M -> Rabs b <= M ->
    exists count, calls_exactly count (fun i => exists r, generate_random_real t (random_after i g) low high = Drawn (Fin r) (random_after (S i) g) /\ Q2R r <= x) /\
      Rabs (IZR count / 2 ^ 128 - (x - a) / (b - a)) <= (8 * tu t * M + 2 * bpow radix2 (Ieee.emin p E)) / (b - a) + 1 / 2 ^ 64.
  Proof.
    intros Hg L X Ma Mb. apply Qlt_Rlt in L.
    set (e := 8 * tu t * M + 2 * bpow radix2 (Ieee.emin p E)).
    assert (e0 : 0 <= e).
    { unfold e. pose proof (bpow_gt_0 radix2 (Ieee.emin p E)). pose proof (bpow_gt_0 radix2 (- p)). assert (0 <= M) by (pose proof (Rabs_pos a); lra).
      assert (0 <= tu t * M) by (apply Rmult_le_pos; lra). lra. }
    destruct (le_calls g x Hg) as (words & Wn & Wi & C).
    exists (2 ^ 64 * Z.of_nat (length words))%Z. split; [exact C|].
    set (f w := match real_result t low high w with Fin r => Q2R r | _ => 0 end).
    assert (G : Rabs (INR (length words) / IZR two64 - (x - a) / (b - a)) <= e / (b - a) + 1 / IZR two64).
    { apply (count_share words two64 f a b x e); [reflexivity|exact L|exact X|exact e0|exact Wn| |].
      - intros w. rewrite Wi. unfold f. split; intros (W & K); (split; [exact W|]); destruct (result_spec w W) as (r & Er & _); rewrite Er in *.
        + destruct K as (r' & E' & K). injection E' as <-. exact K.
        + exists r. split; [reflexivity|exact K].
      - intros w W. destruct (result_spec w W) as (r & Er & _ & _ & K & _). unfold f. rewrite Er, IZR_two64. exact (K M Ma Mb). }
    rewrite IZR_two64 in G. rewrite mult_IZR, <- INR_IZR_INZ, pow_128, pow_64. change (IZR (2 ^ 64)) with (IZR two64). rewrite IZR_two64.
    pose proof (bpow_gt_0 radix2 64) as B0. set (n := INR (length words)) in *. clearbody n. set (B := bpow radix2 64) in *. clearbody B.
    replace (B * n / (B * B)) with (n / B) by (field; lra). exact G.
  Qed.
End Call.

(** ** The upper end *)
Lemma tie_up t : tRN t (2 - tu t) = 2.
Proof.
  destruct (type_facts t) as (T1 & T2 & T3 & T4). pose proof (u_bounds t) as U.
  assert (M : mag_val radix2 (2 - tu t) (mag radix2 (2 - tu t)) = 1%Z).
  { apply mag_unique_pos. change (bpow radix2 (1 - 1)) with 1. change (bpow radix2 1) with 2. pose proof (bpow_gt_0 radix2 (-64)). lra. }
  assert (X : cexp radix2 (tfe t) (2 - tu t) = (1 - digits t)%Z).
  { unfold cexp. rewrite M. unfold fexp, FLT_exp, Ieee.emin. lia. }
  unfold Generic_fmt.round, scaled_mantissa. rewrite X.
  assert (P2 : bpow radix2 (digits t) = 2 * bpow radix2 (digits t - 1)).
  { replace (digits t) with (1 + (digits t - 1))%Z at 1 by ring. rewrite bpow_plus. reflexivity. }
  assert (HM : (2 - tu t) * bpow radix2 (- (1 - digits t)) = bpow radix2 (digits t) - / 2).
  { replace (- (1 - digits t))%Z with (digits t - 1)%Z by ring. rewrite Rmult_minus_distr_r, <- P2, <- bpow_plus.
    replace (- digits t + (digits t - 1))%Z with (-1)%Z by ring. reflexivity. }
  rewrite HM. set (N := (2 ^ digits t)%Z). assert (EN : bpow radix2 (digits t) = IZR N) by (symmetry; apply (IZR_Zpower radix2); lia).
  rewrite EN. assert (FL : Zfloor (IZR N - / 2) = (N - 1)%Z) by (apply Zfloor_imp; rewrite plus_IZR, minus_IZR; lra).
  assert (CL : Zceil (IZR N - / 2) = N) by (apply Zceil_imp; rewrite minus_IZR; lra).
  unfold Znearest. rewrite FL, CL, minus_IZR. rewrite Rcompare_Eq by lra.
  assert (EV : Z.even (N - 1) = false). { unfold N. destruct t; reflexivity. }
  rewrite EV. cbn [negb]. unfold F2R. cbn [Fnum Fexp]. rewrite <- EN, <- bpow_plus.
  replace (digits t + (1 - digits t))%Z with 1%Z by ring. reflexivity.
Qed.
Lemma int_of_type t z : (Z.abs z <= 2 ^ 20)%Z -> of_type t (inject_Z z).
Proof.
  intros H. destruct (type_facts t) as (T1 & T2 & T3 & T4). apply (floating_iff _ _ T1 T2). apply (exact_iff _ _ T1 T2).
  apply (ieee_int _ _ T1 T2); [destruct t; cbn [digits]; lia|unfold Ieee.emin; lia].
Qed.
Lemma one_two t : real_range t 1 2.
Proof.
  split; [apply (int_of_type t 1); lia|]. split; [apply (int_of_type t 2); lia|]. split; [discriminate|].
  exists (inject_Z 1). split; [apply int_of_type; lia|discriminate].
Qed.
Lemma end_reached t : exists r, real_result t 1 2 (two64 - 1) = Fin r /\ (r == 2)%Q.
Proof.
  destruct (type_facts t) as (T1 & T2 & T3 & T4).
  destruct (canonical_spec t (two64 - 1) ltac:(unfold two64; lia)) as (c & Ec & C & _ & _ & L).
  destruct (scale_spec t 1 2 (one_two t) c C) as (r & Er & Vr & _). exists r. unfold real_result. rewrite Ec, Er. split; [reflexivity|].
  apply eqR_Qeq. rewrite Vr, (L eq_refl). change (Q2R 1) with (1 * / 1). change (Q2R 2) with (2 * / 1).
  replace (2 * / 1 - 1 * / 1) with 1 by field. replace (1 * / 1) with 1 by field. replace (2 * / 1) with 2 by field.
  rewrite (RN_F (digits t) (max_exponent t) 1) by (change 1 with (bpow radix2 0); apply F_pow; lia). rewrite Rmult_1_r.
  rewrite (RN_F (digits t) (max_exponent t) (1 - tu t)) by (apply F_below_one).
  replace (1 - tu t + 1) with (2 - tu t) by ring. apply tie_up.
Qed.
Lemma end_calls t g : random_ok g -> exists i r, (Z.of_nat i < 2 ^ 128)%Z /\
  generate_random_real t (random_after i g) 1 2 = Drawn (Fin r) (random_after (S i) g) /\ (r == 2)%Q.
Proof.
  intros Hg. destruct (word_comes g (two64 - 1) Hg ltac:(unfold two64; lia)) as (i & I & V).
  destruct (end_reached t) as (r & Er & R). exists i, r. split; [exact I|]. split; [|exact R].
  rewrite (call_result t 1 2 (one_two t) _ (after_ok i g Hg)), value_add, Nat.add_0_r, V, Er, <- (after_add i 1 g), Nat.add_1_r. reflexivity.
Qed.

(** ** Trial values *)
Lemma trial_real g : random_ok g -> exists q, generate_random_real Float80 g 0 1 = Drawn (Fin q) (random_after 1 g) /\
  (exists v, generate_probability g = (Fin v, random_after 1 g) /\ (q == v)%Q).
Proof.
  intros Hg. assert (RR : real_range Float80 0 1).
  { split; [apply (int_of_type Float80 0); lia|]. split; [apply (int_of_type Float80 1); lia|]. split; [discriminate|].
    exists (inject_Z 1). split; [apply int_of_type; lia|discriminate]. }
  pose proof (value_bound g 0 Hg) as V. rewrite (call_result _ _ _ RR g Hg).
  destruct (canonical_spec Float80 _ V) as (c & Ec & C & _ & G & _). destruct (scale_spec _ _ _ RR c C) as (r & Er & Vr & _).
  unfold real_result. rewrite Ec, Er. exists r. split; [reflexivity|]. exists (Q64 (value_at g 0)). split.
  - unfold generate_probability, generate_canonical. rewrite next_value. replace (Qle_bool 1 (Q64 (value_at g 0))) with false; [reflexivity|].
    symmetry. apply Qle_bool_false. unfold Q64, Qlt. cbn [Qnum Qden]. unfold two64 in V. lia.
  - apply eqR_Qeq. rewrite Vr. assert (FW : generic_format radix2 (tfe Float80) (IZR (value_at g 0))).
    { apply generic_format_FLT. exists (Float radix2 (value_at g 0) 0); cbn [Fnum Fexp]; [unfold F2R; cbn; ring| |unfold Ieee.emin; cbn; lia].
      cbn [digits]. change (radix_val radix2 ^ 64)%Z with two64. lia. }
    rewrite (G FW) in *. change (Q2R 1) with (1 * / 1). change (Q2R 0) with (0 * / 1). replace (1 * / 1 - 0 * / 1) with 1 by field.
    rewrite (RN_F (digits Float80) (max_exponent Float80) 1) by (change 1 with (bpow radix2 0); apply (F_pow Float80); cbn; lia). rewrite Rmult_1_r, Rmult_0_l, Rplus_0_r.
    assert (FC : generic_format radix2 (tfe Float80) (IZR (value_at g 0) / bpow radix2 64)).
    { apply F_shift; [exact FW|]. assert (value_at g 0 = 0 \/ 1 <= value_at g 0)%Z as [->|K] by lia; [left; reflexivity|right; apply IZR_le; exact K]. }
    rewrite !(RN_F (digits Float80) (max_exponent Float80) _ FC) . reflexivity.
Qed.

Lemma real_domain t low high g :
  ((high < low)%Q -> generate_random_real t g low high = OutOfDomain) /\
  ((low <= high)%Q -> random_ok g -> (inject_Z (2 ^ max_exponent t) <= high - low)%Q -> generate_random_real t g low high = OutOfDomain).
Proof.
  unfold generate_random_real. split.
  - intros H. apply Qle_bool_false in H. rewrite H. reflexivity.
  - intros L Hg H. rewrite (proj2 (Qle_bool_iff _ _) L), next_value. destruct (canonical_spec t _ (value_bound g 0 Hg)) as (c & -> & _).
    unfold scale. destruct (rounded t (high - low)) as [| |d] eqn:E; [reflexivity|reflexivity|exfalso].
    destruct (type_facts t) as (T1 & T2 & T3 & _). apply (ieee_Fin_inv _ _ T1 T2) in E. destruct E as (V & B).
    apply Qle_Rle in H. rewrite Q2R_pow in H by lia. apply Rabs_def2 in B.
    assert (bpow radix2 (max_exponent t) <= tRN t (Q2R (high - low))); [|lra].
    apply (RN_ge_F _ _ T1); [exact H|]. apply F_pow. lia.
Qed.
Lemma real_example : real_range Float80 (-5 # 2) (9 # 2) /\ of_type Float80 ((9 # 2) - (-5 # 2)) /\
  powerRZ 2 (2 - max_exponent Float80) < Q2R (9 # 2) /\ random_ok (random_of 42 54) /\ real_range Float64 1 2.
Proof.
  assert (H : forall m, (Z.abs m < 2 ^ 10)%Z -> of_type Float80 (m # 2)).
  { intros m M. apply (F_of_type Float80).
    - apply generic_format_FLT. exists (Float radix2 m (-1)); cbn [Fnum Fexp]; [unfold F2R, Q2R; cbn; reflexivity|cbn [digits]; change (radix_val radix2) with 2%Z; lia|unfold Ieee.emin; cbn; lia].
    - apply Rle_lt_trans with (bpow radix2 10); [|apply bpow_lt; cbn; lia].
      unfold Q2R. cbn [Qnum Qden]. rewrite Rabs_mult, <- abs_IZR, (Rabs_pos_eq (/ IZR 2)) by lra.
      apply Rle_trans with (IZR (Z.abs m)); [pose proof (Rabs_pos (IZR m)) as A; rewrite <- abs_IZR in A; lra|].
      change (bpow radix2 10) with (IZR (2 ^ 10)). apply IZR_le. lia. }
  assert (D : of_type Float80 ((9 # 2) - (-5 # 2))).
  { apply (F_of_type Float80).
    - replace (Q2R ((9 # 2) - (-5 # 2))) with (Q2R (14 # 2)) by (apply Qeq_eqR; reflexivity). apply (of_type_F Float80 (14 # 2)). apply H. lia.
    - replace (Q2R ((9 # 2) - (-5 # 2))) with (Q2R (14 # 2)) by (apply Qeq_eqR; reflexivity). apply (of_type_F Float80 (14 # 2)). apply H. lia. }
  split.
  { split; [apply H; lia|]. split; [apply H; lia|]. split; [discriminate|]. exists ((9 # 2) - (-5 # 2))%Q. split; [exact D|apply Qle_refl]. }
  split; [exact D|]. split; [|split; [apply random_of_ok|apply one_two]].
  change 2 with (IZR radix2) at 1. rewrite <- bpow_powerRZ. apply Rlt_trans with (bpow radix2 0); [apply bpow_lt; cbn; lia|].
  unfold Q2R. cbn. lra.
Qed.
