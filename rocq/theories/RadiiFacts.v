(** Error analysis of radii. *)
From Verif Require Import Base Config ConfigSpec ConfigFacts FoliationSpec FoliationProps2 Repair ViewerScene Radii RadiiSpec.
From Coq Require Import QArith QArith.Qabs Lqa Lia.
Local Open Scope Q_scope.

Definition u53 : Q := 1 # 9007199254740992.
Lemma pow2_53 : pow2 (-53) == u53. Proof. vm_compute. reflexivity. Qed.

(** One rounding of a quantity at least 2^-900 in magnitude, or with error
    relative to a larger quantity. *)
Lemma step_rel rd : ieee_double rd -> forall q m, pow2 (-900) <= m -> m <= pow2 1000 -> Qabs q <= m ->
  exists q', rd q = Fin q' /\ Qabs (q' - q) <= (1 # 4503599627370496) * m.
Proof.
  intros NR q m M1 M2 A. destruct (NR q) as (q' & E & B); [apply Qle_trans with m; assumption|].
  exists q'. split; [exact E|]. eapply Qle_trans; [exact B|].
  assert (ETA : pow2 (-1074) <= u53 * pow2 (-900)) by (vm_compute; discriminate).
  assert (pow2 (-53) * Qabs q <= u53 * m). { rewrite pow2_53. unfold u53. lra. }
  unfold u53 in *. lra.
Qed.
Lemma abs_le a b : - b <= a -> a <= b -> Qabs a <= b.
Proof. intros. apply Qabs_Qle_condition. split; assumption. Qed.

Lemma squared_radius_rel rd p x y z : ieee_double rd -> located p x y z ->
  pow2 (-800) <= norm2 x y z -> norm2 x y z <= pow2 800 ->
  exists a, squared_radius rd p = Fin a /\ Qabs (a - norm2 x y z) <= (1 # 562949953421312) * norm2 x y z.
Proof.
  intros NR (X & Y & Z) L U. unfold squared_radius. rewrite X, Y, Z. cbn [fmul]. unfold norm2 in *.
  assert (X0 : 0 <= x * x) by nra. assert (Y0 : 0 <= y * y) by nra. assert (Z0 : 0 <= z * z) by nra.
  set (a := x * x) in *. set (b := y * y) in *. set (c := z * z) in *.
  assert (P9 : pow2 (-900) <= pow2 (-800)) by (vm_compute; discriminate).
  assert (P0 : 0 <= pow2 (-900)) by (vm_compute; discriminate).
  assert (P1 : 4 * pow2 800 <= pow2 1000) by (vm_compute; discriminate).
  assert (N0 : 0 < a + b + c). { apply Qlt_le_trans with (pow2 (-800)); [vm_compute; reflexivity|exact L]. }
  set (n := a + b + c) in *.
  assert (ST : forall q, - (n * (1001 # 1000)) <= q -> q <= n * (1001 # 1000) ->
     exists q', rd q = Fin q' /\ - ((1 # 4503599627370496) * (n * (1001 # 1000))) <= q' - q <= (1 # 4503599627370496) * (n * (1001 # 1000))).
  { intros q H1 H2. destruct (step_rel rd NR q (n * (1001 # 1000))) as (q' & E & B); [lra|lra|apply abs_le; assumption|].
    exists q'. split; [exact E|]. apply Qabs_Qle_condition. exact B. }
  destruct (ST a) as (a' & Ea & Ba); [unfold n; lra|unfold n; lra|].
  destruct (ST b) as (b' & Eb & Bb); [unfold n; lra|unfold n; lra|].
  destruct (ST c) as (c' & Ec & Bc); [unfold n; lra|unfold n; lra|].
  rewrite Ea, Eb, Ec. cbn [fadd].
  assert (N : n == a + b + c) by (unfold n; reflexivity). clearbody n.
  destruct (ST (a' + b')) as (d & Ed & Bd); [lra|lra|]. rewrite Ed. cbn [fadd].
  destruct (ST (d + c')) as (e & Ee & Be); [lra|lra|]. rewrite Ee. exists e. split; [reflexivity|].
  apply abs_le; lra.
Qed.

(** |v - w| <= d w when |v^2 - w^2| <= d w^2. *)
Lemma root_close v w d : 0 <= v -> 0 < w -> Qabs (v * v - w * w) <= d * (w * w) -> Qabs (v - w) <= d * w.
Proof.
  intros V W H. apply Qabs_Qle_condition in H. destruct H as [H1 H2].
  assert (F : v * v - w * w == (v - w) * (v + w)) by ring. rewrite F in *.
  assert (W2 : 0 < w * w) by nra. assert (VW : 0 < v + w) by lra.
  assert (D : 0 <= d). { apply Qnot_lt_le. intros L. assert (d * (w * w) < 0) by nra. lra. }
  assert (DW : 0 <= d * w) by nra. assert (DV : 0 <= d * w * v) by nra.
  apply abs_le.
  - apply Qnot_lt_le. intros L. pose proof (Qmult_lt_compat_r _ _ _ VW L). lra.
  - apply Qnot_lt_le. intros L. pose proof (Qmult_lt_compat_r _ _ _ VW L). lra.
Qed.

(** I + i S, computed. *)
Lemma radius_rel rd I S i q : ieee_double rd -> pow2 (-300) <= I -> 0 < S -> (0 <= i)%Z -> I + inject_Z i * S <= pow2 300 ->
  q == inject_Z i * S ->
  exists r, fadd rd (Fin I) (rd q) = Fin r /\ Qabs (r - (I + inject_Z i * S)) <= (1 # 1125899906842624) * (I + inject_Z i * S).
Proof.
  intros NR I1 S0 I0 U Hq.
  assert (P0 : 0 < pow2 (-300)) by (vm_compute; reflexivity).
  assert (P1 : pow2 (-900) <= pow2 (-300)) by (vm_compute; discriminate).
  assert (P2 : 2 * pow2 300 <= pow2 1000) by (vm_compute; discriminate).
  assert (T0 : 0 <= inject_Z i * S). { apply Qmult_le_0_compat; [change 0 with (inject_Z 0); rewrite <- Zle_Qle; exact I0|lra]. }
  set (s := inject_Z i * S) in *. set (R := I + s) in *. assert (HR : R == I + s) by reflexivity. clearbody R.
  assert (ST : forall x, - (R * (1001 # 1000)) <= x -> x <= R * (1001 # 1000) ->
     exists x', rd x = Fin x' /\ - ((1 # 4503599627370496) * (R * (1001 # 1000))) <= x' - x <= (1 # 4503599627370496) * (R * (1001 # 1000))).
  { intros x H1 H2. destruct (step_rel rd NR x (R * (1001 # 1000))) as (x' & E & B); [lra|lra|apply abs_le; assumption|].
    exists x'. split; [exact E|]. apply Qabs_Qle_condition. exact B. }
  destruct (ST q) as (a & Ea & Ba); [lra|lra|]. rewrite Ea. cbn [fadd].
  destruct (ST (I + a)) as (b & Eb & Bb); [lra|lra|]. rewrite Eb. exists b. split; [reflexivity|]. apply abs_le; lra.
Qed.

(** The label of a point whose squared radius is within [d] of that of slice i. *)
Lemma near_label rd fsqrt p x y z I S i d : ieee_double rd -> sqrt_ok fsqrt -> located p x y z ->
  pow2 (-300) <= I -> pow2 (-900) <= S -> S <= pow2 900 -> (0 <= i < INT32_MAX)%Z -> I + inject_Z i * S <= pow2 300 ->
  d <= 1 # 2 -> Qabs (norm2 x y z - (I + inject_Z i * S) * (I + inject_Z i * S)) <= d * ((I + inject_Z i * S) * (I + inject_Z i * S)) ->
  (d + (1 # 1099511627776)) * (I + inject_Z i * S) <= (1 # 4) * S ->
  vertex_time rd fsqrt p (Fin I) (Fin S) = Some (i + 1)%Z.
Proof.
  intros NR SQ L I1 S1 S2 Hi U D HN HD.
  assert (P0 : 0 < pow2 (-300)) by (vm_compute; reflexivity).
  assert (P9 : 0 < pow2 (-900)) by (vm_compute; reflexivity).
  assert (T0 : 0 <= inject_Z i * S). { apply Qmult_le_0_compat; [change 0 with (inject_Z 0); rewrite <- Zle_Qle; apply Hi|lra]. }
  set (R := I + inject_Z i * S) in *. assert (HR : pow2 (-300) <= R) by (unfold R; lra). 
  assert (R0 : 0 < R) by lra. assert (R2 : 0 < R * R) by nra.
  assert (RL : pow2 (-300) * pow2 (-300) <= R * R). { apply Qmult_le_compat_nonneg; split; lra. }
  assert (RU : R * R <= pow2 300 * pow2 300). { apply Qmult_le_compat_nonneg; split; lra. }
  assert (E1 : pow2 (-800) * 2 <= pow2 (-300) * pow2 (-300)) by (vm_compute; discriminate).
  assert (E2 : pow2 300 * pow2 300 * 2 <= pow2 800) by (vm_compute; discriminate).
  apply Qabs_Qle_condition in HN. destruct HN as [N1 N2].
  set (r2 := R * R) in *.
  assert (DR : d * r2 <= (1 # 2) * r2) by (apply Qmult_le_compat_r; lra).
  destruct (squared_radius_rel rd p x y z NR L) as (a & Ea & Ba); [lra|lra|].
  apply Qabs_Qle_condition in Ba. destruct Ba as [Ba1 Ba2].
  assert (E3 : pow2 800 * 2 <= pow2 1000) by (vm_compute; discriminate).
  set (n := norm2 x y z) in *.
  destruct (SQ a) as (v & Ev & V0 & Bv); [lra|lra|]. apply Qabs_Qle_condition in Bv. destruct Bv as [Bv1 Bv2].
  assert (P900 : pow2 (-900) <= (1 # 2251799813685248) * pow2 (-800)) by (vm_compute; discriminate).
  assert (P51 : pow2 (-51) == 1 # 2251799813685248) by (vm_compute; reflexivity). rewrite P51 in *.
  assert (CL : Qabs (v - R) <= (d + (1 # 1099511627776)) * R).
  { apply root_close; [exact V0|exact R0|]. fold r2. apply abs_le; lra. }
  unfold vertex_time. rewrite Ea, Ev. apply layer_label; [exact NR|exact Hi|exact S1|exact S2|]. fold R. lra.
Qed.

(** The tolerance band. *)
Lemma match_value rd square p x y z t I S e : ieee_double rd -> square_ok square -> located p x y z ->
  expected_radius rd t I S = Some (Fin e) -> pow2 (-350) <= Qabs e -> Qabs e <= pow2 350 ->
  pow2 (-800) <= norm2 x y z -> norm2 x y z <= pow2 800 ->
  exists b, radius_matches rd square p t I S = Some b /\
    ((9901 # 10000) * (e * e) <= norm2 x y z -> norm2 x y z <= (10099 # 10000) * (e * e) -> b = true) /\
    (b = true -> (9899 # 10000) * (e * e) < norm2 x y z /\ norm2 x y z < (10101 # 10000) * (e * e)).
Proof.
  intros NR SQ L HE L1 U1 NL NU. unfold radius_matches. rewrite HE.
  destruct (squared_radius_rel rd p x y z NR L NL NU) as (a & Ea & Ba). rewrite Ea.
  apply Qabs_Qle_condition in Ba. destruct Ba as [Ba1 Ba2].
  assert (E0 : pow2 (-400) <= pow2 (-350)) by (vm_compute; discriminate).
  assert (E1 : pow2 350 <= pow2 400) by (vm_compute; discriminate).
  destruct (SQ e) as (s & Es & Bs); [lra|lra|]. rewrite Es. apply Qabs_Qle_condition in Bs. destruct Bs as [Bs1 Bs2].
  assert (P50 : pow2 (-50) == 1 # 1125899906842624) by (vm_compute; reflexivity). rewrite P50 in *.
  assert (EE : e * e == Qabs e * Qabs e).
  { destruct (Qlt_le_dec e 0) as [N|N]; [rewrite Qabs_neg by lra; ring|rewrite Qabs_pos by lra; ring]. }
  assert (P3 : 0 < pow2 (-350)) by (vm_compute; reflexivity).
  assert (G1 : pow2 (-350) * pow2 (-350) <= e * e). { rewrite EE. apply Qmult_le_compat_nonneg; split; lra. }
  assert (G2 : e * e <= pow2 350 * pow2 350). { rewrite EE. apply Qmult_le_compat_nonneg; split; lra. }
  assert (F1 : 2 * pow2 (-800) <= pow2 (-350) * pow2 (-350)) by (vm_compute; discriminate).
  assert (F2 : pow2 (-900) <= pow2 (-800)) by (vm_compute; discriminate).
  assert (F3 : 4 * (pow2 350 * pow2 350) <= pow2 1000) by (vm_compute; discriminate).
  assert (F4 : 0 < pow2 (-800)) by (vm_compute; reflexivity).
  assert (F5 : pow2 (-900) <= 1) by (vm_compute; discriminate).
  assert (F6 : 2 <= pow2 1000) by (vm_compute; discriminate).
  set (e2 := e * e) in *. set (n := norm2 x y z) in *.
  assert (ST : forall q m, pow2 (-900) <= m -> m <= pow2 1000 -> - m <= q -> q <= m ->
     exists q', rd q = Fin q' /\ - ((1 # 4503599627370496) * m) <= q' - q <= (1 # 4503599627370496) * m).
  { intros q m M1 M2 H1 H2. destruct (step_rel rd NR q m M1 M2 (abs_le _ _ H1 H2)) as (q' & E & B).
    exists q'. split; [exact E|]. apply Qabs_Qle_condition. exact B. }
  unfold TOLERANCE. destruct (ST (1 # 100) 1) as (tau & Et & Bt); [lra|lra|lra|lra|]. rewrite Et. cbn [fneg fadd]. unfold fpz. cbn [fadd].
  change (inject_Z 1) with 1.
  destruct (ST (1 + - tau) 2) as (lo & Elo & Blo); [lra|lra|lra|lra|]. rewrite Elo.
  destruct (ST (1 + tau) 2) as (hi & Ehi & Bhi); [lra|lra|lra|lra|]. rewrite Ehi. cbn [fmul].
  assert (S0 : 0 < s) by lra.
  assert (LO1 : s * (989999 # 1000000) <= s * lo). { rewrite !(Qmult_comm s). apply Qmult_le_compat_r; lra. }
  assert (LO2 : s * lo <= s * (990001 # 1000000)). { rewrite !(Qmult_comm s). apply Qmult_le_compat_r; lra. }
  assert (HI1 : s * (1009999 # 1000000) <= s * hi). { rewrite !(Qmult_comm s). apply Qmult_le_compat_r; lra. }
  assert (HI2 : s * hi <= s * (1010001 # 1000000)). { rewrite !(Qmult_comm s). apply Qmult_le_compat_r; lra. }
  destruct (ST (s * lo) (2 * s)) as (l' & El & Bl); [lra|lra|lra|lra|]. rewrite El.
  destruct (ST (s * hi) (2 * s)) as (h' & Eh & Bh); [lra|lra|lra|lra|]. rewrite Eh.
  eexists. split; [reflexivity|]. split.
  - intros H1 H2. apply Bool.andb_true_iff. split; apply fp_lt_fin; lra.
  - intros H. apply Bool.andb_true_iff in H. destruct H as [H1 H2]. apply fp_lt_fin in H1, H2. split; lra.
Qed.
