(** Facts about Config.v. *)
From Verif Require Import Base Config ConfigSpec.
From Coq Require Import QArith Qround Qminmax Qfield Lqa ZArith.
Open Scope Z_scope.

(** ** Order on floating values *)
Lemma fp_le_fin p q : fp_le (Fin p) (Fin q) = true <-> (p <= q)%Q.
Proof. simpl. apply Qle_bool_iff. Qed.
Lemma fp_le_fin_false p q : fp_le (Fin p) (Fin q) = false <-> (q < p)%Q.
Proof.
  split; intros H.
  - destruct (Qlt_le_dec q p) as [K|K]; [exact K|]. apply fp_le_fin in K. congruence.
  - destruct (fp_le (Fin p) (Fin q)) eqn:E; [|reflexivity]. apply fp_le_fin in E. lra.
Qed.
Lemma fp_lt_fin p q : fp_lt (Fin p) (Fin q) = true <-> (p < q)%Q.
Proof.
  simpl. rewrite negb_true_iff. rewrite <- (fp_le_fin_false q p). reflexivity.
Qed.
Lemma fp_le_trans x y z : fp_le x y = true -> fp_le y z = true -> fp_le x z = true.
Proof.
  destruct x as [|[|]|p], y as [|[|]|q], z as [|[|]|r]; try (simpl; congruence).
  rewrite !fp_le_fin. lra.
Qed.
Lemma fp_lt_not_le x y : x <> NaN -> y <> NaN -> fp_lt x y = negb (fp_le y x).
Proof.
  intros Hx Hy. destruct x as [|[|]|p], y as [|[|]|q]; try congruence; simpl; try reflexivity.
Qed.
Lemma fp_le_fin_bounded q x z : fp_le (Fin q) x = true -> fp_le x (Fin z) = true -> exists a, x = Fin a /\ (q <= a <= z)%Q.
Proof.
  destruct x as [|[|]|p]; simpl; try congruence. intros A B. exists p. split; [reflexivity|].
  apply Qle_bool_iff in A, B. lra.
Qed.
Lemma fp_le_zero_iff_positive x : fp_finite x -> fp_positive x <-> exists q, x = Fin q /\ (0 < q)%Q.
Proof.
  intros [q ->]. unfold fp_positive, fpz. rewrite fp_le_fin_false. split.
  - intros H. exists q. split; [reflexivity|]. change (inject_Z 0) with 0%Q in H. exact H.
  - intros (q' & E & H). injection E as ->. exact H.
Qed.

Section Facts.
Context (rd rl : Q -> fp) (C : fp_contract rd rl).

Lemma rl_no_nan q : rl q <> NaN.
Proof using C. intros E. pose proof (rl_mono _ _ C q q (Qle_refl q)) as K. rewrite E in K. discriminate. Qed.
Lemma rd_no_nan q : rd q <> NaN.
Proof using C. intros E. pose proof (rd_mono _ _ C q q (Qle_refl q)) as K. rewrite E in K. discriminate. Qed.

Lemma exact_le (r : Q -> fp) p q : (forall p q, (p <= q)%Q -> fp_le (r p) (r q) = true) ->
  exact r p -> (p <= q)%Q -> fp_le (Fin p) (r q) = true.
Proof.
  intros M E L. specialize (M _ _ L). unfold exact in E. destruct (r p) as [| |p'] eqn:Ep; try tauto.
  eapply fp_le_trans; [|exact M]. apply fp_le_fin. lra.
Qed.
Lemma exact_ge (r : Q -> fp) p q : (forall p q, (p <= q)%Q -> fp_le (r p) (r q) = true) ->
  exact r p -> (q <= p)%Q -> fp_le (r q) (Fin p) = true.
Proof.
  intros M E L. specialize (M _ _ L). unfold exact in E. destruct (r p) as [| |p'] eqn:Ep; try tauto.
  eapply fp_le_trans; [exact M|]. apply fp_le_fin. lra.
Qed.
Lemma int32_0 : in_int32 0. Proof. unfold in_int32, INT32_MIN, INT32_MAX. lia. Qed.

(** Rounding of a nonnegative value is at least 0. *)
Lemma rl_nonneg q : (0 <= q)%Q -> fp_le (fpz 0) (rl q) = true.
Proof using C. intros H. apply (exact_le rl (inject_Z 0)); [apply C| |exact H]. apply C, int32_0. Qed.
Lemma rd_nonneg q : (0 <= q)%Q -> fp_le (fpz 0) (rd q) = true.
Proof using C. intros H. apply (exact_le rd (inject_Z 0)); [apply C| |exact H]. apply C, int32_0. Qed.

(** Addition of a nonnegative amount never decreases a representable value. *)
Lemma fadd_grows (r : Q -> fp) a x : (forall p q, (p <= q)%Q -> fp_le (r p) (r q) = true) -> exact r a ->
  fp_le (fpz 0) x = true -> fp_le (Fin a) (fadd r (Fin a) x) = true.
Proof.
  intros M E H. destruct x as [|[|]|q]; simpl in *; try congruence.
  apply exact_le; auto. apply Qle_bool_iff in H. unfold inject_Z in H. lra.
Qed.
Lemma fadd_mono_r (r : Q -> fp) a x y : (forall p q, (p <= q)%Q -> fp_le (r p) (r q) = true) ->
  fp_le (fpz 0) x = true -> fp_le x y = true -> fp_le (fadd r (Fin a) x) (fadd r (Fin a) y) = true.
Proof.
  intros M H L.
  destruct x as [|[|]|p], y as [|[|]|q]; simpl in *; try congruence.
  - pose proof (M (a + p) (a + p) (Qle_refl _))%Q as K. destruct (r (a + p)%Q) as [|[|]|]; simpl in *; congruence.
  - apply M. apply Qle_bool_iff in L. lra.
Qed.

Lemma fmul_nonneg (r : Q -> fp) a x : (forall p q, (p <= q)%Q -> fp_le (r p) (r q) = true) -> exact r 0 ->
  (0 < a)%Q -> fp_le (fpz 0) x = true -> fp_le (fpz 0) (fmul r (Fin a) x) = true.
Proof.
  intros M E A H. destruct x as [|[|]|q]; simpl in *; try congruence.
  - unfold qzero, qneg. destruct (Qeq_bool a 0) eqn:Z0.
    + apply Qeq_bool_iff in Z0. lra.
    + destruct (Qle_bool 0 a) eqn:L; [reflexivity|].
      assert (Qle_bool 0 a = true) by (apply Qle_bool_iff; lra). congruence.
  - apply (exact_le r 0); auto. apply Qle_bool_iff in H. unfold inject_Z in H. nra.
Qed.
Lemma fmul_mono_r (r : Q -> fp) a x y : (forall p q, (p <= q)%Q -> fp_le (r p) (r q) = true) ->
  (0 < a)%Q -> fp_le (fpz 0) x = true -> fp_le x y = true -> fp_le (fmul r (Fin a) x) (fmul r (Fin a) y) = true.
Proof.
  intros M A H L.
  assert (P : qzero a = false /\ qneg a = false).
  { unfold qzero, qneg. split.
    - destruct (Qeq_bool a 0) eqn:Z0; [apply Qeq_bool_iff in Z0; lra|reflexivity].
    - apply negb_false_iff. apply Qle_bool_iff. lra. }
  destruct P as [P1 P2].
  destruct x as [|[|]|p], y as [|[|]|q]; simpl in *; rewrite ?P1, ?P2; simpl; try congruence.
  - pose proof (M (a * p) (a * p) (Qle_refl _))%Q as K. destruct (r (a * p)%Q) as [|[|]|]; simpl in *; congruence.
  - apply M. apply Qle_bool_iff in L. unfold inject_Z in *. apply Qle_bool_iff in H. nra.
Qed.
Lemma fmul_mono_l (r : Q -> fp) a b x : (forall p q, (p <= q)%Q -> fp_le (r p) (r q) = true) ->
  (0 < a)%Q -> (a <= b)%Q -> fp_le (fpz 0) x = true -> fp_le (fmul r (Fin a) x) (fmul r (Fin b) x) = true.
Proof.
  intros M A L H.
  assert (P : forall a, (0 < a)%Q -> qzero a = false /\ qneg a = false).
  { clear. intros a A. unfold qzero, qneg. split.
    - destruct (Qeq_bool a 0) eqn:Z0; [apply Qeq_bool_iff in Z0; lra|reflexivity].
    - apply negb_false_iff. apply Qle_bool_iff. lra. }
  destruct (P a A) as [P1 P2], (P b) as [P3 P4]; [lra|].
  destruct x as [|[|]|p]; simpl in *; rewrite ?P1, ?P2, ?P3, ?P4; simpl; try congruence.
  apply M. unfold inject_Z in *. apply Qle_bool_iff in H. nra.
Qed.

(** ** Layers *)
Lemma inject_pos z : (0 < z) -> (0 < inject_Z z)%Q.
Proof. intros H. unfold inject_Z, Qlt. simpl. lia. Qed.
Lemma inject_nonneg z : (0 <= z) -> (0 <= inject_Z z)%Q.
Proof. intros H. unfold inject_Z, Qle. simpl. lia. Qed.

Definition good_geometry (radius spacing : fp) : Prop :=
  exists a b, radius = Fin a /\ spacing = Fin b /\ (0 < a)%Q /\ (0 < b)%Q /\ exact rd a /\ exact rd b.

Lemma bad_radii_false radius spacing : bad_radii radius spacing = false <->
  fp_finite radius /\ fp_positive radius /\ fp_finite spacing /\ fp_positive spacing.
Proof.
  unfold bad_radii, fp_positive, fp_finite. rewrite !orb_false_iff, !negb_false_iff.
  assert (I : forall x, isfinite x = true <-> exists q, x = Fin q).
  { intros [| |q]; simpl; split; try congruence; try (intros [? ?]; congruence). eauto. }
  rewrite !I. tauto.
Qed.

Lemma layer_increment spacing i : 0 <= i -> fp_finite spacing -> fp_positive spacing ->
  fp_le (fpz 0) (fmul rd (fpz i) spacing) = true.
Proof using C.
  intros Hi [b ->] P. unfold fp_positive in P. apply fp_le_fin_false in P. simpl.
  apply rd_nonneg. pose proof (inject_nonneg i Hi). unfold inject_Z in P at 1. nra.
Qed.

Lemma layer_radius_ge radius spacing i : 0 <= i -> good_geometry radius spacing ->
  fp_le radius (layer_radius rd radius spacing i) = true.
Proof using C.
  intros Hi (a & b & -> & -> & Ha & Hb & Ea & Eb). unfold layer_radius.
  apply fadd_grows; [apply C|exact Ea|]. apply layer_increment; auto; [eexists; reflexivity|].
  unfold fp_positive. apply fp_le_fin_false. exact Hb.
Qed.

Lemma layer_points_ge p radius spacing i : 0 < p -> 0 <= i -> good_geometry radius spacing ->
  fp_le (fmul rl (fpz p) radius) (layer_points rd rl p radius spacing i) = true.
Proof using C.
  intros Hp Hi G. unfold layer_points. apply fmul_mono_r; [apply C|apply inject_pos; lia| |].
  - destruct G as (a & b & -> & _ & Ha & _). apply fp_le_fin. unfold inject_Z. lra.
  - apply layer_radius_ge; auto.
Qed.
Lemma layer_points_nonneg p radius spacing i : 0 < p -> 0 <= i -> good_geometry radius spacing ->
  fp_le (fpz 0) (layer_points rd rl p radius spacing i) = true.
Proof using C.
  intros Hp Hi G. eapply fp_le_trans; [|apply layer_points_ge; eauto].
  destruct G as (a & b & -> & _ & Ha & _). apply fmul_nonneg; [apply C| |apply inject_pos; lia|apply fp_le_fin; unfold inject_Z; lra].
  apply (rl_int _ _ C 0), int32_0.
Qed.
Lemma layer_points_mono p p' radius spacing i : 0 < p -> p <= p' -> 0 <= i -> good_geometry radius spacing ->
  fp_le (layer_points rd rl p radius spacing i) (layer_points rd rl p' radius spacing i) = true.
Proof using C.
  intros Hp Hpp Hi G. unfold layer_points. apply fmul_mono_l; [apply C|apply inject_pos; lia| |].
  - rewrite <- Zle_Qle. lia.
  - eapply fp_le_trans; [|apply layer_radius_ge; eauto].
    destruct G as (a & b & -> & _ & Ha & _). apply fp_le_fin. unfold inject_Z. lra.
Qed.

(** Conversion of an in-range nonnegative value. *)
Lemma Qtrunc_range q : (0 <= q)%Q -> (q <= inject_Z INT32_MAX)%Q ->
  Qtrunc q = Qfloor q /\ 0 <= Qfloor q <= INT32_MAX.
Proof.
  intros A B. unfold Qtrunc. assert (Qle_bool 0 q = true) as -> by (apply Qle_bool_iff; exact A).
  split; [reflexivity|]. split.
  - change 0 with (Qfloor 0). apply Qfloor_resp_le. exact A.
  - rewrite <- (Qfloor_Z INT32_MAX). apply Qfloor_resp_le. exact B.
Qed.
Lemma to_int32_ok x : fp_le (fpz 0) x = true -> fp_le x (fpz INT32_MAX) = true ->
  exists q, x = Fin q /\ to_int32 x = Val (Qfloor q) /\ 0 <= Qfloor q <= INT32_MAX.
Proof.
  intros A B. destruct (fp_le_fin_bounded _ _ _ A B) as (q & -> & H1 & H2). exists q. split; [reflexivity|].
  destruct (Qtrunc_range q) as [E R]; [exact H1|exact H2|]. split; [|exact R].
  unfold to_int32. rewrite E.
  assert (in_int32b (Qfloor q) = true) as -> by (apply in_int32b_spec; unfold in_int32, INT32_MIN; lia). reflexivity.
Qed.


Definition layer_total (p : Z) (radius spacing : fp) (layer : Z) (n : nat) : Z :=
  fold_right Z.add 0 (map (fun i => floor_of (layer_points rd rl p radius spacing (layer + Z.of_nat i))) (seq 0 n)).

Lemma layer_total_S p radius spacing layer n :
  layer_total p radius spacing layer (S n) =
  floor_of (layer_points rd rl p radius spacing layer) + layer_total p radius spacing (layer + 1) n.
Proof.
  unfold layer_total. simpl seq. simpl map. simpl fold_right.
  rewrite <- seq_shift, map_map. f_equal; [f_equal; f_equal; f_equal; lia|].
  f_equal. apply map_ext. intros i. do 2 f_equal. lia.
Qed.
Lemma layer_total_bounds p radius spacing layer n : 0 < p -> 0 <= layer -> good_geometry radius spacing ->
  (forall i, (layer <= i < layer + Z.of_nat n) -> fits_int (layer_points rd rl p radius spacing i)) ->
  0 <= layer_total p radius spacing layer n <= Z.of_nat n * INT32_MAX.
Proof using C.
  revert layer. induction n as [|n IH]; intros layer Hp Hl G F.
  - unfold layer_total. simpl. lia.
  - rewrite layer_total_S. destruct (to_int32_ok (layer_points rd rl p radius spacing layer)) as (q & E & _ & R).
    + apply layer_points_nonneg; auto.
    + apply F. lia.
    + rewrite E. simpl floor_of. assert (0 <= layer_total p radius spacing (layer + 1) n <= Z.of_nat n * INT32_MAX).
      { apply IH; auto; try lia. intros i Hi. apply F. lia. }
      lia.
Qed.

Lemma layer_guard x : fp_le (fpz 0) x = true ->
  (negb (isfinite x) || fp_lt x (fpz 0) || fp_lt INT_MAX_L x = false <-> fits_int x).
Proof.
  intros H. unfold fits_int, INT_MAX_L. destruct x as [|[|]|q]; simpl in H; try congruence.
  - simpl. split; congruence.
  - simpl. apply Qle_bool_iff in H.
    assert (Qle_bool (inject_Z 0) q = true) as -> by (apply Qle_bool_iff; exact H). simpl.
    rewrite negb_false_iff. reflexivity.
Qed.

Lemma count_layers_ok p radius spacing n layer total : 0 < p -> 0 <= layer -> good_geometry radius spacing ->
  layer + Z.of_nat n <= INT32_MAX -> 0 <= total <= layer * INT32_MAX ->
  (forall i, layer <= i < layer + Z.of_nat n -> fits_int (layer_points rd rl p radius spacing i)) ->
  count_layers rd rl p radius spacing n layer total = Val (total + layer_total p radius spacing layer n).
Proof using C.
  revert layer total. induction n as [|n IH]; intros layer total Hp Hl G Hn Ht F.
  - simpl. unfold layer_total. simpl. f_equal. lia.
  - cbn [count_layers]. cbv zeta.
    pose proof (layer_points_nonneg p radius spacing layer Hp Hl G) as NN.
    assert (FL : fits_int (layer_points rd rl p radius spacing layer)) by (apply F; lia).
    rewrite (proj2 (layer_guard _ NN) FL).
    destruct (to_int32_ok _ NN FL) as (q & E & T & R). rewrite T. cbn [bind].
    assert (W : wrap64 (Qfloor q) = Qfloor q) by (apply Z.mod_small; unfold two64, INT32_MAX in *; lia).
    rewrite W.
    assert (B : (two64 - 1) - total <? Qfloor q = false).
    { apply Z.ltb_ge. unfold two64, INT32_MAX in *. nia. }
    rewrite B.
    assert (W2 : wrap64 (total + Qfloor q) = total + Qfloor q)
      by (apply Z.mod_small; unfold two64, INT32_MAX in *; nia).
    rewrite W2, IH; auto; try lia.
    + rewrite layer_total_S, E. simpl floor_of. f_equal. lia.
    + intros i Hi. apply F. lia.
Qed.
Lemma count_layers_bad p radius spacing n layer total : 0 < p -> 0 <= layer -> good_geometry radius spacing ->
  layer + Z.of_nat n <= INT32_MAX -> 0 <= total <= layer * INT32_MAX ->
  (exists i, layer <= i < layer + Z.of_nat n /\ ~ fits_int (layer_points rd rl p radius spacing i)) ->
  count_layers rd rl p radius spacing n layer total = Throws OutOfRange.
Proof using C.
  revert layer total. induction n as [|n IH]; intros layer total Hp Hl G Hn Ht (i & Hi & F).
  - lia.
  - cbn [count_layers]. cbv zeta.
    pose proof (layer_points_nonneg p radius spacing layer Hp Hl G) as NN.
    destruct (negb (isfinite (layer_points rd rl p radius spacing layer)) ||
      fp_lt (layer_points rd rl p radius spacing layer) (fpz 0) ||
      fp_lt INT_MAX_L (layer_points rd rl p radius spacing layer)) eqn:GD; [reflexivity|].
    apply (layer_guard _ NN) in GD.
    destruct (to_int32_ok _ NN GD) as (q & E & T & R). rewrite T. cbn [bind].
    assert (W : wrap64 (Qfloor q) = Qfloor q) by (apply Z.mod_small; unfold two64, INT32_MAX in *; lia).
    rewrite W.
    destruct ((two64 - 1) - total <? Qfloor q); [reflexivity|].
    assert (W2 : wrap64 (total + Qfloor q) = total + Qfloor q)
      by (apply Z.mod_small; unfold two64, INT32_MAX in *; nia).
    rewrite W2. apply IH; auto; try lia.
    exists i. split; [|exact F]. assert (i <> layer) by congruence. lia.
Qed.

Lemma fits_dec x : fits_int x \/ ~ fits_int x.
Proof. unfold fits_int. destruct (fp_le x _); [left|right]; congruence. Qed.
Lemma layers_dec p t radius spacing : layers_fit rd rl p t radius spacing \/
  exists i, 0 <= i < t /\ ~ fits_int (points_on rd rl p i radius spacing).
Proof.
  assert (K : forall n, (forall i, 0 <= i < Z.of_nat n -> fits_int (points_on rd rl p i radius spacing)) \/
    exists i, 0 <= i < Z.of_nat n /\ ~ fits_int (points_on rd rl p i radius spacing)).
  { induction n as [|n [IH|(i & Hi & F)]].
    - left. lia.
    - destruct (fits_dec (points_on rd rl p (Z.of_nat n) radius spacing)) as [F|F].
      + left. intros i Hi. destruct (Z.eq_dec i (Z.of_nat n)) as [->|N]; [exact F|apply IH; lia].
      + right. exists (Z.of_nat n). split; [lia|exact F].
    - right. exists i. split; [lia|exact F]. }
  destruct (Z_lt_le_dec t 0) as [N|N].
  - left. intros i Hi. lia.
  - specialize (K (Z.to_nat t)). rewrite Z2Nat.id in K by lia. exact K.
Qed.

Lemma vertex_count_ok p t radius spacing : 0 < p -> 0 < t <= INT32_MAX -> good_geometry radius spacing ->
  layers_fit rd rl p t radius spacing ->
  generated_input_vertex_count rd rl p t radius spacing = Val (layer_total p radius spacing 0 (Z.to_nat t)).
Proof using C.
  intros Hp Ht G F. unfold generated_input_vertex_count.
  assert ((p <=? 0) || (t <=? 0) = false) as -> by (apply orb_false_iff; split; apply Z.leb_gt; lia).
  assert (bad_radii radius spacing = false) as ->.
  { apply bad_radii_false. destruct G as (a & b & -> & -> & Ha & Hb & _).
    repeat split; try (eexists; reflexivity); apply fp_le_fin_false; assumption. }
  rewrite count_layers_ok; auto; try lia.
  intros i Hi. rewrite Z2Nat.id in Hi by lia. apply (F i). lia.
Qed.
Lemma vertex_count_bad p t radius spacing : 0 < p -> 0 < t <= INT32_MAX -> good_geometry radius spacing ->
  ~ layers_fit rd rl p t radius spacing ->
  generated_input_vertex_count rd rl p t radius spacing = Throws OutOfRange.
Proof using C.
  intros Hp Ht G F. unfold generated_input_vertex_count.
  assert ((p <=? 0) || (t <=? 0) = false) as -> by (apply orb_false_iff; split; apply Z.leb_gt; lia).
  assert (bad_radii radius spacing = false) as ->.
  { apply bad_radii_false. destruct G as (a & b & -> & -> & Ha & Hb & _).
    repeat split; try (eexists; reflexivity); apply fp_le_fin_false; assumption. }
  apply count_layers_bad; auto; try lia.
  destruct (layers_dec p t radius spacing) as [K|(i & Hi & K)]; [tauto|].
  exists i. split; [|exact K]. rewrite Z2Nat.id by lia. lia.
Qed.

(** ** The estimate *)
Lemma scaled_floor_exact t b n d : 0 < t <= INT32_MAX -> 0 <= b <= INT32_MAX -> 0 <= n <= 100 -> 0 < d <= 100 ->
  scaled_floor t b n d = Val (b * n / (t * d)).
Proof.
  intros Ht Hb Hn Hd. unfold scaled_floor, udiv64, wrap64, INT32_MAX in *.
  rewrite !Z.mod_small by (unfold two64; nia).
  assert (t * d =? 0 = false) as -> by (apply Z.eqb_neq; nia). reflexivity.
Qed.

Lemma envelope_bounds s t : 0 < s <= INT32_MAX -> 0 < t -> 0 <= schedule_envelope s t <= INT32_MAX / 2.
Proof.
  intros Hs Ht. unfold schedule_envelope, INT32_MAX in *.
  assert (A1 : 0 <= 2 * Z.min s 1000 / (5 * t) <= 1000).
  { split; [apply Z.div_pos; lia|]. apply Z.div_le_upper_bound; nia. }
  assert (A2 : 0 <= Z.min s 10000 / (5 * t) <= 10000).
  { split; [apply Z.div_pos; lia|]. apply Z.div_le_upper_bound; nia. }
  assert (A3 : 0 <= 3 * Z.min s 100000 / (20 * t) <= 100000).
  { split; [apply Z.div_pos; lia|]. apply Z.div_le_upper_bound; nia. }
  assert (A4 : 0 <= s / (10 * t) <= 214748365).
  { split; [apply Z.div_pos; lia|]. apply Z.div_le_upper_bound; nia. }
  change (2147483647 / 2) with 1073741823. lia.
Qed.

Lemma population_bounds_ok s t : 0 < s <= INT32_MAX -> 0 < t ->
  minimum_population s t <= population s t <= INT32_MAX /\ 2 <= population s t.
Proof.
  intros Hs Ht. pose proof (envelope_bounds s t Hs Ht) as E.
  unfold population, ceil_div, minimum_population, INT32_MAX in *. change (2147483647 / 2) with 1073741823 in E.
  assert (- (- (5 * schedule_envelope s t) / 4) <= 2000000000).
  { enough (-2000000000 <= - (5 * schedule_envelope s t) / 4) by lia. apply Z.div_le_lower_bound; [lia|].
    unfold schedule_envelope in *.
    assert (A1 : 2 * Z.min s 1000 / (5 * t) <= 1000) by (apply Z.div_le_upper_bound; nia).
    assert (A2 : Z.min s 10000 / (5 * t) <= 10000) by (apply Z.div_le_upper_bound; nia).
    assert (A3 : 3 * Z.min s 100000 / (20 * t) <= 100000) by (apply Z.div_le_upper_bound; nia).
    assert (A4 : s / (10 * t) <= 214748365) by (apply Z.div_le_upper_bound; nia).
    lia. }
  destruct (s <=? t); lia.
Qed.

Lemma margin_exact e : 0 <= e <= INT32_MAX -> wrap64 (wrap64 (5 * e) + 3) / 4 = ceil_div (5 * e) 4.
Proof.
  intros H. unfold wrap64, INT32_MAX, ceil_div in *.
  rewrite (Z.mod_small (5 * e)) by (unfold two64; lia).
  rewrite Z.mod_small by (unfold two64; lia).
  pose proof (Z.div_mod (5 * e + 3) 4 ltac:(lia)). pose proof (Z.mod_pos_bound (5 * e + 3) 4 ltac:(lia)).
  pose proof (Z.div_mod (- (5 * e)) 4 ltac:(lia)). pose proof (Z.mod_pos_bound (- (5 * e)) 4 ltac:(lia)). lia.
Qed.

Lemma outer_radius_ge t radius spacing : 0 < t <= INT32_MAX -> good_geometry radius spacing ->
  fp_le radius (outer_radius rl t radius spacing) = true.
Proof using C.
  intros Ht (a & b & -> & -> & Ha & Hb & Ea & Eb). unfold outer_radius.
  apply fadd_grows; [apply C|apply (double_is_long_double _ _ C), Ea|].
  simpl. apply rl_nonneg. pose proof (inject_nonneg (t - 1) ltac:(lia)). nra.
Qed.

(** The capacity INT_MAX / R is a nonnegative value or infinite. *)
Lemma capacity_nonneg t radius spacing : 0 < t <= INT32_MAX -> good_geometry radius spacing ->
  fp_finite (outer_radius rl t radius spacing) ->
  fp_le (fpz 0) (fdiv rl INT_MAX_L (outer_radius rl t radius spacing)) = true.
Proof using C.
  intros Ht G [R E]. pose proof (outer_radius_ge t radius spacing Ht G) as GE.
  destruct G as (a & b & -> & -> & Ha & Hb & Ea & Eb). rewrite E in *. apply fp_le_fin in GE.
  unfold INT_MAX_L, fpz. simpl. destruct (qzero R) eqn:Z0.
  - apply Qeq_bool_iff in Z0. lra.
  - apply rl_nonneg. apply Qle_shift_div_l; [lra|]. unfold inject_Z, INT32_MAX. lra.
Qed.

Lemma capacity_iff x m p : fp_le (fpz 0) x = true -> p <= INT32_MAX ->
  (if fp_le INT_MAX_L x then Val INT32_MAX else to_int32 x) = Val m ->
  (p <= m <-> fp_le (fpz p) x = true).
Proof.
  intros NN Hp E. destruct (fp_le INT_MAX_L x) eqn:L.
  - injection E as <-. split; [intros _|lia].
    eapply fp_le_trans; [|exact L]. apply fp_le_fin. rewrite <- Zle_Qle. exact Hp.
  - assert (B : fp_le x INT_MAX_L = true).
    { destruct x as [|[|]|q]; simpl in *; try congruence.
      apply Qle_bool_iff. destruct (Qlt_le_dec (inject_Z INT32_MAX) q) as [K|K]; [|exact K].
      exfalso. unfold INT_MAX_L in L. simpl in L.
      assert (Qle_bool (inject_Z INT32_MAX) q = true) by (apply Qle_bool_iff; lra). congruence. }
    destruct (to_int32_ok x NN B) as (q & -> & T & R). rewrite T in E. injection E as <-.
    unfold fpz. rewrite fp_le_fin. split; intros H.
    + pose proof (Qfloor_le q). rewrite Zle_Qle in H. lra.
    + rewrite <- (Qfloor_Z p). apply Qfloor_resp_le. exact H.
Qed.
Lemma capacity_val x : fp_le (fpz 0) x = true -> exists m, (if fp_le INT_MAX_L x then Val INT32_MAX else to_int32 x) = Val m.
Proof.
  intros NN. destruct (fp_le INT_MAX_L x) eqn:L; [eexists; reflexivity|].
  destruct (to_int32_ok x NN) as (q & -> & T & R).
  - destruct x as [|[|]|q]; simpl in *; try congruence.
    apply Qle_bool_iff. destruct (Qlt_le_dec (inject_Z INT32_MAX) q) as [K|K]; [|exact K].
    exfalso. assert (Qle_bool (inject_Z INT32_MAX) q = true) by (apply Qle_bool_iff; lra). congruence.
  - eexists; exact T.
Qed.

(** What the estimator returns, for valid arguments. *)
Lemma estimate_cases s t radius spacing : 0 < s <= INT32_MAX -> 0 < t <= INT32_MAX -> good_geometry radius spacing ->
  let p := population s t in
  expected_points_per_timeslice rd rl 3 s t radius spacing =
    if isfinite (outer_radius rl t radius spacing) && fp_le (fpz p) (fdiv rl INT_MAX_L (outer_radius rl t radius spacing))
    then match generated_input_vertex_count rd rl p t radius spacing with
         | Val _ => Val p | Throws e => Throws e | Undef => Undef end
    else Throws OutOfRange.
Proof using C.
  intros Hs Ht G p. unfold expected_points_per_timeslice.
  change (negb (3 =? 3)) with false. cbn iota.
  assert ((s <=? 0) || (t <=? 0) = false) as -> by (apply orb_false_iff; split; apply Z.leb_gt; lia).
  assert (bad_radii radius spacing = false) as ->.
  { apply bad_radii_false. destruct G as (a & b & -> & -> & Ha & Hb & _).
    repeat split; try (eexists; reflexivity); apply fp_le_fin_false; assumption. }
  fold (outer_radius rl t radius spacing).
  destruct (isfinite (outer_radius rl t radius spacing)) eqn:FI; [|reflexivity]. cbn [negb andb].
  assert (FF : fp_finite (outer_radius rl t radius spacing)).
  { destruct (outer_radius rl t radius spacing); try discriminate. eexists; reflexivity. }
  pose proof (capacity_nonneg t radius spacing Ht G FF) as NN.
  destruct (capacity_val _ NN) as [m Hm]. rewrite Hm. cbn [bind].
  destruct (population_bounds_ok s t Hs ltac:(lia)) as [[PM PX] P2].
  pose proof (capacity_iff _ m p NN PX Hm) as CI.
  rewrite !scaled_floor_exact by (unfold INT32_MAX in *; lia). cbn [bind].
  pose proof (envelope_bounds s t Hs ltac:(lia)) as EB. unfold INT32_MAX in EB. change (2147483647 / 2) with 1073741823 in EB.
  assert (EV : Z.max (Z.max (Z.min s 1000 * 2 / (t * 5)) (Z.min s 10000 * 1 / (t * 5)))
                 (Z.max (Z.min s 100000 * 3 / (t * 20)) (s * 1 / (t * 10))) = schedule_envelope s t).
  { unfold schedule_envelope. rewrite !Z.mul_1_r, !(Z.mul_comm _ t), (Z.mul_comm 2), (Z.mul_comm 3). reflexivity. }
  rewrite EV, margin_exact by (unfold INT32_MAX; lia).
  change (if s <=? t then 2 else 8) with (minimum_population s t). fold (population s t). fold p.
  destruct (fp_le (fpz p) (fdiv rl INT_MAX_L (outer_radius rl t radius spacing))) eqn:L.
  - assert (p <= m) by tauto.
    assert (m <? minimum_population s t = false) as -> by (apply Z.ltb_ge; subst p; lia).
    assert (m <? p = false) as -> by (apply Z.ltb_ge; lia).
    destruct (generated_input_vertex_count rd rl p t radius spacing); reflexivity.
  - assert (~ p <= m) by (rewrite CI; congruence).
    destruct (m <? minimum_population s t); [reflexivity|].
    assert (m <? p = true) as -> by (apply Z.ltb_lt; lia). reflexivity.
Qed.

End Facts.
