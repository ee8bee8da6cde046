(** Lemmas behind PropsConfig.v. *)
From Verif Require Import Base Config ConfigSpec ConfigFacts.
From Coq Require Import QArith Qround Qminmax Qfield Lqa ZArith.
Open Scope Z_scope.

Definition verdict {A} (l : requirements) (v : A) (r : checked A) : Prop :=
  (all_hold l /\ r = Val v) \/ exists e, first_failed l e /\ r = Throws e.
Lemma verdict_nil {A} (v : A) : verdict [] v (Val v).
Proof. left. split; [intros c e []|reflexivity]. Qed.
Lemma verdict_pass {A} (c : Prop) e l (v : A) r : c -> verdict l v r -> verdict ((c, e) :: l) v r.
Proof.
  intros Hc [[H ->]|(e' & F & ->)].
  - left. split; [|reflexivity]. intros c' e' [E|I]; [injection E as <- <-; exact Hc|eapply H; exact I].
  - right. exists e'. split; [constructor 2; assumption|reflexivity].
Qed.
Lemma verdict_fail {A} (c : Prop) e l (v : A) : ~ c -> verdict ((c, e) :: l) v (Throws e).
Proof. intros H. right. exists e. split; [constructor; exact H|reflexivity]. Qed.
Lemma first_failed_fun l e e' : first_failed l e -> first_failed l e' -> e = e'.
Proof.
  intros H. revert e'. induction H; intros e2 K; inversion K; subst; try tauto; auto.
Qed.
Lemma first_failed_not_all l e : first_failed l e -> ~ all_hold l.
Proof.
  induction 1; intros A; [apply H, (A c e); left; reflexivity|].
  apply IHfirst_failed. intros c' e2 I. apply (A c' e2). right. exact I.
Qed.
Lemma verdict_spec {A} l (v : A) r : verdict l v r ->
  (forall x, r = Val x <-> all_hold l /\ x = v) /\ (forall e, r = Throws e <-> first_failed l e) /\ r <> Undef.
Proof.
  intros [[H ->]|(e & F & ->)]; (split; [|split]).
  - intros x. split; [intros E; injection E as <-; auto|intros [_ ->]; reflexivity].
  - intros e. split; [discriminate|intros F; exfalso; exact (first_failed_not_all _ _ F H)].
  - discriminate.
  - intros x. split; [discriminate|intros [H _]; exfalso; exact (first_failed_not_all _ _ F H)].
  - intros e'. split; [intros E; injection E as <-; exact F|intros F'; f_equal; eapply first_failed_fun; eauto].
  - discriminate.
Qed.

Lemma isfinite_iff x : isfinite x = true <-> fp_finite x.
Proof. destruct x; simpl; unfold fp_finite; split; try discriminate; try (intros [? ?]; discriminate); eauto. Qed.

(** ** Triangulation configuration *)
Section C.
Context (rd rl : Q -> fp) (C : fp_contract rd rl) (par : bool).

Lemma last_points_guard p t radius spacing : 0 < p -> 0 < t <= INT32_MAX -> good_geometry rd radius spacing ->
  (negb (isfinite (fmul rl (fpz p) (outer_radius rl t radius spacing))) ||
   fp_lt INT_MAX_L (fmul rl (fpz p) (outer_radius rl t radius spacing)) = false <->
   fits_int (fmul rl (fpz p) (outer_radius rl t radius spacing))).
Proof using C.
  intros Hp Ht G.
  assert (NN : fp_le (fpz 0) (fmul rl (fpz p) (outer_radius rl t radius spacing)) = true).
  { apply fmul_nonneg; [apply C|apply (rl_int _ _ C 0), int32_0|apply inject_pos; lia|].
    eapply fp_le_trans; [|apply (outer_radius_ge rd rl C); eauto].
    destruct G as (a & b & -> & _ & Ha & _). apply fp_le_fin. unfold inject_Z. lra. }
  rewrite <- (layer_guard _ NN).
  assert (fp_lt (fmul rl (fpz p) (outer_radius rl t radius spacing)) (fpz 0) = false) as ->.
  { destruct (fmul _ _ _) as [|[|]|q]; simpl in *; try congruence. rewrite NN. reflexivity. }
  rewrite orb_false_r. reflexivity.
Qed.

Lemma make_triangulation_verdict spherical toroidal s t d radius spacing seed threads :
  is_double rd radius -> is_double rd spacing ->
  verdict (triangulation_requirements rd rl par spherical toroidal s t d radius spacing threads)
    (MkTriangulation SPHERICAL s t d radius spacing seed threads)
    (make_triangulation rd rl par spherical toroidal s t d radius spacing seed threads).
Proof using C.
  intros Dr Ds. unfold make_triangulation, triangulation_requirements, select_topology, checked_int.
  destruct (Bool.eqb spherical toroidal) eqn:E1.
  { apply Bool.eqb_prop in E1. cbn [bind]. apply verdict_fail. tauto. }
  apply verdict_pass; [intros ->; rewrite Bool.eqb_reflx in E1; discriminate|].
  destruct toroidal.
  { cbn [bind]. apply verdict_fail. discriminate. }
  apply verdict_pass; [reflexivity|]. cbn [bind].
  destruct (in_int32b s) eqn:E2; cbn [bind].
  2:{ apply verdict_fail. apply in_int32b_false, E2. }
  apply verdict_pass; [apply in_int32b_spec, E2|]. apply in_int32b_spec in E2.
  destruct (in_int32b t) eqn:E3; cbn [bind].
  2:{ apply verdict_fail. apply in_int32b_false, E3. }
  apply verdict_pass; [apply in_int32b_spec, E3|]. apply in_int32b_spec in E3.
  destruct (in_int32b d) eqn:E4; cbn [bind].
  2:{ apply verdict_fail. apply in_int32b_false, E4. }
  apply verdict_pass; [apply in_int32b_spec, E4|]. apply in_int32b_spec in E4.
  destruct (d =? 3) eqn:E5; cbn [negb].
  2:{ apply verdict_fail. apply Z.eqb_neq, E5. }
  apply Z.eqb_eq in E5. apply verdict_pass; [exact E5|].
  destruct ((s <? 2) || (t <? 2)) eqn:E6.
  { apply verdict_fail. rewrite orb_true_iff, !Z.ltb_lt in E6. lia. }
  rewrite orb_false_iff, !Z.ltb_ge in E6. apply verdict_pass; [exact E6|].
  unfold checked_finite. destruct (isfinite radius) eqn:E7; cbn [bind].
  2:{ apply verdict_fail. rewrite <- isfinite_iff. congruence. }
  apply verdict_pass; [apply isfinite_iff, E7|].
  destruct (isfinite spacing) eqn:E8; cbn [bind].
  2:{ apply verdict_fail. rewrite <- isfinite_iff. congruence. }
  apply verdict_pass; [apply isfinite_iff, E8|].
  destruct (fp_le radius (fpz 0)) eqn:E9.
  { apply verdict_fail. unfold fp_positive. congruence. }
  apply verdict_pass; [exact E9|].
  destruct (fp_le spacing (fpz 0)) eqn:E10.
  { apply verdict_fail. unfold fp_positive. congruence. }
  apply verdict_pass; [exact E10|].
  assert (G : good_geometry rd radius spacing).
  { apply isfinite_iff in E7 as [a ->]. apply isfinite_iff in E8 as [b ->].
    apply fp_le_fin_false in E9, E10. exists a, b. repeat split; auto. }
  assert (Hs : 0 < s <= INT32_MAX) by (unfold in_int32 in *; lia).
  assert (Ht : 0 < t <= INT32_MAX) by (unfold in_int32 in *; lia).
  destruct (population_bounds_ok s t Hs ltac:(lia)) as [[PM PX] P2].
  unfold make_generated_population, generated_population_bounds.
  rewrite (estimate_cases rd rl C s t radius spacing Hs Ht G). cbv zeta.
  set (p := population s t) in *. fold (outer_radius rl t radius spacing).
  destruct (isfinite (outer_radius rl t radius spacing)) eqn:E11; cbn [andb].
  2:{ cbn [bind]. apply verdict_fail. rewrite <- isfinite_iff. congruence. }
  apply verdict_pass; [apply isfinite_iff, E11|].
  destruct (fp_le (fpz p) (fdiv rl INT_MAX_L (outer_radius rl t radius spacing))) eqn:E12.
  2:{ cbn [bind]. apply verdict_fail. unfold within_capacity. fold INT_MAX_L. congruence. }
  apply verdict_pass; [exact E12|].
  destruct (layers_dec rd rl p t radius spacing) as [L|L].
  2:{ rewrite (vertex_count_bad rd rl C) by (auto; try lia; intros K; destruct L as (i & Hi & F); apply F, K, Hi).
      cbn [bind]. apply verdict_fail. intros K. destruct L as (i & Hi & F). apply F, K, Hi. }
  apply verdict_pass; [exact L|].
  rewrite (vertex_count_ok rd rl C) by (auto; lia). cbn [bind].
  rewrite (vertex_count_ok rd rl C) by (auto; lia). cbn [bind points_per_timeslice last_layer_points].
  assert (p <? 2 = false) as -> by (apply Z.ltb_ge; lia).
  assert (NF : fmul rl (fpz p) radius <> NaN).
  { destruct G as (a & b & -> & _). simpl. apply (rl_no_nan rd rl C). }
  rewrite (fp_lt_not_le _ _ NF) by discriminate.
  destruct (fp_le (fpz 2) (fmul rl (fpz p) radius)) eqn:E13; cbn [negb].
  2:{ cbn [bind]. apply verdict_fail. congruence. }
  apply verdict_pass; [reflexivity|].
  pose proof (last_points_guard p t radius spacing ltac:(lia) Ht G) as LG.
  destruct (negb (isfinite (fmul rl (fpz p) (outer_radius rl t radius spacing))) ||
    fp_lt INT_MAX_L (fmul rl (fpz p) (outer_radius rl t radius spacing))).
  { cbn [bind]. apply verdict_fail. rewrite <- LG. discriminate. }
  apply verdict_pass; [apply LG; reflexivity|]. cbn [bind].
  unfold checked_threads. destruct (threads <=? 0) eqn:E14.
  { cbn [bind]. apply verdict_fail. apply Z.leb_le in E14. lia. }
  apply Z.leb_gt in E14. apply verdict_pass; [exact E14|].
  destruct ((0 <=? threads) && (threads <? two64)) eqn:E15; cbn [negb].
  2:{ cbn [bind]. apply verdict_fail. apply andb_false_iff in E15 as [K|K]; [apply Z.leb_gt in K|apply Z.ltb_ge in K]; lia. }
  apply andb_true_iff in E15 as [_ E15]. apply Z.ltb_lt in E15. apply verdict_pass; [exact E15|].
  destruct (negb par && negb (threads =? 1)) eqn:E16; cbn [bind].
  { apply verdict_fail. apply andb_true_iff in E16 as [A B]. apply negb_true_iff in A, B. apply Z.eqb_neq in B.
    intros [K|K]; congruence. }
  apply verdict_pass; [|apply verdict_nil].
  apply andb_false_iff in E16 as [K|K]; apply negb_false_iff in K; [left; exact K|right; apply Z.eqb_eq, K].
Qed.

(** ** The estimate: monotone, bounded, downward closed *)
Lemma envelope_mono s s' t : s <= s' -> 0 < t -> schedule_envelope s t <= schedule_envelope s' t.
Proof.
  intros H Ht. unfold schedule_envelope.
  assert (2 * Z.min s 1000 / (5 * t) <= 2 * Z.min s' 1000 / (5 * t)) by (apply Z.div_le_mono; lia).
  assert (Z.min s 10000 / (5 * t) <= Z.min s' 10000 / (5 * t)) by (apply Z.div_le_mono; lia).
  assert (3 * Z.min s 100000 / (20 * t) <= 3 * Z.min s' 100000 / (20 * t)) by (apply Z.div_le_mono; lia).
  assert (s / (10 * t) <= s' / (10 * t)) by (apply Z.div_le_mono; lia).
  lia.
Qed.
Lemma population_mono s s' t : s <= s' -> 0 < t -> population s t <= population s' t.
Proof.
  intros H Ht. unfold population, minimum_population, ceil_div.
  pose proof (envelope_mono s s' t H Ht).
  assert (- (5 * schedule_envelope s' t) / 4 <= - (5 * schedule_envelope s t) / 4) by (apply Z.div_le_mono; lia).
  destruct (Z.leb_spec s t), (Z.leb_spec s' t); lia.
Qed.

(** Arguments the estimator accepts before looking at the population. *)
Lemma estimate_inv dim s t radius spacing p : in_int32 s -> in_int32 t -> is_double rd radius -> is_double rd spacing ->
  expected_points_per_timeslice rd rl dim s t radius spacing = Val p ->
  dim = 3 /\ 0 < s <= INT32_MAX /\ 0 < t <= INT32_MAX /\ good_geometry rd radius spacing.
Proof.
  unfold in_int32. intros Hs Ht Dr Ds E. unfold expected_points_per_timeslice in E.
  destruct (dim =? 3) eqn:E1; [|discriminate E]. apply Z.eqb_eq in E1.
  cbn [negb] in E. destruct ((s <=? 0) || (t <=? 0)) eqn:E2; [discriminate E|].
  rewrite orb_false_iff, !Z.leb_gt in E2.
  destruct (bad_radii radius spacing) eqn:E3; [discriminate E|].
  apply bad_radii_false in E3 as ([a ->] & A & [b ->] & B).
  apply fp_le_fin_false in A, B.
  split; [exact E1|]. split; [lia|]. split; [lia|]. exists a, b. repeat split; assumption.
Qed.

Lemma estimate_iff dim s t radius spacing p : in_int32 s -> in_int32 t -> is_double rd radius -> is_double rd spacing ->
  expected_points_per_timeslice rd rl dim s t radius spacing = Val p <->
  dim = 3 /\ 0 < s /\ 0 < t /\ fp_finite radius /\ fp_positive radius /\ fp_finite spacing /\ fp_positive spacing /\
  p = population s t /\ fp_finite (outer_radius rl t radius spacing) /\ within_capacity rl p t radius spacing /\
  layers_fit rd rl p t radius spacing.
Proof using C.
  intros Is It Dr Ds. split.
  - intros E. destruct (estimate_inv _ _ _ _ _ _ Is It Dr Ds E) as (-> & Hs & Ht & G).
    rewrite (estimate_cases rd rl C s t radius spacing Hs Ht G) in E. cbv zeta in E.
    destruct (isfinite (outer_radius rl t radius spacing)) eqn:F; [|discriminate E].
    destruct (fp_le (fpz (population s t)) (fdiv rl INT_MAX_L (outer_radius rl t radius spacing))) eqn:K; [|discriminate E].
    cbn [andb] in E.
    destruct (population_bounds_ok s t Hs ltac:(lia)) as [[PM PX] P2].
    destruct (layers_dec rd rl (population s t) t radius spacing) as [L|L].
    + destruct (generated_input_vertex_count rd rl (population s t) t radius spacing) as [cnt|ex|] eqn:GV; try discriminate E.
      injection E as <-. destruct G as (a & b & -> & -> & Ha & Hb & _).
      repeat split; try lia; try (eexists; reflexivity); try (apply fp_le_fin_false; assumption); auto.
      apply isfinite_iff, F.
    + rewrite (vertex_count_bad rd rl C) in E by (auto; try lia; intros K2; destruct L as (i & Hi & F2); apply F2, K2, Hi).
      discriminate E.
  - intros (-> & Hs & Ht & [a ->] & A & [b ->] & B & -> & F & K & L).
    unfold in_int32 in *. assert (G : good_geometry rd (Fin a) (Fin b)).
    { exists a, b. apply fp_le_fin_false in A, B. repeat split; auto. }
    rewrite (estimate_cases rd rl C s t _ _) by (auto; lia). cbv zeta.
    apply isfinite_iff in F. rewrite F. unfold within_capacity in K. unfold INT_MAX_L. rewrite K. cbn [andb].
    destruct (population_bounds_ok s t) as [[PM PX] P2]; try lia.
    rewrite (vertex_count_ok rd rl C) by (auto; lia). reflexivity.
Qed.

Lemma estimate_monotone s s' t radius spacing p p' : in_int32 s -> in_int32 s' -> in_int32 t ->
  is_double rd radius -> is_double rd spacing -> s <= s' ->
  expected_points_per_timeslice rd rl 3 s t radius spacing = Val p ->
  expected_points_per_timeslice rd rl 3 s' t radius spacing = Val p' -> p <= p'.
Proof using C.
  intros. rewrite estimate_iff in * by assumption.
  assert (p = population s t /\ p' = population s' t /\ 0 < t) as (-> & -> & ?) by tauto.
  apply population_mono; assumption.
Qed.

Lemma estimate_downward s s' t radius spacing p' : in_int32 s -> in_int32 s' -> in_int32 t ->
  is_double rd radius -> is_double rd spacing -> 0 < s <= s' ->
  expected_points_per_timeslice rd rl 3 s' t radius spacing = Val p' ->
  exists p, expected_points_per_timeslice rd rl 3 s t radius spacing = Val p /\ p <= p'.
Proof using C.
  intros Is Is' It Dr Ds Hs E.
  destruct (estimate_inv _ _ _ _ _ _ Is' It Dr Ds E) as (_ & Hs' & Ht & G).
  apply estimate_iff in E; auto. destruct E as (_ & _ & Ht0 & FR & PR & FS & PS & -> & FO & W & L).
  exists (population s t). split; [|apply population_mono; lia].
  pose proof (population_mono s s' t ltac:(lia) ltac:(lia)) as PM.
  destruct (population_bounds_ok s t) as [[P1 P2] P3]; try lia.
  apply estimate_iff; auto. repeat split; auto; try lia.
  - unfold within_capacity in *. eapply fp_le_trans; [|exact W]. apply fp_le_fin. rewrite <- Zle_Qle. exact PM.
  - intros i Hi. unfold fits_int. eapply fp_le_trans; [|apply (L i Hi)].
    apply (layer_points_mono rd rl C); auto; lia.
Qed.

Lemma estimate_within s t radius spacing p : in_int32 s -> in_int32 t -> is_double rd radius -> is_double rd spacing ->
  expected_points_per_timeslice rd rl 3 s t radius spacing = Val p ->
  (if s <=? t then 2 else 8) <= p <= INT32_MAX /\ within_capacity rl p t radius spacing.
Proof using C.
  intros Is It Dr Ds E. destruct (estimate_inv _ _ _ _ _ _ Is It Dr Ds E) as (_ & Hs & Ht & G).
  apply estimate_iff in E; auto. destruct E as (_ & _ & _ & _ & _ & _ & _ & -> & _ & W & _).
  destruct (population_bounds_ok s t) as [[P1 P2] P3]; try lia. split; [|exact W]. split; [exact P1|exact P2].
Qed.

Lemma estimate_no_undef dim s t radius spacing : in_int32 s -> in_int32 t -> is_double rd radius -> is_double rd spacing ->
  (exists p, expected_points_per_timeslice rd rl dim s t radius spacing = Val p) \/
  expected_points_per_timeslice rd rl dim s t radius spacing = Throws InvalidArgument \/
  expected_points_per_timeslice rd rl dim s t radius spacing = Throws OutOfRange.
Proof using C.
  unfold in_int32. intros Is It Dr Ds.
  destruct (Z.eq_dec dim 3) as [->|N].
  2:{ right. left. unfold expected_points_per_timeslice. apply Z.eqb_neq in N. rewrite N. reflexivity. }
  destruct ((s <=? 0) || (t <=? 0)) eqn:E2.
  { right. left. unfold expected_points_per_timeslice. change (negb (3 =? 3)) with false. cbn iota. rewrite E2. reflexivity. }
  destruct (bad_radii radius spacing) eqn:E3.
  { right. left. unfold expected_points_per_timeslice. change (negb (3 =? 3)) with false. cbn iota. rewrite E2, E3. reflexivity. }
  rewrite orb_false_iff, !Z.leb_gt in E2.
  apply bad_radii_false in E3 as ([a ->] & A & [b ->] & B).
  apply fp_le_fin_false in A, B.
  assert (G : good_geometry rd (Fin a) (Fin b)) by (exists a, b; repeat split; assumption).
  rewrite (estimate_cases rd rl C s t _ _) by (auto; lia). cbv zeta.
  destruct (_ && _); [|right; right; reflexivity].
  destruct (population_bounds_ok s t) as [[P1 P2] P3]; try lia.
  destruct (layers_dec rd rl (population s t) t (Fin a) (Fin b)) as [L|L].
  - rewrite (vertex_count_ok rd rl C) by (auto; lia). left. eexists; reflexivity.
  - rewrite (vertex_count_bad rd rl C) by (auto; try lia; intros K; destruct L as (i & Hi & F); apply F, K, Hi).
    right. right. reflexivity.
Qed.

(** ** Accepted configurations populate the generator (C62) *)

Lemma ball_layers_ok {point} (pt : Z -> nat -> point) p radius spacing n layer acc : 0 < p -> 0 <= layer ->
  good_geometry rd radius spacing -> fp_le (fpz 2) (fmul rl (fpz p) radius) = true ->
  (forall i, layer <= i < layer + Z.of_nat n -> fits_int (layer_points rd rl p radius spacing i)) ->
  ball_layers rd rl pt p radius spacing n layer acc =
    Val (acc ++ concat (map (fun i : nat => let L := layer + Z.of_nat i in
      map (fun j => (pt L j, L + 1)) (seq 0 (Z.to_nat (floor_of (layer_points rd rl p radius spacing L))))) (seq 0 n))).
Proof using C.
  revert layer acc. induction n as [|n IH]; intros layer acc Hp Hl G F2 F.
  - simpl. rewrite app_nil_r. reflexivity.
  - cbn [ball_layers]. cbv zeta.
    pose proof (layer_points_ge rd rl C p radius spacing layer Hp Hl G) as GE.
    pose proof (layer_points_nonneg rd rl C p radius spacing layer Hp Hl G) as NN.
    assert (FL : fits_int (layer_points rd rl p radius spacing layer)) by (apply F; lia).
    destruct (to_int32_ok _ NN FL) as (q & E & T & R).
    assert (FR : isfinite (layer_radius rd radius spacing layer) = true).
    { pose proof (layer_radius_ge rd rl C radius spacing layer Hl G) as RG. unfold layer_points in E.
      destruct G as (a & b & -> & -> & Ha & Hb & _).
      destruct (layer_radius rd (Fin a) (Fin b) layer) as [|[|]|x]; simpl in RG; try discriminate; [|reflexivity].
      simpl in E. destruct (qzero (inject_Z p)); discriminate. }
    rewrite FR. cbn [negb orb].
    assert (fp_lt (layer_points rd rl p radius spacing layer) (fpz 2) = false) as ->.
    { rewrite fp_lt_not_le by (rewrite ?E; discriminate). apply negb_false_iff. eapply fp_le_trans; eauto. }
    assert (fp_lt INT_MAX_L (layer_points rd rl p radius spacing layer) = false) as ->.
    { rewrite fp_lt_not_le by (rewrite ?E; discriminate). apply negb_false_iff. exact FL. }
    rewrite T. cbn [bind]. rewrite IH; auto; try lia.
    + f_equal. rewrite <- app_assoc. f_equal. simpl seq. simpl map. simpl concat.
       cbv zeta; cbn [map concat seq]; replace (layer + Z.of_nat 0) with layer by lia. rewrite E. simpl floor_of. f_equal.
      rewrite <- seq_shift, map_map. f_equal. apply map_ext. intros i. cbv zeta.
      replace (layer + Z.of_nat (S i)) with (layer + 1 + Z.of_nat i) by lia. reflexivity.
    + intros i Hi. apply F. lia.
Qed.

Lemma map_snd_layer {point} (pt : Z -> nat -> point) L k n :
  map snd (map (fun j : nat => (pt L j, L + 1)) (seq k n)) = repeat (L + 1) n.
Proof. revert k. induction n as [|n IH]; intros k; simpl; [reflexivity|]. f_equal. apply IH. Qed.

Lemma ball_ok {point} (pt : Z -> nat -> point) s t radius spacing :
  2 <= s <= INT32_MAX -> 2 <= t <= INT32_MAX -> good_geometry rd radius spacing ->
  fp_finite (outer_radius rl t radius spacing) ->
  within_capacity rl (population s t) t radius spacing ->
  layers_fit rd rl (population s t) t radius spacing ->
  fp_le (fpz 2) (fmul rl (fpz (population s t)) radius) = true ->
  fits_int (fmul rl (fpz (population s t)) (outer_radius rl t radius spacing)) ->
  exists l, make_foliated_ball rd rl pt s t radius spacing = Val l /\
    map snd l = ball_times t (fun i => floor_of (points_on rd rl (population s t) i radius spacing)) /\
    (forall i, 0 <= i < t -> 2 <= floor_of (points_on rd rl (population s t) i radius spacing)) /\
    generated_input_vertex_count rd rl (population s t) t radius spacing = Val (Z.of_nat (length l)).
Proof using C.
  intros Hs Ht G FO W L F2 FL. unfold make_foliated_ball.
  assert ((s <? 2) || (t <? 2) = false) as -> by (apply orb_false_iff; split; apply Z.ltb_ge; lia).
  assert (B : bad_radii radius spacing = false).
  { apply bad_radii_false. destruct G as (a & b & -> & -> & Ha & Hb & _).
    repeat split; try (eexists; reflexivity); apply fp_le_fin_false; assumption. }
  unfold bad_radii in B. rewrite !orb_false_iff in B. destruct B as (((B1 & B2) & B3) & B4).
  rewrite B1, B2, B3, B4. cbn [orb].
  destruct (population_bounds_ok s t) as [[P1 P2] P3]; try lia.
  unfold generated_population_bounds. rewrite (estimate_cases rd rl C s t _ _) by (auto; lia). cbv zeta.
  apply isfinite_iff in FO. unfold within_capacity in W. fold (outer_radius rl t radius spacing).
  fold INT_MAX_L in W. rewrite FO, W. cbn [andb].
  rewrite (vertex_count_ok rd rl C) by (auto; lia). cbn [bind].
  rewrite (vertex_count_ok rd rl C) by (auto; lia). cbn [bind points_per_timeslice last_layer_points].
  assert (population s t <? 2 = false) as -> by (apply Z.ltb_ge; lia).
  rewrite (proj2 (last_points_guard (population s t) t radius spacing ltac:(lia) ltac:(lia) G) FL).
  rewrite ball_layers_ok; auto; try lia.
  2:{ intros i Hi. rewrite Z2Nat.id in Hi by lia. apply (L i). lia. }
  cbn [bind app].
  set (p := population s t) in *.
  set (l := concat _).
  assert (TW : forall i, 0 <= i < t -> 2 <= floor_of (points_on rd rl p i radius spacing)).
  { intros i Hi. destruct (to_int32_ok (points_on rd rl p i radius spacing)) as (q & E & T & R).
    - apply (layer_points_nonneg rd rl C); auto; lia.
    - apply L, Hi.
    - rewrite E. simpl. change 2 with (Qfloor (inject_Z 2)). apply Qfloor_resp_le. apply fp_le_fin.
      rewrite <- E. eapply fp_le_trans; [exact F2|]. apply (layer_points_ge rd rl C); auto; lia. }
  assert (LEN : Z.of_nat (length l) = layer_total rd rl p radius spacing 0 (Z.to_nat t)).
  { unfold l, layer_total. clear l.
    assert (K : forall n k, Z.of_nat k + Z.of_nat n <= t ->
      Z.of_nat (length (concat (map (fun i : nat => let L0 := 0 + Z.of_nat i in
        map (fun j => (pt L0 j, L0 + 1)) (seq 0 (Z.to_nat (floor_of (layer_points rd rl p radius spacing L0))))) (seq k n)))) =
      fold_right Z.add 0 (map (fun i => floor_of (layer_points rd rl p radius spacing (0 + Z.of_nat i))) (seq k n))).
    { induction n as [|n IH]; intros k Hk; [reflexivity|].
      simpl seq. simpl map. simpl concat. rewrite app_length, map_length, seq_length, Nat2Z.inj_add, IH by lia.
      simpl fold_right. f_equal. rewrite Z2Nat.id; [reflexivity|].
      specialize (TW (0 + Z.of_nat k) ltac:(lia)). unfold points_on in TW. unfold layer_points, layer_radius. simpl Z.add in TW. lia. }
    apply K. lia. }
  assert (TOT : 4 <= Z.of_nat (length l)).
  { rewrite LEN. destruct (Z.to_nat t) as [|[|n]] eqn:ET; try lia.
    rewrite !layer_total_S.
    assert (0 <= layer_total rd rl p radius spacing (0 + 1 + 1) n <= Z.of_nat n * INT32_MAX).
    { apply (layer_total_bounds rd rl C); auto; try lia. intros i Hi. apply (L i). lia. }
    pose proof (TW 0 ltac:(lia)). pose proof (TW (0 + 1) ltac:(lia)).
    unfold points_on in *. unfold layer_points, layer_radius in *. lia. }
  assert ((length l <? 4)%nat = false) as -> by (apply Nat.ltb_ge; lia).
  exists l. split; [reflexivity|]. split; [|split].
  - unfold l, ball_times. rewrite concat_map, map_map. f_equal. apply map_ext. intros i. cbv zeta.
    rewrite map_snd_layer. reflexivity.
  - exact TW.
  - f_equal. symmetry. exact LEN.
Qed.

Lemma accepted_populates {point} (pt : Z -> nat -> point) spherical toroidal s t d radius spacing seed threads tr :
  is_double rd radius -> is_double rd spacing ->
  make_triangulation rd rl par spherical toroidal s t d radius spacing seed threads = Val tr ->
  exists l, make_foliated_ball rd rl pt s t radius spacing = Val l /\
    map snd l = ball_times t (fun i => floor_of (points_on rd rl (population s t) i radius spacing)) /\
    (forall i, 0 <= i < t -> 2 <= floor_of (points_on rd rl (population s t) i radius spacing)) /\
    generated_input_vertex_count rd rl (population s t) t radius spacing = Val (Z.of_nat (length l)).
Proof using C.
  intros Dr Ds E.
  destruct (verdict_spec _ _ _ (make_triangulation_verdict spherical toroidal s t d radius spacing seed threads Dr Ds)) as [V _].
  apply V in E as [A _]. unfold triangulation_requirements in A. cbv zeta in A.
  assert (H : forall c e, In (c, e) (triangulation_requirements rd rl par spherical toroidal s t d radius spacing threads) -> c) by exact A.
  unfold triangulation_requirements in H. cbv zeta in H.
  assert (in_int32 s) by (eapply H; cbn [In]; repeat first [left; reflexivity | right]).
  assert (in_int32 t) by (eapply H; cbn [In]; repeat first [left; reflexivity | right]).
  assert (2 <= s /\ 2 <= t) by (eapply H; cbn [In]; repeat first [left; reflexivity | right]).
  assert (HFR : fp_finite radius) by (eapply H; cbn [In]; repeat first [left; reflexivity | right]).
  assert (HFS : fp_finite spacing) by (eapply H; cbn [In]; repeat first [left; reflexivity | right]).
  assert (HPR : fp_positive radius) by (eapply H; cbn [In]; repeat first [left; reflexivity | right]).
  assert (HPS : fp_positive spacing) by (eapply H; cbn [In]; repeat first [left; reflexivity | right]).
  unfold in_int32 in *.
  apply ball_ok; try lia; [|eapply H; cbn [In]; repeat first [left; reflexivity | right] ..].
  destruct HFR as [a ->], HFS as [b ->]. apply fp_le_fin_false in HPR, HPS.
  exists a, b. repeat split; auto.
Qed.
End C.

(** ** Simulation configuration *)
Lemma make_simulation_verdict tr alpha k lambda passes checkpoint w :
  verdict (simulation_requirements alpha k lambda passes checkpoint)
    (MkSimulation tr alpha k lambda passes checkpoint w)
    (make_simulation tr alpha k lambda passes checkpoint w).
Proof.
  unfold make_simulation, simulation_requirements, checked_finite, checked_int.
  destruct (isfinite alpha) eqn:E1; cbn [bind].
  2:{ apply verdict_fail. rewrite <- isfinite_iff. congruence. }
  apply verdict_pass; [apply isfinite_iff, E1|].
  destruct (isfinite k) eqn:E2; cbn [bind].
  2:{ apply verdict_fail. rewrite <- isfinite_iff. congruence. }
  apply verdict_pass; [apply isfinite_iff, E2|].
  destruct (isfinite lambda) eqn:E3; cbn [bind].
  2:{ apply verdict_fail. rewrite <- isfinite_iff. congruence. }
  apply verdict_pass; [apply isfinite_iff, E3|].
  assert (K : fp_lt (Fin (1 # 2)) alpha = negb (fp_le alpha half)).
  { apply fp_lt_not_le; [discriminate|]. destruct alpha; discriminate. }
  destruct (fp_le alpha half) eqn:E4.
  { apply verdict_fail. rewrite K. discriminate. }
  apply verdict_pass; [exact K|].
  destruct (in_int32b passes) eqn:E5; cbn [bind].
  2:{ apply verdict_fail. apply in_int32b_false, E5. }
  apply verdict_pass; [apply in_int32b_spec, E5|].
  destruct (in_int32b checkpoint) eqn:E6; cbn [bind].
  2:{ apply verdict_fail. apply in_int32b_false, E6. }
  apply verdict_pass; [apply in_int32b_spec, E6|].
  destruct (passes <=? 0) eqn:E7.
  { apply verdict_fail. apply Z.leb_le in E7. lia. }
  apply verdict_pass; [apply Z.leb_gt, E7|].
  destruct (checkpoint <=? 0) eqn:E8.
  { apply verdict_fail. apply Z.leb_le in E8. lia. }
  apply verdict_pass; [apply Z.leb_gt, E8|apply verdict_nil].
Qed.

(** ** Tetrahedron bound *)
Lemma tetra_bound n : 0 <= n < two64 ->
  (n < 4 -> delaunay_tetrahedron_upper_bound n = Some 0) /\
  (4 <= n -> n * (n - 3) / 2 - 1 < two64 -> delaunay_tetrahedron_upper_bound n = Some (n * (n - 3) / 2 - 1)) /\
  (4 <= n -> two64 <= n * (n - 3) / 2 - 1 -> delaunay_tetrahedron_upper_bound n = None).
Proof.
  intros Hn. unfold delaunay_tetrahedron_upper_bound.
  split; [intros H; apply Z.ltb_lt in H; rewrite H; reflexivity|].
  assert (W3 : 4 <= n -> wrap64 (n - 3) = n - 3) by (intros; apply Z.mod_small; unfold two64 in *; lia).
  assert (P : 4 <= n -> exists f g, (if n mod 2 =? 0 then (n / 2, n - 3) else (n, (n - 3) / 2)) = (f, g) /\
    2 * (f * g) = n * (n - 3) /\ 0 < g /\ 0 < f).
  { intros H4. pose proof (Z.div_mod n 2 ltac:(lia)). pose proof (Z.mod_pos_bound n 2 ltac:(lia)).
    destruct (Z.eqb_spec (n mod 2) 0) as [E|E].
    - exists (n / 2), (n - 3). split; [reflexivity|]. split; [nia|lia].
    - exists n, ((n - 3) / 2). split; [reflexivity|].
      pose proof (Z.div_mod (n - 3) 2 ltac:(lia)). pose proof (Z.mod_pos_bound (n - 3) 2 ltac:(lia)).
      assert ((n - 3) mod 2 = 0).
      { replace (n - 3) with ((n - 1) / 2 * 2 - 2).
        - rewrite Z.mod_divide by lia. exists ((n - 1) / 2 - 1). lia.
        - pose proof (Z.div_mod (n - 1) 2 ltac:(lia)). pose proof (Z.mod_pos_bound (n - 1) 2 ltac:(lia)). lia. }
      split; [nia|lia]. }
  (* n (n - 3) / 2 is never exactly 2^64 *)
  assert (NE : 4 <= n -> n * (n - 3) <> 2 * two64).
  { intros H4. unfold two64. destruct (Z_le_gt_dec n 6074001001) as [L|L].
    - assert (n * (n - 3) <= 6074001001 * 6074000998) by nia. lia.
    - assert (6074001002 * 6074000999 <= n * (n - 3)) by nia. lia. }
  split; intros H4 HB; specialize (W3 H4); specialize (NE H4); destruct (P H4) as (f & g & E & M & G & F);
    assert (n <? 4 = false) as -> by (apply Z.ltb_ge; lia); cbv zeta; rewrite W3, E.
  - assert (D : n * (n - 3) / 2 = f * g) by (rewrite <- M, Z.mul_comm; apply Z.div_mul; lia).
    rewrite D in *.
    assert (FG : f * g < two64) by lia.
    assert ((two64 - 1) / g <? f = false) as ->.
    { apply Z.ltb_ge. apply Z.div_le_lower_bound; lia. }
    rewrite andb_false_r. unfold wrap64. rewrite (Z.mod_small (f * g)) by nia.
    rewrite Z.mod_small by nia. reflexivity.
  - assert (D : n * (n - 3) / 2 = f * g) by (rewrite <- M, Z.mul_comm; apply Z.div_mul; lia).
    rewrite D in *.
    assert (g =? 0 = false) as -> by (apply Z.eqb_neq; lia).
    assert ((two64 - 1) / g <? f = true) as ->; [|reflexivity].
    apply Z.ltb_lt. apply Z.div_lt_upper_bound; lia.
Qed.

(** ** Instances of the contract *)
Lemma contract_exact : fp_contract Fin Fin.
Proof.
  split; intros; unfold exact in *; try (apply fp_le_fin; assumption); try reflexivity; assumption.
Qed.

(** Exact below 2^1024, infinite above. *)
Definition saturating (q : Q) : fp :=
  if Qle_bool (inject_Z (2 ^ 1024)) q then Inf false
  else if Qle_bool q (inject_Z (- 2 ^ 1024)) then Inf true else Fin q.
Lemma contract_saturating : fp_contract saturating saturating.
Proof.
  set (B := inject_Z (2 ^ 1024)).
  assert (BB : inject_Z (- 2 ^ 1024) = (- B)%Q) by reflexivity.
  assert (BP : (0 < B)%Q) by reflexivity.
  assert (M : forall p q, (p <= q)%Q -> fp_le (saturating p) (saturating q) = true).
  { intros p q H. unfold saturating. fold B. rewrite BB.
    destruct (Qle_bool B p) eqn:E1, (Qle_bool B q) eqn:E2, (Qle_bool p (- B)) eqn:E3, (Qle_bool q (- B)) eqn:E4;
      try reflexivity; try (apply fp_le_fin; exact H); exfalso;
      repeat match goal with
      | K : Qle_bool _ _ = true |- _ => apply Qle_bool_iff in K
      | K : Qle_bool ?a ?b = false |- _ =>
          let N := fresh in assert (N : ~ (a <= b)%Q) by (rewrite <- Qle_bool_iff; congruence); clear K
      end; lra. }
  assert (I : forall z, in_int32 z -> exact saturating (inject_Z z)).
  { intros z Hz. unfold exact, saturating.
    assert (K : - 2 ^ 1024 < z < 2 ^ 1024).
    { unfold in_int32, INT32_MIN, INT32_MAX in Hz. assert (2 ^ 32 < 2 ^ 1024) by (apply Z.pow_lt_mono_r; lia). lia. }
    destruct (Qle_bool (inject_Z (2 ^ 1024)) (inject_Z z)) eqn:E1.
    { apply Qle_bool_iff in E1. rewrite <- Zle_Qle in E1. lia. }
    destruct (Qle_bool (inject_Z z) (inject_Z (- 2 ^ 1024))) eqn:E2.
    { apply Qle_bool_iff in E2. rewrite <- Zle_Qle in E2. lia. }
    reflexivity. }
  split; auto.
Qed.

(** ** The acceptance condition in exact arithmetic *)
Lemma accept_exact par spherical toroidal s t d radius spacing seed threads tr :
  make_triangulation Fin Fin par spherical toroidal s t d radius spacing seed threads = Val tr <->
  tr = MkTriangulation SPHERICAL s t d radius spacing seed threads /\
  spherical = true /\ toroidal = false /\ 2 <= s <= INT32_MAX /\ 2 <= t <= INT32_MAX /\ d = 3 /\
  (exists a b, radius = Fin a /\ spacing = Fin b /\ (0 < a)%Q /\ (0 < b)%Q /\
    (inject_Z (population s t) * (a + inject_Z (t - 1) * b) <= inject_Z INT32_MAX)%Q /\
    (2 <= inject_Z (population s t) * a)%Q) /\
  1 <= threads < two64 /\ (par = true \/ threads = 1).
Proof.
  assert (DR : forall x, is_double Fin x) by (intros [| |x]; simpl; try exact I; unfold exact; reflexivity).
  destruct (verdict_spec _ _ _ (make_triangulation_verdict Fin Fin contract_exact par spherical toroidal s t d
    radius spacing seed threads (DR _) (DR _))) as [V _].
  rewrite V. clear V. split.
  - intros [A ->].
    assert (H : forall c e, In (c, e) (triangulation_requirements Fin Fin par spherical toroidal s t d radius spacing threads) -> c) by exact A.
    unfold triangulation_requirements in H. cbv zeta in H.
    assert (H1 : spherical <> toroidal) by (eapply H; cbn [In]; repeat first [left; reflexivity | right]).
    assert (H2 : toroidal = false) by (eapply H; cbn [In]; repeat first [left; reflexivity | right]).
    assert (H3 : in_int32 s) by (eapply H; cbn [In]; repeat first [left; reflexivity | right]).
    assert (H4 : in_int32 t) by (eapply H; cbn [In]; repeat first [left; reflexivity | right]).
    assert (H5 : d = 3) by (eapply H; cbn [In]; repeat first [left; reflexivity | right]).
    assert (H6 : 2 <= s /\ 2 <= t) by (eapply H; cbn [In]; repeat first [left; reflexivity | right]).
    assert (H7 : fp_finite radius) by (eapply H; cbn [In]; repeat first [left; reflexivity | right]).
    assert (H8 : fp_finite spacing) by (eapply H; cbn [In]; repeat first [left; reflexivity | right]).
    assert (H9 : fp_positive radius) by (eapply H; cbn [In]; repeat first [left; reflexivity | right]).
    assert (H10 : fp_positive spacing) by (eapply H; cbn [In]; repeat first [left; reflexivity | right]).
    assert (H11 : fp_le (fpz 2) (fmul Fin (fpz (population s t)) radius) = true) by (eapply H; cbn [In]; repeat first [left; reflexivity | right]).
    assert (H12 : fits_int (fmul Fin (fpz (population s t)) (outer_radius Fin t radius spacing))) by (eapply H; cbn [In]; repeat first [left; reflexivity | right]).
    assert (H13 : 0 < threads) by (eapply H; cbn [In]; repeat first [left; reflexivity | right]).
    assert (H14 : threads < two64) by (eapply H; cbn [In]; repeat first [left; reflexivity | right]).
    assert (H15 : par = true \/ threads = 1) by (eapply H; cbn [In]; repeat first [left; reflexivity | right]).
    destruct H7 as [a ->], H8 as [b ->]. apply fp_le_fin_false in H9, H10.
    unfold fits_int, outer_radius, fpz in *. cbn [fmul fadd] in *. apply fp_le_fin in H11, H12. unfold in_int32 in *.
    split; [reflexivity|]. split; [destruct spherical, toroidal; congruence|].
    repeat split; auto; try lia.
    exists a, b. repeat split; auto.
  - intros (-> & -> & -> & Hs & Ht & -> & (a & b & -> & -> & Ha & Hb & HM & H2) & Hth & Hp).
    split; [|reflexivity].
    assert (P : (0 < inject_Z (population s t))%Q).
    { destruct (population_bounds_ok s t) as [[_ _] P2]; try lia. apply inject_pos. lia. }
    assert (T1 : (0 <= inject_Z (t - 1))%Q) by (apply inject_nonneg; lia).
    unfold all_hold, triangulation_requirements. cbv zeta. cbn [In].
    intros c e K.
    repeat match type of K with _ \/ _ => destruct K as [K|K]; [injection K as <- <-|] end; try contradiction.
    all: try (unfold in_int32, INT32_MIN, INT32_MAX in *; lia); try discriminate; try reflexivity; try (eexists; reflexivity); try exact Hp.
    + unfold fp_positive. apply fp_le_fin_false. exact Ha.
    + unfold fp_positive. apply fp_le_fin_false. exact Hb.
    + unfold within_capacity, outer_radius, fpz. cbn [fmul fadd fdiv].
      destruct (qzero _) eqn:Z0.
      { reflexivity. }
      apply fp_le_fin. apply Qle_shift_div_l; [nra|exact HM].
    + intros i Hi. unfold fits_int, points_on, fpz. cbn [fmul fadd]. apply fp_le_fin.
      assert (inject_Z i <= inject_Z (t - 1))%Q by (rewrite <- Zle_Qle; lia).
      eapply Qle_trans; [|exact HM]. apply Qmult_le_l; [exact P|].
      assert (inject_Z i * b <= inject_Z (t - 1) * b)%Q by (apply Qmult_le_compat_r; lra). lra.
    + apply fp_le_fin. exact H2.
    + unfold fits_int, outer_radius, fpz. cbn [fmul fadd]. apply fp_le_fin. exact HM.
Qed.
