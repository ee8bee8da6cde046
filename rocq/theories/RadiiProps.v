(** Labels and the radius check: generated points, soundness, wrong labels. *)
From Verif Require Import Base Config ConfigSpec ConfigFacts FoliationSpec FoliationProps2 Repair ViewerScene Radii RadiiSpec RadiiFacts.
From Coq Require Import QArith QArith.Qabs Lqa Lia.
Local Open Scope Q_scope.

Lemma square_close r R d : 0 < R -> 0 <= d -> d <= 1 -> Qabs (r - R) <= d * R -> Qabs (r * r - R * R) <= 3 * d * (R * R).
Proof.
  intros R0 D0 D1 H. apply Qabs_Qle_condition in H. destruct H as [H1 H2].
  assert (RR : 0 < R * R) by nra. assert (DR : 0 <= d * R) by nra. assert (DR1 : d * R <= R) by nra.
  assert (DD : d * R * (d * R) <= d * (R * R)). { assert (d * R * (d * R) == d * (d * (R * R))) by ring. rewrite H. assert (0 <= d * (R * R)) by nra. assert (d * (d * (R * R)) <= 1 * (d * (R * R))) by (apply Qmult_le_compat_r; lra). lra. }
  set (t := r - R) in *. assert (F : r * r - R * R == t * (2 * R) + t * t) by (unfold t; ring). rewrite F.
  assert (T2 : t * t <= d * R * (d * R)). { assert (0 <= (d * R - t) * (d * R + t)) by (apply Qmult_le_0_compat; lra). lra. }
  assert (T0 : 0 <= t * t) by nra.
  assert (A1 : t * (2 * R) <= d * R * (2 * R)) by (apply Qmult_le_compat_r; lra).
  assert (A2 : - (d * R) * (2 * R) <= t * (2 * R)) by (apply Qmult_le_compat_r; lra).
  apply abs_le; lra.
Qed.

Section Generated.
  Variable rd : Q -> fp.
  Variables fsqrt square : fp -> fp.
  Hypothesis NR : ieee_double rd.
  Variables I S : Q.
  Variable i : Z.
  Hypothesis I1 : pow2 (-300) <= I.
  Hypothesis S1 : pow2 (-300) <= S.
  Hypothesis S2 : S <= pow2 300.
  Hypothesis Hi : (0 <= i < INT32_MAX)%Z.
  Hypothesis U : I + inject_Z i * S <= pow2 300.
  Let R := I + inject_Z i * S.

  Lemma slice_pos : pow2 (-300) <= R /\ 0 < R /\ 0 < R * R /\ 2 * pow2 (-800) <= R * R /\ 2 * (R * R) <= pow2 800.
  Proof using I1 S1 Hi U.
    assert (P0 : 0 < pow2 (-300)) by (vm_compute; reflexivity).
    assert (T0 : 0 <= inject_Z i * S). { apply Qmult_le_0_compat; [change 0 with (inject_Z 0); rewrite <- Zle_Qle; apply Hi|lra]. }
    assert (HR : pow2 (-300) <= R) by (unfold R; lra). fold R in U.
    assert (RL : pow2 (-300) * pow2 (-300) <= R * R). { apply Qmult_le_compat_nonneg; split; lra. }
    assert (RU : R * R <= pow2 300 * pow2 300). { apply Qmult_le_compat_nonneg; split; lra. }
    assert (E1 : pow2 (-800) * 2 <= pow2 (-300) * pow2 (-300)) by (vm_compute; discriminate).
    assert (E2 : pow2 300 * pow2 300 * 2 <= pow2 800) by (vm_compute; discriminate).
    assert (0 < pow2 (-800)) by (vm_compute; reflexivity).
    repeat split; lra.
  Qed.
  (** The squared radius of a generated point is within 2^-39 of the slice's. *)
  Lemma generated_norm r p : layer_radius rd (Fin I) (Fin S) i = Fin r -> on_sphere r p ->
    exists x y z, located p x y z /\ Qabs (norm2 x y z - R * R) <= (1 # 549755813888) * (R * R).
  Proof using NR I1 S1 Hi U.
    intros Hr (x & y & z & L & HN). exists x, y, z. split; [exact L|].
    destruct slice_pos as (R1 & R0 & RR & _).
    assert (S0 : 0 < S). { assert (0 < pow2 (-300)) by (vm_compute; reflexivity). lra. }
    unfold layer_radius, fpz in Hr. cbn [fmul] in Hr.
    destruct (radius_rel rd I S i (inject_Z i * S) NR I1 S0 (proj1 Hi) U (Qeq_refl _)) as (r' & E & B). rewrite E in Hr. injection Hr as ->.
    fold R in B. apply square_close in B; [|exact R0|vm_compute; discriminate|vm_compute; discriminate].
    apply Qabs_Qle_condition in B, HN. assert (P : pow2 (-40) == 1 # 1099511627776) by (vm_compute; reflexivity). rewrite P in HN.
    set (n := norm2 x y z) in *. set (r2 := r * r) in *. set (R2 := R * R) in *. apply abs_le; lra.
  Qed.
  Lemma generated_label r p : sqrt_ok fsqrt -> layer_radius rd (Fin I) (Fin S) i = Fin r -> on_sphere r p ->
    R <= pow2 36 * S -> vertex_time rd fsqrt p (Fin I) (Fin S) = Some (i + 1)%Z.
  Proof using NR I1 S1 S2 Hi U.
    intros SQ Hr P HS. destruct (generated_norm r p Hr P) as (x & y & z & L & N).
    apply (near_label rd fsqrt p x y z I S i (1 # 549755813888)); try assumption.
    - assert (pow2 (-900) <= pow2 (-300)) by (vm_compute; discriminate). lra.
    - assert (pow2 300 <= pow2 900) by (vm_compute; discriminate). lra.
    - vm_compute. discriminate.
    - assert (P36 : pow2 36 == 68719476736 # 1) by (vm_compute; reflexivity). rewrite P36 in HS. fold R.
      assert (0 < pow2 (-300)) by (vm_compute; reflexivity). lra.
  Qed.
  Lemma slice_radius : exists e, expected_radius rd (i + 1) (Fin I) (Fin S) = Some (Fin e) /\
    Qabs (e - R) <= (1 # 1125899906842624) * R.
  Proof using NR I1 S1 Hi U.
    assert (S0 : 0 < S). { assert (0 < pow2 (-300)) by (vm_compute; reflexivity). lra. }
    unfold expected_radius. replace (i + 1 - 1)%Z with i by lia.
    destruct (INT32_MIN <=? i)%Z eqn:E; [|apply Z.leb_gt in E; unfold INT32_MIN in E; lia].
    unfold fpz. cbn [fmul].
    destruct (radius_rel rd I S i (S * inject_Z i) NR I1 S0 (proj1 Hi) U (Qmult_comm _ _)) as (e & Ee & B). rewrite Ee.
    exists e. split; [reflexivity|exact B].
  Qed.
  (** The check against slice i. *)
  Lemma slice_check p x y z : square_ok square -> located p x y z -> pow2 (-800) <= norm2 x y z -> norm2 x y z <= pow2 800 ->
    exists b, radius_matches rd square p (i + 1) (Fin I) (Fin S) = Some b /\
      ((9902 # 10000) * (R * R) <= norm2 x y z -> norm2 x y z <= (10098 # 10000) * (R * R) -> b = true) /\
      (b = true -> (9898 # 10000) * (R * R) < norm2 x y z /\ norm2 x y z < (10102 # 10000) * (R * R)).
  Proof using NR I1 S1 Hi U.
    intros SQ L N1 N2. destruct slice_radius as (e & Ee & B). destruct slice_pos as (R1 & R0 & RR & _).
    pose proof (square_close e R (1 # 1125899906842624) R0 ltac:(vm_compute; discriminate) ltac:(vm_compute; discriminate) B) as B2.
    apply Qabs_Qle_condition in B, B2. fold R in U.
    assert (A0 : Qabs e == e) by (apply Qabs_pos; lra).
    assert (P1 : 2 * pow2 (-350) <= pow2 (-300)) by (vm_compute; discriminate).
    assert (P2 : 2 * pow2 300 <= pow2 350) by (vm_compute; discriminate).
    destruct (match_value rd square p x y z (i + 1) (Fin I) (Fin S) e NR SQ L Ee) as (b & Eb & T & F).
    - rewrite A0. lra.
    - rewrite A0. lra.
    - exact N1.
    - exact N2.
    - exists b. split; [exact Eb|]. set (e2 := e * e) in *. set (R2 := R * R) in *. set (n := norm2 x y z) in *. split.
      + intros H1 H2. apply T; lra.
      + intros H. apply F in H. split; lra.
  Qed.
  Lemma generated_matches r p : square_ok square -> layer_radius rd (Fin I) (Fin S) i = Fin r -> on_sphere r p ->
    radius_matches rd square p (i + 1) (Fin I) (Fin S) = Some true.
  Proof using NR I1 S1 Hi U.
    intros SQ Hr P. destruct (generated_norm r p Hr P) as (x & y & z & L & N). destruct slice_pos as (R1 & R0 & RR & RL & RU).
    apply Qabs_Qle_condition in N. set (R2 := R * R) in *. set (n := norm2 x y z) in *.
    destruct (slice_check p x y z SQ L) as (b & Eb & T & _); fold n; [lra|lra|]. fold n R2 in T. rewrite Eb. f_equal. apply T; lra.
  Qed.
  (** A point that passes is within about half a percent of the slice, so near the
      first slices its time is the label. *)
  Lemma matches_radius p x y z : square_ok square -> located p x y z -> pow2 (-800) <= norm2 x y z -> norm2 x y z <= pow2 800 ->
    radius_matches rd square p (i + 1) (Fin I) (Fin S) = Some true ->
    (9898 # 10000) * (R * R) < norm2 x y z /\ norm2 x y z < (10102 # 10000) * (R * R).
  Proof using NR I1 S1 Hi U.
    intros SQ L N1 N2 H. destruct (slice_check p x y z SQ L N1 N2) as (b & Eb & _ & F). rewrite Eb in H. injection H as ->. apply F. reflexivity.
  Qed.
  Lemma matches_label p x y z : square_ok square -> sqrt_ok fsqrt -> located p x y z -> pow2 (-800) <= norm2 x y z -> norm2 x y z <= pow2 800 ->
    radius_matches rd square p (i + 1) (Fin I) (Fin S) = Some true -> R <= 24 * S ->
    vertex_time rd fsqrt p (Fin I) (Fin S) = Some (i + 1)%Z.
  Proof using NR I1 S1 S2 Hi U.
    intros SQ SR L N1 N2 H HS. destruct (matches_radius p x y z SQ L N1 N2 H) as [A B].
    destruct slice_pos as (R1 & R0 & RR & RL & RU).
    apply (near_label rd fsqrt p x y z I S i (102 # 10000)); try assumption.
    - assert (pow2 (-900) <= pow2 (-300)) by (vm_compute; discriminate). lra.
    - assert (pow2 300 <= pow2 900) by (vm_compute; discriminate). lra.
    - vm_compute. discriminate.
    - fold R. set (R2 := R * R) in *. set (n := norm2 x y z) in *. apply abs_le; lra.
    - fold R. assert (0 < pow2 (-300)) by (vm_compute; reflexivity). lra.
  Qed.
End Generated.

(** From radius 250 spacings on the check accepts the label of the next slice. *)
Lemma late_labels rd fsqrt square I S i p x y z : ieee_double rd -> sqrt_ok fsqrt -> square_ok square ->
  pow2 (-300) <= I -> pow2 (-300) <= S -> S <= pow2 300 -> (0 < i < INT32_MAX)%Z -> I + inject_Z i * S <= pow2 300 ->
  250 * S <= I + inject_Z i * S -> I + inject_Z i * S <= pow2 36 * S ->
  located p x y z -> norm2 x y z == (I + inject_Z (i - 1) * S) * (I + inject_Z (i - 1) * S) ->
  vertex_time rd fsqrt p (Fin I) (Fin S) = Some i /\ radius_matches rd square p (i + 1) (Fin I) (Fin S) = Some true.
Proof.
  intros NR SR SQ I1 S1 S2 Hi U HS HS2 L HN.
  assert (P0 : 0 < pow2 (-300)) by (vm_compute; reflexivity).
  assert (PR : I + inject_Z (i - 1) * S == I + inject_Z i * S - S).
  { unfold Z.sub. rewrite inject_Z_plus. change (inject_Z (- (1))) with (- (1)). ring. }
  set (R := I + inject_Z i * S) in *. set (R' := I + inject_Z (i - 1) * S) in *.
  split.
  - replace i with (i - 1 + 1)%Z by lia.
    apply (near_label rd fsqrt p x y z I S (i - 1) 0); try assumption.
    + assert (pow2 (-900) <= pow2 (-300)) by (vm_compute; discriminate). lra.
    + assert (pow2 300 <= pow2 900) by (vm_compute; discriminate). lra.
    + lia.
    + fold R'. lra.
    + vm_compute. discriminate.
    + fold R'. rewrite HN. apply abs_le; lra.
    + fold R'. assert (P36 : pow2 36 == 68719476736 # 1) by (vm_compute; reflexivity). rewrite P36 in HS2. lra.
  - destruct (slice_pos I S i I1 S1 ltac:(lia) U) as (R1 & R0 & RR & RL & RU). fold R in R1, R0, RR, RL, RU.
    assert (N : norm2 x y z == R * R - 2 * (R * S) + S * S) by (rewrite HN, PR; ring).
    assert (RS : 250 * (R * S) <= R * R). { assert (0 <= R * (R - 250 * S)) by (apply Qmult_le_0_compat; lra). lra. }
    assert (SS : S * S <= R * S) by (apply Qmult_le_compat_r; lra). assert (0 <= S * S) by nra.
    destruct (slice_check rd square NR I S i I1 S1 ltac:(lia) U p x y z SQ L) as (b & Eb & T & _); [lra|lra|].
    fold R in T. rewrite Eb. f_equal. apply T; lra.
Qed.

(** With radius = spacing = 1, a point at distance 1 passes with label -1. *)
Lemma negative_label rd square p x y z : ieee_double rd -> square_ok square -> located p x y z -> norm2 x y z == 1 ->
  radius_matches rd square p (-1) (Fin 1) (Fin 1) = Some true.
Proof.
  intros NR SQ L HN.
  assert (P1 : pow2 (-900) <= 1) by (vm_compute; discriminate). assert (P2 : 4 <= pow2 1000) by (vm_compute; discriminate).
  destruct (step_rel rd NR (1 * inject_Z (-1 - 1)) 2) as (a & Ea & Ba); [lra|lra|vm_compute; discriminate|].
  apply Qabs_Qle_condition in Ba. assert (K : 1 * inject_Z (-1 - 1) == - (2)) by reflexivity. rewrite K in Ba.
  destruct (step_rel rd NR (1 + a) 2) as (e & Ee & Be); [lra|lra|apply abs_le; lra|]. apply Qabs_Qle_condition in Be.
  assert (AE : Qabs e == - e) by (apply Qabs_neg; lra).
  assert (P3 : pow2 (-350) <= 1 # 2) by (vm_compute; discriminate). assert (P4 : 2 <= pow2 350) by (vm_compute; discriminate).
  assert (P5 : pow2 (-800) <= 1) by (vm_compute; discriminate). assert (P6 : 1 <= pow2 800) by (vm_compute; discriminate).
  assert (EX : expected_radius rd (-1) (Fin 1) (Fin 1) = Some (Fin e)).
  { unfold expected_radius, fpz. cbn [fmul]. rewrite Ea. cbn [fadd]. rewrite Ee. reflexivity. }
  destruct (match_value rd square p x y z (-1) (Fin 1) (Fin 1) e NR SQ L EX) as (b & Eb & T & _); [lra|lra|lra|lra|].
  rewrite Eb. f_equal.
  assert (D : Qabs (- e - 1) <= (1 # 1125899906842624) * 1) by (apply abs_le; lra).
  pose proof (square_close (- e) 1 (1 # 1125899906842624) ltac:(lra) ltac:(vm_compute; discriminate) ltac:(vm_compute; discriminate) D) as E2.
  apply Qabs_Qle_condition in E2. assert (F : - e * - e == e * e) by ring. rewrite F in E2. set (e2 := e * e) in *. apply T; lra.
Qed.

(** CGAL's generator stays on the sphere. *)
Lemma scaled a r b e : 0 < r -> Qabs (a - r * b) <= e * r -> exists t, a == r * t /\ - e <= t - b <= e.
Proof.
  intros R0 H. exists (a / r). assert (E : a == r * (a / r)) by (field; lra). split; [exact E|].
  set (t := a / r) in *. rewrite E in H. apply Qabs_Qle_condition in H. destruct H as [H1 H2].
  split; apply (Qmult_le_r _ _ r R0); lra.
Qed.
Lemma sqr_near X a e : 0 <= e -> e <= 1 -> - (2) <= a <= 2 -> - e <= X - a <= e -> - (5 * e) <= X * X - a * a <= 5 * e.
Proof.
  intros E0 E1 A H. set (t := X - a) in *. assert (F : X * X - a * a == t * (2 * a) + t * t) by (unfold t; ring). rewrite F.
  assert (T2 : t * t <= e * e). { assert (0 <= (e - t) * (e + t)) by (apply Qmult_le_0_compat; lra). lra. }
  assert (T0 : 0 <= t * t) by nra. assert (EE : 0 <= e * (1 - e)) by (apply Qmult_le_0_compat; lra).
  assert (- (4 * e) <= t * (2 * a) <= 4 * e).
  { assert (0 <= (e - t) * (2 + a)) by (apply Qmult_le_0_compat; lra). assert (0 <= (e + t) * (2 + a)) by (apply Qmult_le_0_compat; lra).
    assert (0 <= (e - t) * (2 - a)) by (apply Qmult_le_0_compat; lra). assert (0 <= (e + t) * (2 - a)) by (apply Qmult_le_0_compat; lra). split; lra. }
  split; lra.
Qed.
Lemma sphere_point_on rd fsqrt r z c s : ieee_double rd -> (forall p q, p <= q -> fp_le (rd p) (rd q) = true) -> exact rd 0 -> exact rd 1 ->
  sqrt_ok fsqrt -> pow2 (-300) <= r -> r <= pow2 300 -> - (1) <= z <= 1 -> Qabs (c * c + s * s - 1) <= pow2 (-50) ->
  on_sphere r (sphere_point rd fsqrt (Fin r) (Fin z) (Fin c) (Fin s)).
Proof.
  intros NR MO E0 E1 SR R1 R2 Z HC.
  assert (P0 : 0 < pow2 (-300)) by (vm_compute; reflexivity).
  assert (Pa : pow2 (-900) <= pow2 (-300)) by (vm_compute; discriminate).
  assert (Pb : 4 * pow2 300 <= pow2 1000) by (vm_compute; discriminate).
  assert (Pc : pow2 (-900) <= 1) by (vm_compute; discriminate). assert (Pd : 4 <= pow2 1000) by (vm_compute; discriminate).
  assert (P50 : pow2 (-50) == 1 # 1125899906842624) by (vm_compute; reflexivity). rewrite P50 in HC. apply Qabs_Qle_condition in HC.
  assert (R0 : 0 < r) by lra.
  assert (Z2 : 0 <= z * z <= 1). { split; [nra|]. assert (0 <= (1 - z) * (1 + z)) by (apply Qmult_le_0_compat; lra). lra. }
  destruct (step_rel rd NR (z * z) 1) as (w & Ew & Bw); [lra|lra|apply abs_le; lra|]. apply Qabs_Qle_condition in Bw.
  assert (W1 : w <= 1).
  { pose proof (MO (z * z) 1 (proj2 Z2)) as M. rewrite Ew in M. unfold exact in E1. destruct (rd 1) as [| |q1]; [destruct E1..|].
    apply fp_le_fin in M. lra. }
  destruct (step_rel rd NR (1 + - w) 2) as (d & Ed & Bd); [lra|lra|apply abs_le; lra|]. apply Qabs_Qle_condition in Bd.
  assert (D0 : 0 <= d).
  { pose proof (MO 0 (1 + - w) ltac:(lra)) as M. rewrite Ed in M. unfold exact in E0. destruct (rd 0) as [| |q0]; [destruct E0..|].
    apply fp_le_fin in M. lra. }
  destruct (SR d D0) as (h & Eh & H0 & Bh); [lra|]. apply Qabs_Qle_condition in Bh.
  assert (P900 : 0 <= pow2 (-900) <= (1 # 2251799813685248)) by (split; vm_compute; discriminate).
  assert (P51 : pow2 (-51) == 1 # 2251799813685248) by (vm_compute; reflexivity). rewrite P51 in Bh.
  assert (H1 : h <= 1001 # 1000).
  { apply Qnot_lt_le. intros L. assert ((1001 # 1000) * (1001 # 1000) <= h * h) by (apply Qmult_le_compat_nonneg; split; lra). lra. }
  assert (CS : 0 <= c * c /\ 0 <= s * s) by (split; nra).
  assert (C1 : - (1001 # 1000) <= c <= 1001 # 1000).
  { split; apply Qnot_lt_le; intros L.
    - assert ((1001 # 1000) * (1001 # 1000) <= (- c) * (- c)) by (apply Qmult_le_compat_nonneg; split; lra). assert (F : (- c) * (- c) == c * c) by ring. rewrite F in *. lra.
    - assert ((1001 # 1000) * (1001 # 1000) <= c * c) by (apply Qmult_le_compat_nonneg; split; lra). lra. }
  assert (S1 : - (1001 # 1000) <= s <= 1001 # 1000).
  { split; apply Qnot_lt_le; intros L.
    - assert ((1001 # 1000) * (1001 # 1000) <= (- s) * (- s)) by (apply Qmult_le_compat_nonneg; split; lra). assert (F : (- s) * (- s) == s * s) by ring. rewrite F in *. lra.
    - assert ((1001 # 1000) * (1001 # 1000) <= s * s) by (apply Qmult_le_compat_nonneg; split; lra). lra. }
  assert (MUL : forall a b, - (2) <= b <= 2 -> a == r * b -> exists a' t, rd a = Fin a' /\ a' == r * t /\ - (1 # 2251799813685248) <= t - b <= 1 # 2251799813685248).
  { intros a b B A. assert (N1 : 0 <= r * (2 - b)) by (apply Qmult_le_0_compat; lra). assert (N2 : 0 <= r * (2 + b)) by (apply Qmult_le_0_compat; lra).
    destruct (step_rel rd NR a (2 * r)) as (a' & Ea & Ba); [lra|lra|rewrite A; apply abs_le; lra|].
    destruct (scaled a' r b (1 # 2251799813685248) R0) as (t & T1 & T2).
    - rewrite A in Ba. apply Qabs_Qle_condition in Ba. apply abs_le; lra.
    - exists a', t. split; [exact Ea|]. split; [exact T1|exact T2]. }
  destruct (MUL (r * h) h) as (rr & al & Er & Tr & Br); [lra|reflexivity|].
  assert (AC : forall k, - (1001 # 1000) <= k <= 1001 # 1000 -> - (2) <= al * k <= 2).
  { intros k K. assert (0 <= ((1002 # 1000) - al) * ((1001 # 1000) + k)) by (apply Qmult_le_0_compat; lra).
    assert (0 <= ((1002 # 1000) + al) * ((1001 # 1000) + k)) by (apply Qmult_le_0_compat; lra).
    assert (0 <= ((1002 # 1000) - al) * ((1001 # 1000) - k)) by (apply Qmult_le_0_compat; lra).
    assert (0 <= ((1002 # 1000) + al) * ((1001 # 1000) - k)) by (apply Qmult_le_0_compat; lra). lra. }
  destruct (MUL (rr * c) (al * c)) as (x & X & Ex & Tx & Bx); [apply AC; exact C1|rewrite Tr; ring|].
  destruct (MUL (rr * s) (al * s)) as (y & Y & Ey & Ty & By); [apply AC; exact S1|rewrite Tr; ring|].
  destruct (MUL (r * z) z) as (zz & ZZ & Ez & Tz & Bz); [lra|reflexivity|].
  exists x, y, zz. split.
  { unfold sphere_point, fpz. cbn [fmul fneg]. rewrite Ew. cbn [fneg fadd]. change (inject_Z 1) with 1. rewrite Ed, Eh. cbn [fmul]. rewrite Er. cbn [fmul].
    repeat split; assumption. }
  assert (P40 : pow2 (-40) == 1 # 1099511627776) by (vm_compute; reflexivity). rewrite P40.
  apply sqr_near in Bx; [|lra|lra|apply AC; exact C1]. apply sqr_near in By; [|lra|lra|apply AC; exact S1].
  apply sqr_near in Bz; [|lra|lra|lra]. apply sqr_near in Br; [|lra|lra|lra].
  assert (K : al * c * (al * c) + al * s * (al * s) == al * al * (c * c + s * s)) by ring.
  set (A := al * al) in *. set (k := c * c + s * s) in *.
  assert (A0 : 0 <= A) by (unfold A; nra). 
  assert (K1 : A * k <= A * (1 + (1 # 1125899906842624))). { rewrite !(Qmult_comm A). apply Qmult_le_compat_r; lra. }
  assert (K2 : A * (1 - (1 # 1125899906842624)) <= A * k). { rewrite !(Qmult_comm A). apply Qmult_le_compat_r; lra. }
  assert (SUM : - (1 # 1099511627776) <= X * X + Y * Y + ZZ * ZZ - 1 <= 1 # 1099511627776) by (split; lra).
  assert (F : norm2 x y zz - r * r == (r * r) * (X * X + Y * Y + ZZ * ZZ - 1)).
  { unfold norm2. rewrite Tx, Ty, Tz. ring. }
  rewrite F. set (D := X * X + Y * Y + ZZ * ZZ - 1) in *. assert (RR : 0 < r * r) by nra.
  assert (0 <= (r * r) * ((1 # 1099511627776) - D)) by (apply Qmult_le_0_compat; lra).
  assert (0 <= (r * r) * ((1 # 1099511627776) + D)) by (apply Qmult_le_0_compat; lra).
  apply abs_le; lra.
Qed.

Lemma exact_is_double : ieee_double Fin.
Proof.
  intros q _. exists q. split; [reflexivity|].
  assert (E : q - q == 0) by ring. rewrite E. change (Qabs 0) with 0. apply Qle_trans with (pow2 (-53) * Qabs q + 0).
  - rewrite Qplus_0_r. apply Qmult_le_0_compat; [vm_compute; discriminate|apply Qabs_nonneg].
  - apply Qplus_le_r. vm_compute. discriminate.
Qed.
Lemma exact_square : square_ok (fun x => fmul Fin x x).
Proof.
  intros q _ _. exists (q * q). split; [reflexivity|]. assert (E : q * q - q * q == 0) by ring. rewrite E. change (Qabs 0) with 0.
  apply Qmult_le_0_compat; [vm_compute; discriminate|nra].
Qed.
Lemma smallest_label rd square p t I S : in_int32 t -> radius_matches rd square p t I S = None <-> t = INT32_MIN.
Proof.
  intros H. unfold radius_matches, expected_radius. unfold in_int32 in H. destruct (INT32_MIN <=? t - 1)%Z eqn:E.
  - apply Z.leb_le in E. split; [discriminate|intros ->; lia].
  - apply Z.leb_gt in E. split; [intros _; lia|reflexivity].
Qed.
