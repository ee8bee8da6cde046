(** Which slice the centroid of three points of a slice is assigned to. *)
From Verif Require Import Base Config ConfigSpec ConfigFacts FoliationSpec FoliationProps2 Repair ViewerScene Radii RadiiSpec RadiiFacts RadiiProps Centroid CentroidSpec.
From Coq Require Import QArith QArith.Qabs QArith.Qround Lqa Lia.
Local Open Scope Q_scope.

Definition monotone (rd : Q -> fp) : Prop := forall p q, p <= q -> fp_le (rd p) (rd q) = true.

Lemma third_error rd a b c M : ieee_double rd -> pow2 (-300) <= M -> M <= pow2 310 ->
  Qabs a <= M -> Qabs b <= M -> Qabs c <= M ->
  exists t, third rd (Fin a) (Fin b) (Fin c) = Fin t /\ Qabs (t - (a + b + c) / 3) <= (1 # 1125899906842624) * M.
Proof.
  intros NR M1 M2 A B C.
  assert (K1 : pow2 (-900) <= pow2 (-300)) by (vm_compute; discriminate).
  assert (K2 : pow2 310 * 4 <= pow2 1000) by (vm_compute; discriminate).
  assert (K3 : 0 < pow2 (-300)) by (vm_compute; reflexivity).
  apply Qabs_Qle_condition in A, B, C.
  unfold third. cbn [fadd].
  destruct (step_rel rd NR (a + b) (2 * M)) as (s & Es & Bs); [lra|lra|apply Qabs_Qle_condition; lra|].
  rewrite Es. cbn [fadd]. apply Qabs_Qle_condition in Bs.
  destruct (step_rel rd NR (s + c) (3.5 * M)) as (t & Et & Bt); [lra|lra|apply Qabs_Qle_condition; lra|].
  rewrite Et. unfold fpz. cbn [fdiv]. apply Qabs_Qle_condition in Bt.
  replace (qzero (inject_Z 3)) with false by reflexivity.
  assert (D3 : forall q, q / inject_Z 3 == q * (1 # 3)) by (intros q; unfold Qdiv; reflexivity).
  destruct (step_rel rd NR (t / inject_Z 3) (2 * M)) as (v & Ev & Bv); [lra|lra|apply abs_le; rewrite D3; lra|].
  exists v. split; [exact Ev|]. apply Qabs_Qle_condition in Bv. rewrite D3 in Bv.
  assert (D : (a + b + c) / 3 == (a + b + c) * (1 # 3)) by reflexivity. rewrite D. apply abs_le; lra.
Qed.

Lemma rd_nonneg rd q a : monotone rd -> exact rd 0 -> 0 <= q -> rd q = Fin a -> 0 <= a.
Proof.
  intros MO E0 Q0 E. pose proof (MO 0 q Q0) as K. rewrite E in K. unfold exact in E0. destruct (rd 0) as [| |z] eqn:Z; try contradiction.
  cbn [fp_le] in K. apply Qle_bool_iff in K. lra.
Qed.

Lemma coordinate x M : x * x <= M * M -> 0 <= M -> Qabs x <= M.
Proof. intros H M0. apply abs_le; apply Qnot_lt_le; intros L; nra. Qed.

(** The squared radius, with an error relative to a bound on the coordinates. *)
Lemma squared_radius_abs rd p x y z M : ieee_double rd -> monotone rd -> exact rd 0 -> located p x y z ->
  pow2 (-300) <= M -> M <= pow2 310 -> Qabs x <= M -> Qabs y <= M -> Qabs z <= M ->
  exists a, squared_radius rd p = Fin a /\ 0 <= a /\ Qabs (a - norm2 x y z) <= (1 # 281474976710656) * (M * M).
Proof.
  intros NR MO E0 (X & Y & Z) M1 M2 Ax Ay Az. unfold squared_radius, norm2. rewrite X, Y, Z. cbn [fmul].
  assert (K0 : 0 < pow2 (-300)) by (vm_compute; reflexivity).
  assert (ML : pow2 (-300) * pow2 (-300) <= M * M) by (apply Qmult_le_compat_nonneg; split; lra).
  assert (MU : M * M <= pow2 310 * pow2 310) by (apply Qmult_le_compat_nonneg; split; lra).
  assert (K1 : pow2 (-900) <= pow2 (-300) * pow2 (-300)) by (vm_compute; discriminate).
  assert (K2 : pow2 310 * pow2 310 * 4 <= pow2 1000) by (vm_compute; discriminate).
  assert (SQ : forall t, Qabs t <= M -> 0 <= t * t /\ t * t <= M * M).
  { intros t H. apply Qabs_Qle_condition in H. destruct H as [H1 H2]. split; [nra|]. assert (0 <= (M - t) * (M + t)) by (apply Qmult_le_0_compat; lra). lra. }
  destruct (SQ x Ax) as [X0 X1]. destruct (SQ y Ay) as [Y0 Y1]. destruct (SQ z Az) as [Z0 Z1].
  set (m := M * M) in *. set (a := x * x) in *. set (b := y * y) in *. set (c := z * z) in *.
  destruct (step_rel rd NR a m) as (a' & Ea & Ba); [lra|lra|apply abs_le; lra|]. pose proof (rd_nonneg _ _ _ MO E0 X0 Ea) as Pa.
  destruct (step_rel rd NR b m) as (b' & Eb & Bb); [lra|lra|apply abs_le; lra|]. pose proof (rd_nonneg _ _ _ MO E0 Y0 Eb) as Pb.
  destruct (step_rel rd NR c m) as (c' & Ec & Bc); [lra|lra|apply abs_le; lra|]. pose proof (rd_nonneg _ _ _ MO E0 Z0 Ec) as Pc.
  rewrite Ea, Eb, Ec. cbn [fadd]. apply Qabs_Qle_condition in Ba, Bb, Bc.
  destruct (step_rel rd NR (a' + b') (2.1 * m)) as (d & Ed & Bd); [lra|lra|apply abs_le; lra|].
  assert (Pd : 0 <= d) by (apply (rd_nonneg rd (a' + b') d MO E0); [lra|exact Ed]). rewrite Ed. cbn [fadd]. apply Qabs_Qle_condition in Bd.
  destruct (step_rel rd NR (d + c') (3.2 * m)) as (e & Ee & Be); [lra|lra|apply abs_le; lra|].
  assert (Pe : 0 <= e) by (apply (rd_nonneg rd (d + c') e MO E0); [lra|exact Ee]). apply Qabs_Qle_condition in Be.
  exists e. split; [exact Ee|]. split; [exact Pe|]. apply abs_le; lra.
Qed.

(** The label of a radius, up to rounding, whichever it is. *)
Lemma label_value rd v I S : ieee_double rd -> pow2 (-900) <= S -> S <= pow2 900 -> 0 <= I -> I <= 1048576 * S -> 0 <= v -> v <= 2097152 * S ->
  exists q, expected_timevalue rd (Fin v) (Fin I) (Fin S) = Some (lround q) /\ Qabs (q * S - (v - I + S)) <= (1 # 65536) * S.
Proof.
  intros NR S1 S2 I0 I1 V0 V1.
  assert (P9 : 0 < pow2 (-900)) by (vm_compute; reflexivity).
  assert (BIG : 4194304 * pow2 900 <= pow2 1000) by (vm_compute; discriminate).
  enough (G : exists q, expected_timevalue rd (Fin v) (Fin I) (Fin S) = Some (lround q) /\ Qabs (q * S - (v - I + S)) <= (1 # 65536) * S) by exact G.
  unfold expected_timevalue, nearest_slice. cbn [fadd Repair.fneg].
  destruct (step_rel rd NR (v + - I) (2097152 * S)) as (a & Ea & Ba); [lra|lra|apply abs_le; lra|].
rewrite Ea. cbn [fadd].
  apply Qabs_Qle_condition in Ba.
  destruct (step_rel rd NR (a + S) (2097154 * S)) as (b & Eb & Bb); [lra|lra|apply abs_le; lra|]. rewrite Eb. cbn [fdiv].
  apply Qabs_Qle_condition in Bb.
  assert (QZ : qzero S = false) by (unfold qzero; destruct (Qeq_bool S 0) eqn:Z; [apply Qeq_bool_iff in Z; lra|reflexivity]).
  rewrite QZ.
  set (y := b / S). assert (Y : y * S == b) by (unfold y; field; lra).
  assert (Y1 : y < 2097154). { unfold y. apply Qdiv_lt_iff; lra. }
  assert (Y2 : - (2097154) <= y). { unfold y. apply Qdiv_le_iff; lra. }
  destruct (step_rel rd NR y 2097154) as (q & Eq & Bq); [vm_compute; discriminate|vm_compute; discriminate|apply abs_le; lra|].
  rewrite Eq. apply Qabs_Qle_condition in Bq. exists q.
  assert (Q1 : q <= 2097155) by lra. assert (Q2 : - (2097155) <= q) by lra.
  split; [|clear Eq].
  2:{ assert (D : Qabs ((q - y) * S) <= (1 # 1048576) * S).
    { apply abs_le.
      - assert ((- (1 # 1048576)) * S <= (q - y) * S) by (apply Qmult_le_compat_r; lra). lra.
      - apply Qmult_le_compat_r; lra. }
    apply Qabs_Qle_condition in D. assert (F : (q - y) * S == q * S - b) by (rewrite <- Y; ring). rewrite F in D. apply abs_le; lra. }
  cbv zeta. assert (L : (-2097156 <= lround q <= 2097156)%Z).
  { unfold lround. destruct (Qle_bool 0 q) eqn:E.
    - apply Qle_bool_iff in E. split; [apply Z.le_trans with 0%Z; [lia|]; apply (Qfloor_resp_le 0); lra|].
      change 2097156%Z with (Qfloor 2097156). apply Qfloor_resp_le. lra.
    - split; [change (-2097156)%Z with (Qceiling (-2097156)); apply Qceiling_resp_le; lra|].
      apply Z.le_trans with (Qceiling 2097155); [apply Qceiling_resp_le; lra|vm_compute; discriminate]. }
  rewrite (proj2 (Z.leb_le _ _)) by lia. rewrite (proj2 (Z.leb_le (lround q) _)) by lia. cbn [andb option_map].
  rewrite narrow32_id; [reflexivity|]. unfold in_int32, INT32_MIN, INT32_MAX. lia.
Qed.

Lemma lround_below q i : (0 <= i)%Z -> q < inject_Z i + (1 # 2) -> (lround q <= i)%Z.
Proof.
  intros I0 H. unfold lround. destruct (Qle_bool 0 q) eqn:E.
  - apply Z.lt_succ_r. rewrite Zlt_Qlt. apply Qle_lt_trans with (q + (1 # 2)); [apply Qfloor_le|].
    unfold Z.succ. rewrite inject_Z_plus. change (inject_Z 1) with 1. lra.
  - apply Z.le_trans with 0%Z; [|exact I0]. change 0%Z with (Qceiling 0). apply Qceiling_resp_le.
    assert (~ 0 <= q) by (intros K; apply Qle_bool_iff in K; congruence). lra.
Qed.

Section Slice.
  Variable rd : Q -> fp.
  Variable fsqrt : fp -> fp.
  Hypothesis NR : ieee_double rd.
  Hypothesis MO : monotone rd.
  Hypothesis E0 : exact rd 0.
  Hypothesis SQ : sqrt_ok fsqrt.
  Variables I S : Q.
  Variable i : Z.
  Hypothesis I1 : pow2 (-300) <= I.
  Hypothesis S1 : pow2 (-300) <= S.
  Hypothesis S2 : S <= pow2 300.
  Hypothesis Hi : (0 <= i < INT32_MAX)%Z.
  Hypothesis U : I + inject_Z i * S <= pow2 300.
  Let R := I + inject_Z i * S.
  Hypothesis RS : R <= 1048576 * S.

  (** The distance of the computed centroid from the origin, squared, is that of the
      exact one up to 2^-38 R^2. *)
  Lemma centroid_radius p q r x1 y1 z1 x2 y2 z2 x3 y3 z3 :
    located p x1 y1 z1 -> located q x2 y2 z2 -> located r x3 y3 z3 ->
    Qabs (norm2 x1 y1 z1 - R * R) <= (1 # 549755813888) * (R * R) ->
    Qabs (norm2 x2 y2 z2 - R * R) <= (1 # 549755813888) * (R * R) ->
    Qabs (norm2 x3 y3 z3 - R * R) <= (1 # 549755813888) * (R * R) ->
    let e := norm2 (x1 - x2) (y1 - y2) (z1 - z2) + norm2 (x2 - x3) (y2 - y3) (z2 - z3) + norm2 (x3 - x1) (y3 - y1) (z3 - z1) in
    exists v, fsqrt (squared_radius rd (centroid rd p q r)) = Fin v /\ 0 <= v /\
      Qabs (v * v - (R * R - e * (1 # 9))) <= (1 # 137438953472) * (R * R).
  Proof using NR MO E0 SQ I1 S1 Hi U.
    intros (X1 & Y1 & Z1) (X2 & Y2 & Z2) (X3 & Y3 & Z3) N1 N2 N3 e.
    destruct (slice_pos I S i I1 S1 Hi U) as (R1 & R0 & RR & _). fold R in R1, R0, RR.
    assert (K : forall x y z, Qabs (norm2 x y z - R * R) <= (1 # 549755813888) * (R * R) -> Qabs x <= 1.5 * R /\ Qabs y <= 1.5 * R /\ Qabs z <= 1.5 * R).
    { intros x y z H. apply Qabs_Qle_condition in H. unfold norm2 in H. assert (0 <= x * x) by nra. assert (0 <= y * y) by nra. assert (0 <= z * z) by nra.
      repeat split; apply coordinate; lra. }
    destruct (K _ _ _ N1) as (A1 & B1 & C1). destruct (K _ _ _ N2) as (A2 & B2 & C2). destruct (K _ _ _ N3) as (A3 & B3 & C3).
    assert (P : pow2 300 * 2 <= pow2 310) by (vm_compute; discriminate).
    assert (M1 : pow2 (-300) <= 1.5 * R) by lra. assert (M2 : 1.5 * R <= pow2 310) by (fold R in U; lra).
    destruct (third_error rd x1 x2 x3 (1.5 * R) NR M1 M2 A1 A2 A3) as (cx & Ex & Bx).
    destruct (third_error rd y1 y2 y3 (1.5 * R) NR M1 M2 B1 B2 B3) as (cy & Ey & By).
    destruct (third_error rd z1 z2 z3 (1.5 * R) NR M1 M2 C1 C2 C3) as (cz & Ez & Bz).
    assert (L : located (centroid rd p q r) cx cy cz).
    { unfold located, centroid. cbn [xc yc zc]. rewrite X1, X2, X3, Y1, Y2, Y3, Z1, Z2, Z3. auto. }
    assert (D3 : forall t, t / 3 == t * (1 # 3)) by (intros; reflexivity).
    rewrite D3 in Bx, By, Bz.
    set (gx := (x1 + x2 + x3) * (1 # 3)) in *. set (gy := (y1 + y2 + y3) * (1 # 3)) in *. set (gz := (z1 + z2 + z3) * (1 # 3)) in *.
    assert (Gc : forall a b c, Qabs a <= 1.5 * R -> Qabs b <= 1.5 * R -> Qabs c <= 1.5 * R -> Qabs ((a + b + c) * (1 # 3)) <= 1.5 * R).
    { intros a b c A B C. apply Qabs_Qle_condition in A, B, C. apply abs_le; lra. }
    pose proof (Gc _ _ _ A1 A2 A3) as Gx. pose proof (Gc _ _ _ B1 B2 B3) as Gy. pose proof (Gc _ _ _ C1 C2 C3) as Gz. fold gx in Gx. fold gy in Gy. fold gz in Gz.
    assert (Sq : forall c g, Qabs g <= 1.5 * R -> Qabs (c - g) <= (1 # 1125899906842624) * (1.5 * R) ->
               Qabs c <= 2 * R /\ Qabs (c * c - g * g) <= (1 # 140737488355328) * (R * R)).
    { intros c g G B. apply Qabs_Qle_condition in G, B. destruct G as [G1 G2], B as [B1' B2'].
      split; [apply abs_le; lra|]. assert (F : c * c - g * g == (c - g) * (c + g)) by ring. rewrite F.
      set (d := c - g) in *. set (t := c + g).
      assert (T1 : - (4 * R) <= t) by (unfold t, d in *; lra). assert (T2 : t <= 4 * R) by (unfold t, d in *; lra).
      clearbody d t. set (k := (1 # 1125899906842624) * (1.5 * R)) in *.
      assert (0 <= (k - d) * (4 * R + t)) by (apply Qmult_le_0_compat; lra).
      assert (0 <= (k + d) * (4 * R - t)) by (apply Qmult_le_0_compat; lra).
      assert (0 <= (k - d) * (4 * R - t)) by (apply Qmult_le_0_compat; lra).
      assert (0 <= (k + d) * (4 * R + t)) by (apply Qmult_le_0_compat; lra).
      assert (KK : k * (4 * R) == (6 # 1125899906842624) * (R * R)) by (unfold k; ring).
      apply abs_le; lra. }
    destruct (Sq _ _ Gx Bx) as [Cx Dx]. destruct (Sq _ _ Gy By) as [Cy Dy]. destruct (Sq _ _ Gz Bz) as [Cz Dz].
    destruct (squared_radius_abs rd _ cx cy cz (2 * R) NR MO E0 L) as (a & Ea & A0 & Ba); [lra|fold R in U; lra|exact Cx|exact Cy|exact Cz|].
    rewrite Ea.
    apply Qabs_Qle_condition in Dx, Dy, Dz, Ba, N1, N2, N3.
    assert (ID : gx * gx + gy * gy + gz * gz == (norm2 x1 y1 z1 + norm2 x2 y2 z2 + norm2 x3 y3 z3) * (1 # 3) - e * (1 # 9)).
    { unfold gx, gy, gz, e, norm2. ring. }
    assert (E_ : 0 <= e). { unfold e, norm2. assert (SQ0 : forall t, 0 <= t * t) by (intros; nra).
      pose proof (SQ0 (x1 - x2)). pose proof (SQ0 (y1 - y2)). pose proof (SQ0 (z1 - z2)). pose proof (SQ0 (x2 - x3)). pose proof (SQ0 (y2 - y3)). pose proof (SQ0 (z2 - z3)).
      pose proof (SQ0 (x3 - x1)). pose proof (SQ0 (y3 - y1)). pose proof (SQ0 (z3 - z1)). lra. }
    assert (QQ : 2 * R * (2 * R) == 4 * (R * R)) by ring. rewrite QQ in Ba.
    assert (NC : norm2 cx cy cz == cx * cx + cy * cy + cz * cz) by (unfold norm2; ring). rewrite NC in Ba.
    set (RRR := R * R) in *.
    assert (RU : RRR <= pow2 300 * pow2 300). { unfold RRR. fold R in U. apply Qmult_le_compat_nonneg; split; lra. }
    assert (RL : pow2 (-300) * pow2 (-300) <= RRR). { unfold RRR. assert (0 < pow2 (-300)) by (vm_compute; reflexivity). apply Qmult_le_compat_nonneg; split; lra. }
    assert (E2 : pow2 300 * pow2 300 * 8 <= pow2 1000) by (vm_compute; discriminate).
    assert (E3 : pow2 (-900) <= (1 # 2251799813685248) * (pow2 (-300) * pow2 (-300))) by (vm_compute; discriminate).
    destruct (SQ a) as (v & Ev & V0 & Bv); [exact A0|lra|]. 
    assert (P51 : pow2 (-51) == 1 # 2251799813685248) by (vm_compute; reflexivity). rewrite P51 in Bv.
    apply Qabs_Qle_condition in Bv. exists v. split; [exact Ev|]. split; [exact V0|]. apply abs_le; lra.
  Qed.

  Lemma of_slice rr p q r e : layer_radius rd (Fin I) (Fin S) i = Fin rr -> on_sphere rr p -> on_sphere rr q -> on_sphere rr r ->
    edges2 p q r e ->
    exists v, fsqrt (squared_radius rd (centroid rd p q r)) = Fin v /\ 0 <= v /\
      Qabs (v * v - (R * R - e * (1 # 9))) <= (1 # 131072) * (R * S) /\ v <= 2 * R /\ 0 < R /\ 0 < S /\ I <= R.
  Proof using NR MO E0 SQ I1 S1 S2 Hi U RS.
    intros Hr P1 P2 P3 (a & b & c & A & B & C & E).
    destruct (generated_norm rd NR I S i I1 S1 Hi U _ _ Hr P1) as (x1 & y1 & z1 & L1 & N1).
    destruct (generated_norm rd NR I S i I1 S1 Hi U _ _ Hr P2) as (x2 & y2 & z2 & L2 & N2).
    destruct (generated_norm rd NR I S i I1 S1 Hi U _ _ Hr P3) as (x3 & y3 & z3 & L3 & N3).
    destruct (centroid_radius p q r _ _ _ _ _ _ _ _ _ L1 L2 L3 N1 N2 N3) as (v & Ev & V0 & Bv).
    assert (GG : forall p q d x y z x' y' z', gap2 p q d -> located p x y z -> located q x' y' z' -> d = norm2 (x - x') (y - y') (z - z')).
    { intros p' q' d x y z x' y' z' (u1 & u2 & u3 & w1 & w2 & w3 & (H1 & H2 & H3) & (H4 & H5 & H6) & ->) (K1 & K2 & K3) (K4 & K5 & K6).
      congruence. }
    rewrite (GG _ _ _ _ _ _ _ _ _ A L1 L2), (GG _ _ _ _ _ _ _ _ _ B L2 L3), (GG _ _ _ _ _ _ _ _ _ C L3 L1) in E.
    rewrite <- E in Bv. exists v. split; [exact Ev|]. split; [exact V0|].
    destruct (slice_pos I S i I1 S1 Hi U) as (R1 & R0 & RR & _). fold R in R1, R0, RR.
    assert (S0 : 0 < S). { assert (0 < pow2 (-300)) by (vm_compute; reflexivity). lra. }
    assert (T0 : 0 <= inject_Z i * S). { apply Qmult_le_0_compat; [change 0 with (inject_Z 0); rewrite <- Zle_Qle; apply Hi|lra]. }
    assert (RRS : R * R <= 1048576 * (R * S)). { assert (0 <= R * (1048576 * S - R)) by (apply Qmult_le_0_compat; lra). lra. }
    split. { eapply Qle_trans; [exact Bv|]. lra. }
    assert (En : 0 <= e).
    { rewrite E. unfold norm2. assert (SQ0 : forall t, 0 <= t * t) by (intros; nra).
      pose proof (SQ0 (x1 - x2)). pose proof (SQ0 (y1 - y2)). pose proof (SQ0 (z1 - z2)). pose proof (SQ0 (x2 - x3)). pose proof (SQ0 (y2 - y3)). pose proof (SQ0 (z2 - z3)).
      pose proof (SQ0 (x3 - x1)). pose proof (SQ0 (y3 - y1)). pose proof (SQ0 (z3 - z1)). lra. }
    apply Qabs_Qle_condition in Bv. split; [|split; [exact R0|split; [exact S0|unfold R; lra]]].
    apply Qnot_lt_le. intros K. assert (0 < (v - 2 * R) * (v + 2 * R)) by (apply Qmult_lt_0_compat; lra). lra.
  Qed.

  Lemma centroid_stays rr p q r e : layer_radius rd (Fin I) (Fin S) i = Fin rr -> on_sphere rr p -> on_sphere rr q -> on_sphere rr r ->
    edges2 p q r e -> e <= 9 * ((99 # 100) * (R * S) - (1 # 4) * (S * S)) ->
    vertex_time rd fsqrt (centroid rd p q r) (Fin I) (Fin S) = Some (i + 1)%Z.
  Proof using NR MO E0 SQ I1 S1 S2 Hi U RS.
    intros Hr P1 P2 P3 E Le. destruct (of_slice rr p q r e Hr P1 P2 P3 E) as (v & Ev & V0 & Bv & V1 & R0 & S0 & IR).
    unfold vertex_time. rewrite Ev. apply Qabs_Qle_condition in Bv. destruct Bv as [Bv1 Bv2].
    assert (En : 0 <= e).
    { destruct E as (a & b & c & A & B & C & ->). assert (GN : forall p q d, gap2 p q d -> 0 <= d).
      { intros p' q' d (x & y & z & x' & y' & z' & _ & _ & ->). unfold norm2. assert (SQ0 : forall t, 0 <= t * t) by (intros; nra).
        pose proof (SQ0 (x - x')). pose proof (SQ0 (y - y')). pose proof (SQ0 (z - z')). lra. }
      pose proof (GN _ _ _ A). pose proof (GN _ _ _ B). pose proof (GN _ _ _ C). lra. }
    assert (RSp : 0 < R * S) by (apply Qmult_lt_0_compat; assumption). assert (SSp : 0 < S * S) by (apply Qmult_lt_0_compat; assumption).
    assert (HV1 : R - (4999 # 10000) * S <= v).
    { apply Qnot_lt_le. intros K. set (w := R - (4999 # 10000) * S) in *. assert (W0 : 0 < w) by lra.
      assert (0 < (w - v) * (w + v)) by (apply Qmult_lt_0_compat; lra).
      assert (WW : w * w == R * R - (9998 # 10000) * (R * S) + (24990001 # 100000000) * (S * S)) by (unfold w; ring). lra. }
    assert (HV2 : v <= R + (4999 # 10000) * S).
    { apply Qnot_lt_le. intros K. set (w := R + (4999 # 10000) * S) in *. assert (W0 : 0 < w) by (unfold w; lra).
      assert (0 < (v - w) * (w + v)) by (apply Qmult_lt_0_compat; lra).
      assert (WW : w * w == R * R + (9998 # 10000) * (R * S) + (24990001 # 100000000) * (S * S)) by (unfold w; ring). lra. }
    assert (P3' : pow2 (-900) <= pow2 (-300)) by (vm_compute; discriminate). assert (P9 : pow2 300 <= pow2 900) by (vm_compute; discriminate).
    assert (P0 : 0 < pow2 (-300)) by (vm_compute; reflexivity).
    destruct (label_value rd v I S NR) as (x & -> & Bx); [lra|lra|lra|fold R in RS; lra|exact V0|lra|].
    apply Qabs_Qle_condition in Bx. f_equal. apply lround_near.
    assert (X : Qabs ((x - inject_Z (i + 1)) * S) < (1 # 2) * S).
    { rewrite inject_Z_plus. change (inject_Z 1) with 1.
      assert (F : (x - (inject_Z i + 1)) * S == x * S - (R - I) - S) by (unfold R; ring). rewrite F. apply Qabs_Qlt_condition. lra. }
    apply Qabs_Qlt_condition in X. destruct X as [X1 X2]. apply Qabs_Qlt_condition. set (d := x - inject_Z (i + 1)) in *.
    split; apply Qnot_le_lt; intros K.
    - assert (0 <= (- (1 # 2) - d) * S) by (apply Qmult_le_0_compat; lra). lra.
    - assert (0 <= (d - (1 # 2)) * S) by (apply Qmult_le_0_compat; lra). lra.
  Qed.

  Lemma centroid_falls rr p q r e : layer_radius rd (Fin I) (Fin S) i = Fin rr -> on_sphere rr p -> on_sphere rr q -> on_sphere rr r ->
    edges2 p q r e -> (1 # 2) * S <= R -> 9 * ((101 # 100) * (R * S) - (1 # 4) * (S * S)) <= e ->
    exists t, vertex_time rd fsqrt (centroid rd p q r) (Fin I) (Fin S) = Some t /\ (t <= i)%Z.
  Proof using NR MO E0 SQ I1 S1 S2 Hi U RS.
    intros Hr P1 P2 P3 E HR Le. destruct (of_slice rr p q r e Hr P1 P2 P3 E) as (v & Ev & V0 & Bv & V1 & R0 & S0 & IR).
    unfold vertex_time. rewrite Ev. apply Qabs_Qle_condition in Bv. destruct Bv as [Bv1 Bv2].
    assert (RSp : 0 < R * S) by (apply Qmult_lt_0_compat; assumption). assert (SSp : 0 < S * S) by (apply Qmult_lt_0_compat; assumption).
    assert (VV : 0 <= v * v) by nra.
    set (w := R - (5001 # 10000) * S).
    assert (WW : w * w == R * R - (10002 # 10000) * (R * S) + (25010001 # 100000000) * (S * S)) by (unfold w; ring).
    assert (W0 : 0 <= w).
    { apply Qnot_lt_le. intros K. unfold w in K. assert (0 <= (R - (1 # 2) * S) * ((5001 # 10000) * S - R)) by (apply Qmult_le_0_compat; lra).
      assert (G : (R - (1 # 2) * S) * ((5001 # 10000) * S - R) == (10001 # 10000) * (R * S) - R * R - (5001 # 20000) * (S * S)) by ring.
      assert ((1 # 2) * (S * S) <= R * S). { assert (0 <= (R - (1 # 2) * S) * S) by (apply Qmult_le_0_compat; lra). lra. }
      lra. }
    assert (HV : v <= w).
    { apply Qnot_lt_le. intros K. assert (0 < (v - w) * (v + w)) by (apply Qmult_lt_0_compat; lra). lra. }
    assert (P3' : pow2 (-900) <= pow2 (-300)) by (vm_compute; discriminate). assert (P9 : pow2 300 <= pow2 900) by (vm_compute; discriminate).
    assert (P0 : 0 < pow2 (-300)) by (vm_compute; reflexivity).
    destruct (label_value rd v I S NR) as (x & -> & Bx); [lra|lra|lra|fold R in RS; lra|exact V0|lra|].
    apply Qabs_Qle_condition in Bx. exists (lround x). split; [reflexivity|]. apply lround_below; [apply Hi|].
    assert (X : (x - inject_Z i) * S < (1 # 2) * S).
    { assert (F : (x - inject_Z i) * S == x * S - (R - I)) by (unfold R; ring). rewrite F. unfold w in HV. lra. }
    apply Qnot_le_lt. intros K. assert (0 <= (x - inject_Z i - (1 # 2)) * S) by (apply Qmult_le_0_compat; lra). lra.
  Qed.
End Slice.
