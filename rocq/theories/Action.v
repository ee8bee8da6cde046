(** Model of include/S3Action.hpp (the three action functions) on MPFR values. *)
From Verif Require Import Base Geom Mp.
From Coq Require Import Reals Lra Psatz QArith.Qreals.
Local Open Scope R_scope.
Local Notation bounded := Mp.bounded (only parsing).

(** include/S3Action.hpp:35-59 [class PhysicalParameters]; only
    make_physical_parameters builds values, so the members are finite. *)
Record PhysicalParameters : Type := mkParams { pp_alpha : QArith_base.Q; pp_k : QArith_base.Q; pp_lambda : QArith_base.Q }.

(** include/S3Action.hpp:68-83 [make_physical_parameters]. *)
Definition make_physical_parameters (alpha k lambda : fp) : PhysicalParameters + exn :=
  match alpha, k, lambda with
  | Fin a, Fin b, Fin c =>
      if QArith_base.Qle_bool a (QArith_base.Qmake 1 2) then inr DomainError
      else inl (mkParams a b c)
  | _, _, _ => inr InvalidArgument
  end.

(** include/S3Action.hpp:86-95 [make_finite_couplings]. *)
Definition make_finite_couplings (k lambda : fp) : (QArith_base.Q * QArith_base.Q) + exn :=
  match k, lambda with
  | Fin b, Fin c => inl (b, c)
  | _, _ => inr InvalidArgument
  end.

Section Action.
  Variable round : R -> mp.
  Local Notation multiply := (multiply round).
  Local Notation add := (add round).
  Local Notation subtract := (subtract round).
  Local Notation divide := (divide round).
  Local Notation negate := (negate round).
  Local Notation square_root := (square_root round).
  Local Notation arc_cosine := (arc_cosine round).
  Local Notation asinh := (inverse_hyperbolic_sine round).
  Local Notation from_integer := (from_integer round).
  Local Notation from_real := (from_real round).

  (** include/S3Action.hpp:118-160
      [s3_bulk_action_alpha_minus_one_imaginary_coefficient], after the coupling
      check. from_decimal parses and rounds the decimal literal. *)
  Definition s3_bulk_action_alpha_minus_one (n1 n31 n22 : Z) (k0 lambda0 : R) : mp :=
    let n1_tl := from_integer n1 in
    let n3_31 := from_integer n31 in
    let n3_22 := from_integer n22 in
    let k := from_real k0 in
    let lambda := from_real lambda0 in
    let two := from_integer 2 in
    let pi := mp_pi round in
    let const2673 := round (2673 / 1000) in
    let const118 := round (118 / 1000) in
    let const7386 := round (7386 / 1000) in
    let r1 := multiply two pi in
    let r2 := multiply r1 k in
    let r3 := multiply r2 n1_tl in
    let r4 := multiply const2673 k in
    let r5 := multiply const118 lambda in
    let r6 := add r4 r5 in
    let r7 := multiply n3_31 r6 in
    let r8 := multiply const7386 k in
    let r9 := multiply const118 lambda in
    let r10 := add r8 r9 in
    let r11 := multiply n3_22 r10 in
    let r12 := subtract r7 r3 in
    add r11 r12.

  (** include/S3Action.hpp:180-225 [s3_bulk_action_alpha_one]. *)
  Definition s3_bulk_action_alpha_one (n1 n31 n22 : Z) (k0 lambda0 : R) : mp :=
    let n1_tl := from_integer n1 in
    let n3_31 := from_integer n31 in
    let n3_22 := from_integer n22 in
    let k := from_real k0 in
    let lambda := from_real lambda0 in
    let two := from_integer 2 in
    let pi := mp_pi round in
    let const3548 := round (- (3548 / 1000)) in
    let const167 := round (- (167 / 1000)) in
    let const5355 := round (- (5355 / 1000)) in
    let const204 := round (- (204 / 1000)) in
    let r1 := multiply two pi in
    let r2 := multiply r1 k in
    let r3 := multiply r2 n1_tl in
    let r4 := multiply const3548 k in
    let r5 := multiply const167 lambda in
    let r6 := add r4 r5 in
    let r7 := multiply n3_31 r6 in
    let r8 := multiply const5355 k in
    let r9 := multiply const204 lambda in
    let r10 := add r8 r9 in
    let r11 := multiply n3_22 r10 in
    let r12 := add r3 r7 in
    add r11 r12.

  (** include/S3Action.hpp:253-358 [s3_bulk_action]: straight-line code, same
      temporaries. *)
  Definition s3_bulk_action_real (n1 n31 n22 : Z) (alpha0 k0 lambda0 : R) : mp :=
    let n1_tl := from_integer n1 in
    let n3_31 := from_integer n31 in
    let n3_22 := from_integer n22 in
    let alpha := from_real alpha0 in
    let k := from_real k0 in
    let lambda := from_real lambda0 in
    let two := from_integer 2 in
    let pi := mp_pi round in
    let three := from_integer 3 in
    let four := from_integer 4 in
    let one := from_integer 1 in
    let twelve := from_integer 12 in
    let r1 := multiply two pi in
    let r2 := multiply r1 k in
    let r3 := square_root alpha in
    let r4 := multiply r3 r2 in
    let r5 := multiply r4 n1_tl in
    let r6 := square_root three in
    let r7 := multiply four alpha in
    let r8 := add one r7 in
    let r9 := square_root r8 in
    let r10 := multiply r6 r9 in
    let r11 := divide one r10 in
    let r12 := asinh r11 in
    let r13 := negate three in
    let r14 := multiply r13 k in
    let r15 := multiply r14 r12 in
    let r16 := multiply two alpha in
    let r17 := add r16 one in
    let r18 := divide r17 r8 in
    let r19 := arc_cosine r18 in
    let r20 := multiply r14 r3 in
    let r21 := multiply r20 r19 in
    let r22 := multiply three alpha in
    let r23 := add r22 one in
    let r24 := square_root r23 in
    let r25 := negate lambda in
    let r26 := divide r25 twelve in
    let r27 := multiply r26 r24 in
    let r28 := add r15 r21 in
    let r29 := add r28 r27 in
    let r30 := multiply n3_31 r29 in
    let r31 := multiply two k in
    let r32 := square_root two in
    let r33 := multiply two r32 in
    let r34 := square_root r17 in
    let r35 := multiply r33 r34 in
    let r36 := divide r35 r8 in
    let r37 := asinh r36 in
    let r38 := multiply r31 r37 in
    let r39 := negate one in
    let r40 := divide r39 r8 in
    let r41 := arc_cosine r40 in
    let r42 := negate four in
    let r43 := multiply r42 k in
    let r44 := multiply r43 r3 in
    let r45 := multiply r44 r41 in
    let r46 := add r7 two in
    let r47 := square_root r46 in
    let r48 := multiply r26 r47 in
    let r49 := add r38 r45 in
    let r50 := add r49 r48 in
    let r51 := multiply n3_22 r50 in
    let r52 := add r5 r30 in
    add r51 r52.

  Definition s3_bulk_action (n1 n31 n22 : Z) (p : PhysicalParameters) : mp :=
    s3_bulk_action_real n1 n31 n22 (Q2R (pp_alpha p)) (Q2R (pp_k p)) (Q2R (pp_lambda p)).
End Action.

(** ** Published formula (doc comment include/S3Action.hpp:231-242) *)
Definition action_31 (alpha k lambda : R) : R :=
  - 3 * k * arcsinh (1 / (sqrt 3 * sqrt (4 * alpha + 1)))
  - 3 * k * sqrt alpha * acos ((2 * alpha + 1) / (4 * alpha + 1))
  - lambda / 12 * sqrt (3 * alpha + 1).
Definition action_22 (alpha k lambda : R) : R :=
  2 * k * arcsinh (2 * sqrt 2 * sqrt (2 * alpha + 1) / (4 * alpha + 1))
  - 4 * k * sqrt alpha * acos (- 1 / (4 * alpha + 1))
  - lambda / 12 * sqrt (4 * alpha + 2).
Definition action_formula (n1 n31 n22 : Z) (alpha k lambda : R) : R :=
  2 * PI * k * sqrt alpha * IZR n1
  + IZR n31 * action_31 alpha k lambda + IZR n22 * action_22 alpha k lambda.

(** With exact arithmetic the code computes the formula (in particular no
    square root, arccosine or division left its domain: those give NaN or Inf,
    which propagate). *)
Lemma s3_bulk_action_exact n1 n31 n22 alpha k lambda : 1 / 2 < alpha ->
  s3_bulk_action_real PNum n1 n31 n22 alpha k lambda
    = PNum (action_formula n1 n31 n22 alpha k lambda).
Proof.
  intros Ha. unfold s3_bulk_action_real, from_integer, from_real, mp_pi.
  cbn [multiply add subtract negate].
  assert (S3 : 0 < sqrt 3) by (apply sqrt_lt_R0; lra).
  assert (S4 : 0 < sqrt (1 + 4 * alpha)) by (apply sqrt_lt_R0; lra).
  assert (P34 : sqrt 3 * sqrt (1 + 4 * alpha) <> 0) by nra.
  assert (Q1 : 0 <= (2 * alpha + 1) / (1 + 4 * alpha) <= 1).
  { split; [apply Rle_mult_inv_pos; lra|]. apply Rmult_le_reg_r with (1 + 4 * alpha); [lra|].
    unfold Rdiv. rewrite Rmult_assoc, Rinv_l by lra. lra. }
  assert (Q2 : -1 <= - 1 / (1 + 4 * alpha) <= 1).
  { split.
    - apply Rmult_le_reg_r with (1 + 4 * alpha); [lra|].
      unfold Rdiv. rewrite Rmult_assoc, Rinv_l by lra. lra.
    - apply Rle_trans with 0; [|lra]. unfold Rdiv. assert (0 < / (1 + 4 * alpha)) by (apply Rinv_0_lt_compat; lra). nra. }
  unfold square_root, divide, inverse_hyperbolic_sine, arc_cosine, multiply, add, negate.
  cbv beta iota zeta.
  rewrite (proj2 (Rltb_false alpha 0)) by lra; cbv beta iota.
  rewrite (proj2 (Rltb_false 3 0)) by lra; cbv beta iota.
  rewrite (proj2 (Rltb_false (1 + 4 * alpha) 0)) by lra; cbv beta iota.
  rewrite (proj2 (Reqb_false (sqrt 3 * sqrt (1 + 4 * alpha)) 0)) by exact P34; cbv beta iota.
  rewrite (proj2 (Reqb_false (1 + 4 * alpha) 0)) by lra; cbv beta iota.
  rewrite (proj2 (Rltb_false ((2 * alpha + 1) / (1 + 4 * alpha)) (-1))) by lra; cbv beta iota.
  rewrite (proj2 (Rltb_false 1 ((2 * alpha + 1) / (1 + 4 * alpha)))) by lra; cbv beta iota.
  rewrite (proj2 (Rltb_false (3 * alpha + 1) 0)) by lra; cbv beta iota.
  rewrite (proj2 (Reqb_false 12 0)) by lra; cbv beta iota.
  rewrite (proj2 (Rltb_false 2 0)) by lra; cbv beta iota.
  rewrite (proj2 (Rltb_false (2 * alpha + 1) 0)) by lra; cbv beta iota.
  rewrite (proj2 (Rltb_false (- (1) / (1 + 4 * alpha)) (-1))) by lra; cbv beta iota.
  rewrite (proj2 (Rltb_false 1 (- (1) / (1 + 4 * alpha)))) by lra; cbv beta iota.
  rewrite (proj2 (Rltb_false (4 * alpha + 2) 0)) by lra; cbv beta iota.
  cbn [orb]. f_equal. unfold action_formula, action_31, action_22.
  replace (1 + 4 * alpha) with (4 * alpha + 1) by ring.
  replace (- (1)) with (-1) by ring.
  field.
Qed.

(** The shortcuts for alpha = 1 and alpha = -1. *)
Lemma s3_bulk_action_alpha_one_exact n1 n31 n22 k lambda :
  s3_bulk_action_alpha_one PNum n1 n31 n22 k lambda
    = PNum (2 * PI * k * IZR n1 + IZR n31 * (- 3.548 * k - 0.167 * lambda)
            + IZR n22 * (- 5.355 * k - 0.204 * lambda)).
Proof. unfold s3_bulk_action_alpha_one, from_integer, from_real, mp_pi. cbn. f_equal. lra. Qed.

Lemma s3_bulk_action_alpha_minus_one_exact n1 n31 n22 k lambda :
  s3_bulk_action_alpha_minus_one PNum n1 n31 n22 k lambda
    = PNum (- 2 * PI * k * IZR n1 + IZR n31 * (2.673 * k + 0.118 * lambda)
            + IZR n22 * (7.386 * k + 0.118 * lambda)).
Proof. unfold s3_bulk_action_alpha_minus_one, from_integer, from_real, mp_pi. cbn. f_equal. lra. Qed.

(** ** With rounding: never NaN, never infinite *)
Section Rounded.
  Variable round : R -> mp.
  Hypothesis Hr : rounding round.

  (** A finite value inside an interval. *)
  Definition within (lo hi : R) (v : mp) : Prop := exists r, v = PNum r /\ lo <= r <= hi.
  (** Values that rounding leaves alone. *)
  Definition fixed (x : R) : Prop := round x = PNum x.

  Lemma round_within lo hi x : fixed lo -> fixed hi -> lo <= x <= hi -> within lo hi (round x).
  Proof.
    intros Fl Fh [H1 H2]. pose proof (rnd_mono _ Hr _ _ H1) as M1. pose proof (rnd_mono _ Hr _ _ H2) as M2.
    unfold fixed in *. rewrite Fl in M1. rewrite Fh in M2.
    destruct (round x) as [|[]|r]; cbn in *; try tauto. exists r. auto.
  Qed.
  Lemma fixed_int n : (Z.abs n <= 2 ^ 62)%Z -> fixed (IZR n).
  Proof. apply (rnd_int _ Hr). Qed.
  Lemma fixed_pow e : (- exp_range <= e <= exp_range)%Z -> fixed (powerRZ 2 e).
  Proof. apply (rnd_pow2 _ Hr). Qed.
  Lemma within_bounded lo hi k v : - powerRZ 2 k <= lo -> hi <= powerRZ 2 k -> within lo hi v -> bounded k v.
  Proof. intros H1 H2 (r & -> & H). exists r. split; [reflexivity|]. apply Rabs_le. lra. Qed.

  (** Range of finite long double couplings: magnitude below 2^16384. *)
  Definition ld_range (x : R) : Prop := Rabs x <= powerRZ 2 16384.

  Lemma mul_num x y : multiply round (PNum x) (PNum y) = round (x * y).
  Proof. reflexivity. Qed.
  Lemma add_num x y : add round (PNum x) (PNum y) = round (x + y).
  Proof. reflexivity. Qed.
  Lemma div_num x y : y <> 0 -> divide round (PNum x) (PNum y) = round (x / y).
  Proof. intros H. cbn. rewrite (proj2 (Reqb_false y 0)) by exact H. reflexivity. Qed.
  Lemma asinh_num x : inverse_hyperbolic_sine round (PNum x) = round (arcsinh x).
  Proof. reflexivity. Qed.

  Lemma s3_bulk_action_rounded n1 n31 n22 alpha k lambda :
    (Z.abs n1 <= 2 ^ 31)%Z -> (Z.abs n31 <= 2 ^ 31)%Z -> (Z.abs n22 <= 2 ^ 31)%Z ->
    1 / 2 < alpha -> ld_range alpha -> ld_range k -> ld_range lambda ->
    bounded 50000 (s3_bulk_action_real round n1 n31 n22 alpha k lambda).
  Proof.
    intros Hn1 Hn31 Hn22 Ha Ra Rk Rl.
    unfold s3_bulk_action_real, ld_range in *.
    set (B := powerRZ 2 16384) in *.
    assert (ER : exp_range = 60000%Z) by reflexivity.
    assert (HB1 : 1 <= B).
    { replace 1 with (powerRZ 2 0) by reflexivity. unfold B. apply pow2_le. lia. }
    assert (FB : fixed B) by (apply fixed_pow; lia).
    assert (Fhalf : fixed (powerRZ 2 (-1))) by (apply fixed_pow; lia).
    assert (Ehalf : powerRZ 2 (-1) = 1 / 2).
    { unfold powerRZ. change (Pos.to_nat 1) with 1%nat. simpl. lra. }
    apply Rabs_le_iff in Ra.
    (* inputs *)
    pose proof (bounded_integer _ Hr n1 Hn1) as Bn1.
    pose proof (bounded_integer _ Hr n31 Hn31) as Bn31.
    pose proof (bounded_integer _ Hr n22 Hn22) as Bn22.
    assert (Bk : bounded 16384 (from_real round k)) by (apply round_bounded; [assumption|lia|assumption]).
    assert (Bl : bounded 16384 (from_real round lambda)) by (apply round_bounded; [assumption|lia|assumption]).
    destruct (round_within (powerRZ 2 (-1)) B alpha Fhalf FB) as (a & Ea & La & Ua); [rewrite Ehalf; lra|].
    rewrite Ehalf in La.
    assert (F0 : fixed 0) by (apply (fixed_int 0); discriminate).
    assert (F1 : fixed 1) by (apply (fixed_int 1); discriminate).
    assert (F2 : fixed 2) by (apply (fixed_int 2); discriminate).
    assert (F3 : fixed 3) by (apply (fixed_int 3); discriminate).
    assert (F4 : fixed 4) by (apply (fixed_int 4); discriminate).
    assert (F12 : fixed 12) by (apply (fixed_int 12); discriminate).
    assert (FM1 : fixed (-1)) by (apply (fixed_int (-1)); discriminate).
    unfold from_integer at 1 2 3 4 5 6 7 8 9 10 11 12. unfold from_integer in Bn1, Bn31, Bn22.
    unfold from_real in *. unfold mp_pi.
    set (N1 := round (IZR n1)) in *. set (N31 := round (IZR n31)) in *. set (N22 := round (IZR n22)) in *.
    set (K := round k) in *. set (L := round lambda) in *.
    rewrite Ea. unfold fixed in F1, F2, F3, F4, F12.
    rewrite ?F1, ?F2, ?F3, ?F4, ?F12. unfold from_integer. rewrite ?F1, ?F2, ?F3, ?F4, ?F12.
    (* constants *)
    assert (B1 : bounded 1 (PNum 2)).
    { exists 2. split; [reflexivity|]. rewrite powerRZ_1, Rabs_right; lra. }
    assert (B1' : bounded 1 (PNum 1)).
    { exists 1. split; [reflexivity|]. rewrite powerRZ_1, Rabs_right; lra. }
    assert (B3 : bounded 2 (PNum 3)).
    { exists 3. split; [reflexivity|]. rewrite powerRZ_2_2, Rabs_right; lra. }
    assert (B4 : bounded 2 (PNum 4)).
    { exists 4. split; [reflexivity|]. rewrite powerRZ_2_2, Rabs_right; lra. }
    assert (Bpi : bounded 2 (round PI)).
    { apply round_bounded; [assumption|lia|]. rewrite powerRZ_2_2. pose proof PI_4. pose proof PI_RGT_0.
      rewrite Rabs_right; lra. }
    (* r3 = sqrt alpha *)
    destruct (bounded_sqrt _ Hr 16384 a) as (s3 & E3 & P3 & U3); [lia|lra|assumption|].
    rewrite E3. assert (B_r3 : bounded 16384 (PNum s3)).
    { exists s3. split; [reflexivity|]. rewrite Rabs_right; [assumption|lra]. }
    (* r7, r8 *)
    assert (Hpow : forall j, (0 <= j)%Z -> powerRZ 2 j * B = powerRZ 2 (j + 16384)).
    { intros j Hj. unfold B. rewrite <- powerRZ_add by lra. reflexivity. }
    assert (P2 : powerRZ 2 2 = 4) by apply powerRZ_2_2.
    assert (FB2 : fixed (4 * B)).
    { rewrite <- P2, Hpow by lia. apply fixed_pow. lia. }
    assert (FB3 : fixed (8 * B)).
    { replace (8 * B) with (powerRZ 2 3 * B).
      - rewrite Hpow by lia. apply fixed_pow. lia.
      - change 3%Z with (2 + 1)%Z. rewrite (powerRZ_add 2 2 1), P2, powerRZ_1 by lra. ring. }
    rewrite ?mul_num.
    destruct (round_within 2 (4 * B) (4 * a) F2 FB2) as (r7 & E7 & L7 & U7); [lra|]. rewrite E7.
    destruct (round_within 1 (4 * B) (2 * a) F1 FB2) as (r16 & E16 & L16 & U16); [lra|]. rewrite E16.
    assert (H16_7 : r16 <= r7).
    { pose proof (rnd_mono _ Hr (2 * a) (4 * a)) as M. rewrite E7, E16 in M. apply M. lra. }
    destruct (round_within 1 (4 * B) (3 * a) F1 FB2) as (r22 & E22 & L22 & U22); [lra|]. rewrite E22.
    rewrite ?add_num.
    destruct (round_within 3 (8 * B) (1 + r7) F3 FB3) as (r8 & E8 & L8 & U8); [lra|]. rewrite E8.
    destruct (round_within 2 (8 * B) (r16 + 1) F2 FB3) as (r17 & E17 & L17 & U17); [lra|]. rewrite E17.
    assert (H17_8 : r17 <= r8).
    { pose proof (rnd_mono _ Hr (r16 + 1) (1 + r7)) as M. rewrite E17, E8 in M. apply M. lra. }
    destruct (round_within 2 (8 * B) (r22 + 1) F2 FB3) as (r23 & E23 & L23 & U23); [lra|]. rewrite E23.
    destruct (round_within 2 (8 * B) (r7 + 2) F2 FB3) as (r46 & E46 & L46 & U46); [lra|]. rewrite E46.
    assert (P8B : 8 * B = powerRZ 2 16387).
    { change 16387%Z with (3 + 16384)%Z. rewrite <- Hpow by lia.
      change 3%Z with (2 + 1)%Z. rewrite (powerRZ_add 2 2 1), P2, powerRZ_1 by lra. ring. }
    (* square roots *)
    assert (SQ : forall v, 1 <= v -> v <= 8 * B ->
      exists r, square_root round (PNum v) = PNum r /\ 1 <= r /\ r <= powerRZ 2 16387).
    { intros v Hv1 Hv2. destruct (bounded_sqrt _ Hr 16387 v) as (r & E & P & U); [lia|lra|lra|].
      exists r. split; [exact E|]. split; [|exact U].
      cbn in E. rewrite (proj2 (Rltb_false v 0)) in E by lra.
      apply (round_ge_1 _ Hr _ _ E). rewrite <- sqrt_1. apply sqrt_le_1; lra. }
    destruct (SQ 3) as (r6 & E6 & L6 & U6); [lra|lra|]. rewrite E6.
    destruct (SQ r8) as (r9 & E9 & L9 & U9); [lra|lra|]. rewrite E9.
    destruct (SQ r23) as (r24 & E24 & L24 & U24); [lra|lra|]. rewrite E24.
    destruct (SQ 2) as (r32 & E32 & L32 & U32); [lra|lra|]. rewrite E32.
    destruct (SQ r17) as (r34 & E34 & L34 & U34); [lra|lra|]. rewrite E34.
    destruct (SQ r46) as (r47 & E47 & L47 & U47); [lra|lra|]. rewrite E47.
    assert (BS : forall v, 1 <= v -> v <= powerRZ 2 16387 -> bounded 16387 (PNum v)).
    { intros v H1 H2. exists v. split; [reflexivity|]. rewrite Rabs_right; [assumption|lra]. }
    (* r10 .. r12 *)
    assert (F10 : fixed (powerRZ 2 32774)) by (apply fixed_pow; lia).
    destruct (round_within 1 (powerRZ 2 32774) (r6 * r9) F1 F10) as (r10 & E10 & L10 & U10).
    { split; [nra|]. change 32774%Z with (16387 + 16387)%Z. rewrite powerRZ_add by lra.
      apply Rmult_le_compat; lra. }
    rewrite ?mul_num. rewrite E10.
    rewrite (div_num 1 r10) by lra.
    destruct (round_within 0 1 (1 / r10) F0 F1) as (r11 & E11 & L11 & U11).
    { split; [apply Rle_mult_inv_pos; lra|]. unfold Rdiv. rewrite Rmult_1_l, <- Rinv_1.
      apply Rinv_le_contravar; lra. }
    rewrite E11, asinh_num.
    destruct (round_within 0 1 (arcsinh r11) F0 F1) as (r12 & E12 & L12 & U12).
    { pose proof (arcsinh_nonneg r11 L11). pose proof (arcsinh_le_id r11 L11). lra. }
    rewrite E12.
    assert (B_r12 : bounded 1 (PNum r12)).
    { exists r12. split; [reflexivity|]. rewrite powerRZ_1, Rabs_right; lra. }
    (* r18, r19 *)
    rewrite (div_num r17 r8) by lra.
    destruct (round_within 0 1 (r17 / r8) F0 F1) as (r18 & E18 & L18 & U18).
    { split; [apply Rle_mult_inv_pos; lra|]. apply Rmult_le_reg_r with r8; [lra|].
      unfold Rdiv. rewrite Rmult_assoc, Rinv_l by lra. lra. }
    rewrite E18.
    pose proof (bounded_acos _ Hr r18 ltac:(lra)) as B_r19.
    set (r19 := arc_cosine round (PNum r18)) in *.
    (* r33 .. r37 *)
    destruct (round_within 0 (powerRZ 2 16388) (2 * r32) F0) as (r33 & E33 & L33 & U33).
    { apply fixed_pow. lia. }
    { split; [lra|]. change 16388%Z with (1 + 16387)%Z. rewrite powerRZ_add, powerRZ_1 by lra. lra. }
    rewrite E33. rewrite ?mul_num.
    destruct (round_within 0 (powerRZ 2 32775) (r33 * r34) F0) as (r35 & E35 & L35 & U35).
    { apply fixed_pow. lia. }
    { split; [nra|]. change 32775%Z with (16388 + 16387)%Z. rewrite powerRZ_add by lra.
      apply Rmult_le_compat; lra. }
    rewrite E35, (div_num r35 r8) by lra.
    assert (B_r36 : within 0 (powerRZ 2 32775) (round (r35 / r8))).
    { apply round_within; [assumption|apply fixed_pow; lia|].
      split; [apply Rle_mult_inv_pos; lra|]. apply Rmult_le_reg_r with r8; [lra|].
      unfold Rdiv. rewrite Rmult_assoc, Rinv_l by lra.
      assert (0 < powerRZ 2 32775) by (apply powerRZ_lt; lra). nra. }
    destruct B_r36 as (r36 & E36 & L36 & U36).
    rewrite E36, asinh_num.
    destruct (round_within 0 (powerRZ 2 32775) (arcsinh r36) F0) as (r37 & E37 & L37 & U37).
    { apply fixed_pow. lia. }
    { pose proof (arcsinh_nonneg r36 L36). pose proof (arcsinh_le_id r36 L36). lra. }
    rewrite E37.
    assert (B_r37 : bounded 32775 (PNum r37)).
    { exists r37. split; [reflexivity|]. rewrite Rabs_right; lra. }
    (* r40, r41 *)
    assert (E39 : negate round (PNum 1) = PNum (-1)) by (cbn; exact FM1).
    rewrite E39, (div_num (-1) r8) by lra.
    destruct (round_within (-1) 0 (-1 / r8) FM1 F0) as (r40 & E40 & L40 & U40).
    { split.
      - apply Rmult_le_reg_r with r8; [lra|]. unfold Rdiv. rewrite Rmult_assoc, Rinv_l by lra. lra.
      - unfold Rdiv. assert (0 < / r8) by (apply Rinv_0_lt_compat; lra). nra. }
    rewrite E40.
    pose proof (bounded_acos _ Hr r40 ltac:(lra)) as B_r41.
    set (r41 := arc_cosine round (PNum r40)) in *.
    (* r26 *)
    assert (B_r26 : bounded 16384 (divide round (negate round L) (PNum 12))).
    { destruct (bounded_neg _ Hr 16384 L ltac:(lia) Bl) as (l & El & Hl). rewrite El. cbn.
      rewrite (proj2 (Reqb_false 12 0)) by lra. apply round_bounded; [assumption|lia|].
      unfold Rdiv. rewrite Rabs_mult, (Rabs_right (/ 12)) by lra.
      pose proof (Rabs_pos l). lra. }
    set (r26 := divide round (negate round L) (PNum 12)) in *.
    assert (B_n3 : bounded 2 (negate round (PNum 3))) by (apply bounded_neg; [assumption|lia|assumption]).
    assert (B_n4 : bounded 2 (negate round (PNum 4))) by (apply bounded_neg; [assumption|lia|assumption]).
    assert (B_r24 := BS r24 L24 U24). assert (B_r47 := BS r47 L47 U47).
    clear - Hr ER Bn1 Bn31 Bn22 Bk Bl B1 Bpi B_r3 B_r12 B_r19 B_r37 B_r41 B_r26 B_n3 B_n4 B_r24 B_r47.
    set (T3 := negate round (PNum 3)) in *. set (T4 := negate round (PNum 4)) in *.
    assert (BM : forall a b x y, bounded a x -> bounded b y -> (0 <= a)%Z -> (0 <= b)%Z ->
       (a + b <= 60000)%Z -> bounded (a + b) (multiply round x y)).
    { intros. apply bounded_mul; [assumption|lia|assumption..]. }
    assert (BA : forall a b x y, bounded a x -> bounded b y -> (0 <= a)%Z -> (0 <= b)%Z ->
       (Z.max a b + 1 <= 60000)%Z -> bounded (Z.max a b + 1) (add round x y)).
    { intros. apply bounded_add; [assumption|lia|..]; (eapply bounded_weaken; [|eassumption]; lia). }
    eapply bounded_weaken; cycle 1.
    { repeat first [eassumption | eapply BM | eapply BA]; lia. }
    lia.
  Qed.
End Rounded.
