(** MPFR values and operations (include/Mpfr_value.hpp) with an arbitrary
    rounding function. *)
From Verif Require Import Base.
From Coq Require Import Reals Lra Psatz.
Local Open Scope R_scope.

(** CGAL::Gmpfr values. The sign of zero is not represented. *)
Inductive mp : Type := PNaN | PInf (neg : bool) | PNum (r : R).

Definition Rltb (x y : R) : bool := if Rlt_dec x y then true else false.
Definition Rleb (x y : R) : bool := if Rle_dec x y then true else false.
Definition Reqb (x y : R) : bool := if Req_EM_T x y then true else false.

Lemma Rltb_spec x y : Rltb x y = true <-> x < y.
Proof. unfold Rltb. destruct (Rlt_dec x y); split; congruence || tauto. Qed.
Lemma Rltb_false x y : Rltb x y = false <-> y <= x.
Proof. unfold Rltb. destruct (Rlt_dec x y); split; intros; try congruence; lra. Qed.
Lemma Rleb_spec x y : Rleb x y = true <-> x <= y.
Proof. unfold Rleb. destruct (Rle_dec x y); split; congruence || tauto. Qed.
Lemma Rleb_false x y : Rleb x y = false <-> y < x.
Proof. unfold Rleb. destruct (Rle_dec x y); split; intros; try congruence; lra. Qed.
Lemma Reqb_spec x y : Reqb x y = true <-> x = y.
Proof. unfold Reqb. destruct (Req_EM_T x y); split; congruence || tauto. Qed.
Lemma Reqb_false x y : Reqb x y = false <-> x <> y.
Proof. unfold Reqb. destruct (Req_EM_T x y); split; congruence || tauto. Qed.

(** mpfr_cmp(a, b) < 0; comparing with NaN gives 0 (and sets the erange flag). *)
Definition mp_lt (a b : mp) : bool :=
  match a, b with
  | PNaN, _ | _, PNaN => false
  | PInf s, PInf t => s && negb t
  | PInf s, PNum _ => s
  | PNum _, PInf t => negb t
  | PNum x, PNum y => Rltb x y
  end.
(** Order on non-NaN values. *)
Definition mp_le (a b : mp) : Prop :=
  match a, b with
  | PNaN, _ | _, PNaN => False
  | PInf true, _ | _, PInf false => True
  | PInf false, _ | _, PInf true => False
  | PNum x, PNum y => x <= y
  end.

(** mpfr_zero_p. *)
Definition mp_is_zero (a : mp) : bool := match a with PNum x => Reqb x 0 | _ => false end.

Section Ops.
  (** Correct rounding to 256 bits is replaced by an arbitrary function from the
      exact result to a value; [rounding] below states what is assumed of it. *)
  Variable round : R -> mp.

  (** include/Mpfr_value.hpp:44-49 [from_integer] (mpfr_set_si). *)
  Definition from_integer (n : Z) : mp := round (IZR n).
  (** include/Mpfr_value.hpp:53-58 [from_long_double]: a finite argument. *)
  Definition from_real (x : R) : mp := round x.
  (** include/Mpfr_value.hpp:79-84 [pi]. *)
  Definition mp_pi : mp := round PI.
  (** include/Mpfr_value.hpp:89-94 [add]. *)
  Definition add (a b : mp) : mp :=
    match a, b with
    | PNaN, _ | _, PNaN => PNaN
    | PInf s, PInf t => if Bool.eqb s t then PInf s else PNaN
    | PInf s, PNum _ => PInf s
    | PNum _, PInf t => PInf t
    | PNum x, PNum y => round (x + y)
    end.
  (** include/Mpfr_value.hpp:158-163 [negate]. *)
  Definition negate (a : mp) : mp :=
    match a with PNaN => PNaN | PInf s => PInf (negb s) | PNum x => round (- x) end.
  (** include/Mpfr_value.hpp:99-105 [subtract]. *)
  Definition subtract (a b : mp) : mp :=
    match a, b with
    | PNaN, _ | _, PNaN => PNaN
    | PInf s, PInf t => if Bool.eqb s t then PNaN else PInf s
    | PInf s, PNum _ => PInf s
    | PNum _, PInf t => PInf (negb t)
    | PNum x, PNum y => round (x - y)
    end.
  (** include/Mpfr_value.hpp:110-116 [multiply]. *)
  Definition multiply (a b : mp) : mp :=
    match a, b with
    | PNaN, _ | _, PNaN => PNaN
    | PInf s, PInf t => PInf (xorb s t)
    | PInf s, PNum y => if Reqb y 0 then PNaN else PInf (xorb s (Rltb y 0))
    | PNum x, PInf t => if Reqb x 0 then PNaN else PInf (xorb (Rltb x 0) t)
    | PNum x, PNum y => round (x * y)
    end.
  (** include/Mpfr_value.hpp:121-127 [divide]. *)
  Definition divide (a b : mp) : mp :=
    match a, b with
    | PNaN, _ | _, PNaN => PNaN
    | PInf _, PInf _ => PNaN
    | PInf s, PNum y => PInf (xorb s (Rltb y 0))
    | PNum _, PInf _ => round 0
    | PNum x, PNum y =>
        if Reqb y 0 then (if Reqb x 0 then PNaN else PInf (Rltb x 0)) else round (x / y)
    end.
  (** include/Mpfr_value.hpp:131-136 [square_root]. *)
  Definition square_root (a : mp) : mp :=
    match a with
    | PNaN => PNaN
    | PInf s => if s then PNaN else PInf false
    | PNum x => if Rltb x 0 then PNaN else round (sqrt x)
    end.
  (** include/Mpfr_value.hpp:140-145 [inverse_hyperbolic_sine]. *)
  Definition inverse_hyperbolic_sine (a : mp) : mp :=
    match a with PNaN => PNaN | PInf s => PInf s | PNum x => round (arcsinh x) end.
  (** include/Mpfr_value.hpp:149-154 [arc_cosine]. *)
  Definition arc_cosine (a : mp) : mp :=
    match a with
    | PNum x => if Rltb x (-1) || Rltb 1 x then PNaN else round (acos x)
    | _ => PNaN
    end.
  (** include/Mpfr_value.hpp:167-172 [exponential]. *)
  Definition exponential (a : mp) : mp :=
    match a with
    | PNaN => PNaN
    | PInf s => if s then round 0 else PInf false
    | PNum x => round (exp x)
    end.
End Ops.

(** What is assumed of MPFR's round-to-nearest at 256 bits: results are not NaN,
    rounding is monotone, and powers of two with moderate exponents and 32-bit
    integers are representable. The exponent range of MPFR (about 2^62) is far
    wider than the 60000 used here. *)
Definition exp_range : Z := 60000.
Record rounding (round : R -> mp) : Prop := mkRounding {
  rnd_mono : forall x y, x <= y -> mp_le (round x) (round y);
  rnd_pow2 : forall e, (- exp_range <= e <= exp_range)%Z -> round (powerRZ 2 e) = PNum (powerRZ 2 e);
  rnd_pow2_neg : forall e, (- exp_range <= e <= exp_range)%Z ->
      round (- powerRZ 2 e) = PNum (- powerRZ 2 e);
  rnd_int : forall n, (Z.abs n <= 2 ^ 62)%Z -> round (IZR n) = PNum (IZR n) }.

(** Exact arithmetic is a rounding. *)
Lemma rounding_exact : rounding PNum.
Proof. split; intros; cbn; auto. Qed.

Lemma Rabs_le_iff a b : Rabs a <= b -> -b <= a <= b.
Proof. unfold Rabs. destruct (Rcase_abs a); lra. Qed.

Lemma powerRZ_2_2 : powerRZ 2 2 = 4.
Proof. unfold powerRZ. change (Pos.to_nat 2) with 2%nat. simpl. ring. Qed.

Section Bounds.
  Variable round : R -> mp.
  Hypothesis Hr : rounding round.

  Lemma round_0 : round 0 = PNum 0.
  Proof. apply (rnd_int _ Hr 0). discriminate. Qed.
  Lemma round_1 : round 1 = PNum 1.
  Proof. apply (rnd_int _ Hr 1). discriminate. Qed.

  (** A finite value of magnitude at most 2^k. *)
  Definition bounded (k : Z) (v : mp) : Prop :=
    exists r, v = PNum r /\ Rabs r <= powerRZ 2 k.

  Lemma pow2_pos e : 0 < powerRZ 2 e.
  Proof. apply powerRZ_lt. lra. Qed.

  Lemma pow2_le a b : (a <= b)%Z -> powerRZ 2 a <= powerRZ 2 b.
  Proof.
    intros H. replace b with (a + (b - a))%Z by lia. rewrite powerRZ_add by lra.
    rewrite <- (Rmult_1_r (powerRZ 2 a)) at 1. apply Rmult_le_compat_l; [left; apply pow2_pos|].
    rewrite <- (Z2Nat.id (b - a)) by lia. rewrite <- pow_powerRZ. apply pow_R1_Rle. lra.
  Qed.

  Lemma round_bounded x k : (- exp_range <= k <= exp_range)%Z -> Rabs x <= powerRZ 2 k ->
    bounded k (round x).
  Proof.
    intros Hk Hx. apply Rabs_le_iff in Hx as [H1 H2].
    pose proof (rnd_mono _ Hr _ _ H1) as M1. pose proof (rnd_mono _ Hr _ _ H2) as M2.
    rewrite (rnd_pow2_neg _ Hr) in M1 by assumption. rewrite (rnd_pow2 _ Hr) in M2 by assumption.
    destruct (round x) as [|[]|r]; cbn in *; try tauto.
    exists r. split; [reflexivity|]. apply Rabs_le. lra.
  Qed.

  Lemma round_sign x r : round x = PNum r -> (0 <= x -> 0 <= r) /\ (x <= 0 -> r <= 0).
  Proof.
    intros H. pose proof (rnd_mono _ Hr 0 x) as M1. pose proof (rnd_mono _ Hr x 0) as M2.
    rewrite round_0, H in *. cbn in *. tauto.
  Qed.
  Lemma round_le_1 x r : round x = PNum r -> x <= 1 -> r <= 1.
  Proof.
    intros H Hx. pose proof (rnd_mono _ Hr x 1 Hx) as M. rewrite round_1, H in M. exact M.
  Qed.
  Lemma round_ge_1 x r : round x = PNum r -> 1 <= x -> 1 <= r.
  Proof.
    intros H Hx. pose proof (rnd_mono _ Hr 1 x Hx) as M. rewrite round_1, H in M. exact M.
  Qed.

  Lemma bounded_weaken a b v : (a <= b)%Z -> bounded a v -> bounded b v.
  Proof.
    intros H (r & -> & Hb). exists r. split; [reflexivity|].
    eapply Rle_trans; [exact Hb|]. apply pow2_le. exact H.
  Qed.

  Lemma bounded_integer n : (Z.abs n <= 2 ^ 31)%Z -> bounded 31 (from_integer round n).
  Proof.
    intros H. apply round_bounded; [unfold exp_range; lia|].
    rewrite <- abs_IZR. replace (powerRZ 2 31) with (IZR (2 ^ 31)); [apply IZR_le; exact H|].
    change (powerRZ 2 31) with (2 ^ Pos.to_nat 31)%R. rewrite (pow_IZR 2). reflexivity.
  Qed.

  Lemma bounded_mul a b x y : (- exp_range <= a + b <= exp_range)%Z ->
    bounded a x -> bounded b y -> bounded (a + b) (multiply round x y).
  Proof.
    intros H (p & -> & Hp) (q & -> & Hq). cbn. apply round_bounded; [exact H|].
    rewrite Rabs_mult, powerRZ_add by lra.
    apply Rmult_le_compat; auto using Rabs_pos.
  Qed.
  Lemma bounded_add a x y : (- exp_range <= a + 1 <= exp_range)%Z ->
    bounded a x -> bounded a y -> bounded (a + 1) (add round x y).
  Proof.
    intros H (p & -> & Hp) (q & -> & Hq). cbn. apply round_bounded; [exact H|].
    eapply Rle_trans; [apply Rabs_triang|]. rewrite powerRZ_add, powerRZ_1 by lra. lra.
  Qed.
  Lemma bounded_sub a x y : (- exp_range <= a + 1 <= exp_range)%Z ->
    bounded a x -> bounded a y -> bounded (a + 1) (subtract round x y).
  Proof.
    intros H (p & -> & Hp) (q & -> & Hq). cbn. apply round_bounded; [exact H|].
    unfold Rminus. eapply Rle_trans; [apply Rabs_triang|]. rewrite Rabs_Ropp.
    rewrite powerRZ_add, powerRZ_1 by lra. lra.
  Qed.
  Lemma bounded_neg a x : (- exp_range <= a <= exp_range)%Z ->
    bounded a x -> bounded a (negate round x).
  Proof.
    intros H (p & -> & Hp). cbn. apply round_bounded; [exact H|]. rewrite Rabs_Ropp. exact Hp.
  Qed.
  (** Square root of a value known nonnegative. *)
  Lemma bounded_sqrt a p : (0 <= a <= exp_range)%Z -> 0 <= p -> p <= powerRZ 2 a ->
    exists r, square_root round (PNum p) = PNum r /\ 0 <= r /\ r <= powerRZ 2 a.
  Proof.
    intros H Hp Hb. cbn. rewrite (proj2 (Rltb_false p 0)) by exact Hp.
    assert (Hs : 0 <= sqrt p <= powerRZ 2 a).
    { split; [apply sqrt_pos|]. destruct (Rle_dec p 1) as [H1|H1].
      - apply Rle_trans with 1.
        + rewrite <- sqrt_1. apply sqrt_le_1; lra.
        + change 1 with (powerRZ 2 0). apply pow2_le. lia.
      - apply Rle_trans with p; [|exact Hb].
        rewrite <- (sqrt_sqrt p) at 2 by lra.
        rewrite <- (Rmult_1_l (sqrt p)) at 1. apply Rmult_le_compat_r; [apply sqrt_pos|].
        rewrite <- sqrt_1 at 1. apply sqrt_le_1; lra. }
    destruct (round_bounded (sqrt p) a) as (r & Er & Br).
    { unfold exp_range in *. lia. }
    { rewrite Rabs_right by lra. lra. }
    exists r. rewrite Er. destruct (round_sign _ _ Er) as [S _].
    split; [reflexivity|]. split; [apply S; lra|]. apply Rabs_le_iff in Br. lra.
  Qed.
  Lemma bounded_acos p : -1 <= p <= 1 -> bounded 2 (arc_cosine round (PNum p)).
  Proof.
    intros [H1 H2]. cbn. rewrite (proj2 (Rltb_false p (-1))) by exact H1.
    rewrite (proj2 (Rltb_false 1 p)) by exact H2. cbn.
    apply round_bounded; [unfold exp_range; lia|].
    pose proof (acos_bound p). pose proof PI_4. rewrite Rabs_right by lra.
    rewrite powerRZ_2_2. lra.
  Qed.
End Bounds.

Lemma arcsinh_nonneg x : 0 <= x -> 0 <= arcsinh x.
Proof.
  intros H. destruct H as [H| <-]; [|rewrite arcsinh_0; lra].
  rewrite <- arcsinh_0. left. apply arcsinh_lt. exact H.
Qed.
Lemma arcsinh_le_id x : 0 <= x -> arcsinh x <= x.
Proof.
  intros H. unfold arcsinh.
  assert (Hs : sqrt (x ^ 2 + 1) <= 1 + x).
  { rewrite <- (sqrt_square (1 + x)) by lra. apply sqrt_le_1; nra. }
  assert (Hp : 0 < x + sqrt (x ^ 2 + 1)).
  { assert (0 < sqrt (x ^ 2 + 1)) by (apply sqrt_lt_R0; nra). lra. }
  (* x + sqrt(x^2+1) <= exp x *)
  assert (Hle : x + sqrt (x ^ 2 + 1) <= exp x).
  { assert (E1 : 1 + x + x * x / 2 <= exp x).
    { (* via monotonicity of exp(t) - 1 - t - t^2/2 *)
      set (f := fun t => exp t - 1 - t - t * t / 2).
      assert (D : forall t, derivable_pt_lim f t (exp t - 0 - 1 - t)).
      { intros t. unfold f. repeat apply derivable_pt_lim_minus.
        - apply derivable_pt_lim_exp.
        - apply derivable_pt_lim_const.
        - apply derivable_pt_lim_id.
        - replace t with ((1 * t + t * 1) / 2) at 2 by field.
          apply (derivable_pt_lim_ext (mult_real_fct (/ 2) (id * id)%F)).
          { intros z. unfold mult_real_fct, mult_fct, id. field. }
          replace ((1 * t + t * 1) / 2) with (/ 2 * (1 * t + t * 1)) by field.
          apply derivable_pt_lim_scal. apply (derivable_pt_lim_mult id id); apply derivable_pt_lim_id. }
      assert (M : 0 <= f x).
      { destruct H as [H| <-]; [|unfold f; rewrite exp_0; lra].
        assert (pr : forall t, derivable_pt f t) by (intros t; eexists; apply D).
        destruct (MVT_cor1 f 0 x pr H) as (c & Hc & Hc1).
        rewrite (derive_pt_eq_0 _ _ _ _ (D c)) in Hc.
        assert (F0 : f 0 = 0) by (unfold f; rewrite exp_0; lra).
        pose proof (exp_ineq1_le c). nra. }
      unfold f in M. lra. }
    assert (E2 : sqrt (x ^ 2 + 1) <= 1 + x * x / 2).
    { rewrite <- (sqrt_square (1 + x * x / 2)) by nra. apply sqrt_le_1; nra. }
    lra. }
  replace x with (ln (exp x)) at 3 by apply ln_exp.
  destruct Hle as [Hlt|Heq]; [left; apply ln_increasing; assumption|right; congruence].
Qed.
