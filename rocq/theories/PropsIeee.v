(** Theorems about the floating point formats behind C50, C53 and C73: IEEE 754
    round-to-nearest-even meets the contracts those theorems assume of rounding. *)
From Verif Require Import Base Config ConfigSpec ConfigProps ViewerScene ViewerSceneSpec ViewerOutward Ieee IeeeSpec IeeeDouble.
From stdpp Require Import list.
From Coq Require Import QArith QArith.Qabs.

(** Rounding to double and to x87 long double meets the contract of C50-C53. *)
Theorem C50_ieee : fp_contract double_round long_double_round.
Proof. exact ieee_contract. Qed.
Print Assumptions C50_ieee.
(** The result, if finite, is a nearest number m 2^e with |m| < 2^53, e >= -1074 and
    magnitude below 2^1024; the numbers rounded to +infinity are those from
    2^1024 - 2^970 on. *)
Theorem C50_nearest : forall q v, double_round q = Fin v ->
  double_number v /\ forall w, double_number w -> (Qabs (v - q) <= Qabs (w - q))%Q.
Proof. exact double_nearest. Qed.
Print Assumptions C50_nearest.
Theorem C50_overflow : forall q, double_round q = Inf false <-> (inject_Z (2 ^ 1024 - 2 ^ 970) <= q)%Q.
Proof. intros q. apply (ieee_overflow 53 1024); reflexivity || discriminate. Qed.
Print Assumptions C50_overflow.
(** So with these formats, a configuration is accepted exactly if it meets the
    requirements. *)
Theorem C50_accepted_ieee : forall par spherical toroidal s t d radius spacing seed threads,
  is_double double_round radius -> is_double double_round spacing ->
  forall x, make_triangulation double_round long_double_round par spherical toroidal s t d radius spacing seed threads = Val x <->
     all_hold (triangulation_requirements double_round long_double_round par spherical toroidal s t d radius spacing threads) /\
     x = MkTriangulation SPHERICAL s t d radius spacing seed threads.
Proof.
  intros par sph tor s t d r sp seed th Dr Ds.
  exact (proj1 (verdict_spec _ _ _ (make_triangulation_verdict _ _ ieee_contract par sph tor s t d r sp seed th Dr Ds))).
Qed.
Print Assumptions C50_accepted_ieee.

(** In doubles a drawn face with coordinates up to r is wound outward unless it is
    within 311 * 2^-53 r^3 of radial. *)
Theorem C73_outward_ieee : forall V (point_of : V -> point3) (pos : V -> Q * Q * Q) r vs,
  (1 <= r)%Q -> (1000 * (r * r * r) <= inject_Z (2 ^ 1000))%Q ->
  (forall v, v ∈ vs -> at_point (point_of v) (pos v) /\ within r (pos v)) -> length vs = 3%nat ->
  exists a b c, orient_outward point_of double_round vs = [a; b; c] /\ [a; b; c] ≡ₚ vs /\
    (- (311 * (1 # 9007199254740992) * (r * r * r)) <= det3 (pos a) (pos b) (pos c))%Q.
Proof.
  intros V point_of pos r vs R1 Bg.
  exact (outward_rounded double_round (1 # 9007199254740992) (inject_Z (2 ^ 1000)) r ieee_rounds ltac:(discriminate) ltac:(discriminate) R1 Bg point_of pos vs).
Qed.
Print Assumptions C73_outward_ieee.
(** 1 and 5 are doubles. *)
Example C50_ieee_met : is_double double_round (Fin 1) /\ is_double double_round (Fin (inject_Z 5)) /\ double_number (3 # 8).
Proof. split; [apply ieee_sample|]. split; [apply ieee_sample|]. exact double_sample. Qed.
