(** Theorems about radii and time labels in double arithmetic (C87, C88) and the box
    of the lock grid (C89). [rd] is the rounding to double, [fsqrt] std::sqrt and
    [square] std::pow(x, 2); what is assumed of them (RadiiSpec.v, FoliationSpec.v)
    holds of IEEE 754. *)
From Verif Require Import Base Config ConfigSpec ConfigProps FoliationSpec Repair ViewerScene Radii RadiiSpec RadiiFacts RadiiProps BoxFacts Ieee IeeeRadii.
From stdpp Require Import list.
From Coq Require Import QArith QArith.Qabs.
Local Open Scope Z_scope.

(** ** C87: the label a point is generated with is the one computed from its radius *)
(** A point generated for slice i+1 (of radius I + i S) has time i+1, as long as the
    radius is at most 2^36 spacings. *)
Theorem C87_label : forall rd fsqrt, ieee_double rd -> sqrt_ok fsqrt -> forall I S i r p,
  (pow2 (-300) <= I)%Q -> (pow2 (-300) <= S)%Q -> (S <= pow2 300)%Q -> 0 <= i < INT32_MAX ->
  (I + inject_Z i * S <= pow2 300)%Q -> (I + inject_Z i * S <= pow2 36 * S)%Q ->
  layer_radius rd (Fin I) (Fin S) i = Fin r -> on_sphere r p ->
  vertex_time rd fsqrt p (Fin I) (Fin S) = Some (i + 1).
Proof. intros rd fsqrt NR SQ I S i r p I1 S1 S2 Hi U HS Hr P. exact (generated_label rd fsqrt NR I S i I1 S1 S2 Hi U r p SQ Hr P HS). Qed.
Print Assumptions C87_label.
(** CGAL's sphere generator produces such points: z between -1 and 1, and cosine and
    sine with squares adding up to 1 within 2^-50. *)
Theorem C87_sphere : forall rd fsqrt, ieee_double rd -> (forall p q, (p <= q)%Q -> fp_le (rd p) (rd q) = true) ->
  exact rd 0 -> exact rd 1 -> sqrt_ok fsqrt -> forall r z c s, (pow2 (-300) <= r)%Q -> (r <= pow2 300)%Q ->
  (- (1) <= z <= 1)%Q -> (Qabs (c * c + s * s - 1) <= pow2 (-50))%Q ->
  on_sphere r (sphere_point rd fsqrt (Fin r) (Fin z) (Fin c) (Fin s)).
Proof. intros rd fsqrt NR MO E0 E1 SQ r z c s. exact (sphere_point_on rd fsqrt r z c s NR MO E0 E1 SQ). Qed.
Print Assumptions C87_sphere.
(** IEEE 754 arithmetic meets the assumptions. *)
Theorem C87_ieee : ieee_double double_round /\ sqrt_ok double_sqrt /\ square_ok double_square /\
  (forall p q, (p <= q)%Q -> fp_le (double_round p) (double_round q) = true) /\ exact double_round 0 /\ exact double_round 1.
Proof.
  split; [exact ieee_is_double|]. split; [exact ieee_sqrt_ok|]. split; [exact ieee_square_ok|]. split; [exact (rd_mono _ _ ieee_contract)|].
  exact zero_one.
Qed.
Print Assumptions C87_ieee.
(** The bound on the radius is needed: an accepted configuration with two slices, one
    2^-60 apart; the point (1, 0, 0) generated for slice 2 has time 1. *)
Theorem C87_every_spacing_refuted :
  all_hold (triangulation_requirements double_round long_double_round false true false 640 2 3 (Fin 1) (Fin (pow2 (-60))) 1) /\
  exists r, layer_radius double_round (Fin 1) (Fin (pow2 (-60))) 1 = Fin r /\ on_sphere r unit_point /\
  vertex_time double_round double_sqrt unit_point (Fin 1) (Fin (pow2 (-60))) = Some 1.
Proof. exact (conj (small_accepted _ (proj1 pow2_bounds) (proj2 pow2_bounds)) collapse). Qed.
Print Assumptions C87_every_spacing_refuted.
(** Slice 3 of the default foliation, in exact arithmetic. *)
Example C87_example : ieee_double Fin /\ layer_radius Fin (Fin 1) (Fin 1) 2 = Fin 3 /\ on_sphere 3 (mkPoint3 (Fin 1) (Fin (-2)) (Fin 2)).
Proof.
  split; [exact exact_is_double|]. split; [vm_compute; reflexivity|]. exists 1%Q, (-2)%Q, 2%Q. split; [repeat split|]. vm_compute. discriminate.
Qed.

(** ** C88: the radius check *)
(** Generated points pass. *)
Theorem C88_generated : forall rd square, ieee_double rd -> square_ok square -> forall I S i r p,
  (pow2 (-300) <= I)%Q -> (pow2 (-300) <= S)%Q -> 0 <= i < INT32_MAX -> (I + inject_Z i * S <= pow2 300)%Q ->
  layer_radius rd (Fin I) (Fin S) i = Fin r -> on_sphere r p ->
  radius_matches rd square p (i + 1) (Fin I) (Fin S) = Some true.
Proof. intros rd square NR SQ I S i r p I1 S1 Hi U Hr P. exact (generated_matches rd square NR I S i I1 S1 Hi U r p SQ Hr P). Qed.
Print Assumptions C88_generated.
(** The squared radius decides: within 0.98 % of that of slice i+1 the check accepts,
    outside 1.02 % it refuses. *)
Theorem C88_decides : forall rd square, ieee_double rd -> square_ok square -> forall I S i p x y z,
  (pow2 (-300) <= I)%Q -> (pow2 (-300) <= S)%Q -> 0 <= i < INT32_MAX -> (I + inject_Z i * S <= pow2 300)%Q ->
  located p x y z -> (pow2 (-800) <= norm2 x y z)%Q -> (norm2 x y z <= pow2 800)%Q ->
  exists b, radius_matches rd square p (i + 1) (Fin I) (Fin S) = Some b /\
    let R2 := ((I + inject_Z i * S) * (I + inject_Z i * S))%Q in
    ((9902 # 10000) * R2 <= norm2 x y z -> norm2 x y z <= (10098 # 10000) * R2 -> b = true)%Q /\
    (b = true -> (9898 # 10000) * R2 < norm2 x y z /\ norm2 x y z < (10102 # 10000) * R2)%Q.
Proof. intros rd square NR SQ I S i p x y z I1 S1 Hi U L N1 N2. exact (slice_check rd square NR I S i I1 S1 Hi U p x y z SQ L N1 N2). Qed.
Print Assumptions C88_decides.
(** Near the first slices (radius up to 24 spacings) a vertex that passes has the time
    its label says. *)
Theorem C88_sound : forall rd fsqrt square, ieee_double rd -> sqrt_ok fsqrt -> square_ok square -> forall I S i p x y z,
  (pow2 (-300) <= I)%Q -> (pow2 (-300) <= S)%Q -> (S <= pow2 300)%Q -> 0 <= i < INT32_MAX -> (I + inject_Z i * S <= pow2 300)%Q ->
  located p x y z -> (pow2 (-800) <= norm2 x y z)%Q -> (norm2 x y z <= pow2 800)%Q ->
  radius_matches rd square p (i + 1) (Fin I) (Fin S) = Some true -> (I + inject_Z i * S <= 24 * S)%Q ->
  vertex_time rd fsqrt p (Fin I) (Fin S) = Some (i + 1).
Proof. intros rd fsqrt square NR SR SQ I S i p x y z I1 S1 S2 Hi U L N1 N2. exact (matches_label rd fsqrt square NR I S i I1 S1 S2 Hi U p x y z SQ SR L N1 N2). Qed.
Print Assumptions C88_sound.
(** Further out it is too weak: from radius 250 spacings on, every vertex of slice i
    passes with label i+1; and label -1 passes on the first slice. *)
Theorem C88_late_refuted : forall rd fsqrt square, ieee_double rd -> sqrt_ok fsqrt -> square_ok square -> forall I S i p x y z,
  (pow2 (-300) <= I)%Q -> (pow2 (-300) <= S)%Q -> (S <= pow2 300)%Q -> 0 < i < INT32_MAX -> (I + inject_Z i * S <= pow2 300)%Q ->
  (250 * S <= I + inject_Z i * S)%Q -> (I + inject_Z i * S <= pow2 36 * S)%Q ->
  located p x y z -> (norm2 x y z == (I + inject_Z (i - 1) * S) * (I + inject_Z (i - 1) * S))%Q ->
  vertex_time rd fsqrt p (Fin I) (Fin S) = Some i /\ radius_matches rd square p (i + 1) (Fin I) (Fin S) = Some true.
Proof. intros rd fsqrt square NR SR SQ I S i p x y z I1 S1 S2 Hi U HS HS2 L. exact (late_labels rd fsqrt square I S i p x y z NR SR SQ I1 S1 S2 Hi U HS HS2 L). Qed.
Print Assumptions C88_late_refuted.
Theorem C88_negative_refuted : forall rd square, ieee_double rd -> square_ok square -> forall p x y z,
  located p x y z -> (norm2 x y z == 1)%Q -> radius_matches rd square p (-1) (Fin 1) (Fin 1) = Some true.
Proof. intros rd square NR SQ p x y z. exact (negative_label rd square p x y z NR SQ). Qed.
Print Assumptions C88_negative_refuted.
(** The smallest label overflows. *)
Theorem C88_smallest : forall rd square p t I S, in_int32 t -> radius_matches rd square p t I S = None <-> t = INT32_MIN.
Proof. exact smallest_label. Qed.
Print Assumptions C88_smallest.
Example C88_example : square_ok (fun x => fmul Fin x x) /\
  radius_matches Fin (fun x => fmul Fin x x) (mkPoint3 (Fin 1) (Fin (-2)) (Fin 2)) 3 (Fin 1) (Fin 1) = Some true /\
  radius_matches Fin (fun x => fmul Fin x x) (mkPoint3 (Fin 1) (Fin (-2)) (Fin 2)) 2 (Fin 1) (Fin 1) = Some false /\
  radius_matches Fin (fun x => fmul Fin x x) (mkPoint3 (Fin 300) (Fin 0) (Fin 0)) 301 (Fin 1) (Fin 1) = Some true /\
  radius_matches Fin (fun x => fmul Fin x x) (mkPoint3 (Fin 1) (Fin 0) (Fin 0)) (-1) (Fin 1) (Fin 1) = Some true.
Proof. split; [exact exact_square|]. vm_compute. repeat split. Qed.

(** ** C89: the lock grid's box *)
(** Every point is in the box; strictly, if coordinates are at most 2^52, so that the
    box is not degenerate. *)
Theorem C89_contains : forall rd, (forall p q, (p <= q)%Q -> fp_le (rd p) (rd q) = true) -> forall points,
  (forall q, In q points -> double_point rd q) -> forall q, In q points -> inside q (locking_box rd points).
Proof. intros rd MO points. exact (box_contains rd points MO). Qed.
Print Assumptions C89_contains.
Theorem C89_strict : forall rd, (forall p q, (p <= q)%Q -> fp_le (rd p) (rd q) = true) -> ieee_double rd -> forall points,
  (forall q, In q points -> exists x y z, located q x y z /\ (exact rd x /\ exact rd y /\ exact rd z) /\
     (Qabs x <= pow2 52 /\ Qabs y <= pow2 52 /\ Qabs z <= pow2 52)%Q) ->
  forall q, In q points -> strictly_inside q (locking_box rd points).
Proof. intros rd MO NR points. exact (box_strictly rd points MO NR). Qed.
Print Assumptions C89_strict.
(** In exact arithmetic it is the smallest box around the points, enlarged on every side
    by the largest of 1 and a hundredth of each edge; without points, the cube of
    half-edge 100. *)
Theorem C89_exact : forall points, points <> [] -> (forall p, In p points -> exists x y z, located p x y z) ->
  exists x1 x2 y1 y2 z1 z2 pad, bounds xc points x1 x2 /\ bounds yc points y1 y2 /\ bounds zc points z1 z2 /\
  pad = qmax (qmax (qmax 1 ((x2 - x1) * (1 # 100))) ((y2 - y1) * (1 # 100))) ((z2 - z1) * (1 # 100)) /\
  locking_box Fin points = mkBox (Fin (x1 - pad)) (Fin (y1 - pad)) (Fin (z1 - pad)) (Fin (x2 + pad)) (Fin (y2 + pad)) (Fin (z2 + pad)).
Proof. exact box_exact. Qed.
Print Assumptions C89_exact.
Theorem C89_empty : forall rd, locking_box rd [] = mkBox (fpz (-100)) (fpz (-100)) (fpz (-100)) (fpz 100) (fpz 100) (fpz 100).
Proof. reflexivity. Qed.
Print Assumptions C89_empty.
Example C89_example : double_point Fin (mkPoint3 (Fin 1) (Fin 2) (Fin (-300))) /\
  locking_box Fin [mkPoint3 (Fin 1) (Fin 2) (Fin (-300)); mkPoint3 (Fin 5) (Fin 1) (Fin 300)] =
  mkBox (Fin (-500 # 100)) (Fin (-500 # 100)) (Fin (-30600 # 100)) (Fin (1100 # 100)) (Fin (800 # 100)) (Fin (30600 # 100)).
Proof. split; [exists 1%Q, 2%Q, (-300)%Q; repeat split|vm_compute; reflexivity]. Qed.
