(** Specification vocabulary for the configuration theorems (C50-C53, C62),
    and the contract on floating-point rounding. Nothing here refers to the
    modelled functions of Config.v except the IEEE operations [fadd], [fmul],
    [fdiv] and the order [fp_le]. *)
From Verif Require Import Base Config.
From Coq Require Import QArith Qround Qminmax.
Open Scope Z_scope.

(** Rounding [r] represents [q] exactly. *)
Definition exact (r : Q -> fp) (q : Q) : Prop :=
  match r q with Fin q' => (q' == q)%Q | _ => False end.

(** What is assumed of a rounding: IEEE round-to-nearest double and x87 or
    binary128 long double satisfy it. *)
Record fp_contract (rd rl : Q -> fp) : Prop := {
  rd_mono : forall p q, (p <= q)%Q -> fp_le (rd p) (rd q) = true;
  rl_mono : forall p q, (p <= q)%Q -> fp_le (rl p) (rl q) = true;
  rd_int : forall z, in_int32 z -> exact rd (inject_Z z);
  rl_int : forall z, in_int32 z -> exact rl (inject_Z z);
  double_is_long_double : forall q, exact rd q -> exact rl q
}.

(** A value of C++ type double. *)
Definition is_double (rd : Q -> fp) (x : fp) : Prop :=
  match x with Fin q => exact rd q | _ => True end.

Definition fp_positive (x : fp) : Prop := fp_le x (fpz 0) = false.
Definition fp_finite (x : fp) : Prop := exists q, x = Fin q.

(** An ordered list of requirements, each with the exception raised when it is
    the first one violated. *)
Definition requirements := list (Prop * exn).
Definition all_hold (l : requirements) : Prop := forall c e, In (c, e) l -> c.
Inductive first_failed : requirements -> exn -> Prop :=
| failed_here (c : Prop) e l : ~ c -> first_failed ((c, e) :: l) e
| failed_later (c : Prop) e e' l : c -> first_failed l e' -> first_failed ((c, e) :: l) e'.

(** The documented estimate: the upper envelope of the historical schedules
    with a 25% margin (rounded up), and at least 8 points (2 when no more
    simplices than slices are requested). *)
Definition schedule_envelope (s t : Z) : Z :=
  Z.max (Z.max (2 * Z.min s 1000 / (5 * t)) (Z.min s 10000 / (5 * t)))
        (Z.max (3 * Z.min s 100000 / (20 * t)) (s / (10 * t))).
Definition ceil_div (a b : Z) : Z := - ((- a) / b).
Definition minimum_population (s t : Z) : Z := if s <=? t then 2 else 8.
Definition population (s t : Z) : Z :=
  Z.max (minimum_population s t) (ceil_div (5 * schedule_envelope s t) 4).

Section Spec.
Context (rd rl : Q -> fp).

(** Radius of the last layer, in long double. *)
Definition outer_radius (t : Z) (radius spacing : fp) : fp :=
  fadd rl radius (fmul rl (fpz (t - 1)) spacing).
(** Points requested on layer i: p times the (double) layer radius. *)
Definition points_on (p i : Z) (radius spacing : fp) : fp :=
  fmul rl (fpz p) (fadd rd radius (fmul rd (fpz i) spacing)).
(** [x] is at most the largest 32-bit integer. *)
Definition fits_int (x : fp) : Prop := fp_le x (fpz INT32_MAX) = true.
(** [p] does not exceed INT_MAX / outer radius, computed in long double. *)
Definition within_capacity (p t : Z) (radius spacing : fp) : Prop :=
  fp_le (fpz p) (fdiv rl (fpz INT32_MAX) (outer_radius t radius spacing)) = true.

Definition layers_fit (p t : Z) (radius spacing : fp) : Prop :=
  forall i, 0 <= i < t -> fits_int (points_on p i radius spacing).

Definition triangulation_requirements (parallel spherical toroidal : bool) (s t d : Z)
    (radius spacing : fp) (threads : Z) : requirements :=
  let p := population s t in
  [ (spherical <> toroidal, InvalidArgument);
    (toroidal = false, InvalidArgument);
    (in_int32 s, OutOfRange);
    (in_int32 t, OutOfRange);
    (in_int32 d, OutOfRange);
    (d = 3, InvalidArgument);
    (2 <= s /\ 2 <= t, InvalidArgument);
    (fp_finite radius, InvalidArgument);
    (fp_finite spacing, InvalidArgument);
    (fp_positive radius, InvalidArgument);
    (fp_positive spacing, InvalidArgument);
    (fp_finite (outer_radius t radius spacing), OutOfRange);
    (within_capacity p t radius spacing, OutOfRange);
    (layers_fit p t radius spacing, OutOfRange);
    (fp_le (fpz 2) (fmul rl (fpz p) radius) = true, InvalidArgument);
    (fits_int (fmul rl (fpz p) (outer_radius t radius spacing)), OutOfRange);
    (0 < threads, InvalidArgument);
    (threads < two64, OutOfRange);
    (parallel = true \/ threads = 1, InvalidArgument) ].

Definition simulation_requirements (alpha k lambda : fp) (passes checkpoint : Z) : requirements :=
  [ (fp_finite alpha, InvalidArgument);
    (fp_finite k, InvalidArgument);
    (fp_finite lambda, InvalidArgument);
    (fp_lt (Fin (1 # 2)) alpha = true, DomainError);
    (in_int32 passes, OutOfRange);
    (in_int32 checkpoint, OutOfRange);
    (0 < passes, InvalidArgument);
    (0 < checkpoint, InvalidArgument) ].
End Spec.

(** The number of points of a layer: floor of p times the radius. *)
Definition floor_of (x : fp) : Z := match x with Fin q => Qfloor q | _ => 0 end.
(** Times of the generated points: layer i holds [count i] points of time i+1,
    layers in increasing order. *)
Definition ball_times (t : Z) (count : Z -> Z) : list Z :=
  concat (map (fun i => repeat (Z.of_nat i + 1) (Z.to_nat (count (Z.of_nat i)))) (seq 0 (Z.to_nat t))).
