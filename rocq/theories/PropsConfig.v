(** Theorems about the runtime configuration and the generated population
    (C50-C53, C62). [rd], [rl] range over every pair of roundings (double, long
    double) satisfying [fp_contract] (ConfigSpec.v); [par] is the build flag. *)
From Verif Require Import Base Config ConfigSpec ConfigFacts ConfigProps.
From Coq Require Import QArith.
Open Scope Z_scope.

(** ** C50 *)
Theorem C50_accepted_iff_valid : forall rd rl, fp_contract rd rl ->
  forall par spherical toroidal s t d radius spacing seed threads,
  is_double rd radius -> is_double rd spacing ->
  (forall x, make_triangulation rd rl par spherical toroidal s t d radius spacing seed threads = Val x <->
     all_hold (triangulation_requirements rd rl par spherical toroidal s t d radius spacing threads) /\
     x = MkTriangulation SPHERICAL s t d radius spacing seed threads) /\
  (forall e, make_triangulation rd rl par spherical toroidal s t d radius spacing seed threads = Throws e <->
     first_failed (triangulation_requirements rd rl par spherical toroidal s t d radius spacing threads) e) /\
  make_triangulation rd rl par spherical toroidal s t d radius spacing seed threads <> Undef.
Proof. exact (fun rd rl C par sph tor s t d r sp seed th Dr Ds => verdict_spec _ _ _ (make_triangulation_verdict rd rl C par sph tor s t d r sp seed th Dr Ds)). Qed.
Print Assumptions C50_accepted_iff_valid.

(** In exact arithmetic: the last layer must hold at most INT_MAX points and
    the first at least two. *)
Theorem C50_exact_arithmetic : forall par spherical toroidal s t d radius spacing seed threads tr,
  make_triangulation Fin Fin par spherical toroidal s t d radius spacing seed threads = Val tr <->
  tr = MkTriangulation SPHERICAL s t d radius spacing seed threads /\
  spherical = true /\ toroidal = false /\ 2 <= s <= INT32_MAX /\ 2 <= t <= INT32_MAX /\ d = 3 /\
  (exists a b, radius = Fin a /\ spacing = Fin b /\ (0 < a)%Q /\ (0 < b)%Q /\
    (inject_Z (population s t) * (a + inject_Z (t - 1) * b) <= inject_Z INT32_MAX)%Q /\
    (2 <= inject_Z (population s t) * a)%Q) /\
  1 <= threads < two64 /\ (par = true \/ threads = 1).
Proof. exact accept_exact. Qed.
Print Assumptions C50_exact_arithmetic.

Example C50_contract_met : fp_contract Fin Fin /\ fp_contract saturating saturating.
Proof. exact (conj contract_exact contract_saturating). Qed.
Example C50_accepts : exists tr,
  make_triangulation saturating saturating false true false 640 4 3 (Fin 1) (Fin 1) 92 1 = Val tr /\
  tr_simplices tr = 640 /\ population 640 4 = 80.
Proof. eexists. split; [vm_compute; reflexivity|split; vm_compute; reflexivity]. Qed.
Example C50_rejects :
  make_triangulation saturating saturating false true true 640 4 3 (Fin 1) (Fin 1) 92 1 = Throws InvalidArgument /\
  make_triangulation saturating saturating false true false 2147483648 4 3 (Fin 1) NaN 92 0 = Throws OutOfRange /\
  make_triangulation saturating saturating false true false 640 4 4 (Fin 1) (Fin 1) 92 1 = Throws InvalidArgument /\
  make_triangulation saturating saturating false true false 640 4 3 (Fin 1) (Fin (inject_Z (10 ^ 9))) 92 1 = Throws OutOfRange /\
  make_triangulation saturating saturating false true false 640 4 3 (Fin (1 # 100)) (Fin 1) 92 1 = Throws InvalidArgument /\
  make_triangulation saturating saturating false true false 640 4 3 (Fin 1) (Fin 1) 92 2 = Throws InvalidArgument /\
  make_triangulation saturating saturating true true false 640 4 3 (Fin 1) (Fin 1) 92 2 <> Throws InvalidArgument.
Proof. repeat split; try (vm_compute; reflexivity). vm_compute. discriminate. Qed.

(** ** C51 *)
Theorem C51_accepted_iff_valid : forall tr alpha k lambda passes checkpoint w,
  (forall x, make_simulation tr alpha k lambda passes checkpoint w = Val x <->
     all_hold (simulation_requirements alpha k lambda passes checkpoint) /\
     x = MkSimulation tr alpha k lambda passes checkpoint w) /\
  (forall e, make_simulation tr alpha k lambda passes checkpoint w = Throws e <->
     first_failed (simulation_requirements alpha k lambda passes checkpoint) e) /\
  make_simulation tr alpha k lambda passes checkpoint w <> Undef.
Proof. exact (fun tr a k l p c w => verdict_spec _ _ _ (make_simulation_verdict tr a k l p c w)). Qed.
Print Assumptions C51_accepted_iff_valid.
Example C51_examples : forall tr,
  make_simulation tr (Fin (6 # 10)) (Fin (11 # 10)) (Fin (1 # 10)) 10 5 true =
    Val (MkSimulation tr (Fin (6 # 10)) (Fin (11 # 10)) (Fin (1 # 10)) 10 5 true) /\
  make_simulation tr (Fin (1 # 2)) (Fin 1) (Fin 1) 0 5 true = Throws DomainError /\
  make_simulation tr (Fin (1 # 2)) NaN (Fin 1) 0 5 true = Throws InvalidArgument /\
  make_simulation tr (Fin 1) (Fin 1) (Fin 1) 0 2147483648 true = Throws OutOfRange /\
  make_simulation tr (Fin 1) (Fin 1) (Fin 1) 0 5 true = Throws InvalidArgument.
Proof. repeat split. Qed.

(** ** C52 *)
Theorem C52_exact : forall n, 0 <= n < two64 ->
  (n < 4 -> delaunay_tetrahedron_upper_bound n = Some 0) /\
  (4 <= n -> n * (n - 3) / 2 - 1 < two64 -> delaunay_tetrahedron_upper_bound n = Some (n * (n - 3) / 2 - 1)) /\
  (4 <= n -> two64 <= n * (n - 3) / 2 - 1 -> delaunay_tetrahedron_upper_bound n = None).
Proof. exact tetra_bound. Qed.
Print Assumptions C52_exact.
Example C52_examples : delaunay_tetrahedron_upper_bound 4 = Some 1 /\ delaunay_tetrahedron_upper_bound 7 = Some 13 /\
  delaunay_tetrahedron_upper_bound 6074001001 = Some 18446744070963499498 /\
  delaunay_tetrahedron_upper_bound 6074001002 = None /\ delaunay_tetrahedron_upper_bound (two64 - 1) = None.
Proof. vm_compute. auto. Qed.

(** ** C53 *)
Theorem C53_value : forall rd rl, fp_contract rd rl -> forall dim s t radius spacing p,
  in_int32 s -> in_int32 t -> is_double rd radius -> is_double rd spacing ->
  expected_points_per_timeslice rd rl dim s t radius spacing = Val p <->
  dim = 3 /\ 0 < s /\ 0 < t /\ fp_finite radius /\ fp_positive radius /\ fp_finite spacing /\ fp_positive spacing /\
  p = population s t /\ fp_finite (outer_radius rl t radius spacing) /\ within_capacity rl p t radius spacing /\
  layers_fit rd rl p t radius spacing.
Proof. exact estimate_iff. Qed.
Print Assumptions C53_value.

Theorem C53_monotone : forall rd rl, fp_contract rd rl -> forall s s' t radius spacing p p',
  in_int32 s -> in_int32 s' -> in_int32 t -> is_double rd radius -> is_double rd spacing -> s <= s' ->
  expected_points_per_timeslice rd rl 3 s t radius spacing = Val p ->
  expected_points_per_timeslice rd rl 3 s' t radius spacing = Val p' -> p <= p'.
Proof. exact estimate_monotone. Qed.
Print Assumptions C53_monotone.

Theorem C53_fewer_simplices_accepted : forall rd rl, fp_contract rd rl -> forall s s' t radius spacing p',
  in_int32 s -> in_int32 s' -> in_int32 t -> is_double rd radius -> is_double rd spacing -> 0 < s <= s' ->
  expected_points_per_timeslice rd rl 3 s' t radius spacing = Val p' ->
  exists p, expected_points_per_timeslice rd rl 3 s t radius spacing = Val p /\ p <= p'.
Proof. exact estimate_downward. Qed.
Print Assumptions C53_fewer_simplices_accepted.

Theorem C53_within_limits : forall rd rl, fp_contract rd rl -> forall s t radius spacing p,
  in_int32 s -> in_int32 t -> is_double rd radius -> is_double rd spacing ->
  expected_points_per_timeslice rd rl 3 s t radius spacing = Val p ->
  (if s <=? t then 2 else 8) <= p <= INT32_MAX /\ within_capacity rl p t radius spacing.
Proof. exact estimate_within. Qed.
Print Assumptions C53_within_limits.

Theorem C53_no_overflow : forall rd rl, fp_contract rd rl -> forall dim s t radius spacing,
  in_int32 s -> in_int32 t -> is_double rd radius -> is_double rd spacing ->
  (exists p, expected_points_per_timeslice rd rl dim s t radius spacing = Val p) \/
  expected_points_per_timeslice rd rl dim s t radius spacing = Throws InvalidArgument \/
  expected_points_per_timeslice rd rl dim s t radius spacing = Throws OutOfRange.
Proof. exact estimate_no_undef. Qed.
Print Assumptions C53_no_overflow.

Example C53_examples :
  expected_points_per_timeslice saturating saturating 3 999 4 (Fin 1) (Fin 1) = Val 124 /\
  expected_points_per_timeslice saturating saturating 3 1000 4 (Fin 1) (Fin 1) = Val 125 /\
  expected_points_per_timeslice saturating saturating 3 6700 16 (Fin 1) (Fin 1) = Val 104 /\
  expected_points_per_timeslice saturating saturating 3 2147483647 2 (Fin 1) (Fin 1) = Val 134217728 /\
  expected_points_per_timeslice saturating saturating 3 2147483647 2 (Fin 1) (Fin 100) = Throws OutOfRange.
Proof. repeat split; vm_compute; reflexivity. Qed.

(** ** C62 *)
Theorem C62_accepted_configuration_populates : forall rd rl, fp_contract rd rl ->
  forall par point (pt : Z -> nat -> point) spherical toroidal s t d radius spacing seed threads tr,
  is_double rd radius -> is_double rd spacing ->
  make_triangulation rd rl par spherical toroidal s t d radius spacing seed threads = Val tr ->
  exists l, make_foliated_ball rd rl pt s t radius spacing = Val l /\
    map snd l = ball_times t (fun i => floor_of (points_on rd rl (population s t) i radius spacing)) /\
    (forall i, 0 <= i < t -> 2 <= floor_of (points_on rd rl (population s t) i radius spacing)) /\
    generated_input_vertex_count rd rl (population s t) t radius spacing = Val (Z.of_nat (length l)).
Proof. exact (fun rd rl C par point pt => accepted_populates rd rl C par pt). Qed.
Print Assumptions C62_accepted_configuration_populates.
Example C62_example : exists l,
  make_foliated_ball saturating saturating (fun i j => (i, j)) 20 3 (Fin 1) (Fin (1 # 2)) = Val l /\
  map snd l = repeat 1 8 ++ repeat 2 12 ++ repeat 3 16.
Proof. eexists. split; vm_compute; reflexivity. Qed.
