(** Runtime configuration (include/Runtime_config.hpp) and generated
    population (include/Utilities.hpp:2060-2295), and the layered generator
    (include/Foliated_triangulation.hpp:1230-1304).

    Floating point: values are [fp] (Base.v). Every operation computes the
    exact rational result and rounds it once with [rd] (double) or [rl] (long
    double); the theorems quantify over every pair satisfying [fp_contract]
    (monotone, exact on 32-bit integers, a double is exactly a long double).
    The sign of zero is not represented; contraction of products and sums into
    one fused operation is not represented. *)
From Verif Require Import Base.
From Coq Require Import QArith Qround Qminmax.
Open Scope Z_scope.

(** Result of a C++ function without state: a value, an exception, or
    undefined behaviour (out-of-range float-to-int conversion, signed overflow,
    division by zero). *)
Inductive checked (A : Type) : Type := Val (a : A) | Throws (e : exn) | Undef.
Arguments Val {A} a. Arguments Throws {A} e. Arguments Undef {A}.
Definition bind {A B} (x : checked A) (f : A -> checked B) : checked B :=
  match x with Val a => f a | Throws e => Throws e | Undef => Undef end.
Notation "'let!' x ':=' e 'in' f" := (bind e (fun x => f)) (at level 200, x name, right associativity).

(** C++ operator<= on floating values. *)
Definition fp_le (x y : fp) : bool :=
  match x, y with
  | NaN, _ | _, NaN => false
  | Inf a, Inf b => a || negb b
  | Inf a, Fin _ => a
  | Fin _, Inf b => negb b
  | Fin p, Fin q => Qle_bool p q
  end.
Definition fpz (z : Z) : fp := Fin (inject_Z z).
Definition half : fp := Fin (Qmake 1 2).

Section Config.
(** Rounding to double and to long double. *)
Context (rd rl : Q -> fp).
(** CDT_ENABLE_PARALLEL_TRIANGULATION (include/Runtime_config.hpp:218-225). *)
Context (parallel_build : bool).

(** Sign of a floating value used by inf arithmetic. *)
Definition qneg (q : Q) : bool := negb (Qle_bool 0 q).
Definition qzero (q : Q) : bool := Qeq_bool q 0.
(** IEEE addition, multiplication and division followed by one rounding. *)
Definition fadd (r : Q -> fp) (x y : fp) : fp :=
  match x, y with
  | NaN, _ | _, NaN => NaN
  | Inf a, Inf b => if Bool.eqb a b then Inf a else NaN
  | Inf a, Fin _ | Fin _, Inf a => Inf a
  | Fin p, Fin q => r (p + q)%Q
  end.
Definition fmul (r : Q -> fp) (x y : fp) : fp :=
  match x, y with
  | NaN, _ | _, NaN => NaN
  | Inf a, Inf b => Inf (xorb a b)
  | Inf a, Fin q | Fin q, Inf a => if qzero q then NaN else Inf (xorb a (qneg q))
  | Fin p, Fin q => r (p * q)%Q
  end.
Definition fdiv (r : Q -> fp) (x y : fp) : fp :=
  match x, y with
  | NaN, _ | _, NaN => NaN
  | Inf _, Inf _ => NaN
  | Inf a, Fin q => Inf (xorb a (qneg q))
  | Fin _, Inf _ => Fin 0
  | Fin p, Fin q => if qzero q then (if qzero p then NaN else Inf (qneg p)) else r (p / q)%Q
  end.

(** static_cast<Int_precision>(x) of a floating value: truncation toward zero,
    undefined when it does not fit ([conv.fpint]). *)
Definition Qtrunc (q : Q) : Z := if Qle_bool 0 q then Qfloor q else Qceiling q.
Definition to_int32 (x : fp) : checked Z :=
  match x with
  | Fin q => if in_int32b (Qtrunc q) then Val (Qtrunc q) else Undef
  | _ => Undef
  end.
Definition INT_MAX_L : fp := fpz INT32_MAX.

(** include/Runtime_config.hpp:182-192. *)
Definition checked_finite (x : fp) : checked fp :=
  if isfinite x then Val x else Throws InvalidArgument.

(** include/Runtime_config.hpp:194-204. *)
Definition checked_int (v : Z) : checked Z :=
  if in_int32b v then Val v else Throws OutOfRange.

(** include/Runtime_config.hpp:206-228. *)
Definition checked_threads (v : Z) : checked Z :=
  if v <=? 0 then Throws InvalidArgument
  else if negb ((0 <=? v) && (v <? two64)) then Throws OutOfRange
  else if negb parallel_build && negb (v =? 1) then Throws InvalidArgument
  else Val v.

(** include/Utilities.hpp:71-75 and include/Runtime_config.hpp:230-244. *)
Inductive topology := TOROIDAL | SPHERICAL.
Definition select_topology (spherical toroidal : bool) : checked topology :=
  if Bool.eqb spherical toroidal then Throws InvalidArgument
  else if toroidal then Throws InvalidArgument
  else Val SPHERICAL.

(** The guard shared by include/Utilities.hpp:2080-2090 and 2182-2193. *)
Definition bad_radii (radius spacing : fp) : bool :=
  negb (isfinite radius) || fp_le radius (fpz 0) || negb (isfinite spacing) || fp_le spacing (fpz 0).

(** Layer radius, computed in double: include/Utilities.hpp:2095-2096 and
    include/Foliated_triangulation.hpp:1276-1277. *)
Definition layer_radius (radius spacing : fp) (layer : Z) : fp :=
  fadd rd radius (fmul rd (fpz layer) spacing).
(** include/Utilities.hpp:2097-2098, in long double. *)
Definition layer_points (p : Z) (radius spacing : fp) (layer : Z) : fp :=
  fmul rl (fpz p) (layer_radius radius spacing layer).

(** The loop of include/Utilities.hpp:2093-2114: [fuel] layers remain, the next
    one is [layer]. *)
Fixpoint count_layers (p : Z) (radius spacing : fp) (fuel : nat) (layer total : Z) : checked Z :=
  match fuel with
  | O => Val total
  | S k =>
      let lp := layer_points p radius spacing layer in
      if negb (isfinite lp) || fp_lt lp (fpz 0) || fp_lt INT_MAX_L lp then Throws OutOfRange
      else
        let! n := to_int32 lp in
        let narrowed := wrap64 n in
        if (two64 - 1) - total <? narrowed then Throws OutOfRange
        else count_layers p radius spacing k (layer + 1) (wrap64 (total + narrowed))
  end.

(** include/Utilities.hpp:2075-2116. *)
Definition generated_input_vertex_count (p t : Z) (radius spacing : fp) : checked Z :=
  if (p <=? 0) || (t <=? 0) then Throws InvalidArgument
  else if bad_radii radius spacing then Throws InvalidArgument
  else count_layers p radius spacing (Z.to_nat t) 0 0.

(** include/Utilities.hpp:2126-2143, on uint64_t. *)
Definition delaunay_tetrahedron_upper_bound (vertices : Z) : option Z :=
  if vertices <? 4 then Some 0
  else
    let first := vertices in
    let second := wrap64 (vertices - 3) in
    let '(first, second) :=
      if first mod 2 =? 0 then (first / 2, second) else (first, second / 2) in
    if negb (second =? 0) && ((two64 - 1) / second <? first) then None
    else Some (wrap64 (wrap64 (first * second) - 1)).

(** Unsigned 64-bit division; division by zero is undefined. *)
Definition udiv64 (a b : Z) : checked Z := if b =? 0 then Undef else Val (a / b).

(** The lambda at include/Utilities.hpp:2222-2227. *)
Definition scaled_floor (timeslices bounded numerator denominator : Z) : checked Z :=
  udiv64 (wrap64 (bounded * numerator)) (wrap64 (timeslices * denominator)).

(** include/Utilities.hpp:2166-2245. *)
Definition expected_points_per_timeslice (dim s t : Z) (radius spacing : fp) : checked Z :=
  if negb (dim =? 3) then Throws InvalidArgument
  else if (s <=? 0) || (t <=? 0) then Throws InvalidArgument
  else if bad_radii radius spacing then Throws InvalidArgument
  else
    let minimum := if s <=? t then 2 else 8 in
    let last_radius := fadd rl radius (fmul rl (fpz (t - 1)) spacing) in
    if negb (isfinite last_radius) then Throws OutOfRange
    else
      let maximum_by_radius := fdiv rl INT_MAX_L last_radius in
      let! maximum := if fp_le INT_MAX_L maximum_by_radius then Val INT32_MAX
                      else to_int32 maximum_by_radius in
      if maximum <? minimum then Throws OutOfRange
      else
        let! e1 := scaled_floor t (Z.min s 1000) 2 5 in
        let! e2 := scaled_floor t (Z.min s 10000) 1 5 in
        let! e3 := scaled_floor t (Z.min s 100000) 3 20 in
        let! e4 := scaled_floor t s 1 10 in
        let envelope := Z.max (Z.max e1 e2) (Z.max e3 e4) in
        let margin := wrap64 (wrap64 (5 * envelope) + 3) / 4 in
        let estimated := Z.max minimum margin in
        if maximum <? estimated then Throws OutOfRange
        else
          let! _n := generated_input_vertex_count estimated t radius spacing in
          Val estimated.

(** include/Utilities.hpp:2248-2258. *)
Record population_bounds := PB {
  points_per_timeslice : Z;
  last_layer_points : fp;
  input_vertices : Z;
  tetrahedra_upper_bound : option Z }.

(** include/Utilities.hpp:2272-2293. *)
Definition generated_population_bounds (dim s t : Z) (radius spacing : fp) : checked population_bounds :=
  let! p := expected_points_per_timeslice dim s t radius spacing in
  let last_radius := fadd rl radius (fmul rl (fpz (t - 1)) spacing) in
  let! n := generated_input_vertex_count p t radius spacing in
  Val (PB p (fmul rl (fpz p) last_radius) n (delaunay_tetrahedron_upper_bound n)).

(** include/Runtime_config.hpp:248-281. *)
Definition make_generated_population (s t : Z) (radius spacing : fp) : checked population_bounds :=
  let! b := generated_population_bounds 3 s t radius spacing in
  if points_per_timeslice b <? 2 then Throws InvalidArgument
  else if fp_lt (fmul rl (fpz (points_per_timeslice b)) radius) (fpz 2) then Throws InvalidArgument
  else if negb (isfinite (last_layer_points b)) || fp_lt INT_MAX_L (last_layer_points b) then Throws OutOfRange
  else Val b.

(** include/Runtime_config.hpp:28-103: the validated value (private
    constructor, getters only). *)
Record Triangulation := MkTriangulation {
  tr_topology : topology;
  tr_simplices : Z;
  tr_timeslices : Z;
  tr_dimensions : Z;
  tr_initial_radius : fp;
  tr_foliation_spacing : fp;
  tr_seed : Z;
  tr_threads : Z }.

(** include/Runtime_config.hpp:303-353. *)
Definition make_triangulation (spherical toroidal : bool) (simplices timeslices dimensions : Z)
    (radius spacing : fp) (seed threads : Z) : checked Triangulation :=
  let! top := select_topology spherical toroidal in
  let! s := checked_int simplices in
  let! t := checked_int timeslices in
  let! d := checked_int dimensions in
  if negb (d =? 3) then Throws InvalidArgument
  else if (s <? 2) || (t <? 2) then Throws InvalidArgument
  else
    let! r := checked_finite radius in
    let! sp := checked_finite spacing in
    if fp_le r (fpz 0) then Throws InvalidArgument
    else if fp_le sp (fpz 0) then Throws InvalidArgument
    else
      let! _pop := make_generated_population s t r sp in
      let! th := checked_threads threads in
      Val (MkTriangulation top s t d r sp seed th).

(** include/Runtime_config.hpp:108-180. *)
Record Simulation := MkSimulation {
  sim_triangulation : Triangulation;
  sim_alpha : fp;
  sim_k : fp;
  sim_lambda : fp;
  sim_passes : Z;
  sim_checkpoint : Z;
  sim_write_files : bool }.

(** include/Runtime_config.hpp:369-397. *)
Definition make_simulation (tr : Triangulation) (alpha k lambda : fp) (passes checkpoint : Z)
    (write_files : bool) : checked Simulation :=
  let! a := checked_finite alpha in
  let! k' := checked_finite k in
  let! l := checked_finite lambda in
  if fp_le a half then Throws DomainError
  else
    let! p := checked_int passes in
    let! c := checked_int checkpoint in
    if p <=? 0 then Throws InvalidArgument
    else if c <=? 0 then Throws InvalidArgument
    else Val (MkSimulation tr a k' l p c write_files).

(** include/Foliated_triangulation.hpp:1274-1298: the layer loop of the
    generator. [pt i j] is the j-th point drawn for layer i (CGAL's sphere
    generator, not modelled). Each point is stored with time i + 1. *)
Fixpoint ball_layers {point : Type} (pt : Z -> nat -> point) (p : Z) (radius spacing : fp)
    (fuel : nat) (layer : Z) (acc : list (point * Z)) : checked (list (point * Z)) :=
  match fuel with
  | O => Val acc
  | S k =>
      let lr := layer_radius radius spacing layer in
      let lp := layer_points p radius spacing layer in
      if negb (isfinite lr) || fp_lt lp (fpz 2) then Throws InvalidArgument
      else if fp_lt INT_MAX_L lp then Throws OutOfRange
      else
        let! n := to_int32 lp in
        ball_layers pt p radius spacing k (layer + 1)
          (acc ++ map (fun j => (pt layer j, layer + 1)) (seq 0 (Z.to_nat n)))
  end.

(** include/Foliated_triangulation.hpp:1230-1304 for dimension 3. The seeding
    of CGAL's generator (1272-1273) is absorbed in [pt]. *)
Definition make_foliated_ball {point : Type} (pt : Z -> nat -> point) (s t : Z) (radius spacing : fp)
    : checked (list (point * Z)) :=
  if (s <? 2) || (t <? 2) then Throws InvalidArgument
  else if negb (isfinite radius) || fp_le radius (fpz 0) then Throws InvalidArgument
  else if negb (isfinite spacing) || fp_le spacing (fpz 0) then Throws InvalidArgument
  else
    let! b := generated_population_bounds 3 s t radius spacing in
    if points_per_timeslice b <? 2 then Throws InvalidArgument
    else if negb (isfinite (last_layer_points b)) || fp_lt INT_MAX_L (last_layer_points b) then Throws OutOfRange
    else
      let! l := ball_layers pt (points_per_timeslice b) radius spacing (Z.to_nat t) 0 [] in
      if (length l <? 4)%nat then Throws InvalidArgument else Val l.

End Config.
