(** Radii, time labels and the lock grid's box, in floating point. *)
From Verif Require Import Base Config Repair ViewerScene.
From Coq Require Import QArith.
Local Open Scope Z_scope.

Section Radii.
(** Rounding to double; std::sqrt; std::pow(x, 2). *)
Context (rd : Q -> fp) (fsqrt : fp -> fp) (square : fp -> fp).

(** include/Foliated_triangulation.hpp:592-599 [squared_radius]. CGAL's
    squared_distance(p, q) of EPICK is (px-qx)^2 + (py-qy)^2 + (pz-qz)^2 in double;
    the differences with the origin are exact. *)
Definition squared_radius (p : point3) : fp :=
  fadd rd (fadd rd (fmul rd (xc p) (xc p)) (fmul rd (yc p) (yc p))) (fmul rd (zc p) (zc p)).

(** include/Foliated_triangulation.hpp:616-625 [expected_timevalue] of the vertex at
    [p] ([Repair.expected_timevalue] is the same function of the radius); 1897-1902
    is the member that passes the object's radius and spacing. *)
Definition vertex_time (p : point3) (initial spacing : fp) : option Z :=
  expected_timevalue rd (fsqrt (squared_radius p)) initial spacing.

(** include/Foliated_triangulation.hpp:1887-1892 [expected_radius] of a vertex labelled
    [t]; [None]: [timevalue - 1] overflows. *)
Definition expected_radius (t : Z) (initial spacing : fp) : option fp :=
  if (INT32_MIN <=? t - 1) then Some (fadd rd initial (fmul rd spacing (fpz (t - 1)))) else None.

(** include/Settings.hpp:52 [TOLERANCE]. *)
Definition TOLERANCE : fp := rd (1 # 100).

(** include/Foliated_triangulation.hpp:1866-1875 [does_vertex_radius_match_timevalue]. *)
Definition radius_matches (p : point3) (t : Z) (initial spacing : fp) : option bool :=
  match expected_radius t initial spacing with
  | None => None
  | Some radius =>
      let actual := squared_radius p in
      let expected := square radius in
      Some (fp_lt (fmul rd expected (fadd rd (fpz 1) (fneg TOLERANCE))) actual &&
            fp_lt actual (fmul rd expected (fadd rd (fpz 1) TOLERANCE)))
  end.

(** CGAL's Random_points_on_sphere_3 of the given radius (constructed at
    include/Foliated_triangulation.hpp:1291): [a], the value of 2 pi times a uniform
    double, is used through its cosine and sine, [z] is 2 times a uniform double
    minus 1. *)
Definition sphere_point (radius z cosine sine : fp) : point3 :=
  let r := fsqrt (fadd rd (fpz 1) (fneg (fmul rd z z))) in
  mkPoint3 (fmul rd (fmul rd radius r) cosine) (fmul rd (fmul rd radius r) sine) (fmul rd radius z).

(** ** The box of the lock grid *)
Record bbox : Type := mkBox { bxmin : fp; bymin : fp; bzmin : fp; bxmax : fp; bymax : fp; bzmax : fp }.
(** std::min and std::max. *)
Definition fmin (a b : fp) : fp := if fp_lt b a then b else a.
Definition fmax (a b : fp) : fp := if fp_lt a b then b else a.
(** CGAL: Point_3::bbox() of EPICK, Bbox_3::operator+. *)
Definition point_box (p : point3) : bbox := mkBox (xc p) (yc p) (zc p) (xc p) (yc p) (zc p).
Definition box_union (a b : bbox) : bbox :=
  mkBox (fmin (bxmin a) (bxmin b)) (fmin (bymin a) (bymin b)) (fmin (bzmin a) (bzmin b))
        (fmax (bxmax a) (bxmax b)) (fmax (bymax a) (bymax b)) (fmax (bzmax a) (bzmax b)).
(** include/Foliated_triangulation.hpp:122-130 [pad_locking_box]; std::max of a list
    keeps the first of the largest. *)
Definition pad_locking_box (b : bbox) : bbox :=
  let side lo hi := fmul rd (fadd rd hi (fneg lo)) (rd (1 # 100)) in
  let padding := fmax (fmax (fmax (fpz 1) (side (bxmin b) (bxmax b))) (side (bymin b) (bymax b))) (side (bzmin b) (bzmax b)) in
  let less x := fadd rd x (fneg padding) in
  let more x := fadd rd x padding in
  mkBox (less (bxmin b)) (less (bymin b)) (less (bzmin b)) (more (bxmax b)) (more (bymax b)) (more (bzmax b)).
(** include/Foliated_triangulation.hpp:132-136 [default_locking_box], include/Settings.hpp:55. *)
Definition default_locking_box : bbox := mkBox (fpz (-100)) (fpz (-100)) (fpz (-100)) (fpz 100) (fpz 100) (fpz 100).
(** include/Foliated_triangulation.hpp:138-150 [locking_box]; 152-170 call it with the
    points of the causal vertices or of the finite vertices. *)
Definition locking_box (points : list point3) : bbox :=
  match points with
  | nil => default_locking_box
  | cons p rest => pad_locking_box (List.fold_left (fun b q => box_union b (point_box q)) rest (point_box p))
  end.
End Radii.
