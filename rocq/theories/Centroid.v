(** The place of the vertex a (2,6) move inserts, in floating point. *)
From Verif Require Import Base Config ViewerScene Radii.
From Coq Require Import QArith.

Section Centroid.
Context (rd : Q -> fp).
(** include/Ergodic_moves_3.hpp:1015-1018: CGAL::centroid(p, q, r) of EPICK, which
    adds the coordinates of the three points from left to right and divides by 3.
    The program sorts the points first. *)
Definition third (a b c : fp) : fp := fdiv rd (fadd rd (fadd rd a b) c) (fpz 3).
Definition centroid (p q r : point3) : point3 :=
  mkPoint3 (third (xc p) (xc q) (xc r)) (third (yc p) (yc q) (yc r)) (third (zc p) (zc q) (zc r)).
End Centroid.
