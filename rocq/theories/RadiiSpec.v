(** Specification vocabulary for radii and labels. *)
From Verif Require Import Base Config ConfigSpec FoliationSpec ViewerScene Radii.
From Coq Require Import QArith QArith.Qabs.

(** The rational point a triple of doubles is. *)
Definition located (p : point3) (x y z : Q) : Prop := xc p = Fin x /\ yc p = Fin y /\ zc p = Fin z.
(** Its distance from the origin, squared. *)
Definition norm2 (x y z : Q) : Q := (x * x + y * y + z * z)%Q.
(** On the sphere of radius [r] up to a relative error of 2^-40. *)
Definition on_sphere (r : Q) (p : point3) : Prop :=
  exists x y z, located p x y z /\ (Qabs (norm2 x y z - r * r) <= pow2 (-40) * (r * r))%Q.

(** What is used of std::sqrt: the square of the result has relative error 2^-51 or
    absolute error 2^-900. *)
Definition sqrt_ok (fsqrt : fp -> fp) : Prop :=
  forall q, (0 <= q)%Q -> (q <= pow2 1000)%Q ->
  exists v, fsqrt (Fin q) = Fin v /\ (0 <= v)%Q /\ (Qabs (v * v - q) <= pow2 (-51) * q + pow2 (-900))%Q.
(** What is used of std::pow(x, 2): relative error 2^-50 where no underflow is near. *)
Definition square_ok (square : fp -> fp) : Prop :=
  forall q, (pow2 (-400) <= Qabs q)%Q -> (Qabs q <= pow2 400)%Q ->
  exists v, square (Fin q) = Fin v /\ (Qabs (v - q * q) <= pow2 (-50) * (q * q))%Q.

(** A point is in a box. *)
Definition inside (p : point3) (b : bbox) : Prop :=
  fp_le (bxmin b) (xc p) = true /\ fp_le (xc p) (bxmax b) = true /\
  fp_le (bymin b) (yc p) = true /\ fp_le (yc p) (bymax b) = true /\
  fp_le (bzmin b) (zc p) = true /\ fp_le (zc p) (bzmax b) = true.
Definition strictly_inside (p : point3) (b : bbox) : Prop :=
  fp_lt (bxmin b) (xc p) = true /\ fp_lt (xc p) (bxmax b) = true /\
  fp_lt (bymin b) (yc p) = true /\ fp_lt (yc p) (bymax b) = true /\
  fp_lt (bzmin b) (zc p) = true /\ fp_lt (zc p) (bzmax b) = true.
(** The coordinates are finite doubles. *)
Definition double_point (rd : Q -> fp) (p : point3) : Prop := exists x y z, located p x y z /\ exact rd x /\ exact rd y /\ exact rd z.
