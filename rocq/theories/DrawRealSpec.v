(** Specification for random real numbers: the values of a type, and the ranges it can
    be asked for. *)
From Coq Require Import QArith_base.
From Verif Require Import Base Ieee DrawReal.
(** The values of a type: m 2^e with |m| < 2^digits, e at least
    3 - max_exponent - digits, and magnitude below 2^max_exponent. *)
Definition of_type (t : real_type) (q : Q) : Prop := floating (digits t) (max_exponent t) q.
(** Two values of the type in order, whose difference is at most a value of the type. *)
Definition real_range (t : real_type) (low high : Q) : Prop :=
  of_type t low /\ of_type t high /\ (low <= high)%Q /\ exists largest, of_type t largest /\ (high - low <= largest)%Q.
