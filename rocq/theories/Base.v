(** Base vocabulary of the model: C++ outcomes, 32-bit integers. *)
From Coq Require Export ZArith List Bool Lia.
From Coq Require QArith_base.
From stdpp Require Export base list numbers option.
Global Open Scope Z_scope.
Export ListNotations.

(** Exceptions thrown by the modelled code.  Std exception classes named in
    include/Metropolis.hpp, include/Move_run.hpp, include/Utilities.hpp,
    include/Runtime_config.hpp and include/S3Action.hpp; [ForeignException]
    stands for anything escaping from a dependency (bad_alloc, CGAL, fmt). *)
Inductive exn : Type :=
| InvalidArgument
| DomainError
| LogicError
| OutOfRange
| LengthError
| RuntimeError
| FilesystemError
| ForeignException (n : Z).

(** The result of running a C++ operation on a state [S]: it returns, it throws
    (the state at the throw is kept: the members of the object that was being
    mutated), it has undefined behaviour (signed overflow), or it terminates
    the process (gsl::at contract violation). *)
Inductive res (S A : Type) : Type :=
| Ret (s : S) (a : A)
| Thr (s : S) (e : exn)
| UB
| Abort.
Arguments Ret {S A} s a.
Arguments Thr {S A} s e.
Arguments UB {S A}.
Arguments Abort {S A}.

(** include/Settings.hpp:30 [using Int_precision = std::int32_t]. *)
Definition INT32_MAX : Z := 2147483647.
Definition INT32_MIN : Z := -2147483648.
Definition in_int32 (z : Z) : Prop := INT32_MIN <= z <= INT32_MAX.
Definition in_int32b (z : Z) : bool := (INT32_MIN <=? z) && (z <=? INT32_MAX).

Lemma in_int32b_spec z : in_int32b z = true <-> in_int32 z.
Proof. unfold in_int32b, in_int32. rewrite andb_true_iff, !Z.leb_le. tauto. Qed.

Lemma in_int32b_false z : in_int32b z = false <-> ~ in_int32 z.
Proof. rewrite <- in_int32b_spec. destruct (in_int32b z); intuition congruence. Qed.

(** Signed 32-bit addition; [None] is undefined behaviour (C++ [expr.pre]). *)
Definition add32 (a b : Z) : option Z :=
  if in_int32b (a + b) then Some (a + b) else None.

(** std::uint64_t arithmetic wraps. *)
Definition two64 : Z := 18446744073709551616.
Definition wrap64 (z : Z) : Z := z mod two64.

Lemma add32_Some a b c : add32 a b = Some c <-> c = a + b /\ in_int32 (a + b).
Proof.
  unfold add32. destruct (in_int32b (a + b)) eqn:E.
  - apply in_int32b_spec in E. intuition congruence.
  - apply in_int32b_false in E. intuition congruence.
Qed.

Lemma add32_None a b : add32 a b = None <-> ~ in_int32 (a + b).
Proof.
  unfold add32. destruct (in_int32b (a + b)) eqn:E.
  - apply in_int32b_spec in E. intuition congruence.
  - apply in_int32b_false in E. intuition congruence.
Qed.

(** Floating-point values (double, long double) as far as the modelled code can
    distinguish them: NaN, infinities, and finite values (dyadic rationals, all
    rationals allowed here). The sign of zero is not represented. *)
Inductive fp : Type := NaN | Inf (neg : bool) | Fin (q : QArith_base.Q).
Definition isfinite (x : fp) : bool := match x with Fin _ => true | _ => false end.
(** C++ operator< on floating values: false when an operand is NaN. *)
Definition fp_lt (x y : fp) : bool :=
  match x, y with
  | NaN, _ | _, NaN => false
  | Inf a, Inf b => a && negb b
  | Inf a, Fin _ => a
  | Fin _, Inf b => negb b
  | Fin p, Fin q => negb (QArith_base.Qle_bool q p)
  end.
