(** Random real numbers: [generate_random_real] on a [cdt::Random], with the real
    distribution of GNU libstdc++ 13 on a target without contraction of a product and
    a sum into one operation (x86-64 without FMA). *)
From Coq Require Import QArith_base.
From Verif Require Import Base Config Run Pcg Draw Ieee.
Local Open Scope Z_scope.

(** The floating-point types a caller may ask for: std::numeric_limits<T>::digits and
    max_exponent of float, double and the x87 long double. *)
Inductive real_type : Type := Float32 | Float64 | Float80.
Definition digits (t : real_type) : Z := match t with Float32 => 24 | Float64 => 53 | Float80 => 64 end.
Definition max_exponent (t : real_type) : Z := match t with Float32 => 128 | Float64 => 1024 | Float80 => 16384 end.
(** The result of an operation of the type whose exact value is [q]. *)
Definition rounded (t : real_type) (q : Q) : fp := ieee (digits t) (max_exponent t) q.

(** random.tcc:3349-3381 [generate_canonical<T, digits>]: 3357 r = 2^64, and T has at
    most 64 digits, so one word (3360); 3367 the word converted to T (the product with
    1 and the sum with 0 are exact); 3370 the quotient; 3371-3379 a quotient of 1 is
    replaced by the value of T below 1. *)
Definition canonical (t : real_type) (w : Z) : fp :=
  match rounded t (inject_Z w) with
  | Fin s =>
      match rounded t (s / inject_Z two64)%Q with
      | Fin c => if Qle_bool 1 c then Fin (1 - Qmake 1 (Z.to_pos (2 ^ digits t)))%Q else Fin c
      | x => x
      end
  | x => x
  end.
(** random.h:1904-1910: (canonical * (b - a)) + a, each operation rounded. A difference
    that is not finite is outside the domain of the distribution ([rand.dist.uni.real]
    asks for b - a at most the largest value). *)
Definition scale (t : real_type) (c a b : Q) : option fp :=
  match rounded t (b - a)%Q with
  | Fin d => match rounded t (c * d)%Q with Fin p => Some (rounded t (p + a)%Q) | x => Some x end
  | _ => None
  end.
(** include/Utilities.hpp:1983-1991, 2036-2045 [generate_random_real]: a range with its
    ends in the wrong order is outside the domain (random.h:1799). *)
Definition generate_random_real (t : real_type) (g : Random pcg64) (low high : Q) : drawn fp :=
  if Qle_bool low high then
    let '(w, g') := random_next g in
    match canonical t w with
    | Fin c => match scale t c low high with Some r => Drawn r g' | None => OutOfDomain end
    | x => Drawn x g'
    end
  else OutOfDomain.
