(** Random choices drawn from a [cdt::Random]: the repository's helpers and the
    distributions they use. The distributions are those of GNU libstdc++ 13
    (<bits/uniform_int_dist.h>, <bits/random.tcc>, <bits/stl_algo.h>), the standard
    library of the supported Linux builds; other standard libraries may draw
    differently. *)
From Coq Require Import QArith_base.
From Verif Require Import Base Tracker Run Pcg Manifold.
Local Open Scope Z_scope.

Definition two64 : Z := 2 ^ 64.

(** A drawing call returns a value, or runs past 2^128 words without returning, or
    has parameters outside the domain of the distribution. *)
Inductive drawn (A : Type) : Type :=
| Drawn (v : A) (g : Random pcg64)
| Endless
| OutOfDomain.
Arguments Drawn {A}.
Arguments Endless {A}.
Arguments OutOfDomain {A}.

(** A loop, followed for at most 2^d iterations: [inl] means "go on from here". *)
Fixpoint loop {S B : Type} (d : nat) (step : S -> S + B) (x : S) : S + B :=
  match d with
  | O => step x
  | Datatypes.S d' => match loop d' step x with inl y => loop d' step y | inr b => inr b end
  end.

(** uniform_int_dist.h:254-281 [_S_nd<unsigned __int128>(g, range)] on 64-bit words:
    272 -range % range; 273-277 the loop; 279 the result. *)
Definition nd_threshold (range : Z) : Z := ((- range) mod two64) mod range.
Definition nd_again (range : Z) (g : Random pcg64) : Random pcg64 + Z * Random pcg64 :=
  let '(w, g') := random_next g in
  let product := w * range in
  if product mod two64 <? nd_threshold range then inl g' else inr (product / two64, g').
Definition nd (range : Z) (g : Random pcg64) : drawn Z :=
  let '(w, g') := random_next g in
  let product := w * range in
  let low := product mod two64 in
  if low <? range then
    if low <? nd_threshold range then
      match loop 128 (nd_again range) g' with inl _ => Endless | inr (v, g'') => Drawn v g'' end
    else Drawn (product / two64) g'
  else Drawn (product / two64) g'.

(** The integer types drawn: int (= Int_precision), unsigned int, std::size_t (= std::uint64_t). *)
Inductive int_type : Type := Int32 | UInt32 | UInt64.
Definition type_min (t : int_type) : Z := match t with Int32 => - 2 ^ 31 | _ => 0 end.
Definition type_size (t : int_type) : Z := match t with UInt64 => 2 ^ 64 | _ => 2 ^ 32 end.
Definition in_type (t : int_type) (z : Z) : Prop := type_min t <= z < type_min t + type_size t.
(** Conversion to the type, modulo its size. *)
Definition to_type (t : int_type) (z : Z) : Z := type_min t + (z - type_min t) mod type_size t.

(** uniform_int_dist.h:289-370 [uniform_int_distribution<IntType>{a, b}(g)] for a
    generator of all 64-bit words (urngrange = 2^64 - 1, so no upscaling); a > b is
    outside the domain. 369: __ret + __param.a(), converted to IntType. *)
Definition uniform_int (t : int_type) (a b : Z) (g : Random pcg64) : drawn Z :=
  if b <? a then OutOfDomain
  else
    let urange := (b mod two64 - a mod two64) mod two64 in
    let add ret := to_type t ((ret + a) mod two64) in
    if urange <? two64 - 1 then
      match nd (urange + 1) g with Drawn v g' => Drawn (add v) g' | Endless => Endless | OutOfDomain => OutOfDomain end
    else let '(w, g') := random_next g in Drawn (add w) g'.

(** include/Utilities.hpp:1958-1965 [die_roll]. *)
Definition die_roll : Random pcg64 -> drawn Z := uniform_int Int32 1 6.
(** include/Utilities.hpp:1983-2010 [generate_random_int]. *)
Definition generate_random_int (t : int_type) (g : Random pcg64) (low high : Z) : drawn Z := uniform_int t low high g.
(** include/Utilities.hpp:2018-2026 [generate_random_timeslice]. *)
Definition generate_random_timeslice (t : int_type) (g : Random pcg64) (last : Z) : drawn Z := generate_random_int t g 1 last.
(** include/Foliated_triangulation.hpp:1271-1272: the seed of the point generator,
    uniform_int_distribution<unsigned int>{} over the whole type. *)
Definition point_seed : Random pcg64 -> drawn Z := uniform_int UInt32 0 (2 ^ 32 - 1).

(** What the models of the moves and runs use: total functions of the generator. *)
Definition draw_total (d : Z) (g : Random pcg64) (x : drawn Z) : Z * Random pcg64 :=
  match x with Drawn v g' => (v, g') | _ => (d, g) end.
Definition pcg_draw_int (a b : Z) (g : Random pcg64) : Z * Random pcg64 := draw_total a g (uniform_int Int32 a b g).
Definition pcg_draw_index (n : nat) (g : Random pcg64) : nat * Random pcg64 :=
  let '(v, g') := draw_total 0 g (uniform_int UInt64 0 (Z.of_nat n - 1) g) in (Z.to_nat v, g').

(** include/Move_tracker.hpp:95-103 on a cdt::Random. *)
Definition random_move (g : Random pcg64) : MoveType * Random pcg64 := generate_random_move_3 pcg_draw_int g.

(** random.tcc:3349-3381 [generate_canonical<long double, 64>]: 64 digits and 64-bit
    words, so one word (3360: m = (64 + 64 - 1) / 64); 3370 the quotient, exact in the
    64-digit x87 format; 3371-3379 a quotient of 1 is replaced by the value below 1. *)
Definition Q64 (w : Z) : Q := Qmake w (2 ^ 64)%positive.
Definition generate_canonical (g : Random pcg64) : Q * Random pcg64 :=
  let '(w, g') := random_next g in
  ((if Qle_bool 1 (Q64 w) then Q64 (two64 - 1) else Q64 w), g').
(** include/Utilities.hpp:2051-2057 [generate_probability], through
    uniform_real_distribution<long double>{0, 1}: canonical * (1 - 0) + 0. *)
Definition generate_probability (g : Random pcg64) : fp * Random pcg64 :=
  let '(q, g') := generate_canonical g in (Fin q, g').

(** ** std::shuffle *)
Definition iter_swap {A : Type} (l : list A) (i j : nat) : list A :=
  match l !! i, l !! j with
  | Some x, Some y => <[i := y]> (<[j := x]> l)
  | _, _ => l
  end.

(** stl_algo.h:3719-3725 [__gen_two_uniform_ints], 3787-3796 the loop over pairs. *)
Fixpoint shuffle_pairs {A : Type} (pairs : nat) (i : nat) (l : list A) (g : Random pcg64) : drawn (list A) :=
  match pairs with
  | O => Drawn l g
  | S p =>
      let swap_range := Z.of_nat i + 1 in
      match uniform_int UInt64 0 (swap_range * (swap_range + 1) - 1) g with
      | Drawn x g' =>
          let l1 := iter_swap l i (Z.to_nat (x / (swap_range + 1))) in
          let l2 := iter_swap l1 (S i) (Z.to_nat (x mod (swap_range + 1))) in
          shuffle_pairs p (S (S i)) l2 g'
      | Endless => Endless
      | OutOfDomain => OutOfDomain
      end
  end.
(** stl_algo.h:3803-3804: the loop for very long ranges. *)
Fixpoint shuffle_singles {A : Type} (count : nat) (i : nat) (l : list A) (g : Random pcg64) : drawn (list A) :=
  match count with
  | O => Drawn l g
  | S c =>
      match uniform_int UInt64 0 (Z.of_nat i) g with
      | Drawn x g' => shuffle_singles c (S i) (iter_swap l i (Z.to_nat x)) g'
      | Endless => Endless
      | OutOfDomain => OutOfDomain
      end
  end.
(** stl_algo.h:3742-3805 [shuffle]; std::ranges::shuffle (ranges_algo.h:1582-1590)
    calls it. *)
Definition std_shuffle {A : Type} (l : list A) (g : Random pcg64) : drawn (list A) :=
  match l with
  | [] => Drawn l g
  | _ =>
      let n := length l in
      let urange := Z.of_nat n in
      if urange <=? (two64 - 1) / urange then
        if Nat.even n then
          match uniform_int UInt64 0 1 g with
          | Drawn x g' => shuffle_pairs (Nat.div2 (n - 2)) 2 (iter_swap l 1 (Z.to_nat x)) g'
          | Endless => Endless
          | OutOfDomain => OutOfDomain
          end
        else shuffle_pairs (Nat.div2 (n - 1)) 1 l g
      else shuffle_singles (n - 1) 1 l g
  end.
Definition pcg_shuffle (A : Type) (l : list A) (g : Random pcg64) : list A * Random pcg64 :=
  match std_shuffle l g with Drawn l' g' => (l', g') | _ => (l, g) end.

(** The random choices of the move functions, from a [cdt::Random]. *)
Definition pcg_choices : choices (Random pcg64) := mkChoices pcg_draw_index pcg_shuffle.

(** ** Seeds from the operating system *)
Section Entropy.
  (** std::random_device: an unsigned int per call. *)
  Context {D : Type}.
  Variable device : D -> Z * D.
  (** uniform_int_dist.h:332-361 with urngrange = 2^32 - 1 < urange = 2^64 - 1: the
      inner call has urange / 2^32 = urngrange, so it is one word (363-364). *)
  Definition upscale_again (d : D) : D + Z * D :=
    let '(high, d1) := device d in
    let tmp := (2 ^ 32 * high) mod two64 in
    let '(low, d2) := device d1 in
    let ret := (tmp + low) mod two64 in
    if (two64 - 1 <? ret) || (ret <? tmp) then inl d2 else inr (ret, d2).
  (** include/Random.hpp:123-130 [entropy_seed]. *)
  Definition entropy_seed (d : D) : option (Z * D) :=
    match loop 128 upscale_again d with inl _ => None | inr x => Some x end.
End Entropy.
