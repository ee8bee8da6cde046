(** The engine inside [cdt::Random]: pcg64. The engine is third-party code that is
    not in /repo; this is the published algorithm of pcg_engines::setseq_xsl_rr_128_64
    (pcg_random.hpp), checked against its published test vector in PropsRandom.v. *)
From Verif Require Import Base Run.
Local Open Scope Z_scope.

Definition two128 : Z := 2 ^ 128.
(** PCG_128BIT_CONSTANT(2549297995355413924, 4865540595714422341). *)
Definition pcg_multiplier : Z := 2549297995355413924 * 2 ^ 64 + 4865540595714422341.

Record pcg64 : Type := mkPcg { pcg_state : Z; pcg_inc : Z }.

(** engine::bump. *)
Definition bump (inc x : Z) : Z := (x * pcg_multiplier + inc) mod two128.
(** specific_stream(specific_seq): inc_((specific_seq << 1) | 1), in 128 bits. *)
Definition increment (stream : Z) : Z := Z.lor (Z.shiftl stream 1 mod two128) 1.
(** engine(state, stream_seed): state_(bump(state + increment())).
    include/Random.hpp:144-147: m_engine{seed.value(), stream.value()}. *)
Definition seed_pcg (seed stream : Z) : pcg64 :=
  mkPcg (bump (increment stream) ((seed + increment stream) mod two128)) (increment stream).

(** pcg_extras::rotr on 64 bits: (value >> rot) | (value << ((-rot) & 63)). *)
Definition rotr64 (value rot : Z) : Z :=
  Z.lor (Z.shiftr value rot) (Z.shiftl value ((- rot) mod 64) mod 2 ^ 64).
(** xsl_rr_mixin::output: the halves xored, rotated by the six top bits. *)
Definition xsl_rr (s : Z) : Z := rotr64 (Z.lxor (Z.shiftr s 64) (s mod 2 ^ 64)) (Z.shiftr s 122).

(** engine::operator(): output_previous is false for 128 bits, so the state is
    advanced first. *)
Definition pcg_next (e : pcg64) : Z * pcg64 :=
  let s := bump (pcg_inc e) (pcg_state e) in (xsl_rr s, mkPcg s (pcg_inc e)).

(** include/Random.hpp:158 [operator()]. *)
Definition random_next (r : Random pcg64) : Z * Random pcg64 :=
  let '(v, e) := pcg_next (rnd_engine r) in (v, advance r e).
(** include/Random.hpp:134-147: Random{seed}, Random{seed, stream}. *)
Definition random_of (seed stream : Z) : Random pcg64 := make_random seed_pcg seed stream.
(** include/Random.hpp:170-171 [split]. *)
Definition random_split (r : Random pcg64) (stream : Z) : Random pcg64 := split seed_pcg r stream.

(** The generator after [n] calls of operator(), and the value of call number [n]
    (counted from 0). *)
Fixpoint random_after (n : nat) (r : Random pcg64) : Random pcg64 :=
  match n with O => r | S n => random_after n (snd (random_next r)) end.
Definition value_at (r : Random pcg64) (n : nat) : Z := fst (random_next (random_after n r)).

(** A generator as its constructors and calls leave it. *)
Definition random_ok (r : Random pcg64) : Prop :=
  0 <= pcg_state (rnd_engine r) < two128 /\ 0 <= pcg_inc (rnd_engine r) < two128 /\
  Z.odd (pcg_inc (rnd_engine r)) = true.
