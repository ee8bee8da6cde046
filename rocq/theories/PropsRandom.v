(** C83: what a [cdt::Random] returns. [value_at r n] is the value of call number [n]
    (from 0) of operator() on [r]; model in Pcg.v. *)
From Verif Require Import Base Run Pcg PcgFacts PcgProps.
Local Open Scope Z_scope.

(** Two generators made from different (seed, stream) pairs give different sequences;
    the difference shows within the first 2^128 values. *)
Theorem C83_distinct_sequences : forall seed stream seed' stream',
  0 <= seed < 2 ^ 64 -> 0 <= stream < 2 ^ 64 -> 0 <= seed' < 2 ^ 64 -> 0 <= stream' < 2 ^ 64 ->
  (seed, stream) <> (seed', stream') ->
  exists n, Z.of_nat n < 2 ^ 128 /\ value_at (random_of seed stream) n <> value_at (random_of seed' stream') n.
Proof. exact distinct_streams. Qed.
Print Assumptions C83_distinct_sequences.

(** Streams taken from one generator, after whatever draws and splits, differ from
    each other, and each begins at its own beginning. *)
Theorem C83_split : forall seed stream r, reaches seed_pcg (random_of seed stream) r ->
  forall s, random_split r s = random_of seed s.
Proof. intros seed stream r H s. unfold random_split, split, random_of. rewrite (reaches_seed seed_pcg _ _ H). reflexivity. Qed.
Print Assumptions C83_split.
Theorem C83_split_distinct : forall seed stream r, 0 <= seed < 2 ^ 64 -> reaches seed_pcg (random_of seed stream) r ->
  forall s s', 0 <= s < 2 ^ 64 -> 0 <= s' < 2 ^ 64 -> s <> s' ->
  exists n, Z.of_nat n < 2 ^ 128 /\ value_at (random_split r s) n <> value_at (random_split r s') n.
Proof.
  intros seed stream r Hs H s s' B B' N. rewrite !(C83_split seed stream r H).
  apply distinct_streams; [exact Hs|exact B|exact Hs|exact B'|congruence].
Qed.
Print Assumptions C83_split_distinct.

(** A generator made by a constructor stays in its state space, and draws change
    neither the recorded seed nor the recorded stream. *)
Theorem C83_draws : forall seed stream n,
  random_ok (random_after n (random_of seed stream)) /\
  rnd_seed (random_after n (random_of seed stream)) = seed /\ rnd_stream (random_after n (random_of seed stream)) = stream.
Proof. intros seed stream n. split; [apply after_ok, random_of_ok|]. exact (after_seed n (random_of seed stream)). Qed.
Print Assumptions C83_draws.

(** The values repeat after [n] calls exactly when [n] is a multiple of 2^128, wherever
    one starts. *)
Theorem C83_period : forall r, random_ok r -> forall n,
  (forall i, value_at r (n + i) = value_at r i) <-> (2 ^ 128 | Z.of_nat n).
Proof. intros r H n. exact (values_period r n H). Qed.
Print Assumptions C83_period.

(** Every 64-bit value is returned exactly 2^64 times in any 2^128 consecutive calls,
    and nothing else is returned. *)
Theorem C83_uniform : forall r, random_ok r -> forall v, 0 <= v < 2 ^ 64 ->
  exists calls : list nat, List.NoDup calls /\ Z.of_nat (length calls) = 2 ^ 64 /\
    forall n, In n calls <-> Z.of_nat n < 2 ^ 128 /\ value_at r n = v.
Proof. intros r H v Hv. exact (equally_often r v H Hv). Qed.
Print Assumptions C83_uniform.
Theorem C83_range : forall r, random_ok r -> forall n, 0 <= value_at r n < 2 ^ 64.
Proof. intros r H n. exact (value_range r n H). Qed.
Print Assumptions C83_range.

(** The published test vector of pcg64 (seed 42, stream 54), and the two streams every
    simulation uses. *)
Example C83_example :
  map (value_at (random_of 42 54)) [0; 1; 2; 3; 4; 5]%nat =
    [0x86b1da1d72062b68; 0x1304aa46c9853d39; 0xa3670e9e0dd50358; 0xf9090e529a7dae00; 0xc85b9fd837996f2c; 0x606121f8e3919196] /\
  random_ok (random_of 42 54) /\
  value_at (random_of 42 stream_initialization) 0 <> value_at (random_of 42 stream_transitions) 0 /\
  reaches seed_pcg (random_of 42 0) (random_after 3 (random_of 42 0)).
Proof.
  split; [vm_compute; reflexivity|]. split; [apply random_of_ok|]. split; [vm_compute; discriminate|].
  cbn [random_after]. do 3 apply reaches_advance. constructor.
Qed.
