(** C84-C86: random choices made with a [cdt::Random] (models in Pcg.v and Draw.v).
    [calls_exactly count P]: among the 2^128 calls of one cycle of the generator,
    exactly [count] have property [P]; [random_after i g] is the generator just before
    call number [i]. *)
From Coq Require Import QArith_base Reals.
From Verif Require Import Base Tracker Geom Run Pcg PcgFacts PcgProps Manifold Draw DrawFacts DrawProps ShuffleFacts TrialFacts
  Metropolis Mp Action Acceptance.
From Coq Require Import ZArith.
Local Open Scope Z_scope.

(** ** C84: integers, moves and sites *)
(** generate_random_int returns after finitely many words, with a value in range. *)
Theorem C84_returns : forall t low high, in_type t low -> in_type t high -> low <= high ->
  forall g, random_ok g -> exists v n,
    generate_random_int t g low high = Drawn v (random_after (S n) g) /\ low <= v <= high /\ Z.of_nat n < 2 ^ 128.
Proof. exact choice_result. Qed.
Print Assumptions C84_returns.
(** Every value in range is chosen by the same number of calls; the calls left over
    skip their word and draw again. *)
Theorem C84_even : forall t low high, in_type t low -> in_type t high -> low <= high ->
  forall g v, random_ok g -> low <= v <= high ->
  calls_exactly (2 ^ 64 * (2 ^ 64 / (high - low + 1)))
    (fun i => generate_random_int t (random_after i g) low high = Drawn v (random_after (S i) g)).
Proof. exact choice_even. Qed.
Print Assumptions C84_even.
Theorem C84_skipped : forall t low high, in_type t low -> in_type t high -> low <= high ->
  (forall g, random_ok g -> calls_exactly (2 ^ 64 * (2 ^ 64 mod (high - low + 1)))
    (fun i => ~ exists v, generate_random_int t (random_after i g) low high = Drawn v (random_after (S i) g))) /\
  (forall g, random_ok g -> (~ exists v, generate_random_int t g low high = Drawn v (random_after 1 g)) ->
    generate_random_int t g low high = generate_random_int t (random_after 1 g) low high).
Proof. intros t low high A B L. split; [exact (skip_count t low high A B L)|exact (skip_next t low high A B L)]. Qed.
Print Assumptions C84_skipped.
Theorem C84_empty : forall t low high g, high < low -> generate_random_int t g low high = OutOfDomain.
Proof. intros t low high g H. unfold generate_random_int, uniform_int. rewrite (proj2 (Z.ltb_lt _ _) H). reflexivity. Qed.
Print Assumptions C84_empty.
(** Die rolls and time slices. *)
Theorem C84_die : forall g, random_ok g -> exists v n, die_roll g = Drawn v (random_after (S n) g) /\ 1 <= v <= 6.
Proof.
  intros g H. destruct (choice_result Int32 1 6 (in_int32_small 1 ltac:(lia)) (in_int32_small 6 ltac:(lia)) ltac:(lia) g H) as (v & n & E & V & _).
  exists v, n. split; assumption.
Qed.
Print Assumptions C84_die.
Theorem C84_timeslice : forall g last v, random_ok g -> 1 <= last < 2 ^ 31 -> 1 <= v <= last ->
  (exists u n, generate_random_timeslice Int32 g last = Drawn u (random_after (S n) g) /\ 1 <= u <= last) /\
  calls_exactly (2 ^ 64 * (2 ^ 64 / last))
    (fun i => generate_random_timeslice Int32 (random_after i g) last = Drawn v (random_after (S i) g)).
Proof.
  intros g last v H L V. pose proof (in_int32_small 1 ltac:(lia)) as A. pose proof (in_int32_small last ltac:(lia)) as B. split.
  - destruct (choice_result Int32 1 last A B ltac:(lia) g H) as (u & n & E & U & _). exists u, n. split; assumption.
  - pose proof (choice_even Int32 1 last A B ltac:(lia) g v H V) as K. replace (last - 1 + 1) with last in K by ring. exact K.
Qed.
Print Assumptions C84_timeslice.
(** The seed of the CGAL generator of a new ball: each 32-bit value equally often. *)
Theorem C84_point_seed : forall g v, random_ok g -> 0 <= v < 2 ^ 32 ->
  (exists u n, point_seed g = Drawn u (random_after (S n) g) /\ 0 <= u < 2 ^ 32) /\
  calls_exactly (2 ^ 64 * 2 ^ 32) (fun i => point_seed (random_after i g) = Drawn v (random_after (S i) g)).
Proof.
  intros g v H V. assert (A : in_type UInt32 0) by (vm_compute; split; [discriminate|reflexivity]).
  assert (B : in_type UInt32 (2 ^ 32 - 1)) by (vm_compute; split; [discriminate|reflexivity]). split.
  - destruct (choice_result UInt32 0 (2 ^ 32 - 1) A B ltac:(lia) g H) as (u & n & E & U & _). exists u, n. split; [exact E|lia].
  - exact (choice_even UInt32 0 (2 ^ 32 - 1) A B ltac:(lia) g v H ltac:(lia)).
Qed.
Print Assumptions C84_point_seed.
(** Move types: always one of the five, each equally often. *)
Theorem C84_move : forall g m, random_ok g -> 0 <= m < 5 ->
  0 <= fst (random_move g) < 5 /\
  calls_exactly (2 ^ 64 * (2 ^ 64 / 5)) (fun i => random_move (random_after i g) = (m, random_after (S i) g)).
Proof. intros g m H M. split; [|exact (move_even g m H M)]. destruct (move_range g H) as (n & R & _). exact R. Qed.
Print Assumptions C84_move.
(** Proposal sites: each candidate equally often. *)
Theorem C84_site : forall (S : Type) (candidates : list S) g x, random_ok g -> NoDup candidates -> In x candidates ->
  Z.of_nat (length candidates) <= 2 ^ 64 ->
  calls_exactly (2 ^ 64 * (2 ^ 64 / Z.of_nat (length candidates)))
    (fun i => canonical_random_element pcg_choices candidates (random_after i g) = (Some x, random_after (Datatypes.S i) g)).
Proof. intros S candidates g x. exact (element_even candidates g x). Qed.
Print Assumptions C84_site.
(** These choices satisfy what the theorems about moves assume of the library. *)
Theorem C84_contract : choices_ok pcg_choices.
Proof. exact pcg_choices_ok. Qed.
Print Assumptions C84_contract.
(** A seed from the operating system is made of two of its words, and every seed comes
    from exactly one pair. *)
Theorem C84_entropy : forall (D : Type) (device : D -> Z * D), (forall d, 0 <= fst (device d) < 2 ^ 32) ->
  (forall d, entropy_seed device d =
     Some (2 ^ 32 * fst (device d) + fst (device (snd (device d))), snd (device (snd (device d))))) /\
  (forall seed, 0 <= seed < 2 ^ 64 -> exists hi lo, 0 <= hi < 2 ^ 32 /\ 0 <= lo < 2 ^ 32 /\ seed = 2 ^ 32 * hi + lo /\
     forall hi' lo', 0 <= hi' < 2 ^ 32 -> 0 <= lo' < 2 ^ 32 -> seed = 2 ^ 32 * hi' + lo' -> hi' = hi /\ lo' = lo).
Proof.
  intros D device B. split; [intros d; exact (entropy_words device d B)|].
  intros seed H. exists (seed / 2 ^ 32), (seed mod 2 ^ 32). pose proof (Z.div_mod seed (2 ^ 32) ltac:(lia)). pose proof (Z.mod_pos_bound seed (2 ^ 32) ltac:(lia)).
  assert (0 <= seed / 2 ^ 32 < 2 ^ 32) by (split; [apply Z.div_pos; lia|apply Z.div_lt_upper_bound; lia]).
  split; [assumption|]. split; [assumption|]. split; [assumption|]. intros hi' lo' Hh Hl E. nia.
Qed.
Print Assumptions C84_entropy.
(** The values g++ 13 gives for pcg64 with seed 42 and stream 54; the word skipped is
    the first of the last draw. *)
Example C84_example :
  let g := random_of 42 54 in
  random_ok g /\
  map (fun i => match generate_random_int Int32 (random_after i g) (-5) 10 with Drawn v _ => v | _ => 99 end) [0; 1; 2; 3; 4; 5]%nat
    = [3; -4; 5; 10; 7; 1] /\
  generate_random_int UInt64 g 0 (2 ^ 63 + 1) = Drawn 685203703816429212 (random_after 2 g) /\
  in_type Int32 (-5) /\ in_type UInt64 (2 ^ 63 + 1) /\
  fst (random_move g) = TWO_SIX.
Proof.
  cbv zeta. split; [apply random_of_ok|]. split; [vm_compute; reflexivity|]. split; [vm_compute; reflexivity|].
  split; [unfold in_type; cbn [type_min type_size]; lia|]. split; [unfold in_type; cbn [type_min type_size]; lia|]. vm_compute. reflexivity.
Qed.

(** ** C85: trial values *)
(** A trial is one word over 2^64: at least 0, below 1, and valid for a transition. *)
Theorem C85_trial : forall g, random_ok g -> exists w, 0 <= w < 2 ^ 64 /\
  generate_probability g = (Fin (Qmake w (2 ^ 64)), random_after 1 g) /\ trial_invalid (fst (generate_probability g)) = false.
Proof.
  intros g H. pose proof (value_bound g 0 H) as V. exists (value_at g 0). split; [exact V|]. rewrite (trial_word g H). split; [reflexivity|].
  exact (trial_valid _ V).
Qed.
Print Assumptions C85_trial.
Theorem C85_even : forall g w, random_ok g -> 0 <= w < 2 ^ 64 ->
  calls_exactly (2 ^ 64) (fun i => generate_probability (random_after i g) = (Fin (Qmake w (2 ^ 64)), random_after (S i) g)).
Proof. exact trial_even. Qed.
Print Assumptions C85_even.
(** The share of calls whose trial accepts a candidate with acceptance probability x is
    at least x and exceeds it by at most 2^-64. *)
Theorem C85_rate : forall g x, random_ok g -> (0 <= x <= 1)%R -> exists count,
  calls_exactly count (fun i => mp_at_least (PNum x) (fst (generate_probability (random_after i g))) = true) /\
  (x <= IZR count / 2 ^ 128 <= x + 1 / 2 ^ 64)%R /\ (IZR count / 2 ^ 128 <= 1)%R.
Proof. exact accept_rate. Qed.
Print Assumptions C85_rate.
Example C85_example : let g := random_of 42 54 in
  generate_probability g = (Fin (Qmake 9705778491962043240 (2 ^ 64)), random_after 1 g) /\
  mp_at_least (PNum (1 / 2)) (fst (generate_probability g)) = false /\ mp_at_least (PNum (3 / 5)) (fst (generate_probability g)) = true.
Proof.
  cbv zeta. assert (E : generate_probability (random_of 42 54) = (Fin (Qmake 9705778491962043240 (2 ^ 64)), random_after 1 (random_of 42 54))) by (vm_compute; reflexivity).
  split; [exact E|]. rewrite E. cbn [fst]. change (Qmake 9705778491962043240 (2 ^ 64)) with (Q64 9705778491962043240). split.
  - apply Bool.not_true_is_false. intros K. apply accepted_word in K. Lra.lra.
  - apply accepted_word. Lra.lra.
Qed.

(** ** C86: shuffles *)
(** std::shuffle asks for a fixed list of bounded integers, whatever the generator, and
    each order of the elements comes from exactly one outcome of those draws. *)
Theorem C86_orders : forall (A : Type) (l : list A), NoDup l -> Z.of_nat (length l) <= 2 ^ 64 ->
  exists (bounds : list Z) (order : list Z -> list A),
    Forall (fun b => 0 < b <= 2 ^ 64) bounds /\
    (forall g, std_shuffle l g = match draw_all bounds g with
       | Drawn xs g' => Drawn (order xs) g' | Endless => Endless | OutOfDomain => OutOfDomain end) /\
    (forall xs, in_bounds bounds xs -> order xs ≡ₚ l) /\
    (forall l', l' ≡ₚ l -> exists xs, in_bounds bounds xs /\ order xs = l' /\ forall xs', in_bounds bounds xs' -> order xs' = l' -> xs' = xs).
Proof. intros A l. exact (shuffle_orders l). Qed.
Print Assumptions C86_orders.
(** Whatever is in the range, its elements are reordered and none is lost. *)
Theorem C86_permutes : forall (A : Type) (l : list A) g, random_ok g -> Z.of_nat (length l) <= 2 ^ 64 ->
  exists l' n, std_shuffle l g = Drawn l' (random_after n g) /\ l' ≡ₚ l.
Proof. intros A l g. exact (shuffle_total l g). Qed.
Print Assumptions C86_permutes.
Example C86_example : let g := random_of 42 54 in
  match std_shuffle [1; 2; 3; 4; 5; 6; 7; 8; 9; 10]%nat g with Drawn l _ => l | _ => [] end = [10; 6; 1; 5; 3; 2; 8; 9; 7; 4]%nat /\
  match std_shuffle [1; 2; 3; 4; 5; 6; 7; 8; 9]%nat g with Drawn l _ => l | _ => [] end = [4; 5; 1; 6; 2; 7; 3; 9; 8]%nat.
Proof. split; vm_compute; reflexivity. Qed.
