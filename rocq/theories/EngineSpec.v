(** What a run does with its random generator, stated without the code (C101):
    every choice comes from one generator, in one order. *)
From Verif Require Import Base Tracker Command Run Fnv Geom Metropolis RunCheckpoint Strategy.
From Verif Require Action.

Section Spec.
  Context {M G H : Type}.

  (** The move types drawn one after the other, uniformly from 0..4, and the
      generator afterwards. *)
  Inductive drawn (draw : Z -> Z -> G -> Z * G) : G -> list MoveType -> G -> Prop :=
  | drawn_none g : drawn draw g [] g
  | drawn_more g m g1 ms g2 : draw 0 4 g = (m, g1) -> drawn draw g1 ms g2 -> drawn draw g (m :: ms) g2.

  (** Passes one after the other: each starts from the manifold and from the
      generator that the one before it left. *)
  Inductive passes (pass : M -> G -> H -> M -> G -> Prop) : M -> G -> list H -> M -> G -> Prop :=
  | passes_none m g : passes pass m g [] m g
  | passes_more m g h m1 g1 hs m2 g2 : pass m g h m1 g1 -> passes pass m1 g1 hs m2 g2 ->
      passes pass m g (h :: hs) m2 g2.
End Spec.

(** A MoveAlways pass: as many move types as there are simplices are drawn, then
    these moves are attempted in the order they were drawn, the sites being
    drawn from the generator as the draws of the types left it. *)
Definition always_pass {M G} (N3 : M -> Z) (api : move_api M G) (check : M -> M -> MoveType -> bool)
    (draw : Z -> Z -> G -> Z * G) (m : M) (g : G) (h : list (MoveType * bool)) (m' : M) (g' : G) : Prop :=
  exists g1, length h = Z.to_nat (N3 m) /\ drawn draw g (map fst h) g1 /\ history api check m g1 h m' g'.

(** A Metropolis pass: as many transitions as there are simplices, each drawing
    its type, its trial, then its site. *)
Definition metropolis_pass {M G P} (geometry : M -> Geometry) (propose : move_api M G) (check : M -> M -> MoveType -> bool)
    (accept : Geometry -> Geometry -> MoveType -> P + exn) (at_least : P -> fp -> bool)
    (draw_int : Z -> Z -> G -> Z * G) (draw_p : G -> fp * G)
    (m : M) (g : G) (h : list (MoveType * MoveOutcome)) (m' : M) (g' : G) : Prop :=
  length h = Z.to_nat (gN3 (geometry m)) /\
  sampled_chain geometry propose check accept at_least draw_int draw_p m g h m' g'.

(** A MoveAlways pass that the exception [x] of a move function ends. *)
Definition always_interrupted {M G} (N3 : M -> Z) (api : move_api M G) (check : M -> M -> MoveType -> bool)
    (draw : Z -> Z -> G -> Z * G) (m : M) (g : G) (x : exn) (g' : G) : Prop :=
  exists ms g1 h k rest m1 g2, length ms = Z.to_nat (N3 m) /\ drawn draw g ms g1 /\ ms = map fst h ++ k :: rest /\
    history api check m g1 h m1 g2 /\ apply_random_move api m1 k g2 = (Raised x, g').

(** A Metropolis pass that [x] ends: after some transitions a type and a trial
    are drawn, and the trial is refused, or the move function throws, or the
    acceptance probability of its candidate cannot be computed. *)
Definition metropolis_interrupted {M G P} (geometry : M -> Geometry) (propose : move_api M G) (check : M -> M -> MoveType -> bool)
    (accept : Geometry -> Geometry -> MoveType -> P + exn) (at_least : P -> fp -> bool)
    (draw_int : Z -> Z -> G -> Z * G) (draw_p : G -> fp * G) (m : M) (g : G) (x : exn) (g' : G) : Prop :=
  exists h m1 g1 k g2 t g3, (length h < Z.to_nat (gN3 (geometry m)))%nat /\
    sampled_chain geometry propose check accept at_least draw_int draw_p m g h m1 g1 /\
    draw_int 0 4 g1 = (k, g2) /\ draw_p g2 = (t, g3) /\
    ((trial_invalid t = true /\ x = InvalidArgument /\ g' = g3) \/
     propose_candidate propose m1 k g3 = (Raised x, g') \/
     (exists cand, propose_candidate propose m1 k g3 = (Moved cand, g') /\ check m1 cand k = true /\
        accept (geometry m1) (geometry cand) k = inr x)).

(** A run of [n] passes that throws: some passes are complete, and either the
    next one was interrupted, or one was complete and its results could not be
    reported or saved, which draws nothing. *)
Definition stopped {M G H} (pass : M -> G -> H -> M -> G -> Prop) (interrupted : M -> G -> exn -> G -> Prop)
    (n : nat) (m : M) (g : G) (x : exn) (g' : G) : Prop :=
  exists hs m1 g1, passes pass m g hs m1 g1 /\
    ((length hs < n)%nat /\ interrupted m1 g1 x g' \/ (0 < length hs <= n)%nat /\ g' = g1).

(** What one call on a Metropolis object does with the generator the object
    keeps, from [g] to [g']: [n] is its number of passes, the answer is what the
    caller gets and the manifold returned or left. *)
Section Calls.
  Context {M G P : Type}.
  Variable geometry : M -> Geometry.
  Variable propose : move_api M G.
  Variable check : M -> M -> MoveType -> bool.
  Variable accept : Geometry -> Geometry -> MoveType -> P + exn.
  Variable at_least : P -> fp -> bool.
  Variable draw_int : Z -> Z -> G -> Z * G.
  Variable draw_p : G -> fp * G.
  Notation mpass := (metropolis_pass geometry propose check accept at_least draw_int draw_p).
  Notation mstop := (metropolis_interrupted geometry propose check accept at_least draw_int draw_p).
  Notation mstep := (markov_step geometry propose check accept at_least).

  (** The exception of one transition with type [k] and trial [t]. *)
  Inductive refused (m : M) (k : MoveType) (t : fp) (g : G) : exn -> G -> Prop :=
  | bad_trial : trial_invalid t = true -> refused m k t g InvalidArgument g
  | move_throws x g' : propose_candidate propose m k g = (Raised x, g') -> refused m k t g x g'
  | no_probability cand g' x : propose_candidate propose m k g = (Moved cand, g') -> check m cand k = true ->
      accept (geometry m) (geometry cand) k = inr x -> refused m k t g x g'.

  Inductive takes (n : nat) (g : G) : mh_call M -> mh_answer M -> G -> Prop :=
  | run_returns man hs man' g' : length hs = n -> passes mpass man g hs man' g' ->
      takes n g (CRun man) (Gives None, man') g'
  | run_throws man x g' : stopped mpass mstop n man g x g' -> takes n g (CRun man) (Throws x, man) g'
  | attempt_returns cur k t o cur' g' : trial_invalid t = false -> supported k -> mstep cur g k t o cur' g' ->
      takes n g (CAttempt cur k t) (Gives (Some (mkTransition k o)), cur') g'
  | attempt_unknown cur k t : trial_invalid t = false -> ~ supported k ->
      takes n g (CAttempt cur k t) (Gives (Some (mkTransition k EXECUTION_FAILED)), cur) g
  | attempt_throws cur k t x g' : refused cur k t g x g' -> takes n g (CAttempt cur k t) (Throws x, cur) g'
  | sample_returns cur k g1 t g2 o cur' g' : draw_int 0 4 g = (k, g1) -> draw_p g1 = (t, g2) ->
      trial_invalid t = false -> mstep cur g2 k t o cur' g' ->
      takes n g (CSample cur) (Gives (Some (mkTransition k o)), cur') g'
  | sample_throws cur k g1 t g2 x g' : draw_int 0 4 g = (k, g1) -> draw_p g1 = (t, g2) ->
      refused cur k t g2 x g' -> takes n g (CSample cur) (Throws x, cur) g'
  | initialize_returns man : takes n g (CInitialize man) (Gives None, man) g.

  Inductive takes_all (n : nat) : G -> list (mh_call M) -> list (mh_answer M) -> G -> Prop :=
  | takes_none g : takes_all n g [] [] g
  | takes_more g c a g1 l r g2 : takes n g c a g1 -> takes_all n g1 l r g2 -> takes_all n g (c :: l) (a :: r) g2.
End Calls.
