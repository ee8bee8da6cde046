(** Model of include/Move_tracker.hpp and include/Move_outcome.hpp. *)
From Verif Require Import Base.
From stdpp Require Import strings.
Open Scope Z_scope.

(** ** Move kinds *)

(** include/Move_tracker.hpp:34-41 [enum class MoveType] (underlying type int).
    A C++ enum object may hold any value of its underlying type, so a move is an
    integer and the five enumerators are constants. *)
Notation MoveType := Z (only parsing).
Definition TWO_THREE : MoveType := 0.
Definition THREE_TWO : MoveType := 1.
Definition TWO_SIX : MoveType := 2.
Definition SIX_TWO : MoveType := 3.
Definition FOUR_FOUR : MoveType := 4.

(** include/Move_tracker.hpp:29 [NUMBER_OF_3D_MOVES]. *)
Definition NUMBER_OF_3D_MOVES : Z := 5.

(** include/Move_tracker.hpp:67-73 [as_integer]. *)
Definition as_integer (m : MoveType) : Z := m.

(** include/Move_tracker.hpp:46-59 [format_as]. *)
Definition format_as (m : MoveType) : string :=
  if m =? TWO_THREE then "(2,3)"%string
  else if m =? THREE_TWO then "(3,2)"%string
  else if m =? TWO_SIX then "(2,6)"%string
  else if m =? SIX_TWO then "(6,2)"%string
  else if m =? FOUR_FOUR then "(4,4)"%string
  else "unknown"%string.

(** include/Move_tracker.hpp:80-89 [move_from_index]; the argument is a
    std::size_t, i.e. a nonnegative integer. *)
Definition move_from_index (i : Z) : option MoveType :=
  if i >=? NUMBER_OF_3D_MOVES then None
  else nth_error [TWO_THREE; THREE_TWO; TWO_SIX; SIX_TWO; FOUR_FOUR] (Z.to_nat i).

(** ** Counters *)

(** include/Move_tracker.hpp:108-112: [std::array<Int_precision, 5> moves = {0}]. *)
Notation tracker := (list Z).
Definition tracker_zero : tracker := [0; 0; 0; 0; 0].
Definition tracker_ok (t : tracker) : Prop := length t = 5%nat.

(** Outcome of a counter operation: value, signed overflow, or the contract
    violation of gsl::at (which terminates the process). *)
Inductive cres (A : Type) : Type := COk (a : A) | CUB | CAbort.
Arguments COk {A} a.
Arguments CUB {A}.
Arguments CAbort {A}.

(** include/Move_tracker.hpp:126-135 [operator[]] by index: [gsl::at]. *)
Definition at_index (t : tracker) (i : Z) : option Z :=
  if (0 <=? i) && (i <? Z.of_nat (length t)) then nth_error t (Z.to_nat i) else None.

(** include/Move_tracker.hpp:142-151 [operator[](MoveType)]. *)
Definition at_move (t : tracker) (m : MoveType) : option Z := at_index t (as_integer m).

(** include/Move_tracker.hpp:184-242: the named accessors. *)
Definition two_three_moves (t : tracker) : option Z := at_index t 0.
Definition three_two_moves (t : tracker) : option Z := at_index t 1.
Definition two_six_moves (t : tracker) : option Z := at_index t 2.
Definition six_two_moves (t : tracker) : option Z := at_index t 3.
Definition four_four_moves (t : tracker) : option Z := at_index t 4.

(** [++counter[move]] as used by Move_command.hpp and Metropolis.hpp. *)
Definition bump (t : tracker) (m : MoveType) : cres tracker :=
  match at_move t m with
  | None => CAbort
  | Some v => match add32 v 1 with
              | None => CUB
              | Some v' => COk (<[Z.to_nat (as_integer m) := v']> t)
              end
  end.

(** include/Move_tracker.hpp:158-165 [operator+=]: the loop adds slot by slot. *)
Fixpoint tracker_add (a b : tracker) : option tracker :=
  match a, b with
  | x :: a', y :: b' =>
      match add32 x y, tracker_add a' b' with
      | Some z, Some r => Some (z :: r)
      | _, _ => None
      end
  | _, _ => Some []
  end.

(** include/Move_tracker.hpp:171-174 [total]: std::accumulate from
    [Int_precision{0}], i.e. left-to-right 32-bit sums. *)
Fixpoint accumulate32 (acc : Z) (l : list Z) : option Z :=
  match l with
  | [] => Some acc
  | x :: l' => match add32 acc x with None => None | Some a => accumulate32 a l' end
  end.
Definition total (t : tracker) : option Z := accumulate32 0 t.

(** include/Move_tracker.hpp:245 [reset]. *)
Definition reset (t : tracker) : tracker := replicate (length t) 0.

(** ** Outcomes *)

(** include/Move_outcome.hpp:22-31 [enum class MoveFailure]. *)
Inductive MoveFailure : Type :=
| NO_CANDIDATE | INVALID_TOPOLOGY | CAUSAL_INVALIDITY | STALE_CANDIDATE
| EXECUTION_FAILURE | INVARIANT_VIOLATION | UNKNOWN_MOVE.

(** include/Move_outcome.hpp:36-75 [struct MoveError]. *)
Record MoveError : Type := mkMoveError { category : MoveFailure; requested_move : MoveType }.

(** include/Move_outcome.hpp:82-89 [enum class MoveOutcome : uint8_t]. *)
Inductive MoveOutcome : Type :=
| INAPPLICABLE | METROPOLIS_ACCEPTED | METROPOLIS_REJECTED | EXECUTION_FAILED | SUCCEEDED.

(** The enumerator values, include/Move_outcome.hpp:84-88. *)
Definition outcome_byte (o : MoveOutcome) : Z :=
  match o with
  | INAPPLICABLE => 0 | METROPOLIS_ACCEPTED => 1 | METROPOLIS_REJECTED => 2
  | EXECUTION_FAILED => 3 | SUCCEEDED => 4
  end.

Definition outcome_eqb (a b : MoveOutcome) : bool := outcome_byte a =? outcome_byte b.

(** include/Move_outcome.hpp:137-152 [outcome_from]. *)
Definition outcome_from (e : MoveError) : MoveOutcome :=
  match category e with
  | NO_CANDIDATE | INVALID_TOPOLOGY | CAUSAL_INVALIDITY => INAPPLICABLE
  | STALE_CANDIDATE | EXECUTION_FAILURE | INVARIANT_VIOLATION | UNKNOWN_MOVE => EXECUTION_FAILED
  end.

(** include/Move_outcome.hpp:95-130 [class MetropolisTransition]. *)
Record MetropolisTransition : Type := mkTransition { tr_move : MoveType; tr_outcome : MoveOutcome }.
Definition successful (t : MetropolisTransition) : bool :=
  outcome_eqb (tr_outcome t) METROPOLIS_ACCEPTED
  || outcome_eqb (tr_outcome t) METROPOLIS_REJECTED
  || outcome_eqb (tr_outcome t) SUCCEEDED.
Definition accepted_report (t : MetropolisTransition) : bool :=
  outcome_eqb (tr_outcome t) METROPOLIS_ACCEPTED.

(** ** Basic facts *)

(** The five supported moves. *)
Definition supported (m : MoveType) : Prop := 0 <= m < 5.
Definition supportedb (m : MoveType) : bool := (0 <=? m) && (m <? 5).

Lemma supportedb_spec m : supportedb m = true <-> supported m.
Proof. unfold supportedb, supported. rewrite andb_true_iff, Z.leb_le, Z.ltb_lt. tauto. Qed.

Global Instance supported_dec m : Decision (supported m).
Proof. destruct (supportedb m) eqn:E; [left|right]; rewrite <- supportedb_spec; congruence. Defined.

Lemma supported_cases m : supported m ->
  m = TWO_THREE \/ m = THREE_TWO \/ m = TWO_SIX \/ m = SIX_TWO \/ m = FOUR_FOUR.
Proof. unfold supported, TWO_THREE, THREE_TWO, TWO_SIX, SIX_TWO, FOUR_FOUR. lia. Qed.

(** Value of a counter slot (0 outside); used in specifications. *)
Definition slot (t : tracker) (m : MoveType) : Z := nth (Z.to_nat m) t 0.

Lemma tracker_ok_inv t : tracker_ok t ->
  exists a b c d e, t = [a; b; c; d; e].
Proof.
  unfold tracker_ok. intros H.
  do 5 (destruct t as [|? t]; [discriminate H|]).
  destruct t; [|discriminate H]. eauto 8.
Qed.

Lemma at_move_ok t m : tracker_ok t -> supported m -> at_move t m = Some (slot t m).
Proof.
  intros Ht Hm. destruct (tracker_ok_inv t Ht) as (a & b & c & d & e & ->).
  destruct (supported_cases m Hm) as [->|[->|[->|[->| ->]]]]; reflexivity.
Qed.

Lemma at_move_unsupported t m : tracker_ok t -> ~ supported m -> at_move t m = None.
Proof.
  intros Ht Hm. unfold at_move, at_index, as_integer.
  rewrite Ht. destruct ((0 <=? m) && (m <? Z.of_nat 5)) eqn:E; [|reflexivity].
  exfalso; apply Hm. apply supportedb_spec. exact E.
Qed.

Lemma bump_ok t m t' : tracker_ok t -> bump t m = COk t' ->
  supported m /\ tracker_ok t' /\ slot t' m = slot t m + 1 /\ in_int32 (slot t m + 1) /\
  (forall k, supported k -> k <> m -> slot t' k = slot t k).
Proof.
  intros Ht H. unfold bump in H.
  destruct (decide (supported m)) as [Hm|Hm].
  2:{ rewrite at_move_unsupported in H by assumption. discriminate. }
  rewrite at_move_ok in H by assumption.
  destruct (add32 (slot t m) 1) as [v|] eqn:Ev; [|discriminate].
  apply add32_Some in Ev as [-> Hr].
  injection H as <-.
  assert (Hlen : (Z.to_nat m < length t)%nat).
  { rewrite Ht. unfold supported in Hm. lia. }
  split; [assumption|]. split.
  { unfold tracker_ok. rewrite insert_length. exact Ht. }
  split; [|split; [assumption|]].
  - unfold slot, as_integer.
    destruct (tracker_ok_inv t Ht) as (a & b & c & d & e & ->).
    destruct (supported_cases m Hm) as [->|[->|[->|[->| ->]]]]; reflexivity.
  - intros k Hk Hne. unfold slot, as_integer.
    destruct (tracker_ok_inv t Ht) as (a & b & c & d & e & ->).
    destruct (supported_cases m Hm) as [->|[->|[->|[->| ->]]]];
    destruct (supported_cases k Hk) as [->|[->|[->|[->| ->]]]]; try reflexivity; congruence.
Qed.

Lemma bump_UB t m : tracker_ok t -> bump t m = CUB ->
  supported m /\ ~ in_int32 (slot t m + 1).
Proof.
  intros Ht H. unfold bump in H.
  destruct (decide (supported m)) as [Hm|Hm].
  2:{ rewrite at_move_unsupported in H by assumption. discriminate. }
  rewrite at_move_ok in H by assumption.
  destruct (add32 (slot t m) 1) as [v|] eqn:Ev; [discriminate|].
  apply add32_None in Ev. tauto.
Qed.

Lemma bump_Abort t m : tracker_ok t -> bump t m = CAbort -> ~ supported m.
Proof.
  intros Ht H Hm. unfold bump in H.
  rewrite at_move_ok in H by assumption.
  destruct (add32 (slot t m) 1); discriminate.
Qed.

Lemma bump_defined t m : tracker_ok t -> supported m -> in_int32 (slot t m + 1) ->
  exists t', bump t m = COk t'.
Proof.
  intros Ht Hm Hr. destruct (bump t m) eqn:E; [eauto| |].
  - apply bump_UB in E; tauto.
  - apply bump_Abort in E; tauto.
Qed.

Lemma tracker_ok_zero : tracker_ok tracker_zero.
Proof. reflexivity. Qed.

Lemma slot_zero m : slot tracker_zero m = 0.
Proof.
  unfold slot, tracker_zero.
  destruct (Z.to_nat m) as [|[|[|[|[|[|]]]]]]; reflexivity.
Qed.

Lemma tracker_ext a b : tracker_ok a -> tracker_ok b ->
  (forall m, supported m -> slot a m = slot b m) -> a = b.
Proof.
  intros Ha Hb H.
  destruct (tracker_ok_inv a Ha) as (a0 & a1 & a2 & a3 & a4 & ->).
  destruct (tracker_ok_inv b Hb) as (b0 & b1 & b2 & b3 & b4 & ->).
  pose proof (H 0 ltac:(unfold supported; lia)) as H0.
  pose proof (H 1 ltac:(unfold supported; lia)) as H1.
  pose proof (H 2 ltac:(unfold supported; lia)) as H2.
  pose proof (H 3 ltac:(unfold supported; lia)) as H3.
  pose proof (H 4 ltac:(unfold supported; lia)) as H4.
  change (a0 = b0) in H0. change (a1 = b1) in H1. change (a2 = b2) in H2.
  change (a3 = b3) in H3. change (a4 = b4) in H4. congruence.
Qed.

(** [operator+=] is defined exactly when every slot-wise sum fits, and then adds
    slot by slot. *)
Lemma tracker_add_spec a b : tracker_ok a -> tracker_ok b ->
  (forall c, tracker_add a b = Some c ->
     tracker_ok c /\ forall m, supported m -> slot c m = slot a m + slot b m) /\
  (tracker_add a b = None <-> exists m, supported m /\ ~ in_int32 (slot a m + slot b m)).
Proof.
  intros Ha Hb.
  destruct (tracker_ok_inv a Ha) as (a0 & a1 & a2 & a3 & a4 & ->).
  destruct (tracker_ok_inv b Hb) as (b0 & b1 & b2 & b3 & b4 & ->).
  cbn [tracker_add].
  destruct (add32 a0 b0) as [c0|] eqn:E0;
  [|split; [discriminate|split; [intros _; exists 0|reflexivity]];
    apply add32_None in E0; split; [unfold supported; lia|exact E0]].
  destruct (add32 a1 b1) as [c1|] eqn:E1;
  [|split; [discriminate|split; [intros _; exists 1|reflexivity]];
    apply add32_None in E1; split; [unfold supported; lia|exact E1]].
  destruct (add32 a2 b2) as [c2|] eqn:E2;
  [|split; [discriminate|split; [intros _; exists 2|reflexivity]];
    apply add32_None in E2; split; [unfold supported; lia|exact E2]].
  destruct (add32 a3 b3) as [c3|] eqn:E3;
  [|split; [discriminate|split; [intros _; exists 3|reflexivity]];
    apply add32_None in E3; split; [unfold supported; lia|exact E3]].
  destruct (add32 a4 b4) as [c4|] eqn:E4;
  [|split; [discriminate|split; [intros _; exists 4|reflexivity]];
    apply add32_None in E4; split; [unfold supported; lia|exact E4]].
  apply add32_Some in E0 as [-> R0]. apply add32_Some in E1 as [-> R1].
  apply add32_Some in E2 as [-> R2]. apply add32_Some in E3 as [-> R3].
  apply add32_Some in E4 as [-> R4].
  split.
  - intros c H. injection H as <-. split; [reflexivity|].
    intros m Hm. destruct (supported_cases m Hm) as [->|[->|[->|[->| ->]]]]; reflexivity.
  - split; [discriminate|]. intros (m & Hm & Hn). exfalso; apply Hn.
    destruct (supported_cases m Hm) as [->|[->|[->|[->| ->]]]]; cbn; assumption.
Qed.

(** Exact mathematical sum of the five slots. *)
Definition slot_sum (t : tracker) : Z :=
  slot t TWO_THREE + slot t THREE_TWO + slot t TWO_SIX + slot t SIX_TWO + slot t FOUR_FOUR.

(** [total] is the exact sum whenever that sum fits and counters are nonnegative. *)
Lemma total_spec t : tracker_ok t -> (forall m, supported m -> 0 <= slot t m) ->
  (in_int32 (slot_sum t) -> total t = Some (slot_sum t)) /\
  (~ in_int32 (slot_sum t) -> total t = None).
Proof.
  intros Ht Hp. destruct (tracker_ok_inv t Ht) as (a & b & c & d & e & ->).
  pose proof (Hp 0 ltac:(unfold supported; lia)) as H0.
  pose proof (Hp 1 ltac:(unfold supported; lia)) as H1.
  pose proof (Hp 2 ltac:(unfold supported; lia)) as H2.
  pose proof (Hp 3 ltac:(unfold supported; lia)) as H3.
  pose proof (Hp 4 ltac:(unfold supported; lia)) as H4.
  change (0 <= a) in H0. change (0 <= b) in H1. change (0 <= c) in H2.
  change (0 <= d) in H3. change (0 <= e) in H4.
  change (slot_sum [a;b;c;d;e]) with (a + b + c + d + e). unfold total.
  cbn [accumulate32].
  unfold in_int32, INT32_MIN, INT32_MAX in *.
  split; intros Hr.
  - repeat (match goal with |- context [add32 ?x ?y] =>
      let E := fresh in
      assert (E : add32 x y = Some (x + y)) by
        (apply add32_Some; unfold in_int32, INT32_MIN, INT32_MAX; lia);
      rewrite E; clear E end).
    f_equal; lia.
  - repeat (match goal with |- context [add32 ?x ?y] =>
      let E := fresh in
      destruct (add32 x y) eqn:E; [apply add32_Some in E as [-> ?]|reflexivity] end).
    exfalso. unfold in_int32, INT32_MIN, INT32_MAX in *. lia.
Qed.
Global Arguments slot : simpl never.
Global Arguments slot_sum : simpl never.
Global Arguments bump : simpl never.
Global Arguments total : simpl never.
Global Arguments tracker_add : simpl never.
