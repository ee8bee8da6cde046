(** Lemmas about the printed names of move kinds (C01) and the default cadence (C08). *)
From Verif Require Import Base Tracker Command Run Geom Simplex Foliation MoveSpec.
From stdpp Require Import strings.
From Verif Require Import Base Tracker Command Run Geom Simplex Foliation MoveSpec.
Open Scope Z_scope.

(** The digit of a number 1..9. *)
Definition digit (n : Z) : string := String.String (Ascii.ascii_of_nat (Z.to_nat (48 + n))) String.EmptyString.

Lemma move_names :
  (forall k d, move_delta k = Some d -> exists before after, 1 <= before <= 9 /\ 1 <= after <= 9 /\
     format_as k = String.append "(" (String.append (digit before) (String.append "," (String.append (digit after) ")"))) /\
     after - before = gN3 d) /\
  (forall k k', supported k -> supported k' -> format_as k = format_as k' -> k = k') /\
  (forall k, ~ supported k -> format_as k = "unknown"%string) /\
  (forall k, supported k -> format_as k <> "unknown"%string).
Proof.
  split; [|split; [|split]].
  - intros k d H. unfold move_delta in H.
    destruct (k =? TWO_THREE) eqn:E0; [apply Z.eqb_eq in E0 as ->; injection H as <-; exists 2, 3; repeat split; lia || reflexivity|].
    destruct (k =? THREE_TWO) eqn:E1; [apply Z.eqb_eq in E1 as ->; injection H as <-; exists 3, 2; repeat split; lia || reflexivity|].
    destruct (k =? TWO_SIX) eqn:E2; [apply Z.eqb_eq in E2 as ->; injection H as <-; exists 2, 6; repeat split; lia || reflexivity|].
    destruct (k =? SIX_TWO) eqn:E3; [apply Z.eqb_eq in E3 as ->; injection H as <-; exists 6, 2; repeat split; lia || reflexivity|].
    destruct (k =? FOUR_FOUR) eqn:E4; [apply Z.eqb_eq in E4 as ->; injection H as <-; exists 4, 4; repeat split; lia || reflexivity|].
    discriminate.
  - intros k k' H H' E. destruct (supported_cases k H) as [->|[->|[->|[->| ->]]]], (supported_cases k' H') as [->|[->|[->|[->| ->]]]];
      first [reflexivity | vm_compute in E; discriminate E].
  - intros k H. unfold format_as.
    assert (N : forall j, supported j -> (k =? j) = false) by (intros j Hj; apply Z.eqb_neq; congruence).
    rewrite !N by (unfold supported, TWO_THREE, THREE_TWO, TWO_SIX, SIX_TWO, FOUR_FOUR; lia). reflexivity.
  - intros k H. destruct (supported_cases k H) as [->|[->|[->|[->| ->]]]]; vm_compute; discriminate.
Qed.

Lemma default_cadence : cadence_parse (cad_passes cadence_default) (cad_checkpoint cadence_default) = inl cadence_default /\
  cad_passes cadence_default = 1 /\ 0 < cad_checkpoint cadence_default.
Proof. split; [reflexivity|]. split; [reflexivity|]. vm_compute. reflexivity. Qed.
