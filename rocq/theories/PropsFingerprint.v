(** Theorems about the canonical fingerprints (C49). Vocabulary:
    FingerprintSpec.v. *)
From Verif Require Import Base Config Fnv Text Persist FingerprintSpec FingerprintFacts FileIO FsSample.
Local Open Scope Z_scope.
Local Open Scope list_scope.

(** ** C49 *)
Theorem C49_placement_any_order : forall fmt17g t t', reordered t t' ->
  placement_fingerprint fmt17g t' = placement_fingerprint fmt17g t.
Proof. exact placement_any_order. Qed.
Print Assumptions C49_placement_any_order.
(** Also for coincident points: the same digest, or the same exception when the
    work budget is exhausted. *)
Theorem C49_topology_any_order : forall fmt17g t t', reordered t t' -> well_indexed t ->
  topology_fingerprint fmt17g t' = topology_fingerprint fmt17g t.
Proof. exact topology_any_order. Qed.
Print Assumptions C49_topology_any_order.

(** Two cells whose outer vertices coincide, stored in two orders; and the same
    vertices and cell labels glued differently. *)
Definition coincident : tri :=
  Tri 3 9 7 true
    [(pt 0 0 0, 1); (pt 2 0 0, 2); (pt 0 2 0, 2); (pt 0 0 2, 2); (pt 0 0 0, 1)]
    [([0; 1; 2; 3]%nat, 13); ([1; 2; 3; 4]%nat, 31)].
Definition coincident_shuffled : tri :=
  Tri 3 9 7 true
    [(pt 0 0 0, 1); (pt 0 0 2, 2); (pt 0 0 0, 1); (pt 0 2 0, 2); (pt 2 0 0, 2)]
    [([4; 2; 3; 1]%nat, 31); ([1; 0; 4; 3]%nat, 13)].
Definition coincident_other : tri :=
  Tri 3 9 7 true
    [(pt 0 0 0, 1); (pt 2 0 0, 2); (pt 0 2 0, 2); (pt 0 0 2, 2); (pt 0 0 0, 1)]
    [([0; 1; 2; 3]%nat, 13); ([0; 1; 2; 4]%nat, 31)].
Definition vertex_order (i : nat) : nat := nth i [0; 4; 3; 1; 2]%nat 0%nat.
Definition cell_order (i : nat) : nat := nth i [1; 0]%nat 0%nat.
Example C49_example :
  reordered coincident coincident_shuffled /\ well_indexed coincident /\
  (exists h, topology_fingerprint toy_print_float coincident = Val h) /\
  topology_fingerprint toy_print_float coincident <> topology_fingerprint toy_print_float coincident_other /\
  has_coincident_vertices toy_print_float coincident = true /\ has_coincident_vertices toy_print_float two_cells = false.
Proof.
  split; [|split; [|split; [|split; [|split]]]].
  - exists vertex_order, cell_order. split; [reflexivity|]. split; [reflexivity|].
    assert (S5 : forall P : nat -> Prop, P 0%nat -> P 1%nat -> P 2%nat -> P 3%nat -> P 4%nat -> forall i, (i < 5)%nat -> P i).
    { intros P H0 H1 H2 H3 H4 i Hi. do 5 (destruct i as [|i]; [assumption|]). lia. }
    assert (S2 : forall P : nat -> Prop, P 0%nat -> P 1%nat -> forall i, (i < 2)%nat -> P i).
    { intros P H0 H1 i Hi. do 2 (destruct i as [|i]; [assumption|]). lia. }
    cbn [length coincident t_verts t_cells].
    split; [split|split; [split|split]].
    + apply S5; cbn; lia.
    + intros i j Hi Hj. do 5 (destruct i as [|i]; [do 5 (destruct j as [|j]; [cbn; congruence|]); lia|]). lia.
    + apply S2; cbn; lia.
    + intros i j Hi Hj. do 2 (destruct i as [|i]; [do 2 (destruct j as [|j]; [cbn; congruence|]); lia|]). lia.
    + apply S5; reflexivity.
    + intros [|[|c]] vs lab H; [| |destruct c; discriminate H]; injection H as <- <-; eexists; (split; [reflexivity|]).
      * exact (Permutation_app_comm [0; 4; 3]%nat [1]%nat).
      * exact (perm_skip 4%nat (Permutation_app_comm [3; 1]%nat [2]%nat)).
  - repeat constructor.
  - eexists. vm_compute. reflexivity.
  - vm_compute. discriminate.
  - vm_compute. reflexivity.
  - vm_compute. reflexivity.
Qed.
