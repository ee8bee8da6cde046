(** Theorems about lock grid ownership (C58). Vocabulary: LockSpec.v. A history
    is any sequence of actions of a client on its variables, in either build,
    with any of the allocations and CGAL calls throwing. *)
From Verif Require Import Base Locks LockSpec LockFacts.
Local Open Scope list_scope.
Local Open Scope nat_scope.

(** ** C58 *)
Theorem C58_ownership : forall parallel luck actions w, history parallel (start luck) actions w -> proper w.
Proof. exact history_proper. Qed.
Print Assumptions C58_ownership.
Theorem C58_never_destroyed : forall parallel luck actions w x g, history parallel (start luck) actions w ->
  points w x g -> In g (w_grids w) /\ forall y, points w y g -> y = x.
Proof.
  intros parallel luck actions w x g H P. destruct (history_proper _ _ _ _ H) as [O L U _ _].
  apply O in P as P'. split; [exact (proj1 (L x g P'))|]. intros y Q. apply O in Q. exact (U y x g Q P').
Qed.
Print Assumptions C58_never_destroyed.
(** No action frees a grid twice or locks cells of a freed grid. *)
Theorem C58_nothing_undefined : forall parallel luck actions w a,
  history parallel (start luck) actions w -> allowed a w -> act parallel a w <> Bad.
Proof. exact history_defined. Qed.
Print Assumptions C58_nothing_undefined.
Theorem C58_binding_check : forall parallel luck actions w x s,
  history parallel (start luck) actions w -> w_foliated w x = Some s -> has_consistent_lock_binding s = true.
Proof. exact binding_consistent. Qed.
Print Assumptions C58_binding_check.
(** The check itself says exactly that the pointer is the owner's. *)
Theorem C58_binding_check_exact : forall s : state,
  has_consistent_lock_binding s = true <-> d_lock (s_tri s) = s_owner s.
Proof. exact binding_check_exact. Qed.
Print Assumptions C58_binding_check_exact.
Theorem C58_sequential_build : forall luck actions w x s,
  history false (start luck) actions w -> w_foliated w x = Some s -> s_owner s = None /\ d_lock (s_tri s) = None.
Proof. intros luck actions w x s. exact (sequential_unlocked false luck actions w x s eq_refl). Qed.
Print Assumptions C58_sequential_build.

(** Build, copy, move, assign, repair, snapshot, destroy, swap. *)
Definition story : list action :=
  [MakeOfVertices 0 5; MakeCopy 1 0; MakeMove 2 0; AssignCopy 2 1; Fix 1; Snapshot 0 1; Destroy 1;
   NewGrid; AssignMove 0 2; MakeOfPlain 3 0 true; Swap 0 3].
Example C58_example : exists w, history true (start (fun _ => 5)) story w /\
  (exists g, owns w 0 g) /\ (exists g, owns w 3 g) /\ length (w_grids w) = 3 /\ length (w_mine w) = 1.
Proof.
  eexists. split.
  - unfold story.
    repeat (eapply history_ok; [cbn; repeat split; try discriminate|vm_compute; reflexivity|]). apply history_nil.
  - repeat split; try (vm_compute; reflexivity); do 2 eexists; (split; [vm_compute; reflexivity|reflexivity]).
Qed.
(** The allocation of a grid fails while a copy is made: nothing is leaked. *)
Example C58_example_throws : exists w, history true (start (fun k => if k =? 8 then 0 else 5)) [MakeOfVertices 0 5; MakeCopy 1 0] w /\
  w_foliated w 1 = None /\ length (w_grids w) = 1.
Proof.
  eexists. split.
  - eapply history_ok; [reflexivity|vm_compute; reflexivity|].
    eapply history_ex; [cbn; split; [reflexivity|discriminate]|vm_compute; reflexivity|]. apply history_nil.
  - vm_compute. split; reflexivity.
Qed.
