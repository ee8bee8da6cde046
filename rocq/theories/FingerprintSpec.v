(** What it means for two triangulations in memory to be the same labelled
    triangulation stored in different orders. *)
From Verif Require Import Base Persist.
Local Open Scope list_scope.

(** Every vertex index of a cell names a vertex. *)
Definition well_indexed (t : tri) : Prop :=
  Forall (fun c => Forall (fun i => (i < length (t_verts t))%nat) (fst c)) (t_cells t).
(** [f] renumbers [0..n). *)
Definition renumbering (n : nat) (f : nat -> nat) : Prop :=
  (forall i, (i < n)%nat -> (f i < n)%nat) /\ (forall i j, (i < n)%nat -> (j < n)%nat -> f i = f j -> i = j).
(** [t'] is [t] with its vertices renumbered by [f] and its cells by [g]; the
    vertices of each cell may be listed in another order. *)
Definition reordered_by (f g : nat -> nat) (t t' : tri) : Prop :=
  length (t_verts t') = length (t_verts t) /\ length (t_cells t') = length (t_cells t) /\
  renumbering (length (t_verts t)) f /\ renumbering (length (t_cells t)) g /\
  (forall i, (i < length (t_verts t))%nat -> nth_error (t_verts t') (f i) = nth_error (t_verts t) i) /\
  (forall c vs lab, nth_error (t_cells t) c = Some (vs, lab) ->
     exists vs', nth_error (t_cells t') (g c) = Some (vs', lab) /\ Permutation (map f vs) vs').
Definition reordered (t t' : tri) : Prop := exists f g, reordered_by f g t t'.
