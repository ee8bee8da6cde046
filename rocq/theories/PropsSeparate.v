(** Theorems about what the fingerprints tell apart (C97). Vocabulary:
    SeparateSpec.v and FingerprintSpec.v ([well_indexed], [reordered]). *)
From Verif Require Import Base Config Fnv Text Persist FingerprintSpec SeparateSpec FingerprintFacts SeparateFacts SeparateProps FileIO FsSample PropsFingerprint.
Local Open Scope Z_scope.
Local Open Scope list_scope.

(** ** C97 *)
(** The placement fingerprint is the FNV-1a digest of the text of the labelled
    points in some order. *)
Theorem C97_placement : forall print t, exists order, Permutation order (t_verts t) /\
  placement_fingerprint print t = fnv1a (placement_text print order).
Proof. exact placement_digest. Qed.
Print Assumptions C97_placement.
(** That text tells labelled points apart. *)
Theorem C97_placement_text : forall number print, separating number print -> forall order order',
  numbers number order -> numbers number order' -> placement_text print order = placement_text print order' -> order = order'.
Proof. exact placement_inj. Qed.
Print Assumptions C97_placement_text.
(** So equal placement fingerprints mean the same labelled points, unless two
    different texts have the same digest. *)
Theorem C97_placement_tells : forall number print, separating number print -> forall t t',
  numbers number (t_verts t) -> numbers number (t_verts t') ->
  placement_fingerprint print t = placement_fingerprint print t' ->
  Permutation (t_verts t) (t_verts t') \/
  exists o o', Permutation o (t_verts t) /\ Permutation o' (t_verts t') /\
    placement_text print o <> placement_text print o' /\ fnv1a (placement_text print o) = fnv1a (placement_text print o').
Proof. exact placement_tells. Qed.
Print Assumptions C97_placement_tells.

(** The same for the topology fingerprint. *)
Theorem C97_topology : forall number print, separating number print -> forall t h,
  well_indexed t -> numbers number (t_verts t) -> topology_fingerprint print t = Val h ->
  exists b, topology_text print t b /\ h = fnv1a b.
Proof. exact topology_digest. Qed.
Print Assumptions C97_topology.
Theorem C97_topology_text : forall number print, separating number print -> forall t t' b,
  well_indexed t -> well_indexed t' -> numbers number (t_verts t) -> numbers number (t_verts t') ->
  topology_text print t b -> topology_text print t' b -> reordered t t'.
Proof. exact topology_separates. Qed.
Print Assumptions C97_topology_text.
Theorem C97_topology_tells : forall number print, separating number print -> forall t t' h,
  well_indexed t -> well_indexed t' -> numbers number (t_verts t) -> numbers number (t_verts t') ->
  topology_fingerprint print t = Val h -> topology_fingerprint print t' = Val h ->
  reordered t t' \/
  exists b b', topology_text print t b /\ topology_text print t' b' /\ b <> b' /\ fnv1a b = fnv1a b'.
Proof. exact topology_tells. Qed.
Print Assumptions C97_topology_tells.

(** A separating printer; triangulations with and without coincident points
    that have fingerprints; the same points glued differently have another
    fingerprint, so they are not reorderings of each other. *)
Example C97_example :
  separating toy_float toy_print_float /\
  numbers toy_float (t_verts coincident) /\ numbers toy_float (t_verts coincident_other) /\ numbers toy_float (t_verts two_cells) /\
  well_indexed coincident /\ well_indexed coincident_other /\ well_indexed two_cells /\
  (exists h h' h'', topology_fingerprint toy_print_float coincident = Val h /\
     topology_fingerprint toy_print_float coincident_other = Val h' /\
     topology_fingerprint toy_print_float two_cells = Val h'' /\ h <> h' /\ h <> h'') /\
  ~ reordered coincident coincident_other /\
  placement_text toy_print_float [(pt 1 0 0, 7)] =
    [118; 58; 49; 44; 48; 44; 48; 58; 55; 255].
Proof.
  split; [exact toy_separating|].
  assert (G : forall x y z, in_int32 x -> in_int32 y -> in_int32 z -> let '(a, b, c) := pt x y z in toy_float a /\ toy_float b /\ toy_float c).
  { intros x y z Hx Hy Hz. cbn. repeat split; eexists; (split; [|reflexivity]); assumption. }
  assert (D : topology_fingerprint toy_print_float coincident <> topology_fingerprint toy_print_float coincident_other) by (vm_compute; discriminate).
  split; [repeat (apply List.Forall_cons; [apply G; vm_compute; split; discriminate|]); apply List.Forall_nil|].
  split; [repeat (apply List.Forall_cons; [apply G; vm_compute; split; discriminate|]); apply List.Forall_nil|].
  split; [repeat (apply List.Forall_cons; [apply G; vm_compute; split; discriminate|]); apply List.Forall_nil|].
  split; [repeat constructor|]. split; [repeat constructor|]. split; [repeat constructor|].
  split.
  { do 3 eexists. split; [vm_compute; reflexivity|]. split; [vm_compute; reflexivity|]. split; [vm_compute; reflexivity|].
    split; discriminate. }
  split; [|vm_compute; reflexivity].
  intros R. apply D. symmetry. apply topology_any_order; [exact R|repeat constructor].
Qed.
