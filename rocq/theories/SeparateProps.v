(** Consequences of SeparateFacts.v in the form of the theorems of C97. *)
From Coq Require Import Permutation.
From stdpp Require Import list.
From Verif Require Import Base Config Fnv Text TextFacts Persist Names FingerprintSpec SeparateSpec SeparateFacts FileIO FsSample.
Local Open Scope Z_scope.
Local Open Scope list_scope.

Definition text_eq_dec (a b : text) : {a = b} + {a <> b} := list_eq_dec Z.eq_dec a b.
Lemma placement_tells number print : separating number print -> forall t t',
  numbers number (t_verts t) -> numbers number (t_verts t') ->
  placement_fingerprint print t = placement_fingerprint print t' ->
  Permutation (t_verts t) (t_verts t') \/
  exists o o', Permutation o (t_verts t) /\ Permutation o' (t_verts t') /\
    placement_text print o <> placement_text print o' /\ fnv1a (placement_text print o) = fnv1a (placement_text print o').
Proof.
  intros S t t' N N' E. destruct (placement_digest print t) as (o & P & H). destruct (placement_digest print t') as (o' & P' & H').
  destruct (text_eq_dec (placement_text print o) (placement_text print o')) as [K|K].
  - left. apply (placement_inj number print S) in K; [|unfold numbers in *; rewrite P; exact N|unfold numbers in *; rewrite P'; exact N'].
    rewrite <- P, <- P', K. reflexivity.
  - right. exists o, o'. split; [exact P|]. split; [exact P'|]. split; [exact K|congruence].
Qed.
Lemma topology_tells number print : separating number print -> forall t t' h,
  well_indexed t -> well_indexed t' -> numbers number (t_verts t) -> numbers number (t_verts t') ->
  topology_fingerprint print t = Val h -> topology_fingerprint print t' = Val h ->
  reordered t t' \/
  exists b b', topology_text print t b /\ topology_text print t' b' /\ b <> b' /\ fnv1a b = fnv1a b'.
Proof.
  intros S t t' h W W' N N' H H'. destruct (topology_digest number print S t h W N H) as (b & T & E).
  destruct (topology_digest number print S t' h W' N' H') as (b' & T' & E').
  destruct (text_eq_dec b b') as [<-|K].
  - left. exact (topology_separates number print S t t' b W W' N N' T T').
  - right. exists b, b'. split; [exact T|]. split; [exact T'|]. split; [exact K|congruence].
Qed.
Lemma toy_separating : separating toy_float toy_print_float.
Proof.
  split.
  - intros x (z & Hz & ->). cbn. rewrite List.Forall_forall. intros c Hc. apply print_int_chars in Hc. unfold coordinate_byte. lia.
  - intros x y (a & Ha & ->) (b & Hb & ->) E. cbn in E. apply print_int_inj in E. congruence.
Qed.
