(** Reading a sidecar: exactly the acceptable ones; round trip (C41, C42, C48). *)
From Verif Require Import Base Config Text PersistSpec TextFacts Persist PersistFacts MetaSpec MetaFacts.
From Coq Require Import QArith_base.
Local Open Scope Z_scope.
Local Open Scope list_scope.

Section Read.
Variables scan_double scan_long_double : text -> option (fp * text).
Notation read := (read_persistence_metadata scan_double scan_long_double).

Lemma read_metadata_spec t p : read t = Val p <-> sidecar scan_double scan_long_double t p.
Proof.
  unfold read_persistence_metadata, sidecar, sidecar_fields. split.
  - destruct (getline t) as [[line rest]|] eqn:G; [|discriminate]. apply getline_spec in G.
    destruct (text_eqb line METADATA_HEADER) eqn:E; cbn [negb]; [|discriminate].
    apply text_eqb_spec in E as ->. intros H. apply bind_val in H as (values & Hv & H).
    apply read_fields_spec in Hv; [|lia]. destruct Hv as (ls & fs & L & F & -> & ND & _). cbn [app] in H.
    exists fs. split; [exists rest, ls; auto|]. apply interpret_fields_sound; assumption.
  - intros (fs & (rest & ls & G & L & F) & A).
    assert (ND : NoDup (map fst fs)) by (destruct A; assumption).
    apply getline_spec in G. rewrite G. change (B "cdt-plusplus-metadata-v1") with METADATA_HEADER.
    rewrite (proj2 (text_eqb_spec _ _) eq_refl). cbn [negb]. apply bind_val. exists fs. split.
    + apply read_fields_spec; [lia|]. exists ls, fs. split; [assumption|]. split; [assumption|].
      split; [reflexivity|]. split; [assumption|]. apply List.Forall_forall. intros e _ [].
    + apply interpret_fields_complete; assumption.
Qed.

(** * Only filesystem_error *)
Definition only_fs {A} (x : checked A) : Prop := (exists a, x = Val a) \/ x = Throws FilesystemError.
Lemma only_val {A} (a : A) : only_fs (Val a).
Proof. left. eauto. Qed.
Lemma only_bind {A C} (x : checked A) (f : A -> checked C) :
  only_fs x -> (forall a, x = Val a -> only_fs (f a)) -> only_fs (bind x f).
Proof. intros [[a ->]| ->] H; cbn; [apply H; reflexivity|right; reflexivity]. Qed.
Lemma only_require b : only_fs (require b).
Proof. unfold require. destruct b; [apply only_val|right; reflexivity]. Qed.
Lemma only_at_key values k : contains values k = true -> only_fs (at_key values k).
Proof. unfold contains, at_key. destruct (get values k); [intros _; apply only_val|discriminate]. Qed.
Lemma only_int values k : contains values k = true -> only_fs (int_field values k).
Proof. intros H. apply only_bind; [apply only_at_key, H|]. intros v _. apply parse_int_cases. Qed.
Lemma only_unsigned values k b : contains values k = true -> only_fs (unsigned_field values k b).
Proof. intros H. apply only_bind; [apply only_at_key, H|]. intros v _. apply parse_unsigned_cases. Qed.
Lemma only_float values scan k : contains values k = true -> only_fs (float_field scan values k).
Proof.
  intros H. apply only_bind; [apply only_at_key, H|]. intros v _. unfold parse_floating.
  destruct (scan v) as [[x r]|]; [|right; reflexivity]. destruct (_ && _); [apply only_val|right; reflexivity].
Qed.
Lemma only_fixed values k e : contains values k = true -> only_fs (fixed_field values k e).
Proof. intros H. apply only_bind; [apply only_at_key, H|]. intros v _. apply only_require. Qed.
Lemma only_if {A} (c : bool) (x y : checked A) : (c = true -> only_fs x) -> (c = false -> only_fs y) -> only_fs (if c then x else y).
Proof. destruct c; auto. Qed.

Lemma sum3 a b c : b2z a + b2z b + b2z c =? 3 = true -> a = true /\ b = true /\ c = true.
Proof. destruct a, b, c; vm_compute; intuition congruence. Qed.
Lemma sum2 a b : b2z a + b2z b =? 2 = true -> a = true /\ b = true.
Proof. destruct a, b; vm_compute; intuition congruence. Qed.

Lemma interpret_only values : only_fs (interpret_fields scan_double scan_long_double values).
Proof.
  unfold interpret_fields. apply only_bind; [apply only_require|]. intros u Hreq.
  apply require_val in Hreq. rewrite forallb_forall in Hreq.
  assert (R : forall k, In k required_keys -> contains values k = true) by exact Hreq.
  repeat (apply only_bind;
    [first [ apply only_fixed; apply R; unfold required_keys; cbn [In]; tauto
           | apply only_at_key; apply R; unfold required_keys; cbn [In]; tauto
           | apply only_int; apply R; unfold required_keys; cbn [In]; tauto
           | apply only_float; apply R; unfold required_keys; cbn [In]; tauto
           | apply only_require
           | unfold parse_artifact; repeat (destruct (text_eqb _ _); [apply only_val|]); right; reflexivity
           | unfold parse_topology; repeat (destruct (text_eqb _ _); [apply only_val|]); right; reflexivity ]
    | intros ? _ ]).
  cbv zeta. apply only_bind.
  { apply only_if; [|intros _; apply only_val]. intros K. apply sum3 in K as (K1 & K2 & K3).
    repeat (apply only_bind; [apply only_float; assumption|intros ? _]). apply only_require. }
  intros ? _. apply only_bind; [apply only_require|]. intros ? _. apply only_bind.
  { apply only_if; [|intros _; apply only_val]. intros K. apply sum2 in K as (K1 & K2).
    apply only_bind; [apply only_int; assumption|]. intros ? _. apply only_bind; [apply only_require|]. intros ? _.
    apply only_bind; [apply only_int; assumption|]. intros ? _. apply only_require. }
  intros ? _. apply only_bind.
  { apply only_if; [|intros _; apply only_val]. intros K.
    apply only_bind; [apply only_int; assumption|]. intros ? _. apply only_require. }
  intros ? _. apply only_bind; [apply only_require|]. intros ? _. apply only_bind.
  { apply only_if; [|intros _; apply only_val]. intros K.
    apply only_bind; [apply only_int; assumption|]. intros ? _. apply only_require. }
  intros ? _. apply only_bind.
  { destruct (get values (B "parallel.max_threads")); [|apply only_val].
    apply only_bind; [apply parse_unsigned_cases|]. intros ? _. apply only_bind; [apply only_require|]. intros ? _. apply only_val. }
  intros ? _. apply only_bind; [apply only_require|]. intros ? _. apply only_bind.
  { apply only_if; [|intros _; apply only_val]. intros K. apply sum2 in K as (K1 & K2).
    repeat (apply only_bind; [apply only_unsigned; assumption|intros ? _]). apply only_val. }
  intros ? _.
  repeat (apply only_bind; [apply only_unsigned; apply R; unfold required_keys; cbn [In]; tauto|intros ? _]).
  apply only_val.
Qed.

Lemma read_metadata_only t : only_fs (read t).
Proof.
  unfold read_persistence_metadata. destruct (getline t) as [[line rest]|]; [|right; reflexivity].
  destruct (negb _); [right; reflexivity|].
  apply only_bind; [apply read_fields_cases|]. intros v _. apply interpret_only.
Qed.

Lemma read_metadata_rejects t : (forall p, ~ sidecar scan_double scan_long_double t p) -> read t = Throws FilesystemError.
Proof.
  intros H. destruct (read_metadata_only t) as [[p K]|K]; [|exact K].
  exfalso. apply (H p), read_metadata_spec, K.
Qed.
End Read.
