(** Concrete triangulations for the foliation theorems, and a retriangulation
    for which the bounded repair of the generator ends with acausal cells. *)
From Verif Require Import Base Config Foliation Repair RepairFacts FoliationSpec FoliationFacts FoliationProps FoliationProps2.
From Coq Require Import QArith.
From stdpp Require Import fin_sets gmap.
From Verif Require Import Foliation Repair RepairFacts FoliationSpec FoliationFacts.
Local Open Scope Z_scope.

(** Two cells on a common facet: vertices 2,3,4 on slice 1, 5 and 6 on slice 2. *)
Definition sample_label (v : positive) : Z := if bool_decide (v ∈ [5; 6]%positive) then 2 else 1.
Definition sample_delaunay : delaunay :=
  mkDelaunay [2; 3; 4; 5; 6]%positive [[2; 3; 4; 5]; [3; 4; 5; 6]]%positive
    [([2; 3; 4; 5]%positive, 0%nat); ([2; 3; 4; 5]%positive, 1%nat); ([2; 3; 4; 5]%positive, 2%nat); ([2; 3; 4; 5]%positive, 3%nat);
     ([3; 4; 5; 6]%positive, 0%nat); ([3; 4; 5; 6]%positive, 1%nat); ([3; 4; 5; 6]%positive, 2%nat)]
    [([2; 3; 4; 5]%positive, 0%nat, 1%nat); ([2; 3; 4; 5]%positive, 0%nat, 2%nat); ([2; 3; 4; 5]%positive, 0%nat, 3%nat);
     ([2; 3; 4; 5]%positive, 1%nat, 2%nat); ([2; 3; 4; 5]%positive, 1%nat, 3%nat); ([2; 3; 4; 5]%positive, 2%nat, 3%nat);
     ([3; 4; 5; 6]%positive, 0%nat, 3%nat); ([3; 4; 5; 6]%positive, 1%nat, 3%nat); ([3; 4; 5; 6]%positive, 2%nat, 3%nat)]
    (fun _ => 7) (fun _ => 0).

(** A boolean check of [well_formed]. *)
Definition well_formedb (d : delaunay) : bool :=
  bool_decide (NoDup (d_vertices d)) &&
  forallb (fun c => (length c =? 4)%nat && bool_decide (NoDup c) && forallb (fun v => bool_decide (v ∈ d_vertices d)) c) (d_cells d) &&
  forallb (fun f => bool_decide (fst f ∈ d_cells d) && (snd f <? 4)%nat) (d_facets d) &&
  forallb (fun e => let '(c, i, j) := e in bool_decide (c ∈ d_cells d) && (i <? 4)%nat && (j <? 4)%nat && negb (i =? j)%nat) (d_edges d).
Lemma well_formedb_spec d : well_formedb d = true -> well_formed d.
Proof.
  unfold well_formedb. rewrite !andb_true_iff, !forallb_forall. intros (((A & B) & C) & D).
  split; [apply bool_decide_eq_true in A; exact A|]. split; [|split].
  - intros c Hc. apply elem_of_list_In, B in Hc. rewrite !andb_true_iff, forallb_forall in Hc. destruct Hc as ((L & N) & V).
    split; [apply Nat.eqb_eq, L|]. split; [apply bool_decide_eq_true in N; exact N|].
    intros v Hv. apply elem_of_list_In, V in Hv. apply bool_decide_eq_true in Hv. exact Hv.
  - intros c i Hf. apply elem_of_list_In, C in Hf. cbn [fst snd] in Hf. apply andb_true_iff in Hf as [H1 H2].
    apply bool_decide_eq_true in H1. apply Nat.ltb_lt in H2. auto.
  - intros c i j He. apply elem_of_list_In, D in He. cbv beta iota in He. rewrite !andb_true_iff in He. destruct He as (((H1 & H2) & H3) & H4).
    apply bool_decide_eq_true in H1. apply Nat.ltb_lt in H2, H3. apply negb_true_iff, Nat.eqb_neq in H4. auto.
Qed.
Lemma sample_well_formed : well_formed sample_delaunay.
Proof. apply well_formedb_spec. vm_compute. reflexivity. Qed.

(** Consecutive triples. *)
Fixpoint triples (l : list positive) : list (list positive) :=
  match l with
  | a :: r => match r with b :: c :: _ => [a; b; c] :: triples r | _ => [] end
  | [] => []
  end.
(** The cone with apex the last vertex over the strip of the other vertices. *)
Definition cone (vs : list positive) : list (list positive) :=
  match rev vs with [] => [] | apex :: rest => map (cons apex) (triples rest) end.
Definition cone_remove (d : delaunay) (S : gset positive) : delaunay :=
  let vs := List.filter (fun v => negb (bool_decide (v ∈ S))) (d_vertices d) in
  mkDelaunay vs (cone vs) [] [] (d_vinfo d) (d_cinfo d).

Lemma triples_spec l t : NoDup l -> t ∈ triples l -> length t = 3%nat /\ NoDup t /\ forall v, v ∈ t -> v ∈ l.
Proof.
  induction l as [|a l IH]; intros N H; [inversion H|]. destruct l as [|b [|c l]]; [inversion H..|].
  change (triples (a :: b :: c :: l)) with ([a; b; c] :: triples (b :: c :: l)) in H.
  apply elem_of_cons in H as [->|H].
  - split; [reflexivity|]. split.
    + rewrite !NoDup_cons, !elem_of_cons in *. split; [rewrite elem_of_nil; tauto|]. split; [rewrite elem_of_nil; tauto|]. split; [apply not_elem_of_nil|constructor].
    + intros v Hv. rewrite !elem_of_cons in *. rewrite elem_of_nil in Hv. tauto.
  - apply NoDup_cons in N as [_ N]. destruct (IH N H) as (L & ND & V). split; [exact L|]. split; [exact ND|].
    intros v Hv. right. apply V, Hv.
Qed.
Lemma cone_spec vs c : NoDup vs -> c ∈ cone vs -> length c = 4%nat /\ NoDup c /\ forall v, v ∈ c -> v ∈ vs.
Proof.
  intros N H. unfold cone in H. destruct (rev vs) as [|a r] eqn:E; [inversion H|].
  assert (NR : NoDup (a :: r)).
  { rewrite <- E. apply NoDup_ListNoDup, NoDup_rev, NoDup_ListNoDup, N. }
  assert (RV : forall v, v ∈ a :: r -> v ∈ vs).
  { intros v Hv. rewrite <- E in Hv. apply elem_of_list_In in Hv. apply elem_of_list_In, in_rev, Hv. }
  apply elem_of_list_fmap in H as (t & -> & Ht). apply NoDup_cons in NR as [NA NR].
  destruct (triples_spec r t NR Ht) as (L & ND & V). split; [cbn; congruence|]. split.
  - apply NoDup_cons. split; [intros K; apply NA, V, K|exact ND].
  - intros v Hv. apply RV. apply elem_of_cons in Hv as [->|Hv]; [left|right; apply V, Hv].
Qed.
Lemma cone_removes : removes cone_remove.
Proof.
  intros d S [N W]. unfold cone_remove. set (vs := List.filter _ _).
  assert (NV : NoDup vs). { apply NoDup_ListNoDup, List.NoDup_filter, NoDup_ListNoDup, N. }
  assert (EV : forall v, v ∈ vs <-> v ∈ d_vertices d /\ v ∉ S).
  { intros v. unfold vs. rewrite elem_of_list_In, filter_In, <- elem_of_list_In, negb_true_iff, bool_decide_eq_false. reflexivity. }
  split; [|split].
  - split; [exact NV|]. intros c Hc. apply cone_spec; assumption.
  - exact EV.
  - reflexivity.
Qed.

(** Sixty vertices, one per slice. *)
Definition tower : delaunay :=
  let vs := map Pos.of_succ_nat (seq 0 60) in mkDelaunay vs (cone vs) [] [] (fun _ => 0) (fun _ => 0).
Lemma tower_wf : wf tower.
Proof.
  assert (N : NoDup (map Pos.of_succ_nat (seq 0 60))) by (apply (bool_decide_unpack _); vm_compute; exact I).
  split; [exact N|]. intros c Hc. apply cone_spec; assumption.
Qed.
Lemma tower_covered : covered tower.
Proof.
  assert (H : forallb (fun v => existsb (fun c => existsb (Pos.eqb v) c) (d_cells tower)) (d_vertices tower) = true) by (vm_compute; reflexivity).
  rewrite forallb_forall in H. intros v Hv. apply elem_of_list_In, H, existsb_exists in Hv as (c & Hc & K).
  apply existsb_exists in K as (w & Hw & E). apply Pos.eqb_eq in E. subst w. exists c. rewrite !elem_of_list_In. auto.
Qed.
Lemma tower_range v : v ∈ d_vertices tower -> 0 <= Z.pos v <= INT32_MAX.
Proof.
  intros H. unfold tower, d_vertices in H. apply elem_of_list_fmap in H as (i & -> & Hi). apply elem_of_list_In, in_seq in Hi.
  unfold INT32_MAX. lia.
Qed.
Lemma tower_not_repaired : exists d', repair Z.pos elements cone_remove false tower = Val (Some d') /\ has_valid_timevalues d' = Val false /\
  length (d_vertices d') = 10%nat.
Proof. eexists. split; [vm_compute; reflexivity|]. split; vm_compute; reflexivity. Qed.
