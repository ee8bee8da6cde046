(** Theorems about the listings of a triangulation (C95). *)
From Verif Require Import Base Config Text TranscriptSpec Foliation Repair FoliationSpec FoliationProps RepairSample Listing ListingSpec ListingFacts.
From Verif Require TranscriptFacts TextFacts PersistSpec.
From stdpp Require Import list.
From Verif Require Import Base Config Text TranscriptSpec Foliation Repair FoliationSpec FoliationProps RepairSample Listing ListingSpec ListingFacts.
Local Open Scope Z_scope.
Local Open Scope list_scope.

(** C95. The cells listed are those of the triangulation, in its order, each corner
    with the time of its point; the class printed is the one the printed times call
    for; and there are as many of each class as the triangulation reports. *)
Theorem C95_cells : forall expected show, plain show -> forall d f,
  well_formed d -> construct expected d = Val f ->
  exists shown, read_cells (print_cells show f) = Some shown /\
    map sc_corners shown = map (map (fun v => (show v, expected v))) (d_cells d) /\
    Forall (fun c => (sc_class c = THREE_ONE <-> shows 3 c) /\ (sc_class c = TWO_TWO <-> shows 2 c) /\
                     (sc_class c = ONE_THREE <-> shows 1 c) /\
                     (sc_class c = ACAUSAL <-> ~ (shows 3 c \/ shows 2 c \/ shows 1 c))) shown /\
    number_of (fun c => sc_class c =? THREE_ONE) shown = length (f_three_one f) /\
    number_of (fun c => sc_class c =? TWO_TWO) shown = length (f_two_two f) /\
    number_of (fun c => sc_class c =? ONE_THREE) shown = length (f_one_three f).
Proof. exact told_listing. Qed.
Print Assumptions C95_cells.

(** Every vertex once, with the time expected of it in both columns. *)
Theorem C95_vertices : forall expected show, plain show -> forall d f,
  well_formed d -> construct expected d = Val f ->
  read_listing vertex_row (print_vertices show expected f) = Some (map (fun v => (show v, expected v, expected v)) (d_vertices d)).
Proof. exact vertices_told. Qed.
Print Assumptions C95_vertices.

(** Whatever times were stored since through references: each row has the point, the
    stored and the expected time. *)
Theorem C95_vertices_altered : forall expected show, plain show -> forall f,
  read_listing vertex_row (print_vertices show expected f) =
  Some (map (fun v => (show v, d_vinfo (f_delaunay f) v, expected v)) (f_vertices f)).
Proof. exact vertices_shown. Qed.
Print Assumptions C95_vertices_altered.

(** One row per edge, timelike exactly if its ends have different times; as many of
    each as reported. *)
Theorem C95_edges : forall expected d f, well_formed d -> construct expected d = Val f ->
  exists rows, read_listing edge_row (print_edges f) = Some rows /\
    rows = map (fun e => negb (expected (fst (edge_ends e)) =? expected (snd (edge_ends e)))) (d_edges d) /\
    number_of (fun b => b) rows = length (f_timelike_edges f) /\ number_of negb rows = length (f_spacelike_edges f).
Proof. exact edges_told. Qed.
Print Assumptions C95_edges.

(** The volume of every slice from the first to the last, and the totals. *)
Theorem C95_volumes : forall expected d f t, well_formed d -> construct expected d = Val f -> print_volumes f = Val t ->
  read_listing slice_row t =
  Some (map (fun s => (s, Z.of_nat (length (List.filter (facet_on expected s) (d_facets d))))) (slices (f_min f) (f_max f))).
Proof. exact volumes_told. Qed.
Print Assumptions C95_volumes.
Theorem C95_totals : forall expected d f, well_formed d -> construct expected d = Val f ->
  let n {A} (l : list A) := Z.of_nat (length l) in
  read_listing totals_row (print_foliated f) = Some [(n (d_vertices d), n (d_edges d), n (d_facets d), n (d_cells d))].
Proof. exact totals_told. Qed.
Print Assumptions C95_totals.

(** A single edge, and the neighbours of a cell, whatever their infos. *)
Theorem C95_edge : forall show, plain show -> forall vi c i j,
  let end_of x := (Z.of_nat x, show (nth x c 1%positive), vi (nth x c 1%positive)) in
  read_listing ends_row (print_edge show vi (c, i, j)) = Some [(end_of i, end_of j)].
Proof. exact edge_told. Qed.
Print Assumptions C95_edge.
Theorem C95_neighbors : forall show, plain show -> forall vi ci neighbor, (forall j, (j < 4)%nat -> length (neighbor j) = 4%nat) ->
  match split_lines (print_neighboring_cells show vi ci neighbor) with Some ls => read_neighbors 0 ls | None => None end =
  Some (map (fun j => mkShown (ci (neighbor j)) (map (fun v => (show v, vi v)) (neighbor j))) (seq 0 4)).
Proof. exact neighbors_told. Qed.
Print Assumptions C95_neighbors.

Definition sample_show (v : positive) : text := print_int (Z.pos v) ++ B " 0.5 -1".
Example C95_plain : plain sample_show.
Proof.
  intros v. unfold sample_show. split; intros H; apply in_app_iff in H as [H|H].
  - exact (TranscriptFacts.no_newline_int (Z.pos v) H).
  - revert H. apply TranscriptFacts.no_newline_lit. reflexivity.
  - cbn [print_int] in H. unfold print_int in H. cbn [Z.ltb Z.compare] in H.
    pose proof (TextFacts.digits_numeral 10 (Z.pos v) ltac:(lia) ltac:(lia)) as K.
    apply TextFacts.numeral_digits in K. rewrite List.Forall_forall in K. destruct (K _ H) as (x & D).
    unfold CLOSE in D. unfold PersistSpec.is_digit in D. lia.
  - vm_compute in H. repeat (destruct H as [H|H]; [discriminate H|]). destruct H.
Qed.
Example C95_example : well_formed sample_delaunay /\ exists f, construct sample_label sample_delaunay = Val f /\
  read_listing edge_row (print_edges f) = Some [false; false; true; false; true; true; true; true; false] /\
  read_cells (print_cells sample_show f) =
    Some [mkShown 31 [(B "2 0.5 -1", 1); (B "3 0.5 -1", 1); (B "4 0.5 -1", 1); (B "5 0.5 -1", 2)];
          mkShown 22 [(B "3 0.5 -1", 1); (B "4 0.5 -1", 1); (B "5 0.5 -1", 2); (B "6 0.5 -1", 2)]] /\
  (exists t, print_volumes f = Val t /\ read_listing slice_row t = Some [(1, 1); (2, 0)]) /\
  read_listing totals_row (print_foliated f) = Some [(5, 9, 7, 2)].
Proof.
  split; [exact sample_well_formed|]. eexists. split; [vm_compute; reflexivity|]. split; [vm_compute; reflexivity|].
  split; [vm_compute; reflexivity|]. split; [eexists; split; vm_compute; reflexivity|]. vm_compute. reflexivity.
Qed.
