(** Small specification: where each move applies, in terms of cells and times only. *)
From Verif Require Import Base Simplex Pachner Foliation MoveTools.
From stdpp Require Import fin_sets gmap.
From Verif Require Import Foliation.
Local Open Scope Z_scope.

(** [cells] are exactly the cells of [T] that contain all of [s]. *)
Definition around (T : tds) (s : list vertex) (cells : list simplex) : Prop :=
  forall c, (c ∈ T /\ forall y, y ∈ s -> y ∈ c) <-> c ∈ cells.
(** No cell of [T] contains all of [s]. *)
Definition nowhere (T : tds) (s : list vertex) : Prop := forall c, c ∈ T -> ~ forall y, y ∈ s -> y ∈ c.

(** Two finite cells on the triangle [a b x] with apexes [v] and [w] on adjacent
    slices; [a] is on the slice of [v], [b] and [x] are on the slice of [w]. *)
Definition site_23 (label : vertex -> Z) (T : tds) (v w a b x : vertex) : Prop :=
  NoDup [v; w; a; b; x] /\ infinite ∉ [v; w; a; b; x] /\
  of_list [v; a; b; x] ∈ T /\ of_list [w; a; b; x] ∈ T /\
  Z.abs (label v - label w) = 1 /\ label a = label v /\ label b = label w /\ label x = label w.

(** Exactly three cells, all finite, around the edge [v w] between adjacent slices;
    the other vertices are on these slices, not all on the same; the triangle they
    span is not there yet. *)
Definition site_32 (label : vertex -> Z) (T : tds) (v w a b x : vertex) : Prop :=
  NoDup [v; w; a; b; x] /\ infinite ∉ [v; w; a; b; x] /\
  around T [v; w] [of_list [v; w; a; b]; of_list [v; w; b; x]; of_list [v; w; a; x]] /\
  Z.abs (label v - label w) = 1 /\
  (forall y, y ∈ [a; b; x] -> label y = label v \/ label y = label w) /\ ~ (label a = label b /\ label b = label x) /\
  nowhere T [a; b; x].

(** Two finite cells on the triangle [a b c] of slice t with apexes [d] on slice t-1
    and [e] on slice t+1. *)
Definition site_26 (label : vertex -> Z) (T : tds) (a b c d e : vertex) : Prop :=
  NoDup [a; b; c; d; e] /\ infinite ∉ [a; b; c; d; e] /\
  of_list [a; b; c; d] ∈ T /\ of_list [a; b; c; e] ∈ T /\
  exists t, label a = t /\ label b = t /\ label c = t /\ label d = t - 1 /\ label e = t + 1.

(** Exactly six cells around [v], three on each side of the triangle [a b c] of its
    slice, with apexes on the adjacent slices; the triangle is not there yet. *)
Definition site_62 (label : vertex -> Z) (T : tds) (a b c v d e : vertex) : Prop :=
  NoDup [a; b; c; v; d; e] /\ infinite ∉ [a; b; c; v; d; e] /\
  around T [v] [of_list [v; a; b; d]; of_list [v; b; c; d]; of_list [v; a; c; d];
                of_list [v; a; b; e]; of_list [v; b; c; e]; of_list [v; a; c; e]] /\
  (exists t, label a = t /\ label b = t /\ label c = t /\ label v = t /\ label d = t - 1 /\ label e = t + 1) /\
  nowhere T [a; b; c].

(** Exactly four cells, all finite, around the edge [p q] of slice t, above and below
    [a] and [b] of the same slice; [a] and [b] are not joined yet. *)
Definition site_44 (label : vertex -> Z) (T : tds) (p q a b top bot : vertex) : Prop :=
  NoDup [p; q; a; b; top; bot] /\ infinite ∉ [p; q; a; b; top; bot] /\
  around T [p; q] [of_list [p; q; a; top]; of_list [p; q; b; top]; of_list [p; q; a; bot]; of_list [p; q; b; bot]] /\
  (exists t, label p = t /\ label q = t /\ label a = t /\ label b = t /\ label top = t + 1 /\ label bot = t - 1) /\
  nowhere T [a; b].
(** The place of a (2,3) move on the cell [c]: the first one in point order of the apex. *)
Definition first_site_23 (label : vertex -> Z) (T : tds) (c : simplex) (v w a b x : vertex) : Prop :=
  c = of_list [v; a; b; x] /\ site_23 label T v w a b x /\
  forall v' w' a' b' x', c = of_list [v'; a'; b'; x'] -> site_23 label T v' w' a' b' x' -> (v <= v')%positive.
