(** Specification vocabulary for the foliation theorems (C23, C54-C57, C59,
    C63, C64). Cells, facets and edges are those of Repair.v; nothing here uses
    the modelled algorithms. *)
From Verif Require Import Base Config Foliation Repair.
From Coq Require Import QArith Qabs.
From stdpp Require Import fin_sets gmap.
Local Open Scope Z_scope.

(** How many vertices of [c] lie on slice [t]. *)
Definition number_on (vi : positive -> Z) (c : list positive) (t : Z) : nat :=
  length (List.filter (fun v => vi v =? t) c).
(** All vertices lie on the two adjacent slices t and t+1. *)
Definition between (vi : positive -> Z) (c : list positive) (t : Z) : Prop :=
  forall v, v ∈ c -> vi v = t \/ vi v = t + 1.
(** A causal cell: two adjacent slices, both occupied. *)
Definition causal_cell (vi : positive -> Z) (c : list positive) : Prop :=
  exists t, between vi c t /\ (1 <= number_on vi c t <= 3)%nat.
(** The class [k] is exactly what the times of the vertices say. *)
Definition class_is (vi : positive -> Z) (c : list positive) (k : Z) : Prop :=
  (k = THREE_ONE <-> exists t, between vi c t /\ number_on vi c t = 3%nat) /\
  (k = TWO_TWO <-> exists t, between vi c t /\ number_on vi c t = 2%nat) /\
  (k = ONE_THREE <-> exists t, between vi c t /\ number_on vi c t = 1%nat) /\
  (k = ACAUSAL <-> ~ causal_cell vi c) /\
  (k = THREE_ONE \/ k = TWO_TWO \/ k = ONE_THREE \/ k = ACAUSAL).

(** The facet lies on slice [t]: its three vertices do. *)
Definition facet_on (vi : positive -> Z) (t : Z) (f : list positive * nat) : bool :=
  forallb (fun v => vi v =? t) (facet_vertices f).
(** End points of an edge. *)
Definition edge_ends (e : list positive * nat * nat) : positive * positive :=
  let '(c, i, j) := e in (nth i c 1%positive, nth j c 1%positive).

(** What CGAL guarantees of the simplices it enumerates. *)
Definition well_formed (d : delaunay) : Prop :=
  NoDup (d_vertices d) /\
  (forall c, c ∈ d_cells d -> length c = 4%nat /\ NoDup c /\ forall v, v ∈ c -> v ∈ d_vertices d) /\
  (forall c i, (c, i) ∈ d_facets d -> c ∈ d_cells d /\ (i < 4)%nat) /\
  (forall c i j, (c, i, j) ∈ d_edges d -> c ∈ d_cells d /\ (i < 4)%nat /\ (j < 4)%nat /\ i <> j).

(** A vertex of some cell. *)
Definition on_cell (d : delaunay) (v : positive) : Prop := exists c, c ∈ d_cells d /\ v ∈ c.
(** Every finite vertex lies on a cell (true of
    a 3-dimensional triangulation). *)
Definition covered (d : delaunay) : Prop := forall v, v ∈ d_vertices d -> on_cell d v.
(** What is assumed of CGAL's remove: exactly the given vertices disappear, the
    others keep their info, and the cells are on the remaining vertices. *)
Definition wf (d : delaunay) : Prop :=
  NoDup (d_vertices d) /\
  forall c, c ∈ d_cells d -> length c = 4%nat /\ NoDup c /\ forall v, v ∈ c -> v ∈ d_vertices d.
Definition removes (remove : delaunay -> gset positive -> delaunay) : Prop :=
  forall d S, wf d -> wf (remove d S) /\
    (forall v, v ∈ d_vertices (remove d S) <-> v ∈ d_vertices d /\ v ∉ S) /\
    (forall v, v ∈ d_vertices (remove d S) -> d_vinfo (remove d S) v = d_vinfo d v).

(** The integers from [a] to [b]. *)
Definition slices (a b : Z) : list Z := map (fun i => a + Z.of_nat i) (seq 0 (Z.to_nat (b - a + 1))).
Definition sum (l : list Z) : Z := fold_right Z.add 0 l.

(** No two vertices of a cell have times further apart than an int can hold. *)
Definition no_overflow (vi : positive -> Z) (d : delaunay) : Prop :=
  forall c v w, c ∈ d_cells d -> v ∈ c -> w ∈ c -> vi v - vi w <= INT32_MAX.

(** Everything a constructed object reports is what the triangulation and the
    expected times say. *)
Record reports (expected : positive -> Z) (d : delaunay) (f : foliated) : Prop := {
  r_vertices : d_vertices (f_delaunay f) = d_vertices d /\ f_vertices f = d_vertices d;
  r_cells : d_cells (f_delaunay f) = d_cells d /\ f_cells f = d_cells d;
  r_facets : d_facets (f_delaunay f) = d_facets d /\ f_faces f = d_facets d;
  r_edges : d_edges (f_delaunay f) = d_edges d /\ f_edges f = d_edges d;
  r_time : forall v, v ∈ d_vertices d -> d_vinfo (f_delaunay f) v = expected v;
  r_class : forall c, c ∈ d_cells d -> class_is expected c (d_cinfo (f_delaunay f) c);
  r_three_one : f_three_one f = List.filter (fun c => d_cinfo (f_delaunay f) c =? THREE_ONE) (d_cells d);
  r_two_two : f_two_two f = List.filter (fun c => d_cinfo (f_delaunay f) c =? TWO_TWO) (d_cells d);
  r_one_three : f_one_three f = List.filter (fun c => d_cinfo (f_delaunay f) c =? ONE_THREE) (d_cells d);
  r_timelike : f_timelike_edges f =
    List.filter (fun e => negb (expected (fst (edge_ends e)) =? expected (snd (edge_ends e)))) (d_edges d);
  r_spacelike : f_spacelike_edges f =
    List.filter (fun e => expected (fst (edge_ends e)) =? expected (snd (edge_ends e))) (d_edges d);
  r_slices : forall t, map snd (List.filter (fun e => fst e =? t) (f_spacelike_facets f)) =
    List.filter (facet_on expected t) (d_facets d);
  r_max : (exists v, v ∈ d_vertices d /\ expected v = f_max f) /\ forall v, v ∈ d_vertices d -> expected v <= f_max f;
  r_min : (exists v, v ∈ d_vertices d /\ expected v = f_min f) /\ forall v, v ∈ d_vertices d -> f_min f <= expected v
}.

(** Powers of two, and what is used of IEEE-754 double rounding: below 2^1000 the
    result is finite with relative error 2^-53 or absolute error 2^-1074. *)
Definition pow2 (n : Z) : Q := (2 ^ n)%Q.
Definition ieee_double (rd : Q -> fp) : Prop :=
  forall q, (Qabs q <= pow2 1000)%Q -> exists q', rd q = Fin q' /\ (Qabs (q' - q) <= pow2 (-53) * Qabs q + pow2 (-1074))%Q.

(** [n] consecutive cell repairs and the report of the last one. *)
Fixpoint iterate_fix_cells (n : nat) (d : delaunay) : checked (delaunay * bool) :=
  match n with
  | O => Val (d, false)
  | S O => fix_cells d
  | S k => let! r := fix_cells d in iterate_fix_cells k (fst r)
  end.
