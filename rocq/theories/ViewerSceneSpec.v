(** What the viewer should accept and draw (C71, C73). *)
From Verif Require Import Base Config Text ViewerImage Viewer ViewerScene.
From Coq Require Import QArith Qabs.
From stdpp Require Import sorting.
Local Open Scope Z_scope.

(** The fixture is a valid, nonempty three-dimensional triangulation with the
    declared numbers of simplices and the declared first and last time slice. *)
Definition fixture_matches (f : fixture_facts) (e : topology) : Prop :=
  fx_valid f = true /\ fx_dimension f = 3 /\ fx_vertices f <> 0 /\
  fx_vertices f = tp_vertices e /\ fx_edges f = tp_edges e /\ fx_facets f = tp_faces e /\ fx_cells f = tp_simplices e /\
  tp_min e ∈ fx_labels f /\ tp_max e ∈ fx_labels f /\ (forall l, l ∈ fx_labels f -> tp_min e <= l <= tp_max e).
(** Labels are 32-bit integers, one per vertex. *)
Definition facts_consistent (f : fixture_facts) : Prop :=
  fx_vertices f = Z.of_nat (length (fx_labels f)) /\ (forall l, l ∈ fx_labels f -> in_int32 l).

(** Lexicographic order on keys (std::array::operator<=>). *)
Inductive lex_le : list Z -> list Z -> Prop :=
| lex_nil l : lex_le [] l
| lex_lt x y a b : x < y -> lex_le (x :: a) (y :: b)
| lex_eq x a b : lex_le a b -> lex_le (x :: a) (x :: b).
(** A sorting function: any permutation in nondecreasing order of keys. *)
Definition sorts {V : Type} (key : V -> list Z) (sort : list V -> list V) : Prop :=
  forall l, sort l ≡ₚ l /\ StronglySorted lex_le (map key (sort l)).

Section Facets.
Context {V : Type}.
(** The facet of a tetrahedron opposite to one of its vertices has the three
    other vertices as corners. *)
Definition has_corners (f : list V * nat) (vs : list V) : Prop :=
  exists a v b, f = (a ++ v :: b, length a) /\ length (a ++ v :: b) = 4%nat /\ vs ≡ₚ a ++ b.
Definition facets_ok (t : complex V) : Prop := forall f, f ∈ cx_facets t -> exists vs, has_corners f vs.
(** Two representations of one triangulation: the same facets, in any order,
    each presented from either side with its vertices in any order. *)
Definition same_facets (t t' : complex V) : Prop :=
  exists l, l ≡ₚ cx_facets t' /\
    Forall2 (fun f f' => exists vs, has_corners f vs /\ has_corners f' vs) (cx_facets t) l.
(** No two corners share a key. *)
Definition keys_distinguish (key : V -> list Z) (t : complex V) : Prop :=
  forall f g vs ws u v, f ∈ cx_facets t -> g ∈ cx_facets t -> has_corners f vs -> has_corners g ws ->
    u ∈ vs -> v ∈ ws -> key u = key v -> u = v.
(** A facet on the boundary: one of the two cells at it is infinite. *)
Definition on_boundary (infinite : V) (t : complex V) (f : list V * nat) : Prop :=
  let '(c, i) := f in infinite ∈ c \/ infinite ∈ cx_neighbor t c i.
End Facets.

(** Positive when (a, b, c) is seen counterclockwise from outside, for faces
    whose outside is away from the origin. *)
Definition det3 (a b c : Q * Q * Q) : Q :=
  let '(a1, a2, a3) := a in let '(b1, b2, b3) := b in let '(c1, c2, c3) := c in
  (a1 * (b2 * c3 - b3 * c2) - a2 * (b1 * c3 - b3 * c1) + a3 * (b1 * c2 - b2 * c1))%Q.
(** The coordinates of a point. *)
Definition at_point (p : point3) (q : Q * Q * Q) : Prop := let '(x, y, z) := q in xc p = Fin x /\ yc p = Fin y /\ zc p = Fin z.
(** They are at most [r]. *)
Definition within (r : Q) (p : Q * Q * Q) : Prop :=
  let '(x, y, z) := p in (Qabs x <= r)%Q /\ (Qabs y <= r)%Q /\ (Qabs z <= r)%Q.
(** A rounding with relative error at most [u] on numbers of magnitude one or
    more up to [big] (smaller numbers: absolute error [u]). For double: u = 2^-53,
    and big, say, 2^1000. *)
Definition rounds (u big : Q) (rd : Q -> fp) : Prop :=
  forall q m, (1 <= m)%Q /\ (m <= big)%Q -> (Qabs q <= m)%Q -> exists q', rd q = Fin q' /\ (Qabs (q' - q) <= u * m)%Q.
