(** Specification vocabulary for the place of a new vertex. *)
From Verif Require Import Base Config ConfigSpec FoliationSpec ViewerScene Radii RadiiSpec Simplex Pachner Foliation Moves Manifold Centroid.
From stdpp Require Import fin_sets gmap.
From Coq Require Import QArith QArith.Qabs.
Local Open Scope Z_scope.

(** The square of the distance of two points, and the sum over the three edges of
    a triangle. *)
Definition gap2 (p q : point3) (d : Q) : Prop :=
  exists x y z x' y' z', located p x y z /\ located q x' y' z' /\ d = norm2 (x - x') (y - y') (z - z').
Definition edges2 (p q r : point3) (e : Q) : Prop :=
  exists a b c, gap2 p q a /\ gap2 q r b /\ gap2 r p c /\ (e == a + b + c)%Q.

(** The triangulation [m'] has one vertex more than [m]: the centroid of the face
    [a b c] of slice [t], a face of a cell to slice [t - 1] and of a cell to slice
    [t + 1] of [m]. Corners are in the order of their points. *)
Definition new_vertex_on (W : world) (m m' : manifold) (a b c : vertex) (t : Z) : Prop :=
  (a < b)%positive /\ (b < c)%positive /\ exists d e,
  infinite ∉ [a; b; c; d; e] /\ of_list [a; b; c; d] ∈ m_cells m /\ of_list [a; b; c; e] ∈ m_cells m /\
  label_of W m a = t /\ label_of W m b = t /\ label_of W m c = t /\ label_of W m d = t - 1 /\ label_of W m e = t + 1 /\
  w_centroid W (of_list [a; b; c]) ∈ vertices (m_cells m') /\ w_centroid W (of_list [a; b; c]) ∉ vertices (m_cells m).

(** [a b c], in the order of their points, is a face of [m] with its corners in slice [t]. *)
Definition slice_face (W : world) (m : manifold) (a b c : vertex) (t : Z) : Prop :=
  (a < b)%positive /\ (b < c)%positive /\ infinite ∉ [a; b; c] /\ (exists s, s ∈ m_cells m /\ of_list [a; b; c] ⊆ s) /\
  label_of W m a = t /\ label_of W m b = t /\ label_of W m c = t.

(** The vertices of [m] are points: their times are those the program computes from
    the coordinates, and the centroid of a face of a slice is where it puts it. *)
Definition coordinates (W : world) (m : manifold) (rd : Q -> fp) (fsqrt : fp -> fp) (at_ : vertex -> point3) : Prop :=
  (forall v t, v <> infinite -> vertex_time rd fsqrt (at_ v) (m_radius m) (m_spacing m) = Some t -> label_of W m v = t) /\
  (forall a b c t, slice_face W m a b c t ->
     w_centroid W (of_list [a; b; c]) <> infinite /\ at_ (w_centroid W (of_list [a; b; c])) = centroid rd (at_ a) (at_ b) (at_ c)).

(** Three points on the sphere of slice [i + 1], of radius R = I + i S, with the sum
    of the squared edges below 9 (0.99 R S - S^2/4), or above 9 (1.01 R S - S^2/4).
    (Exactly: the centroid is in the slice when the sum is below 9 (R S - S^2/4).) *)
Definition on_slice (rd : Q -> fp) (I S : Q) (i : Z) (p q r : point3) : Prop :=
  exists rr, layer_radius rd (Fin I) (Fin S) i = Fin rr /\ on_sphere rr p /\ on_sphere rr q /\ on_sphere rr r.
Definition small_triangle (I S : Q) (i : Z) (p q r : point3) : Prop :=
  let R := (I + inject_Z i * S)%Q in
  exists e, edges2 p q r e /\ (e <= 9 * ((99 # 100) * (R * S) - (1 # 4) * (S * S)))%Q.
Definition large_triangle (I S : Q) (i : Z) (p q r : point3) : Prop :=
  let R := (I + inject_Z i * S)%Q in
  exists e, edges2 p q r e /\ (9 * ((101 # 100) * (R * S) - (1 # 4) * (S * S)) <= e)%Q.
(** The range of the analysis: radii up to 2^20 spacings. *)
Definition in_range (I S : Q) (i : Z) : Prop :=
  let R := (I + inject_Z i * S)%Q in
  (pow2 (-300) <= I)%Q /\ (pow2 (-300) <= S)%Q /\ (S <= pow2 300)%Q /\ 0 <= i < INT32_MAX /\
  (R <= pow2 300)%Q /\ (R <= 1048576 * S)%Q.
