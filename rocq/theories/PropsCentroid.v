(** C92: where the vertex of a (2,6) move lands. *)
From Verif Require Import Base Config ConfigSpec Tracker Command Geom Simplex Pachner Foliation Moves Links MoveTools MoveSpec MoveCore Move26Site Manifold ManifoldFacts ManifoldMoves MoveProps FoliationSpec ViewerScene Radii RadiiSpec Centroid CentroidSpec CentroidFacts CentroidMoves Samples SampleFacts CentroidSamples.
From stdpp Require Import fin_sets gmap.
From Coq Require Import QArith QArith.Qabs.
From Verif Require Import Base Config ConfigSpec Tracker Command Geom Simplex Pachner Foliation Moves Links MoveTools MoveSpec MoveCore Move26Site Manifold ManifoldFacts ManifoldMoves MoveProps FoliationSpec ViewerScene Radii RadiiSpec Centroid CentroidSpec CentroidFacts CentroidMoves Samples SampleFacts CentroidSamples.
Local Open Scope Z_scope.

(** ** The centroid, in double arithmetic *)
(** Rounding assumptions: as C87; IEEE 754 meets them (C87_ieee). The centroid of
    three points of the sphere of slice i + 1 gets time i + 1 if the triangle is
    small; it gets a smaller time if the triangle is large. *)
Theorem C92_stays : forall rd fsqrt, ieee_double rd -> (forall p q, (p <= q)%Q -> fp_le (rd p) (rd q) = true) -> exact rd 0 -> sqrt_ok fsqrt ->
  forall I S i p q r, in_range I S i -> on_slice rd I S i p q r -> small_triangle I S i p q r ->
  vertex_time rd fsqrt (centroid rd p q r) (Fin I) (Fin S) = Some (i + 1).
Proof.
  intros rd fsqrt NR MO E0 SQ I S i p q r (I1 & S1 & S2 & Hi & U & RS) (rr & Hr & P1 & P2 & P3) (e & E & Le).
  exact (centroid_stays rd fsqrt NR MO E0 SQ I S i I1 S1 S2 Hi U RS rr p q r e Hr P1 P2 P3 E Le).
Qed.
Print Assumptions C92_stays.
Theorem C92_falls : forall rd fsqrt, ieee_double rd -> (forall p q, (p <= q)%Q -> fp_le (rd p) (rd q) = true) -> exact rd 0 -> sqrt_ok fsqrt ->
  forall I S i p q r, in_range I S i -> on_slice rd I S i p q r -> large_triangle I S i p q r -> ((1 # 2) * S <= I + inject_Z i * S)%Q ->
  exists t, vertex_time rd fsqrt (centroid rd p q r) (Fin I) (Fin S) = Some t /\ t <= i.
Proof.
  intros rd fsqrt NR MO E0 SQ I S i p q r (I1 & S1 & S2 & Hi & U & RS) (rr & Hr & P1 & P2 & P3) (e & E & Le) HR.
  exact (centroid_falls rd fsqrt NR MO E0 SQ I S i I1 S1 S2 Hi U RS rr p q r e Hr P1 P2 P3 E HR Le).
Qed.
Print Assumptions C92_falls.

(** ** The move *)
(** A successful (2,6) move has inserted the centroid of a face of a slice, below and
    above which there is a cell; the result is a good one if and only if that vertex
    has the slice's time. *)
Theorem C92_exact : forall W (G : Type) (R : choices G), choices_ok R -> forall escape, stays_modelled escape ->
  forall m m', valid (m_cells m) -> moved W R escape TWO_SIX m m' ->
  no_infinite_31 (label_of W m) (w_junk W) (m_cells m) ->
  exists a b c t, new_vertex_on W m m' a b c t /\
    let x := w_centroid W (of_list [a; b; c]) in
    (label_of W m x = t -> good_result W TWO_SIX m m') /\
    (label_of W m x <> t -> ~ causal (label_of W m') (m_cells m') /\ check_move W m m' TWO_SIX = false).
Proof. exact @moved_26_exact. Qed.
Print Assumptions C92_exact.
(** With coordinates: small faces keep the foliation, large ones break it, and the
    move check notices. *)
Theorem C92_small_faces : forall W (G : Type) (R : choices G), choices_ok R -> forall escape, stays_modelled escape ->
  forall rd fsqrt at_, ieee_double rd -> (forall p q, (p <= q)%Q -> fp_le (rd p) (rd q) = true) -> exact rd 0 -> sqrt_ok fsqrt ->
  forall I S m m', valid (m_cells m) -> moved W R escape TWO_SIX m m' ->
  no_infinite_31 (label_of W m) (w_junk W) (m_cells m) ->
  m_radius m = Fin I -> m_spacing m = Fin S -> coordinates W m rd fsqrt at_ ->
  (forall a b c i, slice_face W m a b c (i + 1) ->
     in_range I S i /\ on_slice rd I S i (at_ a) (at_ b) (at_ c) /\ small_triangle I S i (at_ a) (at_ b) (at_ c)) ->
  good_result W TWO_SIX m m'.
Proof. exact @small_faces_good. Qed.
Print Assumptions C92_small_faces.
Theorem C92_large_faces : forall W (G : Type) (R : choices G), choices_ok R -> forall escape, stays_modelled escape ->
  forall rd fsqrt at_, ieee_double rd -> (forall p q, (p <= q)%Q -> fp_le (rd p) (rd q) = true) -> exact rd 0 -> sqrt_ok fsqrt ->
  forall I S m m', valid (m_cells m) -> moved W R escape TWO_SIX m m' ->
  no_infinite_31 (label_of W m) (w_junk W) (m_cells m) ->
  m_radius m = Fin I -> m_spacing m = Fin S -> coordinates W m rd fsqrt at_ ->
  (forall a b c i, slice_face W m a b c (i + 1) ->
     in_range I S i /\ on_slice rd I S i (at_ a) (at_ b) (at_ c) /\ large_triangle I S i (at_ a) (at_ b) (at_ c)) ->
  ((1 # 2) * S <= I)%Q ->
  ~ causal (label_of W m') (m_cells m') /\ check_move W m m' TWO_SIX = false.
Proof. exact @large_faces_bad. Qed.
Print Assumptions C92_large_faces.
(** In between, the face that the move found decides. *)
Theorem C92_face : forall W (G : Type) (R : choices G), choices_ok R -> forall escape, stays_modelled escape ->
  forall rd fsqrt at_, ieee_double rd -> (forall p q, (p <= q)%Q -> fp_le (rd p) (rd q) = true) -> exact rd 0 -> sqrt_ok fsqrt ->
  forall I S m m', valid (m_cells m) -> moved W R escape TWO_SIX m m' ->
  no_infinite_31 (label_of W m) (w_junk W) (m_cells m) ->
  m_radius m = Fin I -> m_spacing m = Fin S -> coordinates W m rd fsqrt at_ ->
  exists a b c i, new_vertex_on W m m' a b c (i + 1) /\ slice_face W m a b c (i + 1) /\
    (in_range I S i -> on_slice rd I S i (at_ a) (at_ b) (at_ c) -> small_triangle I S i (at_ a) (at_ b) (at_ c) ->
     good_result W TWO_SIX m m') /\
    (in_range I S i -> on_slice rd I S i (at_ a) (at_ b) (at_ c) -> large_triangle I S i (at_ a) (at_ b) (at_ c) ->
     ((1 # 2) * S <= I + inject_Z i * S)%Q -> ~ causal (label_of W m') (m_cells m') /\ check_move W m m' TWO_SIX = false).
Proof. exact @moved_26_geometric. Qed.
Print Assumptions C92_face.

(** Two manifolds with integer coordinates, one of each kind: edges of length
    sqrt 162 on the sphere of radius 27 (spacing 9), and of length sqrt 1152 on the
    sphere of radius 24 (spacing 8). *)
Example C92_small_example : valid (m_cells m_92) /\ moved W_92 plain no_escape TWO_SIX m_92 m_92' /\
  no_infinite_31 (label_of W_92 m_92) (w_junk W_92) (m_cells m_92) /\ m_radius m_92 = Fin 9 /\ m_spacing m_92 = Fin 9 /\
  ieee_double lowest /\ (forall p q, (p <= q)%Q -> fp_le (lowest p) (lowest q) = true) /\ exact lowest 0 /\ sqrt_ok down_sqrt /\
  coordinates W_92 m_92 lowest down_sqrt (place pts_92) /\ slice_face W_92 m_92 3 5 6 (2 + 1) /\
  (forall a b c i, slice_face W_92 m_92 a b c (i + 1) ->
     in_range 9 9 i /\ on_slice lowest 9 9 i (place pts_92 a) (place pts_92 b) (place pts_92 c) /\
     small_triangle 9 9 i (place pts_92 a) (place pts_92 b) (place pts_92 c)).
Proof.
  split; [apply (well_formed_of W_92 m_92), sample_92|]. split; [exact moved_m92|]. split; [intros n _ _ _; discriminate|].
  split; [reflexivity|]. split; [reflexivity|]. split; [exact lowest_double|]. split; [exact lowest_monotone|]. split; [exact lowest_zero|].
  split; [exact down_sqrt_ok|]. split; [exact coordinates_92|]. split; [|exact face_92].
  refine (conj _ (conj _ (conj _ (conj (ex_intro _ (of_list [2; 3; 5; 6]%positive) _) _)))); [reflexivity|reflexivity|..];
    refine (bool_decide_unpack _ _); vm_compute; exact Logic.I.
Qed.
Example C92_large_example : valid (m_cells m_30) /\ moved W_30 plain no_escape TWO_SIX m_30 m_30' /\
  no_infinite_31 (label_of W_30 m_30) (w_junk W_30) (m_cells m_30) /\ m_radius m_30 = Fin 8 /\ m_spacing m_30 = Fin 8 /\
  coordinates W_30 m_30 lowest down_sqrt (place pts_30) /\ slice_face W_30 m_30 3 4 7 (2 + 1) /\
  (forall a b c i, slice_face W_30 m_30 a b c (i + 1) ->
     in_range 8 8 i /\ on_slice lowest 8 8 i (place pts_30 a) (place pts_30 b) (place pts_30 c) /\
     large_triangle 8 8 i (place pts_30 a) (place pts_30 b) (place pts_30 c)) /\ ((1 # 2) * 8 <= 8)%Q.
Proof.
  split; [apply well_formed_samples|]. split; [exact moved_m30|]. split; [intros n _ _ _; discriminate|].
  split; [reflexivity|]. split; [reflexivity|]. split; [exact coordinates_30|]. split; [|split; [exact face_30|vm_compute; discriminate]].
  refine (conj _ (conj _ (conj _ (conj (ex_intro _ (of_list [2; 3; 4; 7]%positive) _) _)))); [reflexivity|reflexivity|..];
    refine (bool_decide_unpack _ _); vm_compute; exact Logic.I.
Qed.
