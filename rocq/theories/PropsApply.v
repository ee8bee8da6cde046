(** Each move applies exactly where its documented local pattern is present, and a
    search fails only if the pattern is nowhere (C82). The patterns are in
    ApplySpec.v; [w_locates], [w_geo_facet] and [w_geo_edge] are the answers of CGAL's
    point location and of its geometric convexity tests. *)
From Verif Require Import Base Tracker Command Geom Simplex Pachner Foliation Moves Links MoveCore MoveTools Move26Site MoveSpec Manifold ManifoldFacts ManifoldMoves ClassFacts MoveProps Samples SampleFacts ApplySpec Apply ApplyDo.
From stdpp Require Import fin_sets gmap sorting.
From Verif Require Import Foliation.
Local Open Scope Z_scope.

(** ** C82 *)
Theorem C82_two_three : forall label junk locates geo T c T', valid T ->
  move_23 label junk locates geo T c = Done T' <->
  exists v w a b x, first_site_23 label T c v w a b x /\ nowhere T [v; w] /\
    (forall y, y ∈ c -> locates T y = true) /\ geo T c v = true /\
    replaces T [of_list [v; a; b; x]; of_list [w; a; b; x]] [of_list [v; w; a; b]; of_list [v; w; b; x]; of_list [v; w; a; x]] T'.
Proof. exact exact_23. Qed.
Print Assumptions C82_two_three.
Theorem C82_three_two : forall label junk locates geo T e T', valid T ->
  move_32 label junk locates geo T e = Done T' <->
  exists v w a b x, e = of_list [v; w] /\ site_32 label T v w a b x /\
    locates T v = true /\ locates T w = true /\ geo T e = true /\
    replaces T [of_list [v; w; a; b]; of_list [v; w; b; x]; of_list [v; w; a; x]] [of_list [v; a; b; x]; of_list [w; a; b; x]] T'.
Proof. exact exact_32. Qed.
Print Assumptions C82_three_two.
Theorem C82_two_six : forall label junk locates centroid T c0 T', valid T -> no_infinite_31 label junk T -> infinite ∉ c0 ->
  move_26 label junk locates centroid T c0 = Done T' <->
  exists a b c d e, let x := centroid (of_list [a; b; c]) in
    c0 = of_list [a; b; c; d] /\ site_26 label T a b c d e /\ x ∉ vertices T /\ x <> infinite /\
    (forall y, y ∈ [a; b; c; d] -> locates T y = true) /\
    replaces T [of_list [a; b; c; d]; of_list [a; b; c; e]]
      [of_list [x; a; b; d]; of_list [x; b; c; d]; of_list [x; a; c; d]; of_list [x; a; b; e]; of_list [x; b; c; e]; of_list [x; a; c; e]] T'.
Proof. exact exact_26. Qed.
Print Assumptions C82_two_six.
Theorem C82_six_two : forall label junk locates T v edges T', valid T -> edges ≡ₚ finite_incident_edges T v ->
  move_62 label junk locates T v edges = Done T' <->
  exists a b c d e, site_62 label T a b c v d e /\ causal label T /\ locates T v = true /\
    replaces T [of_list [v; a; b; d]; of_list [v; b; c; d]; of_list [v; a; c; d];
                of_list [v; a; b; e]; of_list [v; b; c; e]; of_list [v; a; c; e]] [of_list [a; b; c; d]; of_list [a; b; c; e]] T'.
Proof. exact exact_62. Qed.
Print Assumptions C82_six_two.
Theorem C82_four_four : forall label junk locates T e T', valid T ->
  move_44 label junk locates T e = Done T' <->
  exists p q a b top bot, e = of_list [p; q] /\ site_44 label T p q a b top bot /\
    (forall y, y ∈ [p; q; top; bot] -> locates T y = true) /\
    replaces T [of_list [p; q; a; top]; of_list [p; q; b; top]; of_list [p; q; a; bot]; of_list [p; q; b; bot]]
               [of_list [p; a; b; top]; of_list [q; a; b; top]; of_list [p; a; b; bot]; of_list [q; a; b; bot]] T'.
Proof. exact exact_44. Qed.
Print Assumptions C82_four_four.

(** A failed search of the whole manifold means that no place fits. [escape] (CGAL
    leaving the modelled states) is told apart from failure by raising. *)
Theorem C82_search_fails : forall W (G : Type) (R : choices G), choices_ok R ->
  forall escape, (forall m g, exists x, fst (escape m g) = Raised x) ->
  forall m, valid (m_cells m) -> let T := m_cells m in let label := label_of W m in
  (forall g err g', do_23 W R escape m g = (Failed err, g') ->
     ~ exists c v w a b x, first_site_23 label T c v w a b x /\ nowhere T [v; w] /\
         (forall y, y ∈ c -> w_locates W T y = true) /\ w_geo_facet W T c v = true) /\
  (forall g err g', do_32 W R escape m g = (Failed err, g') ->
     ~ exists v w a b x, site_32 label T v w a b x /\ w_locates W T v = true /\ w_locates W T w = true /\ w_geo_edge W T (of_list [v; w]) = true) /\
  (forall g err g', (forall y, w_locates W T y = true) -> do_26 W R escape m g = (Failed err, g') ->
     ~ exists a b c d e, site_26 label T a b c d e) /\
  (forall g err g', causal label T -> do_62 W R escape m g = (Failed err, g') ->
     ~ exists a b c v d e, site_62 label T a b c v d e /\ w_locates W T v = true) /\
  (forall g err g', do_44 W R escape m g = (Failed err, g') ->
     ~ exists p q a b top bot, site_44 label T p q a b top bot /\ forall y, y ∈ [p; q; top; bot] -> w_locates W T y = true).
Proof. exact @searches_fail_without_place. Qed.
Print Assumptions C82_search_fails.
Example C82_example :
  (exists c v w a b x, first_site_23 (label_of W_23 m_23) (m_cells m_23) c v w a b x) /\
  (exists v w a b x, site_32 (label_of W_23 m_32) (m_cells m_32) v w a b x) /\
  (exists a b c d e, site_26 (label_of W_26 m_26) (m_cells m_26) a b c d e) /\
  (exists a b c v d e, site_62 (label_of W_26 m_62) (m_cells m_62) a b c v d e) /\
  (exists p q a b top bot, site_44 (label_of W_44 m_44) (m_cells m_44) p q a b top bot) /\
  fst (do_26 W_23 plain no_escape m_23 tt) = Failed (mkMoveError NO_CANDIDATE TWO_SIX) /\
  fst (do_44 W_23 plain no_escape m_23 tt) = Failed (mkMoveError CAUSAL_INVALIDITY FOUR_FOUR).
Proof.
  assert (M : forall W k m m', moved W plain no_escape k m m' -> from_site W m k (m_cells m')).
  { intros W k m m' H. exact (proj1 (moved_site W plain plain_ok no_escape no_escape_modelled _ _ _ H)). }
  destruct well_formed_samples as (V1 & V2 & V3 & V4 & V5 & _).
  split; [|split; [|split; [|split; [|split; [|split; vm_compute; reflexivity]]]]].
  - destruct (M _ _ _ _ moved_m23) as [[_ (c & _ & H)]|[[K _]|[[K _]|[[K _]|[K _]]]]]; try discriminate K.
    destruct (proj1 (exact_23 _ _ _ _ _ _ _ (proj1 V1)) H) as (v & w & a & b & x & H' & _). exists c, v, w, a, b, x. exact H'.
  - destruct (M _ _ _ _ moved_m32) as [[K _]|[[_ (e & _ & H)]|[[K _]|[[K _]|[K _]]]]]; try discriminate K.
    destruct (proj1 (exact_32 _ _ _ _ _ _ _ (proj1 V2)) H) as (v & w & a & b & x & _ & H' & _). exists v, w, a, b, x. exact H'.
  - exists 3%positive, 4%positive, 6%positive, 2%positive, 7%positive. split; [refine (bool_decide_unpack _ _); vm_compute; exact I|].
    split; [refine (bool_decide_unpack _ _); vm_compute; exact I|]. split; [refine (bool_decide_unpack _ _); vm_compute; exact I|].
    split; [refine (bool_decide_unpack _ _); vm_compute; exact I|]. exists 3. repeat split; vm_compute; reflexivity.
  - destruct (M _ _ _ _ moved_m62) as [[K _]|[[K _]|[[K _]|[[_ (v & edges & _ & HE & H)]|[K _]]]]]; try discriminate K.
    destruct (proj1 (exact_62 _ _ _ _ _ _ _ (proj1 V4) HE) H) as (a & b & c & d & e & H' & _). exists a, b, c, v, d, e. exact H'.
  - destruct (M _ _ _ _ moved_m44) as [[K _]|[[K _]|[[K _]|[[K _]|[_ (e & _ & H)]]]]]; try discriminate K.
    destruct (proj1 (exact_44 _ _ _ _ _ _ (proj1 V5)) H) as (p & q & a & b & t & o & _ & H' & _). exists p, q, a, b, t, o. exact H'.
Qed.
