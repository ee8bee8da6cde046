(** (2,6) moves and the slice of the new vertex. *)
From Verif Require Import Base Config ConfigSpec Tracker Command Geom Simplex Pachner Foliation Moves Links MoveTools MoveSpec MoveCore Move23 Move26 Move26Site Move44 MoveSound Manifold ManifoldFacts ManifoldMoves MoveProps FoliationSpec ViewerScene Radii RadiiSpec Centroid CentroidSpec CentroidFacts.
From stdpp Require Import fin_sets gmap.
From Coq Require Import QArith QArith.Qabs Lqa Lia.
From Verif Require Import Base Config ConfigSpec Tracker Command Geom Simplex Pachner Foliation Moves Links MoveTools MoveSpec MoveCore Move23 Move26 Move26Site Move44 MoveSound Manifold ManifoldFacts ManifoldMoves MoveProps FoliationSpec ViewerScene Radii RadiiSpec Centroid CentroidSpec CentroidFacts.
Local Open Scope Z_scope.

Lemma exact_effect_26 W m T' : valid (m_cells m) -> from_site W m TWO_SIX T' ->
  no_infinite_31 (label_of W m) (w_junk W) (m_cells m) ->
  exists a b c d e t, let x := w_centroid W (of_list [a; b; c]) in
    NoDup [a; b; c] /\ infinite ∉ [a; b; c; d; e] /\ of_list [a; b; c; d] ∈ m_cells m /\ of_list [a; b; c; e] ∈ m_cells m /\
    label_of W m a = t /\ label_of W m b = t /\ label_of W m c = t /\ label_of W m d = t - 1 /\ label_of W m e = t + 1 /\
    x ∈ vertices T' /\ x ∉ vertices (m_cells m) /\
    (label_of W m x = t -> sound_move (label_of W m) TWO_SIX (m_cells m) T') /\
    (label_of W m x <> t -> ~ causal (label_of W m) T').
Proof.
  intros V [[K _]|[[K _]|[[_ (c0 & Hc0 & H)]|[[K _]|[K _]]]]] NI; try discriminate.
  apply site_cell in Hc0 as (_ & F0 & _).
  apply move_26_effect in H as (a & b & c & d & e & N & F & E & ok1 & ok2 & ET & t & La & Lb & Lc & Ld & Le); try assumption.
  exists a, b, c, d, e, t. set (x := w_centroid W (of_list [a; b; c])) in *. cbv zeta.
  pose proof (proj1 (nodup6 _ _ _ _ _ _) N) as N'.
  pose proof (replaces_26 _ _ _ _ _ _ _ N ok1 ok2) as RP. rewrite <- ET in RP.
  assert (HT : forall s, s ∈ six_cells_of a b c x d e -> s ∈ T') by (intros s Hs; apply RP; right; exact Hs).
  split; [clear - N'; repeat constructor; rewrite ?elem_of_cons, ?elem_of_nil; intuition congruence|].
  split; [clear - F; rewrite !elem_of_cons, !elem_of_nil in *; tauto|].
  destruct RP as (R1 & R2 & R3 & R4 & R5).
  split; [apply R3; unfold two_cells_of; constructor|]. split; [apply R3; unfold two_cells_of; clear; set_solver|].
  do 5 (split; [assumption|]).
  split; [apply elem_of_vertices; exists (of_list [x; a; b; d]); split; [apply HT; unfold six_cells_of; constructor|rewrite elem_of_of_list; constructor]|].
  split.
  { intros Hx. apply elem_of_vertices in Hx as (s & Hs & Hxs). apply (po_absent _ _ _ ok1 s Hs). clear - Hxs. unfold of_list. cbn. set_solver. }
  split.
  - intros Lx. assert (L : labels_26 (label_of W m) a b c x d e) by (exists t; auto 10).
    destruct (two_six_sound _ _ _ _ _ _ _ _ V N F L ok1 ok2) as (S & _). rewrite <- ET in S. exact S.
  - intros Lx C'. apply Lx. clear Lx.
    assert (A1 : causal_type (cell_type (label_of W m) (of_list [x; a; b; d])) = true).
    { apply C'; [apply HT; unfold six_cells_of; constructor|]. rewrite elem_of_of_list. clear - F. rewrite !elem_of_cons, !elem_of_nil in *. tauto. }
    assert (A2 : causal_type (cell_type (label_of W m) (of_list [x; a; b; e])) = true).
    { apply C'; [apply HT; unfold six_cells_of; clear; set_solver|]. rewrite elem_of_of_list. clear - F. rewrite !elem_of_cons, !elem_of_nil in *. tauto. }
    rewrite cell_type_of_list in A1, A2 by (rewrite nodup4; clear - N'; intuition congruence).
    cbn [map] in A1, A2. rewrite La, Lb, Ld in A1. rewrite La, Lb, Le in A2.
    apply causal_bits in A1 as (s1 & b1 & b2 & b3 & b4 & Q1 & Q2 & Q3 & Q4).
    apply causal_bits in A2 as (s2 & d1 & d2 & d3 & d4 & P1 & P2 & P3 & P4).
    clear - Q1 Q2 Q3 Q4 P1 P2 P3 P4. unfold b2z in *. destruct b2; destruct b4; try (exfalso; lia); destruct d2; destruct d4; try (exfalso; lia); destruct b1; destruct d1; lia.
Qed.

(** Any order of the corners of a face. *)
Lemma sort_three (P : vertex -> vertex -> vertex -> Prop) :
  (forall a b c, P a b c -> P b a c) -> (forall a b c, P a b c -> P a c b) ->
  forall a b c, P a b c -> NoDup [a; b; c] -> exists a' b' c', P a' b' c' /\ (a' < b')%positive /\ (b' < c')%positive.
Proof.
  intros S1 S2 a b c H N.
  assert (a <> b /\ a <> c /\ b <> c) as (Nab & Nac & Nbc).
  { inversion N as [|? ? A N']; subst. inversion N' as [|? ? B _]; subst. clear - A B. set_solver. }
  destruct (Pos.lt_total a b) as [L1|[L1|L1]]; [|congruence|]; destruct (Pos.lt_total b c) as [L2|[L2|L2]]; try congruence; destruct (Pos.lt_total a c) as [L3|[L3|L3]]; try congruence.
  - exists a, b, c. auto.
  - exfalso. lia.
  - exists a, c, b. auto.
  - exists c, a, b. auto.
  - exists b, a, c. auto.
  - exists b, c, a. auto.
  - exfalso. lia.
  - exists c, b, a. auto 6.
Qed.

Section Effects.
  Variable W : world.
  Context {G : Type}.
  Variable R : choices G.
  Hypothesis RO : choices_ok R.
  Variable escape : manifold -> G -> move_result manifold * G.
  Hypothesis ES : stays_modelled escape.

  Lemma moved_26_exact m m' : valid (m_cells m) -> moved W R escape TWO_SIX m m' ->
    no_infinite_31 (label_of W m) (w_junk W) (m_cells m) ->
    exists a b c t, new_vertex_on W m m' a b c t /\
      let x := w_centroid W (of_list [a; b; c]) in
      (label_of W m x = t -> good_result W TWO_SIX m m') /\
      (label_of W m x <> t -> ~ causal (label_of W m') (m_cells m') /\ check_move W m m' TWO_SIX = false).
  Proof using RO ES.
    intros V H NI. pose proof H as H0. apply (moved_site W R RO escape ES) in H as (H & A & B).
    destruct (exact_effect_26 W m _ V H NI) as (a & b & c & d & e & t & N & K).
    set (P a b c := let x := w_centroid W (of_list [a; b; c]) in
       infinite ∉ [a; b; c; d; e] /\ of_list [a; b; c; d] ∈ m_cells m /\ of_list [a; b; c; e] ∈ m_cells m /\
       label_of W m a = t /\ label_of W m b = t /\ label_of W m c = t /\ label_of W m d = t - 1 /\ label_of W m e = t + 1 /\
       x ∈ vertices (m_cells m') /\ x ∉ vertices (m_cells m) /\
       (label_of W m x = t -> sound_move (label_of W m) TWO_SIX (m_cells m) (m_cells m')) /\
       (label_of W m x <> t -> ~ causal (label_of W m) (m_cells m'))).
    destruct (sort_three P) with (a := a) (b := b) (c := c) as (a' & b' & c' & K' & L1 & L2).
    - intros u v w (Q1 & Q2 & Q3 & Q4 & Q5 & Q6 & Q). unfold P. cbv zeta in *.
      replace (of_list [v; u; w]) with (of_list [u; v; w]) by (clear; unfold of_list; cbn; set_solver).
      replace (of_list [v; u; w; d]) with (of_list [u; v; w; d]) by (clear; unfold of_list; cbn; set_solver).
      replace (of_list [v; u; w; e]) with (of_list [u; v; w; e]) by (clear; unfold of_list; cbn; set_solver).
      split; [clear - Q1; rewrite !elem_of_cons, !elem_of_nil in *; tauto|]. auto 10.
    - intros u v w (Q1 & Q2 & Q3 & Q4 & Q5 & Q6 & Q). unfold P. cbv zeta in *.
      replace (of_list [u; w; v]) with (of_list [u; v; w]) by (clear; unfold of_list; cbn; set_solver).
      replace (of_list [u; w; v; d]) with (of_list [u; v; w; d]) by (clear; unfold of_list; cbn; set_solver).
      replace (of_list [u; w; v; e]) with (of_list [u; v; w; e]) by (clear; unfold of_list; cbn; set_solver).
      split; [clear - Q1; rewrite !elem_of_cons, !elem_of_nil in *; tauto|]. auto 10.
    - exact K.
    - exact N.
    - exists a', b', c', t. destruct K' as (Q1 & Q2 & Q3 & Q4 & Q5 & Q6 & Q7 & Q8 & Q9 & Q10 & Q11 & Q12).
      split.
      { unfold new_vertex_on. split; [exact L1|]. split; [exact L2|]. exists d, e.
        split; [exact Q1|]. auto 15. }
      cbv zeta. split; [intros Lx; apply good_of_sound; auto|].
      intros Lx. specialize (Q12 Lx). rewrite (same_label W m m' A B). split; [exact Q12|].
      apply Bool.not_true_iff_false. intros C. apply Q12. rewrite <- (same_label W m m' A B).
      apply (proj1 (proj2 (proj1 (check_move_spec _ _ _ _) C))).
  Qed.

  Variable rd : Q -> fp.
  Variable fsqrt : fp -> fp.
  Variable at_ : vertex -> point3.
  Hypothesis NR : ieee_double rd.
  Hypothesis MO : monotone rd.
  Hypothesis E0 : exact rd 0.
  Hypothesis SQ : sqrt_ok fsqrt.
  Variables I S : Q.

  Lemma moved_26_geometric m m' : valid (m_cells m) -> moved W R escape TWO_SIX m m' ->
    no_infinite_31 (label_of W m) (w_junk W) (m_cells m) ->
    m_radius m = Fin I -> m_spacing m = Fin S -> coordinates W m rd fsqrt at_ ->
    exists a b c i, new_vertex_on W m m' a b c (i + 1) /\ slice_face W m a b c (i + 1) /\
      (in_range I S i -> on_slice rd I S i (at_ a) (at_ b) (at_ c) -> small_triangle I S i (at_ a) (at_ b) (at_ c) ->
       good_result W TWO_SIX m m') /\
      (in_range I S i -> on_slice rd I S i (at_ a) (at_ b) (at_ c) -> large_triangle I S i (at_ a) (at_ b) (at_ c) -> Qle ((1 # 2) * S) (I + inject_Z i * S) ->
       ~ causal (label_of W m') (m_cells m') /\ check_move W m m' TWO_SIX = false).
  Proof using RO ES NR MO E0 SQ.
    intros V H NI HI HS (C1 & C2). destruct (moved_26_exact m m' V H NI) as (a & b & c & t & NV & GD & BD). cbv zeta in GD, BD.
    exists a, b, c, (t - 1). replace (t - 1 + 1) with t by lia. split; [exact NV|].
    assert (SF : slice_face W m a b c t).
    { destruct NV as (L1 & L2 & d & e & F & Q1 & Q2 & Q3 & Q4 & Q5 & _). split; [exact L1|]. split; [exact L2|].
      split; [clear - F; rewrite !elem_of_cons, !elem_of_nil in *; tauto|]. split; [|auto].
      exists (of_list [a; b; c; d]). split; [exact Q1|]. clear. unfold of_list. cbn. set_solver. }
    split; [exact SF|]. destruct (C2 _ _ _ _ SF) as (Fx & Ex). set (x := w_centroid W (of_list [a; b; c])) in *.
    split.
    - intros (I1 & S1 & S2 & Hi & U & RS) (rr & Hr & P1 & P2 & P3) (e & E & Le). apply GD.
      apply C1; [exact Fx|]. rewrite Ex, HI, HS.
      rewrite (centroid_stays rd fsqrt NR MO E0 SQ I S (t - 1) I1 S1 S2 Hi U RS rr _ _ _ e Hr P1 P2 P3 E Le).
      f_equal. lia.
    - intros (I1 & S1 & S2 & Hi & U & RS) (rr & Hr & P1 & P2 & P3) (e & E & Le) HR. apply BD.
      destruct (centroid_falls rd fsqrt NR MO E0 SQ I S (t - 1) I1 S1 S2 Hi U RS rr _ _ _ e Hr P1 P2 P3 E HR Le) as (t' & Et & Lt).
      rewrite (C1 x t'); [lia|exact Fx|]. rewrite Ex, HI, HS. exact Et.
  Qed.

  Lemma small_faces_good m m' : valid (m_cells m) -> moved W R escape TWO_SIX m m' ->
    no_infinite_31 (label_of W m) (w_junk W) (m_cells m) ->
    m_radius m = Fin I -> m_spacing m = Fin S -> coordinates W m rd fsqrt at_ ->
    (forall a b c i, slice_face W m a b c (i + 1) -> in_range I S i /\ on_slice rd I S i (at_ a) (at_ b) (at_ c) /\ small_triangle I S i (at_ a) (at_ b) (at_ c)) ->
    good_result W TWO_SIX m m'.
  Proof using RO ES NR MO E0 SQ.
    intros V H NI HI HS C A. destruct (moved_26_geometric m m' V H NI HI HS C) as (a & b & c & i & _ & SF & GD & _).
    destruct (A _ _ _ _ SF) as (A1 & A2 & A3). auto.
  Qed.
  Lemma large_faces_bad m m' : valid (m_cells m) -> moved W R escape TWO_SIX m m' ->
    no_infinite_31 (label_of W m) (w_junk W) (m_cells m) ->
    m_radius m = Fin I -> m_spacing m = Fin S -> coordinates W m rd fsqrt at_ ->
    (forall a b c i, slice_face W m a b c (i + 1) -> in_range I S i /\ on_slice rd I S i (at_ a) (at_ b) (at_ c) /\ large_triangle I S i (at_ a) (at_ b) (at_ c)) ->
    Qle ((1 # 2) * S) I ->
    ~ causal (label_of W m') (m_cells m') /\ check_move W m m' TWO_SIX = false.
  Proof using RO ES NR MO E0 SQ.
    intros V H NI HI HS C A HR. destruct (moved_26_geometric m m' V H NI HI HS C) as (a & b & c & i & _ & SF & _ & GD).
    destruct (A _ _ _ _ SF) as (A1 & A2 & A3). apply GD; [assumption..|].
    destruct A1 as (_ & S1 & _ & Hi & _). apply (Qle_trans _ I); [exact HR|].
    assert (P0 : (0 < pow2 (-300))%Q) by (vm_compute; reflexivity).
    assert (0 <= inject_Z i * S)%Q by (apply Qmult_le_0_compat; [change 0%Q with (inject_Z 0); rewrite <- Zle_Qle; apply Hi|apply Qlt_le_weak, (Qlt_le_trans _ _ _ P0 S1)]).
    lra.
  Qed.
End Effects.
