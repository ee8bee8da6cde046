(** Member repairs, pairing of points and times, vertex times, and a
    retriangulation for which bounded repair does not reach causality. *)
From Verif Require Import Base Config Foliation Repair RepairFacts FoliationSpec FoliationFacts FoliationProps.
From Coq Require Import QArith Qround Qabs Lqa Sorting.Sorted.
From stdpp Require Import fin_sets gmap.
From Verif Require Import Foliation Repair RepairFacts FoliationSpec FoliationFacts FoliationProps.
Local Open Scope Z_scope.

Lemma reports_same expected d d' f : d_vertices d' = d_vertices d -> d_cells d' = d_cells d -> d_facets d' = d_facets d ->
  d_edges d' = d_edges d -> reports expected d' f -> reports expected d f.
Proof.
  intros V C F E [A B Cc D G H I J K L M N O P]. rewrite V, C, F, E in *. constructor; assumption.
Qed.
Lemma well_formed_same d d' : d_vertices d' = d_vertices d -> d_cells d' = d_cells d -> d_facets d' = d_facets d ->
  d_edges d' = d_edges d -> well_formed d -> well_formed d'.
Proof. intros V C F E. unfold well_formed. rewrite V, C, F, E. auto. Qed.

Section Members.
Context (expected : positive -> Z).
Context (iter : gset positive -> list positive) (Hiter : forall S, iter S ≡ₚ elements S).

Lemma built_on_cell d f v : well_formed d -> construct expected d = Val f -> on_cell (f_delaunay f) v ->
  d_vinfo (f_delaunay f) v = expected v.
Proof.
  intros W E (c & Hc & Hv). destruct (construct_inv expected d f W E) as (NE & NO & R & GC & IV).
  destruct (r_cells _ _ _ R) as [EC _]. rewrite EC in Hc. destruct W as (_ & WC & _). destruct (WC c Hc) as (_ & _ & V).
  apply (r_time _ _ _ R), V, Hv.
Qed.
Lemma built_no_incorrect d f : well_formed d -> construct expected d = Val f ->
  fix_vertices expected iter (f_delaunay f) = (f_delaunay f, false).
Proof using Hiter.
  intros W E. assert (N : find_incorrect_vertices expected iter (f_delaunay f) = []).
  { destruct (find_incorrect_vertices expected iter (f_delaunay f)) as [|v l] eqn:Q; [reflexivity|].
    assert (I : v ∈ find_incorrect_vertices expected iter (f_delaunay f)) by (rewrite Q; left).
    apply (elem_incorrect expected iter Hiter) in I as [O D]. exfalso. apply D. eapply built_on_cell; eassumption. }
  unfold fix_vertices. rewrite N. cbn [fold_left]. destruct (f_delaunay f); reflexivity.
Qed.
Lemma member_fix_vertices_built d f : well_formed d -> construct expected d = Val f ->
  member_fix_vertices expected iter f = Val (f, false).
Proof using Hiter. intros W E. unfold member_fix_vertices. rewrite (built_no_incorrect d f W E). reflexivity. Qed.

(** Any object, whatever its stored times: those of vertices on cells can be
    changed from outside through the handles it gives out. *)
Lemma check_vertices_iff d : check_vertices expected d = true <-> forall v, v ∈ d_vertices d -> d_vinfo d v = expected v.
Proof using.
  unfold check_vertices. rewrite forallb_forall. unfold is_vertex_timevalue_correct. split; intros H v Hv.
  - symmetry. apply Z.eqb_eq, H, elem_of_list_In, Hv.
  - apply Z.eqb_eq. symmetry. apply H, elem_of_list_In, Hv.
Qed.
Lemma member_fix_vertices_any f : well_formed (f_delaunay f) -> d_vertices (f_delaunay f) <> [] -> no_overflow expected (f_delaunay f) ->
  exists g b, member_fix_vertices expected iter f = Val (g, b) /\
    (b = true <-> exists v, on_cell (f_delaunay f) v /\ d_vinfo (f_delaunay f) v <> expected v) /\
    (b = true -> reports expected (f_delaunay f) g) /\ (b = false -> g = f).
Proof using Hiter.
  intros W NE NO. unfold member_fix_vertices, fix_vertices.
  set (bad := find_incorrect_vertices expected iter (f_delaunay f)).
  assert (BB : negb (bool_decide (bad = [])) = true <-> exists v, on_cell (f_delaunay f) v /\ d_vinfo (f_delaunay f) v <> expected v).
  { rewrite negb_true_iff, bool_decide_eq_false. split.
    - intros N. destruct bad as [|v l] eqn:Q; [congruence|].
      assert (I : v ∈ bad) by (rewrite Q; left). unfold bad in I. apply (elem_incorrect expected iter Hiter) in I as [O D]. exists v. auto.
    - intros (v & O & D) Q. assert (I : v ∈ bad) by (apply (elem_incorrect expected iter Hiter); auto). rewrite Q in I. inversion I. }
  destruct (negb (bool_decide (bad = []))) eqn:B.
  - match goal with |- context [construct expected ?x] => set (d' := x) end.
    assert (W' : well_formed d') by (eapply well_formed_same; [..|exact W]; reflexivity).
    destruct (construct_spec expected d' W') as (g & EG & RG & _); [exact NE|exact NO|].
    rewrite EG. cbn [bind]. exists g, true. split; [reflexivity|]. split; [exact BB|]. split; [|discriminate].
    intros _. eapply reports_same; [..|exact RG]; reflexivity.
  - exists f, false. split; [reflexivity|]. split; [exact BB|]. split; [discriminate|reflexivity].
Qed.

Lemma built_cells d f : well_formed d -> construct expected d = Val f ->
  cells_defined (f_delaunay f) /\ four (f_delaunay f) /\
  (forall c, c ∈ d_cells d -> cell_class (f_delaunay f) c = d_cinfo (f_delaunay f) c /\
     (cell_class (f_delaunay f) c = ACAUSAL <-> ~ causal_cell expected c)).
Proof using.
  intros W E. destruct (construct_inv expected d f W E) as (NE & NO & R & GC & IV).
  destruct (r_cells _ _ _ R) as [EC _]. pose proof W as (_ & WC & _).
  assert (TI : forall c, c ∈ d_cells d -> times (d_vinfo (f_delaunay f)) c = times expected c).
  { intros c Hc. rewrite IV. apply classified_times; assumption. }
  split; [|split].
  - intros c Hc. rewrite EC in Hc. rewrite TI by exact Hc. apply defined_iff; [apply (WC c Hc)|]. intros v w. apply NO, Hc.
  - intros c Hc. rewrite EC in Hc. apply (WC c Hc).
  - intros c Hc. unfold cell_class. rewrite TI, GC by exact Hc. split; [reflexivity|].
    destruct (WC c Hc) as (L & _). apply (classify_exact expected c L).
Qed.

Lemma member_fix_cells_built d f : well_formed d -> construct expected d = Val f ->
  exists g b, member_fix_cells expected f = Val (g, b) /\ reports expected d g /\
    (b = true <-> exists c, c ∈ d_cells d /\ ~ causal_cell expected c) /\ (b = false -> g = f).
Proof using.
  intros W E. destruct (construct_inv expected d f W E) as (NE & NO & R & GC & IV).
  destruct (built_cells d f W E) as (DF & F4 & CL).
  destruct (r_cells _ _ _ R) as [EC _]. destruct (r_vertices _ _ _ R) as [EV _]. destruct (r_facets _ _ _ R) as [EF _]. destruct (r_edges _ _ _ R) as [EE _].
  destruct (fix_cells_spec (f_delaunay f) DF F4) as (d' & b & E1 & V1 & C1 & F1 & E1' & I1 & K1 & _ & B1).
  unfold member_fix_cells. rewrite E1. cbn [bind fst snd].
  assert (BB : b = true <-> exists c, c ∈ d_cells d /\ ~ causal_cell expected c).
  { rewrite B1, EC. split; intros (c & Hc & K); exists c; (split; [exact Hc|]); destruct (CL c Hc) as [Q1 Q2].
    - destruct K as [K|K]; [congruence|tauto].
    - right. tauto. }
  destruct b.
  - assert (W' : well_formed d') by (eapply well_formed_same; [..|exact W]; congruence).
    destruct (construct_spec expected d' W') as (g & EG & RG & _).
    + congruence.
    + intros c v w. rewrite C1, EC. apply NO.
    + rewrite EG. cbn [bind]. exists g, true. split; [reflexivity|]. split; [|split; [exact BB|discriminate]].
      eapply reports_same; [..|exact RG]; congruence.
  - exists f, false. split; [reflexivity|]. split; [exact R|]. split; [exact BB|reflexivity].
Qed.

Lemma same_class vi c k k' : class_is vi c k -> class_is vi c k' -> k = k'.
Proof using.
  intros (A & B & C & D & [E|[E|[E|E]]]) (A' & B' & C' & D' & _); rewrite E; symmetry.
  - apply A', A, E.
  - apply B', B, E.
  - apply C', C, E.
  - apply D', D, E.
Qed.
Lemma member_fix_cells_any f : well_formed (f_delaunay f) -> d_vertices (f_delaunay f) <> [] -> no_overflow expected (f_delaunay f) ->
  no_overflow (d_vinfo (f_delaunay f)) (f_delaunay f) ->
  exists g b, member_fix_cells expected f = Val (g, b) /\
    (b = true <-> exists c, c ∈ d_cells (f_delaunay f) /\
       (~ class_is (d_vinfo (f_delaunay f)) c (d_cinfo (f_delaunay f) c) \/ ~ causal_cell (d_vinfo (f_delaunay f)) c)) /\
    (b = true -> reports expected (f_delaunay f) g) /\ (b = false -> g = f).
Proof using.
  intros W NE NO NS. pose proof W as (_ & WC & _).
  assert (DF : cells_defined (f_delaunay f)).
  { intros c Hc. apply defined_iff; [apply (WC c Hc)|]. intros v w. apply NS, Hc. }
  assert (F4 : four (f_delaunay f)) by (intros c Hc; apply (WC c Hc)).
  destruct (fix_cells_spec (f_delaunay f) DF F4) as (d' & b & E1 & V1 & C1 & F1 & E1' & I1 & K1 & _ & B1).
  unfold member_fix_cells. rewrite E1. cbn [bind fst snd].
  assert (BB : b = true <-> exists c, c ∈ d_cells (f_delaunay f) /\
       (~ class_is (d_vinfo (f_delaunay f)) c (d_cinfo (f_delaunay f) c) \/ ~ causal_cell (d_vinfo (f_delaunay f)) c)).
  { rewrite B1. split; intros (c & Hc & K); exists c; (split; [exact Hc|]); destruct (WC c Hc) as (L & _);
      pose proof (classify_exact (d_vinfo (f_delaunay f)) c L) as Q; pose proof Q as (_ & _ & _ & Q4 & _); unfold cell_class in *.
    - destruct K as [K|K]; [left; intros Q'; apply K; eapply same_class; eassumption|right; apply Q4; exact K].
    - destruct K as [K|K]; [left; intros Q'; apply K; rewrite Q'; exact Q|right; apply Q4; exact K]. }
  destruct b.
  - assert (W' : well_formed d') by (eapply well_formed_same; [..|exact W]; congruence).
    destruct (construct_spec expected d' W') as (g & EG & RG & _).
    + congruence.
    + intros c v w. rewrite C1. apply NO.
    + rewrite EG. cbn [bind]. exists g, true. split; [reflexivity|]. split; [exact BB|]. split; [|discriminate].
      intros _. eapply reports_same; [..|exact RG]; congruence.
  - exists f, false. split; [reflexivity|]. split; [exact BB|]. split; [discriminate|reflexivity].
Qed.

Context (remove : delaunay -> gset positive -> delaunay) (HR : removes remove).
Lemma member_is_fixed_built d f : well_formed d -> construct expected d = Val f ->
  (forall v, v ∈ d_vertices d -> 0 <= expected v <= INT32_MAX) ->
  (forall c, c ∈ d_cells d -> causal_cell expected c) /\ member_is_fixed expected iter remove f = Val (f, false) \/
  (exists c, c ∈ d_cells d /\ ~ causal_cell expected c) /\
  (exists d', (length (d_vertices d') < length (d_vertices d))%nat /\ (forall v, v ∈ d_vertices d' -> v ∈ d_vertices d) /\
     member_is_fixed expected iter remove f = let! g := construct expected d' in Val (g, true)).
Proof using Hiter HR.
  intros W E RG. destruct (construct_inv expected d f W E) as (NE & NO & R & GC & IV).
  destruct (built_cells d f W E) as (DF & F4 & CL).
  destruct (r_cells _ _ _ R) as [EC _]. destruct (r_vertices _ _ _ R) as [EV _].
  destruct (fix_cells_spec (f_delaunay f) DF F4) as (d' & b & E1 & V1 & C1 & F1 & E1' & I1 & K1 & _ & B1).
  unfold member_is_fixed. rewrite (built_no_incorrect d f W E), E1. cbn [bind fst snd].
  assert (W' : wf d').
  { unfold wf. rewrite V1, C1, EV, EC. destruct W as (A & B & _). auto. }
  assert (T' : times_in_range d').
  { intros v Hv. rewrite V1, EV in Hv. rewrite I1. rewrite (r_time _ _ _ R) by exact Hv. apply RG, Hv. }
  destruct (fix_timevalues_spec remove HR d' W' T') as (d3 & b3 & E3 & _ & _ & V3 & B30 & B31). rewrite E3. cbn [bind fst snd].
  assert (BB : b = true <-> exists c, c ∈ d_cells d /\ ~ causal_cell expected c).
  { rewrite B1, EC. split; intros (c & Hc & K); exists c; (split; [exact Hc|]); destruct (CL c Hc) as [Q1 Q2].
    - destruct K as [K|K]; [congruence|tauto].
    - right. tauto. }
  assert (HV : has_valid_timevalues d' = has_valid_timevalues (f_delaunay f)) by (apply has_valid_same; assumption).
  destruct (is_foliated_iff expected d f W E) as (fb & EFB & FB). unfold is_foliated in EFB.
  destruct b3.
  - destruct (B31 eq_refl) as [HF L]. right. split.
    + apply BB. destruct b; [reflexivity|]. exfalso. assert (fb = true); [|congruence]. apply FB. intros c Hc.
      destruct (CL c Hc) as [_ Q]. pose proof W as (_ & WC & _). destruct (WC c Hc) as (L4 & _).
      apply causal_type_iff; [exact L4|]. destruct (classify_total (times expected c)) as [K|K]; [unfold times; rewrite map_length; exact L4| |exact K].
      exfalso. assert (false = true); [|discriminate]. apply B1. exists c. rewrite EC. split; [exact Hc|]. right.
      unfold cell_class. rewrite IV, classified_times by assumption. exact K.
    + exists d3. split; [congruence|]. split.
      * intros v Hv. apply V3 in Hv as [Hv _]. congruence.
      * rewrite orb_true_r. reflexivity.
  - destruct (B30 eq_refl) as [-> HT]. assert (fb = true) as -> by congruence. left. split; [apply FB; reflexivity|].
    destruct b; [|reflexivity]. exfalso. destruct (proj1 BB eq_refl) as (c & Hc & K). apply K, (proj1 FB eq_refl), Hc.
Qed.
End Members.

(** ** Points and times *)
Lemma pair_times_val {P : Type} (ps : list P) ts : length ps = length ts -> List.Forall in_int32 ts -> pair_times ps ts = Val (combine ps ts).
Proof.
  revert ts. induction ps as [|p ps IH]; intros [|t ts] L F; try discriminate; [reflexivity|].
  inversion F as [|? ? Ht F']; subst. cbn [pair_times combine]. rewrite (proj2 (in_int32b_spec t) Ht).
  rewrite IH by (auto; cbn in L; congruence). reflexivity.
Qed.
Lemma pair_times_out {P : Type} (ps : list P) ts : length ps = length ts -> ~ List.Forall in_int32 ts -> pair_times ps ts = Throws OutOfRange.
Proof.
  revert ts. induction ps as [|p ps IH]; intros [|t ts] L F; try discriminate; [destruct F; constructor|].
  cbn [pair_times]. destruct (in_int32b t) eqn:B; [|reflexivity]. apply in_int32b_spec in B.
  rewrite IH; [reflexivity|cbn in L; congruence|]. intros K. apply F. constructor; assumption.
Qed.
Lemma make_causal_vertices_spec {P : Type} (ps : list P) ts :
  (length ps <> length ts -> make_causal_vertices ps ts = Throws LengthError) /\
  (length ps = length ts -> ~ List.Forall in_int32 ts -> make_causal_vertices ps ts = Throws OutOfRange) /\
  (length ps = length ts -> List.Forall in_int32 ts -> make_causal_vertices ps ts = Val (combine ps ts)).
Proof.
  unfold make_causal_vertices. split; [|split].
  - intros N. rewrite (proj2 (Nat.eqb_neq _ _) N). reflexivity.
  - intros L F. rewrite (proj2 (Nat.eqb_eq _ _) L). apply pair_times_out; assumption.
  - intros L F. rewrite (proj2 (Nat.eqb_eq _ _) L). apply pair_times_val; assumption.
Qed.

(** ** Vertex times *)
Lemma lround_near q z : (Qabs (q - inject_Z z) < 1 # 2)%Q -> lround q = z.
Proof.
  intros H. apply Qabs_Qlt_condition in H as [H1 H2]. unfold lround. destruct (Qle_bool 0 q) eqn:E.
  - pose proof (Qfloor_le (q + (1 # 2))) as A. pose proof (Qlt_floor (q + (1 # 2))) as B.
    rewrite inject_Z_plus in B. set (f := Qfloor (q + (1 # 2))) in *.
    assert (inject_Z f < inject_Z z + 1)%Q by lra. assert (inject_Z z < inject_Z f + inject_Z 1)%Q by lra.
    change 1%Q with (inject_Z 1) in *. rewrite <- inject_Z_plus, <- Zlt_Qlt in *. lia.
  - pose proof (Qle_ceiling (q - (1 # 2))) as A. pose proof (Qceiling_lt (q - (1 # 2))) as B.
    replace (Qceiling (q - (1#2)) - 1) with (Qceiling (q - (1#2)) + -1) in B by lia. rewrite inject_Z_plus in B.
    set (f := Qceiling (q - (1 # 2))) in *.
    assert (inject_Z f < inject_Z z + inject_Z 1)%Q by (change (inject_Z (-1)) with (-1)%Q in B; change (inject_Z 1) with 1%Q; lra).
    assert (inject_Z z < inject_Z f + inject_Z 1)%Q by (change (inject_Z 1) with 1%Q; lra).
    rewrite <- inject_Z_plus, <- Zlt_Qlt in *. lia.
Qed.
Lemma lround_nonneg q : (0 <= q)%Q -> lround q = Qfloor (q + (1 # 2)).
Proof. intros H. unfold lround. rewrite (proj2 (Qle_bool_iff 0 q) H). reflexivity. Qed.
Lemma lround_mono p q : (p <= q)%Q -> lround p <= lround q.
Proof.
  intros H. unfold lround. destruct (Qle_bool 0 p) eqn:P, (Qle_bool 0 q) eqn:Q.
  - apply Qfloor_resp_le. lra.
  - apply Qle_bool_iff in P. exfalso. assert (Qle_bool 0 q = true) by (apply Qle_bool_iff; lra). congruence.
  - assert (p < 0)%Q. { apply Qnot_le_lt. intros K. apply Qle_bool_iff in K. congruence. }
    apply Qle_bool_iff in Q. transitivity 0.
    + change 0 with (Qceiling 0). apply Qceiling_resp_le. lra.
    + change 0 with (Qfloor (1 # 2)). apply Qfloor_resp_le. lra.
  - apply Qceiling_resp_le. lra.
Qed.

Lemma nearest_slice_mono rd : (forall p q, (p <= q)%Q -> fp_le (rd p) (rd q) = true) ->
  forall R R' I S z z', (0 < S)%Q -> (R <= R')%Q ->
  nearest_slice rd (Fin R) (Fin I) (Fin S) = Some z -> nearest_slice rd (Fin R') (Fin I) (Fin S) = Some z' -> z <= z'.
Proof.
  intros M R R' I S z z' HS HR. unfold nearest_slice. cbn [fadd fneg].
  assert (D : forall x, fdiv rd (fadd rd x (Fin S)) (Fin S) = match x with
    | Fin a => match rd (a + S)%Q with Fin b => rd (b / S)%Q | Inf s => Inf s | NaN => NaN end | Inf s => Inf s | NaN => NaN end).
  { intros x. assert (QZ : qzero S = false) by (unfold qzero; destruct (Qeq_bool S 0) eqn:Z; [apply Qeq_bool_iff in Z; lra|reflexivity]).
    assert (QN : qneg S = false) by (unfold qneg; apply negb_false_iff, Qle_bool_iff; lra).
    destruct x as [|s|q]; cbn [fadd fdiv].
    - reflexivity.
    - rewrite QN, xorb_false_r. reflexivity.
    - destruct (rd (q + S)%Q) as [|s|b]; cbn [fdiv]; [reflexivity|rewrite QN, xorb_false_r; reflexivity|rewrite QZ; reflexivity]. }
  rewrite !D. pose proof (M (R + - I)%Q (R' + - I)%Q ltac:(lra)) as L1.
  destruct (rd (R + - I)%Q) as [|s|a]; try discriminate. destruct (rd (R' + - I)%Q) as [|s'|a']; try discriminate.
  cbn [fp_le] in L1. apply Qle_bool_iff in L1. pose proof (M (a + S)%Q (a' + S)%Q ltac:(lra)) as L2.
  destruct (rd (a + S)%Q) as [|s|b]; try discriminate. destruct (rd (a' + S)%Q) as [|s'|b']; try discriminate.
  cbn [fp_le] in L2. apply Qle_bool_iff in L2. pose proof (M (b / S)%Q (b' / S)%Q) as L3.
  assert (BD : (b / S <= b' / S)%Q) by (unfold Qdiv; apply Qmult_le_compat_r; [exact L2|apply Qlt_le_weak, Qinv_lt_0_compat, HS]).
  specialize (L3 BD). destruct (rd (b / S)%Q) as [|s|c]; try discriminate. destruct (rd (b' / S)%Q) as [|s'|c']; try discriminate.
  cbn [fp_le] in L3. apply Qle_bool_iff in L3. pose proof (lround_mono c c' L3) as L4. cbv zeta.
  destruct ((-9223372036854775808 <=? lround c) && (lround c <=? 9223372036854775807)); [|discriminate].
  destruct ((-9223372036854775808 <=? lround c') && (lround c' <=? 9223372036854775807)); [|discriminate].
  intros E1 E2. injection E1 as <-. injection E2 as <-. exact L4.
Qed.

Lemma narrow32_id z : in_int32 z -> narrow32 z = z.
Proof. unfold in_int32, INT32_MIN, INT32_MAX, narrow32. intros H. rewrite Z.mod_small by lia. lia. Qed.

Lemma Qdiv_lt_iff a b s : (0 < s)%Q -> (a < b * s <-> a / s < b)%Q.
Proof.
  intros H. split; intros K.
  - apply Qlt_shift_div_r; [exact H|exact K].
  - apply (Qmult_lt_compat_r _ _ s H) in K. unfold Qdiv in K.
    assert (E : (a * / s * s == a)%Q) by (field; lra). rewrite E in K. exact K.
Qed.
Lemma Qdiv_le_iff a b s : (0 < s)%Q -> (b * s <= a <-> b <= a / s)%Q.
Proof.
  intros H. split; intros K.
  - apply Qle_shift_div_l; [exact H|exact K].
  - apply (Qmult_le_compat_r _ _ s) in K; [|lra]. unfold Qdiv in K.
    assert (E : (a * / s * s == a)%Q) by (field; lra). rewrite E in K. exact K.
Qed.
(** Without rounding: slice z (from 1) covers the radii from half a spacing
    below I + (z-1) S to half a spacing above, lower end included. *)
Lemma nearest_exact R I S z : (0 < S)%Q -> 1 <= z <= INT32_MAX ->
  nearest_slice Fin (Fin R) (Fin I) (Fin S) = Some z <->
  (I + (inject_Z z - (3 # 2)) * S <= R /\ R < I + (inject_Z z - (1 # 2)) * S)%Q.
Proof.
  intros HS Hz. unfold nearest_slice. cbn [fadd fneg fdiv].
  assert (QZ : qzero S = false) by (unfold qzero; destruct (Qeq_bool S 0) eqn:Z; [apply Qeq_bool_iff in Z; lra|reflexivity]).
  rewrite QZ. cbv zeta. set (q := ((R + - I + S) / S)%Q).
  assert (RANGE : (I + (inject_Z z - (3 # 2)) * S <= R <-> inject_Z z - (1 # 2) <= q)%Q).
  { unfold q. rewrite <- Qdiv_le_iff by exact HS. split; intros K; lra. }
  assert (RANGE2 : (R < I + (inject_Z z - (1 # 2)) * S <-> q < inject_Z z + (1 # 2))%Q).
  { unfold q. rewrite <- Qdiv_lt_iff by exact HS. split; intros K; lra. }
  rewrite RANGE, RANGE2. clearbody q. clear RANGE RANGE2.
  assert (Z1 : (1 <= inject_Z z)%Q) by (change 1%Q with (inject_Z 1); rewrite <- Zle_Qle; lia).
  assert (CORE : lround q = z <-> (inject_Z z - (1 # 2) <= q /\ q < inject_Z z + (1 # 2))%Q).
  { split.
    - intros E. assert (P : (0 <= q)%Q).
      { destruct (Qlt_le_dec q 0) as [N|N]; [|exact N]. exfalso. assert (lround q <= lround 0) by (apply lround_mono; lra).
        change (lround 0) with 0 in H. lia. }
      rewrite lround_nonneg in E by exact P. pose proof (Qfloor_le (q + (1 # 2))) as A. pose proof (Qlt_floor (q + (1 # 2))) as B.
      rewrite E, inject_Z_plus in *. change (inject_Z 1) with 1%Q in B. lra.
    - intros [A B]. rewrite lround_nonneg by lra.
      pose proof (Qfloor_le (q + (1 # 2))) as C. pose proof (Qlt_floor (q + (1 # 2))) as D. rewrite inject_Z_plus in D.
      set (f := Qfloor (q + (1 # 2))) in *. change (inject_Z 1) with 1%Q in D.
      assert (inject_Z f < inject_Z z + inject_Z 1)%Q by (change (inject_Z 1) with 1%Q; lra).
      assert (inject_Z z < inject_Z f + inject_Z 1)%Q by (change (inject_Z 1) with 1%Q; lra).
      rewrite <- inject_Z_plus, <- Zlt_Qlt in *. lia. }
  rewrite <- CORE. unfold INT32_MAX in Hz. split.
  - destruct (_ && _); [|discriminate]. intros E. injection E as ->. reflexivity.
  - intros ->. rewrite (proj2 (Z.leb_le _ _)) by lia. rewrite (proj2 (Z.leb_le z _)) by lia. reflexivity.
Qed.

(** With IEEE double arithmetic: a vertex within a quarter spacing of layer i
    gets time i+1. *)
Lemma layer_label rd R I S i : ieee_double rd -> 0 <= i < INT32_MAX ->
  (pow2 (-900) <= S)%Q -> (S <= pow2 900)%Q -> (Qabs (R - (I + inject_Z i * S)) <= (1 # 4) * S)%Q ->
  expected_timevalue rd (Fin R) (Fin I) (Fin S) = Some (i + 1).
Proof.
  intros NR Hi S1 S2 HR. apply Qabs_Qle_condition in HR as [R1 R2].
  assert (P9 : (0 < pow2 (-900))%Q) by (vm_compute; reflexivity).
  assert (HS : (0 < S)%Q) by lra.
  unfold INT32_MAX in Hi.
  assert (I0 : (0 <= inject_Z i * S)%Q).
  { apply Qmult_le_0_compat; [change 0%Q with (inject_Z 0); rewrite <- Zle_Qle; lia|lra]. }
  assert (I1 : (inject_Z i * S <= inject_Z 2147483646 * S)%Q).
  { apply Qmult_le_compat_r; [rewrite <- Zle_Qle; lia|lra]. }
  change (inject_Z 2147483646) with (2147483646 # 1)%Q in I1.
  set (x := (inject_Z i * S)%Q) in *.
  assert (ETA : (pow2 (-1074) <= (1 # 4194304) * pow2 (-900))%Q) by (vm_compute; discriminate).
  assert (BIG : ((2147483650 # 1) * pow2 900 <= pow2 1000)%Q) by (vm_compute; discriminate).
  assert (SM : (pow2 (-1074) <= (1 # 4194304) * S)%Q) by lra.
  assert (U : (pow2 (-53) <= (1 # 9007199254740992))%Q) by (vm_compute; discriminate).
  assert (U0 : (0 <= pow2 (-53))%Q) by (vm_compute; discriminate).
  (* one rounding of a quantity at most 2147483650 S *)
  assert (STEP : forall q, (Qabs q <= (2147483650 # 1) * S)%Q -> exists q', rd q = Fin q' /\ (Qabs (q' - q) <= (1 # 1048576) * S)%Q).
  { intros q Hq. destruct (NR q) as (q' & E & B).
    - eapply Qle_trans; [exact Hq|]. eapply Qle_trans; [|exact BIG]. lra.
    - exists q'. split; [exact E|]. eapply Qle_trans; [exact B|].
      assert (pow2 (-53) * Qabs q <= (1 # 9007199254740992) * ((2147483650 # 1) * S))%Q.
      { apply Qle_trans with ((1 # 9007199254740992) * Qabs q)%Q.
        - apply Qmult_le_compat_r; [exact U|apply Qabs_nonneg].
        - lra. }
      lra. }
  unfold expected_timevalue, nearest_slice. cbn [fadd fneg].
  destruct (STEP (R + - I)%Q) as (a & Ea & Ba); [apply Qabs_Qle_condition; lra|]. rewrite Ea. cbn [fadd].
  apply Qabs_Qle_condition in Ba as [Ba1 Ba2].
  destruct (STEP (a + S)%Q) as (b & Eb & Bb); [apply Qabs_Qle_condition; lra|]. rewrite Eb. cbn [fdiv].
  apply Qabs_Qle_condition in Bb as [Bb1 Bb2].
  assert (QZ : qzero S = false) by (unfold qzero; destruct (Qeq_bool S 0) eqn:Z; [apply Qeq_bool_iff in Z; lra|reflexivity]).
  rewrite QZ.
  assert (Y1 : ((inject_Z (i + 1) - (26 # 100)) <= b / S)%Q).
  { apply Qdiv_le_iff; [exact HS|]. rewrite inject_Z_plus. change (inject_Z 1) with 1%Q.
    assert (Q : ((inject_Z i + 1 - (26 # 100)) * S == x + S - (26 # 100) * S)%Q) by (unfold x; ring). rewrite Q. lra. }
  assert (Y2 : (b / S < inject_Z (i + 1) + (26 # 100))%Q).
  { apply Qdiv_lt_iff; [exact HS|]. rewrite inject_Z_plus. change (inject_Z 1) with 1%Q.
    assert (Q : ((inject_Z i + 1 + (26 # 100)) * S == x + S + (26 # 100) * S)%Q) by (unfold x; ring). rewrite Q. lra. }
  assert (J1 : (inject_Z (i + 1) <= 2147483647 # 1)%Q) by (change (2147483647 # 1)%Q with (inject_Z 2147483647); rewrite <- Zle_Qle; lia).
  assert (J0 : (1 <= inject_Z (i + 1))%Q) by (change 1%Q with (inject_Z 1); rewrite <- Zle_Qle; lia).
  destruct (NR (b / S)%Q) as (c & Ec & Bc).
  { apply Qabs_Qle_condition. assert ((2147483650 # 1) <= pow2 1000)%Q by (vm_compute; discriminate). lra. }
  rewrite Ec. assert (Bc' : (Qabs (c - b / S) <= 1 # 100)%Q).
  { eapply Qle_trans; [exact Bc|]. assert (Qabs (b / S) <= 2147483650 # 1)%Q by (apply Qabs_Qle_condition; lra).
    assert (pow2 (-53) * Qabs (b / S) <= pow2 (-53) * (2147483650 # 1))%Q.
    { rewrite Qmult_comm. rewrite (Qmult_comm (pow2 (-53))). apply Qmult_le_compat_r; [assumption|exact U0]. }
    assert (pow2 (-53) * (2147483650 # 1) + pow2 (-1074) <= 1 # 100)%Q by (vm_compute; discriminate). lra. }
  apply Qabs_Qle_condition in Bc' as [C1 C2]. cbv zeta.
  rewrite (lround_near c (i + 1)) by (apply Qabs_Qlt_condition; lra).
  rewrite (proj2 (Z.leb_le _ _)) by lia. rewrite (proj2 (Z.leb_le (i + 1) _)) by lia. cbn [andb option_map].
  rewrite narrow32_id; [reflexivity|]. unfold in_int32, INT32_MIN, INT32_MAX. lia.
Qed.

(** ** Statements in terms of the specification *)
Lemma class_unique vi c k k' : class_is vi c k -> class_is vi c k' -> k = k'.
Proof.
  intros (A & B & C & D & E) (A' & B' & C' & D' & E').
  destruct E as [K|[K|[K|K]]]; rewrite K in *.
  - symmetry. apply A', A. reflexivity.
  - symmetry. apply B', B. reflexivity.
  - symmetry. apply C', C. reflexivity.
  - symmetry. apply D', D. reflexivity.
Qed.
Lemma defined_of d : wf d -> no_overflow (d_vinfo d) d -> cells_defined d.
Proof. intros [_ W] NO c Hc. apply defined_iff; [apply (W c Hc)|]. intros v w. apply NO, Hc. Qed.
Lemma class_of_cell d c : wf d -> c ∈ d_cells d -> class_is (d_vinfo d) c (cell_class d c).
Proof. intros [_ W] Hc. apply classify_exact, (W c Hc). Qed.

Lemma fix_cells_exact d : wf d -> no_overflow (d_vinfo d) d ->
  exists d' b, fix_cells d = Val (d', b) /\
    d_vertices d' = d_vertices d /\ d_cells d' = d_cells d /\ d_facets d' = d_facets d /\ d_edges d' = d_edges d /\
    d_vinfo d' = d_vinfo d /\
    (forall c, c ∈ d_cells d -> class_is (d_vinfo d) c (d_cinfo d' c)) /\
    (forall c, (c ∉ d_cells d \/ class_is (d_vinfo d) c (d_cinfo d c)) -> d_cinfo d' c = d_cinfo d c) /\
    (b = true <-> exists c, c ∈ d_cells d /\ (~ class_is (d_vinfo d) c (d_cinfo d c) \/ ~ causal_cell (d_vinfo d) c)).
Proof.
  intros W NO. destruct (fix_cells_spec d (defined_of d W NO) (wf_four d W)) as (d' & b & E & V & C & F & G & I & K & O & B).
  exists d', b. split; [exact E|]. do 5 (split; [assumption|]). split; [|split].
  - intros c Hc. rewrite K by exact Hc. apply class_of_cell; assumption.
  - intros c [N|Q]; [apply O, N|]. destruct (decide (c ∈ d_cells d)) as [Hc|N]; [|apply O, N].
    rewrite K by exact Hc. eapply class_unique; [apply class_of_cell; assumption|exact Q].
  - rewrite B. split; intros (c & Hc & Q); exists c; (split; [exact Hc|]); pose proof (class_of_cell d c W Hc) as CL.
    + destruct Q as [Q|Q]; [left|right].
      * intros K'. apply Q. eapply class_unique; [exact K'|exact CL].
      * apply CL. exact Q.
    + destruct Q as [Q|Q]; [left|right].
      * intros K'. apply Q. rewrite K'. exact CL.
      * apply CL. exact Q.
Qed.
Lemma fix_cells_forever d n : (2 <= n)%nat -> wf d -> no_overflow (d_vinfo d) d ->
  exists d' b, iterate_fix_cells n d = Val (d', b) /\ d_cells d' = d_cells d /\
    (forall c, c ∈ d_cells d -> class_is (d_vinfo d) c (d_cinfo d' c)) /\
    (b = true <-> exists c, c ∈ d_cells d /\ ~ causal_cell (d_vinfo d) c).
Proof.
  intros Hn W NO. destruct (iterate_fix_cells_spec n d Hn (defined_of d W NO) (wf_four d W)) as (d' & b & E & C & I & K & B).
  exists d', b. split; [exact E|]. split; [exact C|]. split.
  - intros c Hc. rewrite K by exact Hc. apply class_of_cell; assumption.
  - rewrite B. split; intros (c & Hc & Q); exists c; (split; [exact Hc|]); apply (class_of_cell d c W Hc); exact Q.
Qed.
Lemma fix_cells_overflow d : wf d -> ~ no_overflow (d_vinfo d) d -> fix_cells d = Undef.
Proof.
  intros [N W] NO. apply fix_cells_undef.
  destruct (List.Exists_dec (fun c => cell_type_defined (times (d_vinfo d) c) = false) (d_cells d)
    (fun c => bool_dec (cell_type_defined (times (d_vinfo d) c)) false)) as [H|H].
  - apply List.Exists_exists in H as (c & Hc & U). exists c. split; [apply elem_of_list_In; exact Hc|exact U].
  - exfalso. apply NO. intros c v w Hc Hv Hw. destruct (W c Hc) as (L & _).
    assert (D : cell_type_defined (times (d_vinfo d) c) = true).
    { destruct (cell_type_defined (times (d_vinfo d) c)) eqn:D; [reflexivity|]. exfalso. apply H, List.Exists_exists.
      exists c. split; [apply elem_of_list_In; exact Hc|exact D]. }
    exact (proj1 (defined_iff _ c L) D v w Hv Hw).
Qed.
Lemma check_cells_exact d : wf d -> no_overflow (d_vinfo d) d ->
  exists b, check_cells d = Val b /\
    (b = true <-> forall c, c ∈ d_cells d -> causal_cell (d_vinfo d) c /\ class_is (d_vinfo d) c (d_cinfo d c)).
Proof.
  intros W NO. rewrite check_cells_val by (apply defined_of; assumption). eexists. split; [reflexivity|].
  rewrite forallb_forall. split; intros H c Hc.
  - pose proof (class_of_cell d c W Hc) as CL. specialize (H c (proj1 (elem_of_list_In _ _) Hc)).
    apply correct_cell_iff in H as [H1 H2]; [|apply (wf_four d W c Hc)]. split; [|rewrite H2; exact CL].
    apply (causal_type_of_class _ _ _ (wf_four d W c Hc) CL). destruct CL as (_ & _ & _ & _ & [K|[K|[K|K]]]); [rewrite K; reflexivity..|contradiction].
  - apply elem_of_list_In in Hc. destruct (H c Hc) as [H1 H2]. pose proof (class_of_cell d c W Hc) as CL.
    apply correct_cell_iff; [apply (wf_four d W c Hc)|]. split.
    + intros K. apply CL in K. contradiction.
    + eapply class_unique; eassumption.
Qed.

Lemma repair_outcome expected iter remove : (forall S, iter S ≡ₚ elements S) -> removes remove ->
  forall d, wf d -> covered d -> (forall v, v ∈ d_vertices d -> 0 <= expected v <= INT32_MAX) ->
  exists d', repair expected iter remove false d = Val (Some d') /\
    (forall v, v ∈ d_vertices d' -> v ∈ d_vertices d /\ d_vinfo d' v = expected v) /\
    (forall c, c ∈ d_cells d' -> class_is expected c (d_cinfo d' c)) /\
    ((forall c, c ∈ d_cells d' -> causal_cell expected c) /\ repair expected iter remove true d = Val (Some d') \/
     (exists c, c ∈ d_cells d' /\ ~ causal_cell expected c) /\ repair expected iter remove true d = Val None /\
     (length (d_vertices d') + 50 <= length (d_vertices d))%nat /\ (54 <= length (d_vertices d))%nat).
Proof.
  intros HI HR d W CV RG. destruct (repair_spec expected iter HI remove HR d W CV RG) as (d' & E & W' & V & CI & b & HB & B1 & B2 & B3 & B4).
  exists d'. split; [exact E|]. split; [exact V|].
  assert (TI : forall c, c ∈ d_cells d' -> times (d_vinfo d') c = times expected c /\ length c = 4%nat).
  { intros c Hc. destruct W' as [_ W']. destruct (W' c Hc) as (L & _ & VC). split; [|exact L]. apply times_ext. intros v Hv.
    apply V, VC, Hv. }
  assert (CL : forall c, c ∈ d_cells d' -> class_is expected c (d_cinfo d' c)).
  { intros c Hc. destruct (TI c Hc) as [T L]. rewrite CI by exact Hc. unfold cell_class. rewrite T. apply classify_exact, L. }
  split; [exact CL|]. destruct b.
  - left. split; [|exact B4]. intros c Hc. apply (causal_type_of_class _ _ _ (proj2 (TI c Hc)) (CL c Hc)). apply (proj1 B1 eq_refl), Hc.
  - right. split; [|split; [exact B4|split; [apply B2; reflexivity|]]].
    + destruct (List.Exists_dec (fun c => causal_type (d_cinfo d' c) = false) (d_cells d') (fun c => bool_dec _ false)) as [H|H].
      * apply List.Exists_exists in H as (c & Hc & U). apply elem_of_list_In in Hc. exists c. split; [exact Hc|].
        intros K. apply (causal_type_of_class _ _ _ (proj2 (TI c Hc)) (CL c Hc)) in K. congruence.
      * exfalso. assert (false = true); [|discriminate]. apply B1. intros c Hc. destruct (causal_type (d_cinfo d' c)) eqn:Q; [reflexivity|].
        exfalso. apply H, List.Exists_exists. exists c. split; [apply elem_of_list_In, Hc|exact Q].
    + destruct (Nat.lt_ge_cases (length (d_vertices d)) 54) as [L|L]; [|exact L]. discriminate (B3 L).
Qed.
