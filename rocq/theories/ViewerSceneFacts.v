(** Proofs about the scene. *)
From Verif Require Import Base Config Text Fnv ViewerImage Viewer ViewerScene ViewerSceneSpec.
From Coq Require Import QArith.
From stdpp Require Import sorting.
From Verif Require Import ViewerFacts.
Local Open Scope Z_scope.
Local Opaque B.

Lemma fold_min l : forall i m, fold_left Z.min l i = m <->
  ((m = i \/ m ∈ l) /\ m <= i /\ forall x, x ∈ l -> m <= x).
Proof.
  induction l as [|a l IH]; intros i m; cbn [fold_left].
  - split; [intros <-; split; [auto|split; [lia|intros x Hx; by apply elem_of_nil in Hx]]|].
    intros ([-> | H] & _ & _); [done|by apply elem_of_nil in H].
  - rewrite IH. setoid_rewrite elem_of_cons. split.
    + intros (H & L & F). split; [|split; [lia|intros x [-> | Hx]; [lia|auto]]].
      destruct H as [-> | H]; [|auto]. destruct (Z.min_spec i a) as [[_ ->] | [_ ->]]; auto.
    + intros (H & L & F). pose proof (F a (or_introl eq_refl)). split; [|split; [lia|intros x Hx; apply F; auto]].
      destruct H as [-> | [-> | H]]; [left; lia|left; lia|auto].
Qed.
Lemma fold_max l : forall i m, fold_left Z.max l i = m <->
  ((m = i \/ m ∈ l) /\ i <= m /\ forall x, x ∈ l -> x <= m).
Proof.
  induction l as [|a l IH]; intros i m; cbn [fold_left].
  - split; [intros <-; split; [auto|split; [lia|intros x Hx; by apply elem_of_nil in Hx]]|].
    intros ([-> | H] & _ & _); [done|by apply elem_of_nil in H].
  - rewrite IH. setoid_rewrite elem_of_cons. split.
    + intros (H & L & F). split; [|split; [lia|intros x [-> | Hx]; [lia|auto]]].
      destruct H as [-> | H]; [|auto]. destruct (Z.max_spec i a) as [[_ ->] | [_ ->]]; auto.
    + intros (H & L & F). pose proof (F a (or_introl eq_refl)). split; [|split; [lia|intros x Hx; apply F; auto]].
      destruct H as [-> | [-> | H]]; [left; lia|left; lia|auto].
Qed.
Lemma validate_exact f e : facts_consistent f ->
  (validate_fixture f e = Val tt <-> fixture_matches f e) /\
  (validate_fixture f e <> Val tt -> validate_fixture f e = Throws InvalidArgument).
Proof.
  intros [N R]. unfold validate_fixture, topology_counts, fixture_matches.
  destruct (fx_valid f); [|split; [split; [done|intros [? _]; done]|done]]. cbn [negb orb].
  destruct (Z.eqb_spec (fx_dimension f) 3) as [D|D]; [|split; [split; [done|intros (_ & ? & _); done]|done]]. cbn [negb].
  destruct (Z.eqb_spec (fx_vertices f) 0) as [Z0|Z0]; [split; [split; [done|intros (_ & _ & ? & _); done]|done]|].
  cbn [bind]. set (mn := fold_left Z.min _ _). set (mx := fold_left Z.max _ _).
  cbn [tp_vertices tp_edges tp_faces tp_simplices tp_min tp_max].
  assert (L : exists a l, fx_labels f = a :: l).
  { destruct (fx_labels f) as [|a l]; [cbn in N; lia|eauto]. }
  assert (Mn : forall m, mn = m <-> m ∈ fx_labels f /\ forall x, x ∈ fx_labels f -> m <= x).
  { intros m. unfold mn. rewrite fold_min. split.
    - intros (H & Hi & F). split; [|done]. destruct H as [-> | H]; [|done]. destruct L as (a & l & E). rewrite E in *.
      assert (a ∈ a :: l) as Ha by left. pose proof (F a Ha). pose proof (R a Ha) as [? ?]. replace INT32_MAX with a by lia. left.
    - intros (H & F). split; [auto|]. split; [|done]. apply R in H. unfold in_int32 in H. lia. }
  assert (Mx : forall m, mx = m <-> m ∈ fx_labels f /\ forall x, x ∈ fx_labels f -> x <= m).
  { intros m. unfold mx. rewrite fold_max. split.
    - intros (H & Hi & F). split; [|done]. destruct H as [-> | H]; [|done]. destruct L as (a & l & E). rewrite E in *.
      assert (a ∈ a :: l) as Ha by left. pose proof (F a Ha). pose proof (R a Ha) as [? ?]. replace INT32_MIN with a by lia. left.
    - intros (H & F). split; [auto|]. split; [|done]. apply R in H. unfold in_int32 in H. lia. }
  split; [|by case_match].
  assert (X : forall b : bool, (if b then Throws InvalidArgument else Val tt) = Val tt <-> b = false) by (intros []; split; congruence).
  rewrite X, !orb_false_iff, !negb_false_iff, !Z.eqb_eq, Mn, Mx. split.
  - intros (((((E1 & E2) & E3) & E4) & (A & A')) & (C & C')). repeat (split; [solve [reflexivity | assumption]|]). intros l Hl. split; auto.
  - intros (_ & _ & _ & -> & -> & -> & -> & A & C & F). repeat match goal with |- _ /\ _ => split end; try done; intros x Hx; by apply F.
Qed.

(** ** Order of keys *)
#[export] Instance lex_antisymm : AntiSymm (=) lex_le.
Proof.
  intros a b H. induction H as [l|x y a b L|x a b H IH]; inversion 1; subst; try done; try lia. f_equal. by apply IH.
Qed.
Lemma sorts_keys {V} (key : V -> list Z) s1 s2 l1 l2 : sorts key s1 -> sorts key s2 -> l1 ≡ₚ l2 ->
  map key (s1 l1) = map key (s2 l2).
Proof.
  intros S1 S2 P. destruct (S1 l1) as [P1 O1]. destruct (S2 l2) as [P2 O2].
  apply (StronglySorted_unique lex_le); [done..|]. apply Permutation_map. by rewrite P1, P2.
Qed.
Lemma map_inj_on {A C} (f : A -> C) l1 : forall l2, (forall u v, u ∈ l1 -> v ∈ l2 -> f u = f v -> u = v) ->
  map f l1 = map f l2 -> l1 = l2.
Proof.
  induction l1 as [|a l1 IH]; intros [|b l2] H E; try done. cbn in E. injection E as E1 E2.
  assert (a = b) as -> by (apply H; [left|left|done]). f_equal. apply IH; [|done].
  intros u v Hu Hv. apply H; by right.
Qed.
Lemma corners_of {V} (f : list V * nat) vs : has_corners f vs -> corners f ≡ₚ vs.
Proof.
  intros (a & v & b & -> & L & ->).
  destruct a as [|a0 [|a1 [|a2 [|a3 a]]]]; cbn in L.
  - destruct b as [|b0 [|b1 [|b2 [|]]]]; try done.
  - destruct b as [|b0 [|b1 [|]]]; try done. cbn. apply Permutation_cons_append with (l := [b0; b1]) (x := a0) || (symmetry; apply (Permutation_cons_append [b0; b1])).
  - destruct b as [|b0 [|]]; try done. cbn. symmetry. apply (Permutation_app_comm [a0; a1] [b0]).
  - destruct b; done.
  - rewrite app_length in L. cbn in L. lia.
Qed.
Lemma facet_hash_keys {V} (key : V -> list Z) l1 l2 : map key l1 = map key l2 -> facet_hash key l1 = facet_hash key l2.
Proof.
  intros E. unfold facet_hash. rewrite !flat_map_concat_map, E. done.
Qed.

Section Scene.
Context {V : Type} `{EqDecision V} (infinite : V) (key : V -> list Z) (point_of : V -> point3) (rd : Q -> fp).
Lemma orient_perm vs : orient_outward point_of rd vs ≡ₚ vs.
Proof.
  unfold orient_outward. destruct vs as [|a [|b [|c [|]]]]; try done. case_match; [|done]. constructor. apply perm_swap.
Qed.
Lemma face_of_some sort palette f : palette <> [] ->
  exists c, face_of key point_of rd sort palette f = Some (c, orient_outward point_of rd (facet_vertices sort f)) /\ c ∈ palette.
Proof.
  intros N. unfold face_of. destruct (Nat.eqb_spec (length palette) 0) as [E|E]; [by destruct palette|].
  destruct (lookup_lt_is_Some_2 palette (Z.to_nat (facet_hash key (facet_vertices sort f) mod Z.of_nat (length palette)))) as [c C].
  { pose proof (Z.mod_pos_bound (facet_hash key (facet_vertices sort f)) (Z.of_nat (length palette))). lia. }
  rewrite C. exists c. split; [done|]. by eapply elem_of_list_lookup_2.
Qed.
Lemma face_same sort1 sort2 palette f f' vs : sorts key sort1 -> sorts key sort2 -> has_corners f vs -> has_corners f' vs ->
  (forall u v, u ∈ vs -> v ∈ vs -> key u = key v -> u = v) ->
  face_of key point_of rd sort1 palette f = face_of key point_of rd sort2 palette f'.
Proof.
  intros S1 S2 C C' I. apply corners_of in C, C'. unfold face_of, facet_vertices.
  assert (E : sort1 (corners f) = sort2 (corners f')).
  { apply (map_inj_on key).
    - intros u v Hu Hv. rewrite (proj1 (S1 _)), C in Hu. rewrite (proj1 (S2 _)), C' in Hv. by apply I.
    - apply sorts_keys; [done..|]. by rewrite C, C'. }
  by rewrite E.
Qed.
Lemma colour_same sort1 sort2 palette f f' vs : sorts key sort1 -> sorts key sort2 -> has_corners f vs -> has_corners f' vs ->
  option_map fst (face_of key point_of rd sort1 palette f) = option_map fst (face_of key point_of rd sort2 palette f').
Proof.
  intros S1 S2 C C'. apply corners_of in C, C'. unfold face_of, facet_vertices.
  rewrite (facet_hash_keys key (sort1 (corners f)) (sort2 (corners f'))) by (apply sorts_keys; [done..|by rewrite C, C']).
  destruct (length palette =? 0)%nat; [done|]. by destruct (palette !! _).
Qed.
Lemma mapM_perm {A C} (f : A -> option C) l l' r : l ≡ₚ l' -> mapM f l = Some r -> exists r', mapM f l' = Some r' /\ r ≡ₚ r'.
Proof.
  intros P. revert r. induction P as [|a l l' P IH|a b l|l l' l'' P1 IH1 P2 IH2]; intros r H.
  - eauto.
  - cbn in H. destruct (f a) eqn:Fa; [|done]. cbn in H. destruct (mapM f l) eqn:M; [|done]. injection H as <-.
    destruct (IH _ eq_refl) as (r' & M' & Pr). exists (c :: r'). cbn. rewrite Fa. cbn. rewrite M'. cbn. split; [done|]. by constructor.
  - cbn in *. destruct (f a) eqn:Fa, (f b) eqn:Fb; cbn in *; try done; destruct (mapM f l) eqn:M; cbn in *; try done.
    injection H as <-. eexists. split; [done|]. constructor.
  - destruct (IH1 _ H) as (r1 & M1 & Q1). destruct (IH2 _ M1) as (r2 & M2 & Q2). exists r2. split; [done|]. by rewrite Q1.
Qed.
Lemma mapM_all {A C} (f : A -> option C) (Q : A -> C -> Prop) l : (forall a, a ∈ l -> exists c, f a = Some c /\ Q a c) ->
  exists r, mapM f l = Some r /\ Forall2 Q l r.
Proof.
  induction l as [|a l IH]; intros H; [exists []; by split; [|constructor]|].
  destruct (H a) as (c & Fc & Qc); [left|]. destruct IH as (r & M & F); [intros; apply H; by right|].
  exists (c :: r). cbn. rewrite Fc. cbn. rewrite M. cbn. split; [done|]. by constructor.
Qed.
Lemma faces_each sort r t : sorts key sort -> facets_ok t -> rc_palette r <> [] -> rc_faces r = true ->
  exists l, faces_of key point_of rd sort r t = Some l /\
    Forall2 (fun f x => fst x ∈ rc_palette r /\ has_corners f (snd x)) (cx_facets t) l.
Proof.
  intros S Ok N F. unfold faces_of. rewrite F. apply mapM_all. intros f Hf. destruct (Ok f Hf) as [vs C].
  destruct (face_of_some sort (rc_palette r) f N) as (c & E & Hc). eexists. split; [exact E|]. cbn [fst snd]. split; [done|].
  destruct C as (a & v & b & -> & L & P). exists a, v, b. split; [done|]. split; [done|].
  rewrite orient_perm. unfold facet_vertices. rewrite (proj1 (S _)).
  apply corners_of. by exists a, v, b.
Qed.
Lemma faces_same sort1 sort2 r t t' : sorts key sort1 -> sorts key sort2 -> same_facets t t' -> keys_distinguish key t ->
  forall l, faces_of key point_of rd sort1 r t = Some l ->
  exists l', faces_of key point_of rd sort2 r t' = Some l' /\ l ≡ₚ l'.
Proof.
  intros S1 S2 (fs & P & F) K l E. unfold faces_of in *. destruct (rc_faces r); [|exists l; by split].
  assert (E2 : mapM (face_of key point_of rd sort2 (rc_palette r)) fs = Some l).
  { clear P. unfold keys_distinguish in K. revert F K l E. generalize (cx_facets t) as gs. intros gs F. induction F as [|f f' gs fs' (vs & C & C') F IH]; intros K l E; [done|].
    cbn in E |- *. rewrite (face_same sort1 sort2 (rc_palette r) f f' vs S1 S2 C C') in E.
    2:{ intros u v Hu Hv Ek. refine (K f f vs vs u v _ _ C C Hu Hv Ek); left. }
    destruct (face_of key point_of rd sort2 (rc_palette r) f'); [|done]. cbn in E |- *.
    destruct (mapM _ gs) eqn:M; [|done]. injection E as <-.
    rewrite (IH) with (l := l0); [done| |done].
    intros f1 g1 vs1 ws1 u v Hf Hg. apply K; by right. }
  exact (mapM_perm _ _ _ _ P E2).
Qed.
Lemma hull_spec sort t k : sorts key sort -> facets_ok t ->
  k ∈ convex_hull_vertices infinite key sort t <->
  exists f vs u, f ∈ cx_facets t /\ on_boundary infinite t f /\ has_corners f vs /\ u ∈ vs /\ key u = k.
Proof.
  intros S Ok. unfold convex_hull_vertices. rewrite elem_of_list_In, in_flat_map. split.
  - intros ([c i] & Hf & Hk). apply elem_of_list_In in Hf. destruct (Ok _ Hf) as [vs C].
    unfold is_infinite in Hk. destruct (bool_decide_reflect (infinite ∈ c)) as [I|I];
      destruct (bool_decide_reflect (infinite ∈ cx_neighbor t c i)) as [J|J]; cbn [negb andb] in Hk; try done.
    all: apply in_map_iff in Hk as (u & <- & Hu); apply elem_of_list_In in Hu; exists (c, i), vs, u; split; [done|];
      split; [cbn; auto|]; split; [done|]; split; [|done].
    all: unfold facet_vertices in Hu; rewrite (proj1 (S _)), (corners_of _ _ C) in Hu; done.
  - intros ([c i] & vs & u & Hf & Bd & C & Hu & <-). exists (c, i). split; [by apply elem_of_list_In|].
    unfold is_infinite. cbn in Bd.
    assert (E : negb (bool_decide (infinite ∈ c)) && negb (bool_decide (infinite ∈ cx_neighbor t c i)) = false).
    { apply andb_false_iff. rewrite !negb_false_iff, !bool_decide_eq_true. done. }
    rewrite E. apply in_map. apply elem_of_list_In. unfold facet_vertices. rewrite (proj1 (S _)), (corners_of _ _ C). done.
Qed.
Lemma draws_spec sort r t v : sorts key sort -> facets_ok t ->
  draws_vertex infinite key sort r t v = true <->
  rc_vertices r = true /\ (rc_vertex_scope r = B "all" \/ rc_vertex_scope r = B "convex_hull" /\
    exists f vs u, f ∈ cx_facets t /\ on_boundary infinite t f /\ has_corners f vs /\ u ∈ vs /\ key u = key v).
Proof.
  intros S Ok. unfold draws_vertex. rewrite andb_true_iff, orb_true_iff, !bool_decide_eq_true.
  destruct (bool_decide_reflect (rc_vertex_scope r = B "convex_hull")) as [E|E].
  - rewrite (hull_spec sort t (key v) S Ok). tauto.
  - rewrite elem_of_nil. tauto.
Qed.
End Scene.

(** ** Orientation when every operation is exact *)
Section Outward.
Context (rd : Q -> fp) (X : forall q, exists q', rd q = Fin q' /\ (q' == q)%Q).
Lemma plus_exact x y p q : x = Fin p -> y = Fin q -> exists r, fplus rd x y = Fin r /\ (r == p + q)%Q.
Proof using X. intros -> ->. apply X. Qed.
Lemma times_exact x y p q : x = Fin p -> y = Fin q -> exists r, ftimes rd x y = Fin r /\ (r == p * q)%Q.
Proof using X. intros -> ->. apply X. Qed.
Lemma minus_exact x y p q : x = Fin p -> y = Fin q -> exists r, fminus rd x y = Fin r /\ (r == p - q)%Q.
Proof using X. intros -> ->. apply X. Qed.
Lemma alignment_exact a b c p q r : at_point a p -> at_point b q -> at_point c r ->
  exists s, radial_alignment rd a b c = Fin s /\ (s == 3 * det3 p q r)%Q.
Proof using X.
  destruct p as [[p1 p2] p3], q as [[q1 q2] q3], r as [[r1 r2] r3]. intros (A1 & A2 & A3) (B1 & B2 & B3) (C1 & C2 & C3).
  unfold radial_alignment, sub3. cbn [xc yc zc].
  destruct (minus_exact _ _ _ _ B1 A1) as (ab1 & Eab1 & Vab1). destruct (minus_exact _ _ _ _ B2 A2) as (ab2 & Eab2 & Vab2).
  destruct (minus_exact _ _ _ _ B3 A3) as (ab3 & Eab3 & Vab3).
  destruct (minus_exact _ _ _ _ C1 A1) as (ac1 & Eac1 & Vac1). destruct (minus_exact _ _ _ _ C2 A2) as (ac2 & Eac2 & Vac2).
  destruct (minus_exact _ _ _ _ C3 A3) as (ac3 & Eac3 & Vac3).
  destruct (times_exact _ _ _ _ Eab2 Eac3) as (m1 & Em1 & Vm1). destruct (times_exact _ _ _ _ Eab3 Eac2) as (m2 & Em2 & Vm2).
  destruct (times_exact _ _ _ _ Eab3 Eac1) as (m3 & Em3 & Vm3). destruct (times_exact _ _ _ _ Eab1 Eac3) as (m4 & Em4 & Vm4).
  destruct (times_exact _ _ _ _ Eab1 Eac2) as (m5 & Em5 & Vm5). destruct (times_exact _ _ _ _ Eab2 Eac1) as (m6 & Em6 & Vm6).
  destruct (minus_exact _ _ _ _ Em1 Em2) as (n1 & En1 & Vn1). destruct (minus_exact _ _ _ _ Em3 Em4) as (n2 & En2 & Vn2).
  destruct (minus_exact _ _ _ _ Em5 Em6) as (n3 & En3 & Vn3).
  destruct (plus_exact _ _ _ _ A1 B1) as (t1 & Et1 & Vt1). destruct (plus_exact _ _ _ _ Et1 C1) as (s1 & Es1 & Vs1).
  destruct (plus_exact _ _ _ _ A2 B2) as (t2 & Et2 & Vt2). destruct (plus_exact _ _ _ _ Et2 C2) as (s2 & Es2 & Vs2).
  destruct (plus_exact _ _ _ _ A3 B3) as (t3 & Et3 & Vt3). destruct (plus_exact _ _ _ _ Et3 C3) as (s3 & Es3 & Vs3).
  destruct (times_exact _ _ _ _ En1 Es1) as (u1 & Eu1 & Vu1). destruct (times_exact _ _ _ _ En2 Es2) as (u2 & Eu2 & Vu2).
  destruct (times_exact _ _ _ _ En3 Es3) as (u3 & Eu3 & Vu3).
  destruct (plus_exact _ _ _ _ Eu1 Eu2) as (v1 & Ev1 & Vv1). destruct (plus_exact _ _ _ _ Ev1 Eu3) as (v2 & Ev2 & Vv2).
  exists v2. split; [exact Ev2|]. rewrite Vv2, Vv1, Vu1, Vu2, Vu3, Vn1, Vn2, Vn3, Vm1, Vm2, Vm3, Vm4, Vm5, Vm6,
    Vs1, Vs2, Vs3, Vt1, Vt2, Vt3, Vab1, Vab2, Vab3, Vac1, Vac2, Vac3. unfold det3. ring.
Qed.
Lemma outward {V} (point_of : V -> point3) (pos : V -> Q * Q * Q) vs : (forall v, v ∈ vs -> at_point (point_of v) (pos v)) ->
  length vs = 3%nat -> exists a b c, orient_outward point_of rd vs = [a; b; c] /\ [a; b; c] ≡ₚ vs /\
    (0 <= det3 (pos a) (pos b) (pos c))%Q.
Proof using X.
  intros H L. destruct vs as [|a [|b [|c [|]]]]; try done. cbn [orient_outward].
  destruct (alignment_exact (point_of a) (point_of b) (point_of c) (pos a) (pos b) (pos c)) as (s & E & Vs).
  1-3: apply H; rewrite !elem_of_cons; auto.
  rewrite E. cbn [fp_lt fpz]. destruct (Qle_bool (inject_Z 0) s) eqn:Q0; cbn [negb].
  - exists a, b, c. split; [done|]. split; [done|]. apply Qle_bool_iff in Q0. change (inject_Z 0) with 0%Q in Q0. rewrite Vs in Q0.
    assert (T : (det3 (pos a) (pos b) (pos c) == (1 # 3) * (3 * det3 (pos a) (pos b) (pos c)))%Q) by ring.
    rewrite T. apply Qmult_le_0_compat; [done|exact Q0].
  - exists a, c, b. split; [done|]. split; [constructor; apply perm_swap|].
    assert (N : (s < 0)%Q).
    { apply Qnot_le_lt. intros Q1. apply Qle_bool_iff in Q1. change (inject_Z 0) with 0%Q in Q0. congruence. }
    rewrite Vs in N.
    assert (T : (det3 (pos a) (pos c) (pos b) == (1 # 3) * - (3 * det3 (pos a) (pos b) (pos c)))%Q).
    { unfold det3. destruct (pos a) as [[? ?] ?], (pos b) as [[? ?] ?], (pos c) as [[? ?] ?]. ring. }
    rewrite T. apply Qmult_le_0_compat; [done|]. apply Qlt_le_weak in N.
    apply Qopp_le_compat in N. exact N.
Qed.
End Outward.
