(** Proofs about construction, containers, volumes and vertex times. *)
From Verif Require Import Base Config Foliation Repair RepairFacts FoliationSpec.
From Coq Require Import QArith Qround Lqa Sorting.Sorted.
From stdpp Require Import fin_sets gmap.
From Verif Require Import Foliation Repair RepairFacts FoliationSpec.
Local Open Scope Z_scope.

(** ** Classification of a list of four vertices *)
Lemma filter_times vi t (c : list positive) :
  length (List.filter (Z.eqb t) (times vi c)) = number_on vi c t.
Proof.
  unfold number_on, times. induction c as [|v c IH]; [reflexivity|]. cbn [map List.filter].
  rewrite (Z.eqb_sym t). destruct (vi v =? t); cbn [length]; congruence.
Qed.
Lemma on_slices_iff vi c t lo up : length c = 4%nat -> (lo + up = 4)%nat ->
  on_slices t lo up (times vi c) <-> between vi c t /\ number_on vi c t = lo.
Proof.
  intros L S. unfold on_slices. rewrite filter_times. split.
  - intros (A & B & _). split; [|exact B]. intros v Hv. apply A. apply elem_of_list_fmap. eauto.
  - intros (A & B). assert (A' : forall x, x ∈ times vi c -> x = t \/ x = t + 1).
    { intros x Hx. apply elem_of_list_fmap in Hx as (v & -> & Hv). apply A, Hv. }
    split; [exact A'|]. split; [exact B|]. pose proof (count_two t _ A') as C.
    rewrite filter_times in C. unfold times in C at 2. rewrite map_length in C. lia.
Qed.
Lemma classify_exact vi c : length c = 4%nat -> class_is vi c (classify (times vi c)).
Proof.
  intros L. assert (LT : length (times vi c) = 4%nat) by (unfold times; rewrite map_length; exact L).
  assert (S : forall lo up k, (lo, up, k) ∈ [(3%nat, 1%nat, THREE_ONE); (2%nat, 2%nat, TWO_TWO); (1%nat, 3%nat, ONE_THREE)] ->
    (lo + up = 4)%nat -> classify (times vi c) = k <-> exists t, between vi c t /\ number_on vi c t = lo).
  { intros lo up k Hk Q. rewrite (classify_spec _ lo up k LT Hk). split; intros (t & H); exists t; apply (on_slices_iff vi c t lo up L Q); exact H. }
  pose proof (S 3%nat 1%nat THREE_ONE ltac:(left) eq_refl) as S31.
  pose proof (S 2%nat 2%nat TWO_TWO ltac:(right; left) eq_refl) as S22.
  pose proof (S 1%nat 3%nat ONE_THREE ltac:(right; right; left) eq_refl) as S13.
  assert (D : classify (times vi c) = THREE_ONE \/ classify (times vi c) = TWO_TWO \/ classify (times vi c) = ONE_THREE \/ classify (times vi c) = ACAUSAL).
  { destruct (classify_total _ LT) as [E|E]; [tauto|]. unfold causal_type in E. rewrite !orb_true_iff, !Z.eqb_eq in E. tauto. }
  split; [exact S31|]. split; [exact S22|]. split; [exact S13|]. split; [|exact D].
  split.
  - intros E (t & B & N1 & N3).
    assert (number_on vi c t = 1%nat \/ number_on vi c t = 2%nat \/ number_on vi c t = 3%nat) as [K|[K|K]] by lia.
    + assert (classify (times vi c) = ONE_THREE) as Q by (apply S13; eauto). rewrite Q in E. discriminate.
    + assert (classify (times vi c) = TWO_TWO) as Q by (apply S22; eauto). rewrite Q in E. discriminate.
    + assert (classify (times vi c) = THREE_ONE) as Q by (apply S31; eauto). rewrite Q in E. discriminate.
  - intros N. destruct D as [E|[E|[E|E]]]; [| | |exact E]; exfalso; apply N.
    + apply S31 in E as (t & B & K). exists t. split; [exact B|lia].
    + apply S22 in E as (t & B & K). exists t. split; [exact B|lia].
    + apply S13 in E as (t & B & K). exists t. split; [exact B|lia].
Qed.
Lemma causal_type_iff vi c : length c = 4%nat -> causal_type (classify (times vi c)) = true <-> causal_cell vi c.
Proof.
  intros L. destruct (classify_exact vi c L) as (A & B & C & D & E).
  unfold causal_type. rewrite !orb_true_iff, !Z.eqb_eq. split.
  - intros [[K|K]|K].
    + apply A in K as (t & X & Y). exists t. split; [exact X|lia].
    + apply B in K as (t & X & Y). exists t. split; [exact X|lia].
    + apply C in K as (t & X & Y). exists t. split; [exact X|lia].
  - intros K. destruct E as [E|[E|[E|E]]]; [tauto..|]. apply D in E. contradiction.
Qed.
Lemma causal_type_of_class vi c k : length c = 4%nat -> class_is vi c k -> causal_type k = true <-> causal_cell vi c.
Proof.
  intros L (A & B & C & D & E). unfold causal_type. rewrite !orb_true_iff, !Z.eqb_eq. split.
  - intros [[K|K]|K].
    + apply A in K as (t & X & Y). exists t. split; [exact X|lia].
    + apply B in K as (t & X & Y). exists t. split; [exact X|lia].
    + apply C in K as (t & X & Y). exists t. split; [exact X|lia].
  - intros K. destruct E as [E|[E|[E|E]]]; [tauto..|]. apply D in E. contradiction.
Qed.
Lemma times_ext vi vi' c : (forall v, v ∈ c -> vi v = vi' v) -> times vi c = times vi' c.
Proof. intros H. unfold times. apply map_ext_in. intros v Hv. apply H, elem_of_list_In, Hv. Qed.

(** ** Sorting *)
Section Sort.
Context {A : Type}.
Implicit Types l : list (Z * A).
Definition key_le (x y : Z * A) : Prop := fst x <= fst y.
Lemma insert_perm (x : Z * A) l : insert_by_key x l ≡ₚ x :: l.
Proof.
  induction l as [|y l IH]; [reflexivity|]. cbn [insert_by_key]. destruct (fst y <=? fst x); [|reflexivity].
  rewrite IH. apply Permutation_swap.
Qed.
Lemma insert_sorted (x : Z * A) l : StronglySorted key_le l -> StronglySorted key_le (insert_by_key x l).
Proof.
  induction l as [|y l IH]; intros S; cbn [insert_by_key]; [repeat constructor|].
  apply StronglySorted_inv in S as [S F]. destruct (Z.leb_spec (fst y) (fst x)) as [L|L].
  - constructor; [apply IH, S|]. rewrite insert_perm. constructor; [exact L|exact F].
  - constructor; [constructor; assumption|]. constructor; [unfold key_le; lia|].
    eapply Forall_impl; [exact F|]. unfold key_le. intros z Hz. cbn in *. lia.
Qed.
Lemma insert_filter (x : Z * A) l t : StronglySorted key_le l ->
  List.filter (fun e => fst e =? t) (insert_by_key x l) =
  List.filter (fun e => fst e =? t) l ++ List.filter (fun e => fst e =? t) [x].
Proof.
  induction l as [|y l IH]; intros S; [reflexivity|]. apply StronglySorted_inv in S as [S F].
  cbn [insert_by_key]. destruct (Z.leb_spec (fst y) (fst x)) as [L|L].
  - cbn [List.filter] in *. rewrite (IH S). destruct (fst y =? t); reflexivity.
  - destruct (Z.eqb_spec (fst x) t) as [E|E].
    + assert (N : List.filter (fun e => fst e =? t) (y :: l) = []).
      { destruct (List.filter (fun e => fst e =? t) (y :: l)) as [|z r] eqn:Q; [reflexivity|].
        assert (I : In z (List.filter (fun e => fst e =? t) (y :: l))) by (rewrite Q; left; reflexivity).
        apply filter_In in I as [I K]. apply Z.eqb_eq in K. exfalso. destruct I as [->|I]; [lia|].
        rewrite List.Forall_forall in F. specialize (F z I). unfold key_le in F. lia. }
      rewrite N. cbn [List.filter app] in *. rewrite (proj2 (Z.eqb_eq _ _) E). rewrite N. reflexivity.
    + cbn [List.filter]. rewrite (proj2 (Z.eqb_neq _ _) E). rewrite app_nil_r. reflexivity.
Qed.
Lemma sort_spec_aux l acc : StronglySorted key_le acc ->
  let r := fold_left (fun acc x => insert_by_key x acc) l acc in
  StronglySorted key_le r /\ r ≡ₚ acc ++ l /\
  forall t, List.filter (fun e => fst e =? t) r = List.filter (fun e => fst e =? t) (acc ++ l).
Proof.
  revert acc. induction l as [|x l IH]; intros acc S; cbn [fold_left].
  - rewrite app_nil_r. auto.
  - destruct (IH (insert_by_key x acc) (insert_sorted x acc S)) as (S' & P & F).
    split; [exact S'|]. split.
    + rewrite P, insert_perm. apply Permutation_middle.
    + intros t. rewrite F, List.filter_app, insert_filter by exact S. rewrite !List.filter_app. cbn [List.filter].
      rewrite <- app_assoc. f_equal. destruct (fst x =? t); reflexivity.
Qed.
Lemma sort_spec l : StronglySorted key_le (stable_sort_by_key l) /\ stable_sort_by_key l ≡ₚ l /\
  forall t, List.filter (fun e => fst e =? t) (stable_sort_by_key l) = List.filter (fun e => fst e =? t) l.
Proof. apply (sort_spec_aux l []). constructor. Qed.

Lemma insert_last (x : Z * A) l : List.Forall (fun y => key_le y x) l -> insert_by_key x l = l ++ [x].
Proof.
  induction l as [|y l IH]; intros F; [reflexivity|]. inversion F as [|? ? L F']; subst. cbn [insert_by_key app].
  unfold key_le in L. rewrite (proj2 (Z.leb_le _ _) L). f_equal. apply IH, F'.
Qed.
Lemma sort_sorted_aux l acc : StronglySorted key_le (acc ++ l) ->
  fold_left (fun acc x => insert_by_key x acc) l acc = acc ++ l.
Proof.
  revert acc. induction l as [|x l IH]; intros acc S; cbn [fold_left]; [rewrite app_nil_r; reflexivity|].
  rewrite insert_last.
  - rewrite IH by (rewrite <- app_assoc; exact S). rewrite <- app_assoc. reflexivity.
  - clear IH. induction acc as [|y acc IH]; [constructor|]. apply StronglySorted_inv in S as [S F].
    constructor; [|apply IH, S]. rewrite List.Forall_forall in F. apply F. apply in_or_app. right. left. reflexivity.
Qed.
Lemma sort_sorted l : StronglySorted key_le l -> stable_sort_by_key l = l.
Proof. intros S. exact (sort_sorted_aux l [] S). Qed.

Lemma filter_none (p : Z * A -> bool) l : (forall x, In x l -> p x = false) -> List.filter p l = [].
Proof. induction l as [|x l IH]; intros H; [reflexivity|]. cbn. rewrite (H x) by (left; reflexivity). apply IH. intros y Hy. apply H. right. exact Hy. Qed.
Lemma sorted_split l t : StronglySorted key_le l ->
  l = List.filter (fun e => fst e <? t) l ++ List.filter (fun e => fst e =? t) l ++ List.filter (fun e => t <? fst e) l.
Proof.
  induction l as [|x l IH]; intros S; [reflexivity|]. apply StronglySorted_inv in S as [S F]. specialize (IH S).
  rewrite List.Forall_forall in F. cbn [List.filter].
  destruct (Z.ltb_spec (fst x) t) as [L|L].
  - rewrite (proj2 (Z.eqb_neq (fst x) t)) by lia. rewrite (proj2 (Z.ltb_ge t (fst x))) by lia. cbn [app]. congruence.
  - rewrite (filter_none (fun e => fst e <? t) l) in * by (intros y Hy; apply Z.ltb_ge; specialize (F y Hy); unfold key_le in F; lia).
    destruct (Z.eqb_spec (fst x) t) as [E|E].
    + rewrite (proj2 (Z.ltb_ge t (fst x))) by lia. cbn [app] in *. congruence.
    + rewrite (filter_none (fun e => fst e =? t) l) in * by (intros y Hy; apply Z.eqb_neq; specialize (F y Hy); unfold key_le in F; lia).
      rewrite (proj2 (Z.ltb_lt t (fst x))) by lia. cbn [app] in *. congruence.
Qed.
Lemma filter_le_length l t : length (List.filter (fun e => fst e <=? t) l) =
  Nat.add (length (List.filter (fun e => fst e <? t) l)) (length (List.filter (fun e => fst e =? t) l)).
Proof.
  induction l as [|x l IH]; [reflexivity|]. cbn [List.filter].
  destruct (Z.leb_spec (fst x) t), (Z.ltb_spec (fst x) t), (Z.eqb_spec (fst x) t); cbn [length]; lia.
Qed.
Lemma equal_range_sorted l t : StronglySorted key_le l -> equal_range t l = List.filter (fun e => fst e =? t) l.
Proof.
  intros S. unfold equal_range. rewrite filter_le_length. pose proof (sorted_split l t S) as E.
  set (a := List.filter (fun e => fst e <? t) l) in *. set (b := List.filter (fun e => fst e =? t) l) in *.
  set (z := List.filter (fun e => t <? fst e) l) in *. replace (length a + length b - length a)%nat with (length b) by lia.
  rewrite E. rewrite drop_app, take_app. reflexivity.
Qed.
End Sort.

(** ** Facets *)
Lemma facet_vertices_nonempty f : facet_vertices f <> [].
Proof. destruct f as [c i]. unfold facet_vertices. cbn [fst snd]. destruct i as [|[|i]]; cbn; discriminate. Qed.
Lemma facet_vertices_cell c i v : length c = 4%nat -> v ∈ facet_vertices (c, i) -> v ∈ c.
Proof.
  intros L H. unfold facet_vertices in H. apply elem_of_list_fmap in H as (j & -> & Hj).
  apply elem_of_list_In, filter_In in Hj as [Hj _]. apply in_seq in Hj. apply elem_of_list_In, nth_In. lia.
Qed.
Lemma facet_on_iff vi t f : facet_on vi t f = true <-> forall v, v ∈ facet_vertices f -> vi v = t.
Proof.
  unfold facet_on. rewrite forallb_forall. setoid_rewrite elem_of_list_In. setoid_rewrite Z.eqb_eq. reflexivity.
Qed.
Lemma facet_time_iff vi f t : facet_time vi f = Some t <-> facet_on vi t f = true.
Proof.
  rewrite facet_on_iff. unfold facet_time. set (S := list_to_set (map vi (facet_vertices f)) : gset Z).
  assert (HS : forall x, x ∈ S <-> exists v, v ∈ facet_vertices f /\ x = vi v).
  { intros x. unfold S. rewrite elem_of_list_to_set, elem_of_list_fmap. split; intros (v & ? & ?); exists v; auto. }
  assert (NE : exists v, v ∈ facet_vertices f).
  { destruct (facet_vertices f) as [|v r] eqn:E; [destruct (facet_vertices_nonempty f E)|]. exists v. left. }
  split.
  - destruct (elements S) as [|x [|y r]] eqn:E; try discriminate. intros H. injection H as ->. intros v Hv.
    assert (I : vi v ∈ elements S) by (apply elem_of_elements, HS; eauto). rewrite E in I.
    apply elem_of_list_singleton in I. exact I.
  - intros H. destruct NE as [v Hv]. assert (ES : S = {[t]}).
    { apply set_eq. intros x. rewrite HS, elem_of_singleton. split.
      - intros (w & Hw & ->). apply H, Hw.
      - intros ->. exists v. split; [exact Hv|]. symmetry. apply H, Hv. }
    rewrite ES, elements_singleton. reflexivity.
Qed.
Definition timed (vi : positive -> Z) (l : list (list positive * nat)) : list (Z * (list positive * nat)) :=
  omap (fun f => match facet_time vi f with Some t => Some (t, f) | None => None end) l.
Lemma timed_filter vi l t : map snd (List.filter (fun e => fst e =? t) (timed vi l)) = List.filter (facet_on vi t) l.
Proof.
  unfold timed. induction l as [|f l IH]; [reflexivity|]. cbn [omap list_omap List.filter].
  destruct (facet_time vi f) as [u|] eqn:E.
  - cbn [List.filter fst]. destruct (Z.eqb_spec u t) as [->|N].
    + apply facet_time_iff in E. rewrite E. cbn [map snd]. f_equal. exact IH.
    + destruct (facet_on vi t f) eqn:F; [|exact IH]. apply facet_time_iff in F. congruence.
  - destruct (facet_on vi t f) eqn:F; [|exact IH]. apply facet_time_iff in F. congruence.
Qed.
Lemma elem_timed vi l t f : (t, f) ∈ timed vi l <-> f ∈ l /\ facet_on vi t f = true.
Proof.
  unfold timed. rewrite elem_of_list_omap. split.
  - intros (g & Hg & E). destruct (facet_time vi g) eqn:Q; [|discriminate]. injection E as -> ->.
    apply facet_time_iff in Q. auto.
  - intros [H K]. exists f. split; [exact H|]. apply facet_time_iff in K. rewrite K. reflexivity.
Qed.

Lemma volume_count vi l t :
  map snd (equal_range t (collect_spacelike_facets vi l)) = List.filter (facet_on vi t) l.
Proof.
  unfold collect_spacelike_facets. fold (timed vi l). destruct (sort_spec (timed vi l)) as (S & P & F).
  rewrite equal_range_sorted by exact S. rewrite F. apply timed_filter.
Qed.
Lemma volume_per_timeslice_same vi l : volume_per_timeslice vi l = collect_spacelike_facets vi l.
Proof. apply sort_sorted. unfold collect_spacelike_facets. apply sort_spec. Qed.

Lemma sum_filter {A} (l : list (Z * A)) a n : (forall x, In x l -> a <= fst x < a + Z.of_nat n) ->
  sum (map (fun i => Z.of_nat (length (List.filter (fun e => fst e =? a + Z.of_nat i) l))) (seq 0 n)) = Z.of_nat (length l).
Proof.
  revert l. induction n as [|n IH]; intros l H.
  - destruct l as [|x l]; [reflexivity|]. specialize (H x (or_introl eq_refl)). lia.
  - rewrite seq_S, map_app. unfold sum. rewrite fold_right_app. cbn [map fold_right plus].
    set (q := fun e : Z * A => fst e =? a + Z.of_nat n).
    assert (K : forall s, fold_right Z.add s (map (fun i => Z.of_nat (length (List.filter (fun e => fst e =? a + Z.of_nat i) l))) (seq 0 n)) =
      s + sum (map (fun i => Z.of_nat (length (List.filter (fun e => fst e =? a + Z.of_nat i) (List.filter (fun e => negb (q e)) l)))) (seq 0 n))).
    { intros s. unfold sum. assert (G : forall i, (i < n)%nat -> length (List.filter (fun e => fst e =? a + Z.of_nat i) (List.filter (fun e => negb (q e)) l)) =
        length (List.filter (fun e => fst e =? a + Z.of_nat i) l)).
      { intros i Hi. clear H. induction l as [|x l IHl]; [reflexivity|]. cbn [List.filter]. unfold q at 1.
        destruct (Z.eqb_spec (fst x) (a + Z.of_nat n)) as [E|E]; cbn [negb].
        - rewrite (proj2 (Z.eqb_neq (fst x) (a + Z.of_nat i))) by lia. exact IHl.
        - cbn [List.filter]. destruct (fst x =? a + Z.of_nat i); cbn [length]; congruence. }
      assert (G2 : forall js, (forall j, In j js -> (j < n)%nat) -> 
        fold_right Z.add s (map (fun i => Z.of_nat (length (List.filter (fun e => fst e =? a + Z.of_nat i) l))) js) =
        s + fold_right Z.add 0 (map (fun i => Z.of_nat (length (List.filter (fun e => fst e =? a + Z.of_nat i) (List.filter (fun e => negb (q e)) l)))) js)).
      { induction js as [|j js IHj]; intros Hj; cbn [map fold_right]; [lia|].
        rewrite IHj by (intros k Hk; apply Hj; right; exact Hk). rewrite G by (apply Hj; left; reflexivity). lia. }
      apply G2. intros j Hj. apply in_seq in Hj. lia. }
    rewrite K, IH.
    + fold q. rewrite Z.add_0_r, <- Nat2Z.inj_add. f_equal. clear. induction l as [|x l IHl]; [reflexivity|].
      cbn [List.filter]. destruct (q x); cbn [negb length]; lia.
    + intros x Hx. apply filter_In in Hx as [Hx Q]. apply H in Hx. unfold q in Q. apply negb_true_iff, Z.eqb_neq in Q. lia.
Qed.

(** ** Extreme times *)
Lemma max_fold (vi : positive -> Z) (l : list positive) (x : positive) : let r := fold_left (fun best y => if vi best <? vi y then y else best) l x in
  r ∈ x :: l /\ forall y, y ∈ x :: l -> vi y <= vi r.
Proof.
  revert x. induction l as [|y l IH]; intros x; cbn [fold_left].
  - split; [left|]. intros y Hy. apply elem_of_list_singleton in Hy as ->. lia.
  - destruct (IH (if vi x <? vi y then y else x)) as [A B]. split.
    + apply elem_of_cons in A as [A|A]; [|right; right; exact A]. rewrite A. destruct (vi x <? vi y); [right; left|left].
    + intros z Hz. assert (K : vi (if vi x <? vi y then y else x) <= vi (fold_left (fun best y0 => if vi best <? vi y0 then y0 else best) l (if vi x <? vi y then y else x))) by (apply B; left).
      destruct (Z.ltb_spec (vi x) (vi y)); apply elem_of_cons in Hz as [->|Hz]; try lia;
      apply elem_of_cons in Hz as [->|Hz]; try lia; apply B; right; exact Hz.
Qed.
Lemma min_fold (vi : positive -> Z) (l : list positive) (x : positive) : let r := fold_left (fun best y => if vi y <? vi best then y else best) l x in
  r ∈ x :: l /\ forall y, y ∈ x :: l -> vi r <= vi y.
Proof.
  revert x. induction l as [|y l IH]; intros x; cbn [fold_left].
  - split; [left|]. intros y Hy. apply elem_of_list_singleton in Hy as ->. lia.
  - destruct (IH (if vi y <? vi x then y else x)) as [A B]. split.
    + apply elem_of_cons in A as [A|A]; [|right; right; exact A]. rewrite A. destruct (vi y <? vi x); [right; left|left].
    + intros z Hz. assert (K : vi (fold_left (fun best y0 => if vi y0 <? vi best then y0 else best) l (if vi y <? vi x then y else x)) <= vi (if vi y <? vi x then y else x)) by (apply B; left).
      destruct (Z.ltb_spec (vi y) (vi x)); apply elem_of_cons in Hz as [->|Hz]; try lia;
      apply elem_of_cons in Hz as [->|Hz]; try lia; apply B; right; exact Hz.
Qed.
Lemma find_max_spec (vi : positive -> Z) (l : list positive) m : find_max_timevalue vi l = Val m <-> (exists v, v ∈ l /\ vi v = m) /\ (forall v, v ∈ l -> vi v <= m).
Proof.
  destruct l as [|x l]; cbn [find_max_timevalue].
  - split; [discriminate|]. intros [(v & H & _) _]. inversion H.
  - unfold max_element. destruct (max_fold vi l x) as [A B]. split.
    + intros E. injection E as <-. split; [eauto|exact B].
    + intros [(v & Hv & <-) H]. f_equal. apply Z.le_antisymm; [apply H, A|apply B, Hv].
Qed.
Lemma find_min_spec (vi : positive -> Z) (l : list positive) m : find_min_timevalue vi l = Val m <-> (exists v, v ∈ l /\ vi v = m) /\ (forall v, v ∈ l -> m <= vi v).
Proof.
  destruct l as [|x l]; cbn [find_min_timevalue].
  - split; [discriminate|]. intros [(v & H & _) _]. inversion H.
  - unfold min_element. destruct (min_fold vi l x) as [A B]. split.
    + intros E. injection E as <-. split; [eauto|exact B].
    + intros [(v & Hv & <-) H]. f_equal. apply Z.le_antisymm; [apply B, Hv|apply H, A].
Qed.
Lemma find_empty vi : find_max_timevalue vi [] = Throws InvalidArgument /\ find_min_timevalue vi [] = Throws InvalidArgument.
Proof. split; reflexivity. Qed.
