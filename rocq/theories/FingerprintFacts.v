(** Storage order does not change the fingerprints (C49). *)
From Coq Require Import Permutation Sorted.
From stdpp Require Import list_numbers.
From Verif Require Import Base Config Fnv Text PersistSpec TextFacts Persist PersistFacts FingerprintSpec Canon CanonRelabel.
Local Open Scope Z_scope.
Local Open Scope list_scope.

Lemma has_repeat_spec keys : has_repeat keys = false <-> NoDup keys.
Proof.
  induction keys as [|k r IH]; cbn; [split; [constructor|reflexivity]|].
  rewrite orb_false_iff, IH, stdpp.list.NoDup_cons, elem_of_list_In. split; intros [H1 H2]; (split; [|exact H2]).
  - intros K. apply eq_true_false_abs with (existsb (text_eqb k) r); [|exact H1].
    apply existsb_exists. exists k. split; [exact K|]. apply text_eqb_spec. reflexivity.
  - destruct (existsb _ r) eqn:E; [|reflexivity]. apply existsb_exists in E as (x & Hx & E).
    apply text_eqb_spec in E as ->. contradiction.
Qed.
Lemma has_repeat_perm a b : Permutation a b -> has_repeat a = has_repeat b.
Proof.
  intros P. destruct (has_repeat a) eqn:E, (has_repeat b) eqn:E2; auto.
  - apply has_repeat_spec in E2. assert (NoDup a) as K.
    { apply NoDup_ListNoDup. eapply Permutation_NoDup; [symmetry; exact P|apply NoDup_ListNoDup, E2]. }
    apply has_repeat_spec in K. congruence.
  - apply has_repeat_spec in E. assert (NoDup b) as K.
    { apply NoDup_ListNoDup. eapply Permutation_NoDup; [exact P|apply NoDup_ListNoDup, E]. }
    apply has_repeat_spec in K. congruence.
Qed.

(** * The incidence graph *)
Definition times (v : nat) (vs : list nat) : nat := length (List.filter (Nat.eqb v) vs).
Lemma incident_cells_seq nv cv v :
  incident_cells nv cv v = concat (map (fun c => repeat (nv + c)%nat (times v (nth c cv []))) (seq 0 (length cv))).
Proof.
  unfold incident_cells. f_equal. apply nth_error_ext. intros i.
  rewrite !nth_error_lookup, list_lookup_imap, list_lookup_fmap.
  destruct (decide (i < length cv)%nat) as [H|H].
  - rewrite lookup_seq_lt by exact H. destruct (lookup_lt_is_Some_2 cv i H) as [vs E]. rewrite E. cbn.
    rewrite <- nth_error_lookup in E. rewrite (nth_error_nth _ _ [] E). reflexivity.
  - rewrite lookup_seq_ge, (lookup_ge_None_2 cv) by lia. reflexivity.
Qed.
Lemma times_perm v a b : Permutation a b -> times v a = times v b.
Proof. intros P. unfold times. apply Permutation_length, filter_perm, P. Qed.
Lemma times_map n f v vs : renumbering n f -> (v < n)%nat -> Forall (fun i => (i < n)%nat) vs ->
  times (f v) (map f vs) = times v vs.
Proof.
  intros [_ Ri] Hv. unfold times. induction 1 as [|i vs Hi _ IH]; cbn; [reflexivity|].
  destruct (Nat.eqb_spec v i) as [->|N].
  - rewrite Nat.eqb_refl. cbn. f_equal. exact IH.
  - destruct (Nat.eqb_spec (f v) (f i)) as [E|_]; [apply Ri in E; auto; contradiction|exact IH].
Qed.
Lemma concat_perm {X} (a b : list (list X)) : Permutation a b -> Permutation (concat a) (concat b).
Proof.
  induction 1; cbn; auto.
  - apply Permutation_app_head. assumption.
  - rewrite !app_assoc. apply Permutation_app_tail, Permutation_app_comm.
  - etransitivity; eassumption.
Qed.

Section Bipartite.
Variables f g : nat -> nat.
Variable nv : nat.
Variables cv cv' : list (list nat).
Hypothesis Rf : renumbering nv f.
Hypothesis Rg : renumbering (length cv) g.
Hypothesis Lcv : length cv' = length cv.
Hypothesis Bcv : Forall (Forall (fun i => (i < nv)%nat)) cv.
Hypothesis Hcv : forall c vs, nth_error cv c = Some vs -> exists vs', nth_error cv' (g c) = Some vs' /\ Permutation (map f vs) vs'.
Definition both (i : nat) : nat := if (i <? nv)%nat then f i else (nv + g (i - nv))%nat.

Lemma both_vertex i : (i < nv)%nat -> both i = f i.
Proof. intros H. unfold both. rewrite (proj2 (Nat.ltb_lt i nv) H). reflexivity. Qed.
Lemma both_cell c : both (nv + c) = (nv + g c)%nat.
Proof. unfold both. rewrite (proj2 (Nat.ltb_ge (nv + c) nv)) by lia. do 2 f_equal. lia. Qed.
Lemma node_cases i : (i < nv + length cv)%nat -> (i < nv)%nat \/ exists c, i = (nv + c)%nat /\ (c < length cv)%nat.
Proof. intros H. destruct (decide (i < nv)%nat); [left; assumption|]. right. exists (i - nv)%nat. lia. Qed.
Lemma both_renumbering : renumbering (nv + length cv) both.
Proof.
  split.
  - intros i Hi. destruct (node_cases i Hi) as [H|(c & -> & H)].
    + rewrite both_vertex by exact H. pose proof (proj1 Rf i H). lia.
    + rewrite both_cell. pose proof (proj1 Rg c H). lia.
  - intros i j Hi Hj E. destruct (node_cases i Hi) as [H|(c & -> & H)], (node_cases j Hj) as [K|(d & -> & K)];
      rewrite ?both_cell in E; rewrite ?both_vertex in E by assumption.
    + apply (proj2 Rf) in E; assumption.
    + pose proof (proj1 Rf i H). lia.
    + pose proof (proj1 Rf j K). lia.
    + f_equal. apply (proj2 Rg); [assumption..|lia].
Qed.
Lemma cell_at c : (c < length cv)%nat -> Permutation (map f (nth c cv [])) (nth (g c) cv' []).
Proof.
  intros H. destruct (nth_error cv c) as [vs|] eqn:E; [|apply nth_error_None in E; lia].
  destruct (Hcv _ _ E) as (vs' & E' & P). rewrite (nth_error_nth _ _ [] E), (nth_error_nth _ _ [] E'). exact P.
Qed.
Lemma cell_bound c : (c < length cv)%nat -> Forall (fun i => (i < nv)%nat) (nth c cv []).
Proof. intros H. rewrite List.Forall_forall in Bcv. apply Bcv. apply nth_In. exact H. Qed.
Lemma incident_relab v : (v < nv)%nat ->
  Permutation (map both (incident_cells nv cv v)) (incident_cells nv cv' (f v)).
Proof.
  intros Hv. rewrite !incident_cells_seq, Lcv.
  rewrite <- (concat_perm _ _ (Permutation_map (fun c => repeat (nv + c)%nat (times (f v) (nth c cv' []))) (renumbering_perm _ _ Rg))).
  rewrite concat_map, !map_map. apply Permutation_refl'. f_equal. apply map_ext_in. intros c Hc. apply in_seq in Hc.
  rewrite <- (times_perm (f v) _ _ (cell_at c ltac:(lia))), (times_map nv) by (assumption || (apply cell_bound; lia)).
  induction (times v (nth c cv [])) as [|k IH]; cbn; [reflexivity|]. rewrite IH, both_cell. reflexivity.
Qed.
Lemma bipartite_length k : length (bipartite_adjacency nv k) = (nv + length k)%nat.
Proof. unfold bipartite_adjacency. rewrite app_length, map_length, seq_length. reflexivity. Qed.
Lemma bipartite_vertex k i : (i < nv)%nat -> nth i (bipartite_adjacency nv k) [] = incident_cells nv k i.
Proof.
  intros H. unfold bipartite_adjacency. rewrite app_nth1 by (rewrite map_length, seq_length; exact H).
  apply nth_error_nth. rewrite nth_error_map, nth_error_lookup, lookup_seq_lt by exact H. reflexivity.
Qed.
Lemma bipartite_cell k c : nth (nv + c) (bipartite_adjacency nv k) [] = nth c k [].
Proof.
  unfold bipartite_adjacency. rewrite app_nth2 by (rewrite map_length, seq_length; lia).
  rewrite map_length, seq_length. f_equal. lia.
Qed.
Lemma bipartite_relab : relab_adj both (bipartite_adjacency nv cv) (bipartite_adjacency nv cv').
Proof.
  split; [rewrite !bipartite_length; lia|]. intros i Hi. rewrite bipartite_length in Hi.
  destruct (node_cases i Hi) as [H|(c & -> & H)].
  - rewrite both_vertex by exact H. pose proof (proj1 Rf i H). rewrite !bipartite_vertex by assumption. apply incident_relab, H.
  - rewrite both_cell, !bipartite_cell, <- (cell_at c H). apply Permutation_refl'. apply map_ext_in.
    intros j Hj. apply both_vertex. pose proof (cell_bound c H) as B. rewrite List.Forall_forall in B. auto.
Qed.
Lemma bipartite_sized : sized (bipartite_adjacency nv cv).
Proof.
  unfold sized. rewrite bipartite_length. unfold bipartite_adjacency. apply List.Forall_app. split.
  - rewrite List.Forall_forall. intros l Hl. apply in_map_iff in Hl as (v & <- & Hv). rewrite List.Forall_forall.
    intros j Hj. rewrite incident_cells_seq in Hj. apply in_concat in Hj as (x & Hx & Hj).
    apply in_map_iff in Hx as (c & <- & Hc). apply in_seq in Hc. apply repeat_spec in Hj as ->. lia.
  - eapply List.Forall_impl; [|exact Bcv]. intros l H. eapply List.Forall_impl; [|exact H]. cbn. lia.
Qed.
Lemma app_relab {X} (a a' b b' : list X) : length a = nv -> length b = length cv -> relab f a a' -> relab g b b' ->
  relab both (a ++ b) (a' ++ b').
Proof.
  intros La Lb [La' Ha] [Lb' Hb]. split; [rewrite !app_length; lia|]. intros i Hi. rewrite app_length in Hi.
  destruct (node_cases i ltac:(lia)) as [H|(c & -> & H)].
  - rewrite both_vertex by exact H. pose proof (proj1 Rf i H).
    rewrite !nth_error_app1 by lia. apply Ha. lia.
  - rewrite both_cell, !nth_error_app2 by lia.
    replace (nv + g c - length a')%nat with (g c) by lia. replace (nv + c - length a)%nat with c by lia. apply Hb. lia.
Qed.

Lemma records_any_order vb vb' cb cb' : length vb = nv -> length cb = length cv -> relab f vb vb' -> relab g cb cb' ->
  canonical_bipartite_incidence_records vb' cb' cv' = canonical_bipartite_incidence_records vb cb cv.
Proof.
  intros Lv Lc Qv Qc. unfold canonical_bipartite_incidence_records.
  pose proof (proj1 Qv) as Lv'. pose proof (proj1 Qc) as Lc'.
  rewrite (proj2 (Nat.eqb_eq (length cb') (length cv'))) by lia.
  rewrite (proj2 (Nat.eqb_eq (length cb) (length cv))) by lia. cbn [negb].
  assert (B1 : forallb (forallb (fun v => (v <? length vb)%nat)) cv = true).
  { apply forallb_forall. intros vs Hvs. apply forallb_forall. intros v Hin. apply Nat.ltb_lt.
    rewrite List.Forall_forall in Bcv. specialize (Bcv _ Hvs). rewrite List.Forall_forall in Bcv. specialize (Bcv _ Hin). lia. }
  assert (B2 : forallb (forallb (fun v => (v <? length vb')%nat)) cv' = true).
  { apply forallb_forall. intros vs Hvs. apply forallb_forall. intros v Hin. apply Nat.ltb_lt.
    apply In_nth_error in Hvs as (k & Hk). assert (Hl : (k < length cv)%nat) by (rewrite <- Lcv; apply nth_error_Some; congruence).
    destruct (relab_surj _ _ _ Rg Hl) as (c & Hc & <-). pose proof (cell_at c Hc) as P.
    rewrite (nth_error_nth _ _ [] Hk) in P. pose proof (Permutation_in _ (Permutation_sym P) Hin) as K.
    apply in_map_iff in K as (j & <- & Hj). pose proof (cell_bound c Hc) as Bc. rewrite List.Forall_forall in Bc.
    pose proof (proj1 Rf j (Bc j Hj)). lia. }
  rewrite B1, B2. cbn [negb].
  pose proof (app_relab vb vb' cb cb' Lv Lc Qv Qc) as Q.
  assert (Ln : length (vb ++ cb) = length (bipartite_adjacency (length vb) cv)).
  { rewrite Lv, bipartite_length, app_length. lia. }
  destruct (vb ++ cb) as [|x0 rest] eqn:E.
  { pose proof (proj1 Q) as Z0. cbn in Z0. apply length_zero_iff_nil in Z0. rewrite Z0. reflexivity. }
  destruct (vb' ++ cb') as [|x0' rest'] eqn:E'; [pose proof (proj1 Q) as Z0; discriminate Z0|].
  rewrite <- E, <- E' in *. rewrite Lv', Lv in *.
  assert (Rn : renumbering (length (bipartite_adjacency nv cv)) both) by (rewrite bipartite_length; apply both_renumbering).
  rewrite (search_relab both (bipartite_adjacency nv cv) (bipartite_adjacency nv cv') Rn bipartite_relab bipartite_sized
             (vb ++ cb) (vb' ++ cb')
             (S (Z.to_nat CANONICAL_INCIDENCE_WORK_BUDGET)) (canonical_colors (vb ++ cb)) (canonical_colors (vb' ++ cb'))).
  - reflexivity.
  - exact Ln.
  - exact Q.
  - intros K. rewrite K in Ln. rewrite E in Ln. discriminate Ln.
  - rewrite canonical_colors_length. exact Ln.
  - apply canonical_colors_relab; [rewrite Ln; exact Rn|exact Q].
  - unfold CANONICAL_INCIDENCE_WORK_BUDGET. rewrite Nat2Z.inj_succ, Z2Nat.id by lia. lia.
Qed.
End Bipartite.

(** * The two fingerprints *)
Section Fingerprints.
Variable fmt17g : fp -> text.
Notation vertex_record := (vertex_record fmt17g).

Lemma reordered_verts f g t t' : reordered_by f g t t' -> relab f (t_verts t) (t_verts t').
Proof. intros (L & _ & _ & _ & H & _). split; assumption. Qed.
Lemma reordered_verts_perm f g t t' : reordered_by f g t t' -> Permutation (t_verts t) (t_verts t').
Proof. intros H. eapply relab_perm; [|eapply reordered_verts; exact H]. apply H. Qed.

Lemma placement_any_order t t' : reordered t t' -> placement_fingerprint fmt17g t' = placement_fingerprint fmt17g t.
Proof.
  intros (f & g & H). unfold placement_fingerprint, vertex_records. f_equal. apply sort_text_unique.
  apply Permutation_map, Permutation_sym. eapply reordered_verts_perm. exact H.
Qed.

Definition pure_cell_record (t : tri) (c : list nat * Z) : text :=
  B "c:" ++ join_keys (sort_by lex_leb (map (point_key fmt17g)
     (map (fun i => match nth_error (t_verts t) i with Some v => fst v | None => (NaN, NaN, NaN) end) (fst c))))
  ++ B ":" ++ print_int (snd c).
Lemma cell_record_val t c : Forall (fun i => (i < length (t_verts t))%nat) (fst c) ->
  cell_record fmt17g t c = Val (pure_cell_record t c).
Proof.
  intros F. unfold cell_record, point_cell_key, pure_cell_record.
  rewrite (mapM_val _ (fun i => match nth_error (t_verts t) i with Some v => fst v | None => (NaN, NaN, NaN) end)); [reflexivity|].
  intros i Hi. rewrite List.Forall_forall in F. specialize (F i Hi). unfold vertex_point.
  destruct (nth_error (t_verts t) i) eqn:E; [reflexivity|]. apply nth_error_None in E. lia.
Qed.

Lemma reordered_well f g t t' : reordered_by f g t t' -> well_indexed t -> well_indexed t'.
Proof.
  intros (L & Lc & Rf & Rg & Hv & Hc) W. unfold well_indexed in *. rewrite List.Forall_forall in *. intros c' Hin.
  apply In_nth_error in Hin as (k & Hk). assert (Hl : (k < length (t_cells t))%nat) by (rewrite <- Lc; apply nth_error_Some; congruence).
  destruct (relab_surj _ _ _ Rg Hl) as (c & Hc0 & <-).
  destruct (nth_error (t_cells t) c) as [[vs lab]|] eqn:E; [|apply nth_error_None in E; lia].
  destruct (Hc _ _ _ E) as (vs' & E' & P). rewrite Hk in E'. injection E' as ->. cbn [fst].
  rewrite List.Forall_forall. intros j Hj. apply (Permutation_in _ (Permutation_sym P)) in Hj.
  apply in_map_iff in Hj as (i & <- & Hi). rewrite L. apply (proj1 Rf).
  specialize (W _ (nth_error_In _ _ E)). cbn in W. rewrite List.Forall_forall in W. auto.
Qed.

Lemma topology_any_order t t' : reordered t t' -> well_indexed t ->
  topology_fingerprint fmt17g t' = topology_fingerprint fmt17g t.
Proof.
  intros (f & g & H) W. pose proof (reordered_well _ _ _ _ H W) as W'. pose proof (reordered_verts_perm _ _ _ _ H) as Pv.
  pose proof H as (L & Lc & Rf & Rg & Hv & Hc).
  unfold topology_fingerprint. replace (has_coincident_vertices fmt17g t') with (has_coincident_vertices fmt17g t).
  2:{ unfold has_coincident_vertices. apply has_repeat_perm, Permutation_map, Pv. }
  destruct (has_coincident_vertices fmt17g t).
  - unfold incidence_topology_records.
    rewrite (records_any_order f g (length (t_verts t)) (map fst (t_cells t)) (map fst (t_cells t')))
      with (vb := map vertex_record (t_verts t)) (cb := map (fun c => B "c:" ++ print_int (snd c)) (t_cells t)).
    + reflexivity.
    + exact Rf.
    + rewrite map_length. exact Rg.
    + rewrite !map_length. exact Lc.
    + unfold well_indexed in W. rewrite List.Forall_forall in *. intros vs Hin. apply in_map_iff in Hin as (c & <- & Hc0). auto.
    + intros c vs E. rewrite nth_error_map in E. destruct (nth_error (t_cells t) c) as [[vs0 lab]|] eqn:E0; [|discriminate].
      cbn in E. injection E as <-. destruct (Hc _ _ _ E0) as (vs' & E' & P). exists vs'. split; [|exact P].
      rewrite nth_error_map, E'. reflexivity.
    + apply map_length.
    + rewrite !map_length. reflexivity.
    + apply relab_map. eapply reordered_verts. exact H.
    + split; [rewrite !map_length; exact Lc|]. intros c Hl. rewrite map_length in Hl. rewrite !nth_error_map.
      destruct (nth_error (t_cells t) c) as [[vs lab]|] eqn:E0; [|apply nth_error_None in E0; lia].
      destruct (Hc _ _ _ E0) as (vs' & E' & P). rewrite E'. reflexivity.
  - assert (Mt : forall u, well_indexed u -> mapM (cell_record fmt17g u) (t_cells u) = Val (map (pure_cell_record u) (t_cells u))).
    { intros u Wu. apply mapM_val. intros c Hin. apply cell_record_val. unfold well_indexed in Wu. rewrite List.Forall_forall in Wu. auto. }
    rewrite !Mt by assumption. cbn. do 2 f_equal. apply sort_text_unique. symmetry. apply Permutation_app.
    + unfold vertex_records. rewrite !sort_by_perm. apply Permutation_map, Pv.
    + apply (relab_perm g); [rewrite map_length; exact Rg|]. split; [rewrite !map_length; exact Lc|].
      intros c Hl. rewrite map_length in Hl. rewrite !nth_error_map.
      destruct (nth_error (t_cells t) c) as [[vs lab]|] eqn:E0; [|apply nth_error_None in E0; lia].
      destruct (Hc _ _ _ E0) as (vs' & E' & P). rewrite E'. cbn. f_equal. unfold pure_cell_record. cbn [fst snd].
      f_equal. f_equal. f_equal. f_equal. apply sort_text_unique. rewrite <- P, !map_map. apply Permutation_refl'.
      apply map_ext_in. intros i Hi. unfold well_indexed in W. rewrite List.Forall_forall in W.
      specialize (W _ (nth_error_In _ _ E0)). cbn in W. rewrite List.Forall_forall in W. rewrite Hv by auto. reflexivity.
Qed.
End Fingerprints.
