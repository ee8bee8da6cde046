(** The texts behind the fingerprints determine the triangulation (C97). *)
From Coq Require Import Permutation.
From stdpp Require Import list_numbers.
From Verif Require Import Base Config Fnv Text PersistSpec TextFacts Persist PersistFacts Names FingerprintSpec Canon CanonRelabel FingerprintFacts SeparateSpec.
Local Open Scope Z_scope.
Local Open Scope list_scope.

(** * Records and their ends *)
Lemma fingerprint_ended records : fingerprint_records records = fnv1a (ended records).
Proof.
  unfold fingerprint_records, fnv1a, ended. generalize fnv_offset. induction records as [|r l IH]; intros h; cbn [fold_left map concat]; [reflexivity|].
  rewrite IH. unfold fnv_from. rewrite !fold_left_app. reflexivity.
Qed.
Lemma ended_inj l : forall k, Forall (fun r => ~ In 255 r) l -> Forall (fun r => ~ In 255 r) k -> ended l = ended k -> l = k.
Proof.
  unfold ended. induction l as [|r l IH]; intros [|s k] Fl Fk E; cbn in E; auto.
  - destruct s; discriminate E.
  - destruct r; discriminate E.
  - apply Forall_cons_1 in Fl as [Hr Fl]. apply Forall_cons_1 in Fk as [Hs Fk].
    rewrite <- !app_assoc in E. cbn [app] in E. apply first_split in E as [-> E]; [|assumption..].
    f_equal. apply IH; assumption.
Qed.

(** * Printed numbers *)
Lemma print_int_no z c : c <> 45 -> (c < 48 \/ 57 < c) -> ~ In c (print_int z).
Proof. intros N R I. apply print_int_chars in I. lia. Qed.
Lemma print_nat_no n c : (c < 48 \/ 57 < c) -> ~ In c (print_unsigned (Z.of_nat n)).
Proof. intros R I. apply print_unsigned_chars in I; lia. Qed.
Lemma numbers_inj ns : forall ms, concat (map (fun n => print_unsigned (Z.of_nat n) ++ [59]) ns) =
  concat (map (fun n => print_unsigned (Z.of_nat n) ++ [59]) ms) -> ns = ms.
Proof.
  induction ns as [|n ns IH]; intros [|m ms] E; cbn [map concat] in E; auto.
  - destruct (print_unsigned (Z.of_nat m)); discriminate E.
  - destruct (print_unsigned (Z.of_nat n)); discriminate E.
  - rewrite <- !app_assoc in E. cbn [app] in E. apply first_split in E as [E1 E2]; [|apply print_nat_no; lia..].
    apply print_unsigned_inj in E1; [|lia..]. f_equal; [lia|apply IH, E2].
Qed.
Lemma numbers_no ns c : c <> 59 -> (c < 48 \/ 57 < c) -> ~ In c (concat (map (fun n => print_unsigned (Z.of_nat n) ++ [59]) ns)).
Proof.
  intros N R I. apply in_concat in I as (x & Hx & I). apply in_map_iff in Hx as (n & <- & _).
  apply in_app_or in I as [I|[I|[]]]; [eapply print_nat_no; eassumption|congruence].
Qed.
Lemma numbered_inj base ns base' ns' : numbered_text base ns = numbered_text base' ns' -> base = base' /\ ns = ns'.
Proof.
  unfold numbered_text. intros E. cbn [app] in E. apply first_split in E as [E1 E2]; [|apply print_nat_no; lia..].
  apply print_unsigned_inj in E1; [|lia..]. apply app_inj_1 in E2 as [-> E2]; [|unfold text in *; lia].
  split; [reflexivity|]. apply app_inv_head in E2. apply numbers_inj, E2.
Qed.
Lemma numbered_no base ns : ~ In 255 base -> ~ In 255 (numbered_text base ns).
Proof.
  intros H. unfold numbered_text. repeat apply not_in_app.
  - apply print_nat_no. lia.
  - intros [I|[]]; discriminate.
  - exact H.
  - chars.
  - apply numbers_no; lia.
Qed.

(** * Points *)
Section Print.
Variable number : fp -> Prop.
Variable print : fp -> text.
Hypothesis SEP : separating number print.
Definition good (p : point) : Prop := let '(x, y, z) := p in number x /\ number y /\ number z.
Notation point_text := (point_text print).
Notation vertex_text := (vertex_text print).
Notation points_text := (points_text print).

Lemma print_no x c : number x -> c = 44 \/ c = 58 \/ c = 59 \/ c = 255 -> ~ In c (print x).
Proof.
  intros H N I. pose proof (proj1 SEP x H) as F. rewrite List.Forall_forall in F. specialize (F c I).
  unfold coordinate_byte in F. lia.
Qed.
Lemma point_no p c : good p -> c = 58 \/ c = 59 \/ c = 255 -> ~ In c (point_text p).
Proof.
  destruct p as [[x y] z]. intros (Hx & Hy & Hz) N. unfold SeparateSpec.point_text. cbn [app].
  apply not_in_app; [apply print_no; tauto|]. intros [I|I]; [lia|]. revert I.
  apply not_in_app; [apply print_no; tauto|]. intros [I|I]; [lia|]. revert I. apply print_no; tauto.
Qed.
Lemma point_inj p q : good p -> good q -> point_text p = point_text q -> p = q.
Proof.
  destruct p as [[x y] z], q as [[x' y'] z']. intros (Hx & Hy & Hz) (Hx' & Hy' & Hz') E. unfold SeparateSpec.point_text in E. cbn [app] in E.
  apply first_split in E as [E1 E]; [|apply print_no; tauto..]. apply first_split in E as [E2 E3]; [|apply print_no; tauto..].
  apply (proj2 SEP) in E1; [|assumption..]. apply (proj2 SEP) in E2; [|assumption..]. apply (proj2 SEP) in E3; [|assumption..].
  congruence.
Qed.
Lemma point_comma p : exists a b, point_text p = a ++ 44 :: b.
Proof. destruct p as [[x y] z]. unfold SeparateSpec.point_text. exists (print x), (print y ++ [44] ++ print z). reflexivity. Qed.
Lemma vertex_no v : good (fst v) -> ~ In 255 (vertex_text v).
Proof.
  intros H. unfold SeparateSpec.vertex_text. repeat apply not_in_app.
  - chars.
  - apply point_no; tauto.
  - intros [I|[]]; discriminate.
  - apply print_int_no; lia.
Qed.
Lemma vertex_inj v w : good (fst v) -> good (fst w) -> vertex_text v = vertex_text w -> v = w.
Proof.
  destruct v as [p a], w as [q b]. cbn [fst snd]. intros Hp Hq E. unfold SeparateSpec.vertex_text in E. cbn [fst snd] in E.
  apply app_inv_head in E. cbn [app] in E. apply first_split in E as [E1 E2]; [|apply point_no; tauto..].
  apply point_inj in E1; [|assumption..]. apply print_int_inj in E2. congruence.
Qed.
Lemma points_cons p q r : points_text (p :: q :: r) = point_text p ++ 59 :: points_text (q :: r).
Proof. reflexivity. Qed.
Lemma points_no ps c : Forall good ps -> c = 58 \/ c = 255 -> ~ In c (points_text ps).
Proof.
  intros F N. induction F as [|p ps Hp F IH]; [intros []|]. destruct ps as [|q r].
  - apply point_no; tauto.
  - rewrite points_cons. apply not_in_app; [apply point_no; tauto|]. intros [I|I]; [lia|contradiction].
Qed.
Lemma points_nonempty p ps : points_text (p :: ps) <> [].
Proof.
  intros E. destruct (point_comma p) as (a & b & C). destruct ps as [|q r].
  - cbn in E. rewrite C in E. destruct a; discriminate E.
  - rewrite points_cons in E. destruct (point_text p); discriminate E.
Qed.
Lemma points_inj ps : forall qs, Forall good ps -> Forall good qs -> points_text ps = points_text qs -> ps = qs.
Proof.
  induction ps as [|p ps IH]; intros [|q qs] Fp Fq E; auto.
  - symmetry in E. apply points_nonempty in E as [].
  - apply points_nonempty in E as [].
  - apply Forall_cons_1 in Fp as [Hp Fp]. apply Forall_cons_1 in Fq as [Hq Fq].
    destruct ps as [|p' ps], qs as [|q' qs].
    + cbn in E. apply point_inj in E; [congruence|assumption..].
    + rewrite points_cons in E. cbn in E. exfalso. apply (point_no p 59); [assumption|tauto|]. rewrite E. apply in_or_app. right. left. reflexivity.
    + rewrite points_cons in E. cbn in E. exfalso. apply (point_no q 59); [assumption|tauto|]. rewrite <- E. apply in_or_app. right. left. reflexivity.
    + rewrite !points_cons in E. apply first_split in E as [E1 E2]; [|apply point_no; tauto..].
      apply point_inj in E1 as ->; [|assumption..]. f_equal. apply IH; assumption.
Qed.

(** * Placement *)
Lemma placement_inj o o' : numbers number o -> numbers number o' -> placement_text print o = placement_text print o' -> o = o'.
Proof.
  intros F F' E. unfold placement_text in E. apply ended_inj in E.
  2:{ apply Forall_map. eapply List.Forall_impl; [|exact F]. intros v H. apply vertex_no, H. }
  2:{ apply Forall_map. eapply List.Forall_impl; [|exact F']. intros v H. apply vertex_no, H. }
  revert o' F' E. induction F as [|v o Hv F IH]; intros [|w o'] F' E; try discriminate; [reflexivity|].
  apply Forall_cons_1 in F' as [Hw F']. cbn [map] in E. pose proof (f_equal (hd []) E) as E1. pose proof (f_equal (@tl _) E) as E2. cbn [hd tl] in E1, E2.
  f_equal; [|apply IH; assumption]. apply vertex_inj; assumption.
Qed.
End Print.

Lemma point_key_text print p : point_key print p = point_text print p.
Proof. destruct p as [[x y] z]. reflexivity. Qed.
Lemma vertex_record_text print v : vertex_record print v = vertex_text print v.
Proof. unfold vertex_record, vertex_text. rewrite point_key_text. reflexivity. Qed.
Lemma placement_digest print t : exists order, Permutation order (t_verts t) /\
  placement_fingerprint print t = fnv1a (placement_text print order).
Proof.
  unfold placement_fingerprint, vertex_records. destruct (Permutation_map_inv (vertex_record print) (t_verts t) (sort_by_perm lex_leb _)) as (o & E & P).
  exists o. split; [symmetry; exact P|]. rewrite E, fingerprint_ended. unfold placement_text. do 2 f_equal.
Qed.

(** * Lists *)
Lemma perm_map_inj {A C} (h : A -> C) (a b : list A) :
  (forall x y, In x a -> In y b -> h x = h y -> x = y) -> Permutation (map h a) (map h b) -> Permutation a b.
Proof.
  intros I P. destruct (Permutation_map_inv h b P) as (b' & E & P').
  assert (a = b') as ->; [|symmetry; exact P'].
  assert (I' : forall x y, In x a -> In y b' -> h x = h y -> x = y).
  { intros x y Hx Hy. apply I; [exact Hx|]. eapply Permutation_in; [symmetry; exact P'|exact Hy]. }
  clear P P' I. revert b' E I'. induction a as [|x a IH]; intros [|y b'] E I'; try discriminate; [reflexivity|].
  cbn [map] in E. injection E as E1 E2. f_equal.
  - apply I'; [left; reflexivity|left; reflexivity|exact E1].
  - apply IH; [exact E2|]. intros u v Hu Hv. apply I'; right; assumption.
Qed.
Lemma perm_index {A} (l l' : list A) : Permutation l l' ->
  exists f, renumbering (length l) f /\ (forall i, nth_error l' (f i) = nth_error l i).
Proof.
  intros P. symmetry in P. pose proof (Permutation_length P) as L. apply Permutation_nth_error in P as (_ & f & I & H).
  exists f. split; [split|].
  - intros i Hi. rewrite <- L. apply nth_error_Some. rewrite <- H. apply nth_error_Some. exact Hi.
  - intros i j _ _ E. apply I, E.
  - intros i. symmetry. apply H.
Qed.
Lemma Forall2_at {A C} (R : A -> C -> Prop) l k i x : Forall2 R l k -> nth_error l i = Some x ->
  exists y, nth_error k i = Some y /\ R x y.
Proof.
  intros F. revert i. induction F as [|a c l k H F IH]; intros [|i] E; try discriminate.
  - injection E as <-. exists c. split; [reflexivity|exact H].
  - apply IH, E.
Qed.
Lemma Forall2_at_r {A C} (R : A -> C -> Prop) l k i y : Forall2 R l k -> nth_error k i = Some y ->
  exists x, nth_error l i = Some x /\ R x y.
Proof.
  intros F. revert i. induction F as [|a c l k H F IH]; intros [|i] E; try discriminate.
  - injection E as <-. exists a. split; [reflexivity|exact H].
  - apply IH, E.
Qed.
Lemma Forall2_len {A C} (R : A -> C -> Prop) l k : Forall2 R l k -> length l = length k.
Proof. induction 1; cbn; congruence. Qed.

(** * Cells told by points *)
Section ByPoints.
Variable number : fp -> Prop.
Variable print : fp -> text.
Hypothesis SEP : separating number print.
Definition is_v (r : text) : bool := match r with c :: _ => c =? 118 | [] => false end.

Definition corner (t : tri) (i : nat) : option point := option_map fst (nth_error (t_verts t) i).
Lemma corner_good t i p : numbers number (t_verts t) -> corner t i = Some p -> good number p.
Proof.
  unfold corner, numbers. intros F E. destruct (nth_error (t_verts t) i) as [v|] eqn:K; [|discriminate].
  cbn in E. injection E as <-. rewrite List.Forall_forall in F. apply (F v). eapply nth_error_In, K.
Qed.
Lemma corners_good t vs corners : numbers number (t_verts t) ->
  Permutation (map Some corners) (map (corner t) vs) -> Forall (good number) corners.
Proof.
  intros N P. rewrite List.Forall_forall. intros p Hp.
  assert (I : In (Some p) (map (corner t) vs)) by (eapply Permutation_in; [exact P|apply in_map, Hp]).
  apply in_map_iff in I as (i & E & _). eapply corner_good; eassumption.
Qed.
Lemma cell_text_no t c l : numbers number (t_verts t) -> cell_text print t c l -> ~ In 255 l /\ is_v l = false.
Proof using SEP.
  intros N (corners & P & ->). split; [|reflexivity]. pose proof (corners_good t _ _ N P) as G.
  repeat apply not_in_app.
  - chars.
  - eapply points_no; [exact SEP|exact G|tauto].
  - intros [I|[]]; discriminate.
  - apply print_int_no; lia.
Qed.
Lemma vertex_texts_no vs : numbers number vs -> Forall (fun r => ~ In 255 r) (map (vertex_text print) vs).
Proof using SEP.
  intros F. apply Forall_map. eapply List.Forall_impl; [|exact F]. intros v H. eapply vertex_no; [exact SEP|exact H].
Qed.
Lemma filter_all {A} (f : A -> bool) l : Forall (fun x => f x = true) l -> List.filter f l = l.
Proof. induction 1 as [|x l H F IH]; cbn; [reflexivity|]. rewrite H, IH. reflexivity. Qed.
Lemma filter_none {A} (f : A -> bool) l : Forall (fun x => f x = false) l -> List.filter f l = [].
Proof. induction 1 as [|x l H F IH]; cbn; [reflexivity|]. rewrite H, IH. reflexivity. Qed.
Lemma split_kinds vs cs : Forall (fun l => is_v l = false) cs ->
  List.filter is_v (map (vertex_text print) vs ++ cs) = map (vertex_text print) vs /\
  List.filter (fun l => negb (is_v l)) (map (vertex_text print) vs ++ cs) = cs.
Proof.
  intros F. rewrite !List.filter_app.
  assert (V : Forall (fun l => is_v l = true) (map (vertex_text print) vs)).
  { apply Forall_map. rewrite List.Forall_forall. reflexivity. }
  rewrite (filter_all is_v (map _ _)), (filter_none is_v cs) by assumption.
  rewrite (filter_none (fun l => negb (is_v l)) (map _ _)).
  2:{ eapply List.Forall_impl; [|exact V]. intros l ->. reflexivity. }
  rewrite (filter_all (fun l => negb (is_v l)) cs).
  2:{ eapply List.Forall_impl; [|exact F]. intros l ->. reflexivity. }
  rewrite app_nil_r. split; reflexivity.
Qed.
Lemma cells_kind t cells : numbers number (t_verts t) -> Forall2 (cell_text print t) (t_cells t) cells ->
  Forall (fun r => ~ In 255 r) cells /\ Forall (fun l => is_v l = false) cells.
Proof using SEP.
  intros N. generalize (t_cells t). intros cs. induction 1 as [|c l cs ls H F [IH1 IH2]]; [split; constructor|].
  apply cell_text_no in H as [H1 H2]; [|exact N]. split; constructor; assumption.
Qed.
Lemma vertices_perm vs vs' : numbers number vs -> numbers number vs' ->
  Permutation (map (vertex_text print) vs) (map (vertex_text print) vs') -> Permutation vs vs'.
Proof using SEP.
  intros N N'. apply perm_map_inj. intros v w Hv Hw. unfold numbers in *. rewrite List.Forall_forall in N, N'.
  eapply vertex_inj; [exact SEP|exact (N v Hv)|exact (N' w Hw)].
Qed.

Lemma by_points_reordered t t' b : well_indexed t -> well_indexed t' ->
  numbers number (t_verts t) -> numbers number (t_verts t') ->
  NoDup (map fst (t_verts t')) -> text_by_points print t b -> text_by_points print t' b -> reordered t t'.
Proof using SEP.
  intros W W' N N' D (cells & rs & F & P & E) (cells' & rs' & F' & P' & E').
  destruct (cells_kind t cells N F) as [C1 C2]. destruct (cells_kind t' cells' N' F') as [C1' C2'].
  assert (Q : Permutation (map (vertex_text print) (t_verts t) ++ cells) (map (vertex_text print) (t_verts t') ++ cells')).
  { rewrite <- P, <- P'. apply Permutation_refl'. apply ended_inj; [| |congruence].
    - rewrite P. apply List.Forall_app. split; [apply vertex_texts_no, N|exact C1].
    - rewrite P'. apply List.Forall_app. split; [apply vertex_texts_no, N'|exact C1']. }
  pose proof (CanonRelabel.filter_perm is_v _ _ Q) as Qv. pose proof (CanonRelabel.filter_perm (fun l => negb (is_v l)) _ _ Q) as Qc.
  rewrite !(proj1 (split_kinds _ _ C2)), !(proj1 (split_kinds _ _ C2')) in Qv.
  rewrite !(proj2 (split_kinds _ _ C2)), !(proj2 (split_kinds _ _ C2')) in Qc.
  apply vertices_perm in Qv; [|assumption..].
  destruct (perm_index _ _ Qv) as (f & Rf & Hf). destruct (perm_index _ _ Qc) as (g & Rg & Hg).
  pose proof (Forall2_len _ _ _ F) as Lc. pose proof (Forall2_len _ _ _ F') as Lc'.
  pose proof (Permutation_length Qv) as Lv. pose proof (Permutation_length Qc) as Lcc.
  unfold text in *.
  exists f, g. split; [lia|]. split; [lia|]. split; [exact Rf|]. split; [rewrite Lc; exact Rg|]. split; [intros i _; apply Hf|].
  intros c vs lab Hc. destruct (Forall2_at _ _ _ _ _ F Hc) as (l & Hl & (corners & PC & ->)).
  pose proof (Hg c) as Hgc. unfold text in *. rewrite Hl in Hgc.
  destruct (Forall2_at_r _ _ _ _ _ F' Hgc) as ([vs' lab'] & Hc' & (corners' & PC' & EL)). cbn [fst snd] in *.
  apply app_inv_head in EL. cbn [app] in EL.
  apply first_split in EL as [E1 E2]; [|eapply points_no; [exact SEP|eapply corners_good; [|eassumption]; assumption|tauto]..].
  apply print_int_inj in E2 as ->. apply (points_inj number print SEP) in E1 as ->; [|eapply corners_good; [|eassumption]; assumption..].
  exists vs'. split; [exact Hc'|].
  change (Permutation (map Some corners') (map (corner t) vs)) in PC.
  change (Permutation (map Some corners') (map (corner t') vs')) in PC'.
  assert (B : Forall (fun i => (i < length (t_verts t))%nat) vs).
  { unfold well_indexed in W. rewrite List.Forall_forall in W. exact (W _ (nth_error_In _ _ Hc)). }
  assert (B' : Forall (fun i => (i < length (t_verts t'))%nat) vs').
  { unfold well_indexed in W'. rewrite List.Forall_forall in W'. exact (W' _ (nth_error_In _ _ Hc')). }
  rewrite List.Forall_forall in B, B'.
  apply (perm_map_inj (corner t')).
  - intros x y Hx Hy Exy. apply in_map_iff in Hx as (i & <- & Hi). pose proof (proj1 Rf i (B i Hi)) as Lx. rewrite Lv in Lx.
    specialize (B' y Hy). apply NoDup_ListNoDup in D. rewrite List.NoDup_nth_error in D. apply D; [rewrite map_length; exact Lx|].
    rewrite !nth_error_map. exact Exy.
  - rewrite map_map, <- PC', PC. apply Permutation_refl'. apply map_ext. intros i. unfold corner. rewrite Hf. reflexivity.
Qed.
End ByPoints.

(** * Cells told by incidence *)
Fixpoint index (x : node) (l : list node) : nat :=
  match l with [] => 0%nat | y :: r => if decide (x = y) then 0%nat else S (index x r) end.
Lemma index_at x l : In x l -> nth_error l (index x l) = Some x.
Proof.
  induction l as [|y l IH]; intros H; [destruct H|]. cbn [index]. destruct (decide (x = y)) as [->|N]; [reflexivity|].
  cbn. apply IH. destruct H as [H|H]; [congruence|exact H].
Qed.
Lemma nodup_at {A} (l : list A) i j x : List.NoDup l -> nth_error l i = Some x -> nth_error l j = Some x -> i = j.
Proof. intros D Ei Ej. rewrite List.NoDup_nth_error in D. apply D; [apply nth_error_Some; congruence|congruence]. Qed.
Lemma index_is x l n : List.NoDup l -> nth_error l n = Some x -> index x l = n.
Proof. intros D E. eapply nodup_at; [exact D|apply index_at; eapply nth_error_In, E|exact E]. Qed.

Definition is_left (x : node) : bool := match x with inl _ => true | inr _ => false end.
Lemma numbering_nodup t order : numbering t order -> List.NoDup order.
Proof.
  intros P. eapply Permutation_NoDup; [symmetry; exact P|]. apply NoDup_ListNoDup. apply stdpp.list.NoDup_app. split; [|split].
  - apply NoDup_fmap_2; [intros x y [= ->]; reflexivity|]. apply NoDup_ListNoDup, seq_NoDup.
  - intros x Hx Hy. apply elem_of_list_In, in_map_iff in Hx as (i & <- & _). apply elem_of_list_In, in_map_iff in Hy as (j & [=] & _).
  - apply NoDup_fmap_2; [intros x y [= ->]; reflexivity|]. apply NoDup_ListNoDup, seq_NoDup.
Qed.
Lemma numbering_vertex t order i : numbering t order -> In (inl i) order <-> (i < length (t_verts t))%nat.
Proof.
  intros P. split.
  - intros H. apply (Permutation_in _ P) in H. apply in_app_or in H as [H|H].
    + apply in_map_iff in H as (j & [= ->] & H). apply in_seq in H. lia.
    + apply in_map_iff in H as (j & [=] & _).
  - intros H. apply (Permutation_in _ (Permutation_sym P)), in_or_app. left. apply in_map, in_seq. lia.
Qed.
Lemma numbering_cell t order c : numbering t order -> In (inr c) order <-> (c < length (t_cells t))%nat.
Proof.
  intros P. split.
  - intros H. apply (Permutation_in _ P) in H. apply in_app_or in H as [H|H].
    + apply in_map_iff in H as (j & [=] & _).
    + apply in_map_iff in H as (j & [= ->] & H). apply in_seq in H. lia.
  - intros H. apply (Permutation_in _ (Permutation_sym P)), in_or_app. right. apply in_map, in_seq. lia.
Qed.
Lemma count_left_inl l : length (List.filter is_left (map inl l)) = length l.
Proof. induction l; cbn; congruence. Qed.
Lemma count_left_inr l : length (List.filter is_left (map inr l)) = 0%nat.
Proof. induction l; cbn; congruence. Qed.
Lemma numbering_sizes t order : numbering t order ->
  length (List.filter is_left order) = length (t_verts t) /\ length order = (length (t_verts t) + length (t_cells t))%nat.
Proof.
  intros P. split.
  - rewrite (Permutation_length (CanonRelabel.filter_perm is_left _ _ P)), List.filter_app, app_length, count_left_inl, count_left_inr, seq_length. lia.
  - rewrite (Permutation_length P), app_length, !map_length, !seq_length. reflexivity.
Qed.

Section ByIncidence.
Variable number : fp -> Prop.
Variable print : fp -> text.
Hypothesis SEP : separating number print.
Notation node_text := (node_text print).

Lemma node_text_no t order x l : numbers number (t_verts t) -> node_text t order x l -> ~ In 255 l.
Proof using SEP.
  intros N. destruct x as [i|c].
  - intros (v & cs & ns & Hv & _ & _ & ->). apply numbered_no. eapply vertex_no; [exact SEP|].
    unfold numbers in N. rewrite List.Forall_forall in N. exact (N v (nth_error_In _ _ Hv)).
  - intros (vs & lab & is & ns & Hc & _ & _ & ->). apply numbered_no. apply (not_in_app _ (B "c:")); [chars|apply print_int_no; lia].
Qed.
Lemma node_texts_no t order xs ls : numbers number (t_verts t) -> Forall2 (node_text t order) xs ls -> Forall (fun r => ~ In 255 r) ls.
Proof using SEP. intros N. induction 1; constructor; [eapply node_text_no; eassumption|assumption]. Qed.
Lemma node_text_vertex t t' order order' i x l : numbers number (t_verts t) -> numbers number (t_verts t') ->
  node_text t order (inl i) l -> node_text t' order' x l ->
  exists j, x = inl j /\ nth_error (t_verts t') j = nth_error (t_verts t) i.
Proof using SEP.
  intros N N' (v & cs & ns & Hv & _ & _ & ->). destruct x as [j|c].
  - intros (v' & cs' & ns' & Hv' & _ & _ & E). exists j. split; [reflexivity|]. rewrite Hv, Hv'. f_equal.
    apply numbered_inj in E as [E _]. unfold numbers in *. rewrite List.Forall_forall in N, N'.
    eapply vertex_inj; [exact SEP|exact (N' v' (nth_error_In _ _ Hv'))|exact (N v (nth_error_In _ _ Hv))|congruence].
  - intros (vs & lab & is & ns' & Hc & _ & _ & E). apply numbered_inj in E as [E _]. discriminate E.
Qed.
Lemma node_text_cell t t' order order' c x l :
  node_text t order (inr c) l -> node_text t' order' x l ->
  exists d vs lab vs' is is' ns, x = inr d /\ nth_error (t_cells t) c = Some (vs, lab) /\ nth_error (t_cells t') d = Some (vs', lab) /\
    Permutation is vs /\ Permutation is' vs' /\
    Forall2 (fun i n => nth_error order n = Some (inl i)) is ns /\ Forall2 (fun i n => nth_error order' n = Some (inl i)) is' ns.
Proof.
  intros (vs & lab & is & ns & Hc & P & F & ->). destruct x as [j|d].
  - intros (v & cs & ns' & Hv & _ & _ & E). apply numbered_inj in E as [E _]. discriminate E.
  - intros (vs' & lab' & is' & ns' & Hc' & P' & F' & E). apply numbered_inj in E as [E <-].
    apply app_inv_head, print_int_inj in E as <-. exists d, vs, lab, vs', is, is', ns. repeat (split; [assumption || reflexivity|]). assumption.
Qed.

Lemma by_incidence_reordered t t' b : numbers number (t_verts t) -> numbers number (t_verts t') ->
  text_by_incidence print t b -> text_by_incidence print t' b -> reordered t t'.
Proof using SEP.
  intros N N' (order & rs & O & F & E) (order' & rs' & O' & F' & E').
  assert (rs' = rs) as ->.
  { apply ended_inj; [exact (node_texts_no _ _ _ _ N' F')|exact (node_texts_no _ _ _ _ N F)|congruence]. }
  pose proof (numbering_nodup _ _ O) as D. pose proof (numbering_nodup _ _ O') as D'.
  pose proof (Forall2_len _ _ _ F) as L. pose proof (Forall2_len _ _ _ F') as L'.
  assert (K : forall p x, nth_error order p = Some x -> exists x' l, nth_error order' p = Some x' /\
    node_text t order x l /\ node_text t' order' x' l).
  { intros p x Hp. destruct (Forall2_at _ _ _ _ _ F Hp) as (l & Hl & T). destruct (Forall2_at_r _ _ _ _ _ F' Hl) as (x' & Hx' & T').
    exists x', l. split; [exact Hx'|]. split; assumption. }
  assert (KV : forall p i, nth_error order p = Some (inl i) -> exists j, nth_error order' p = Some (inl j) /\
    nth_error (t_verts t') j = nth_error (t_verts t) i).
  { intros p i Hp. destruct (K _ _ Hp) as (x' & l & Hx' & T & T').
    destruct (node_text_vertex _ _ _ _ _ _ _ N N' T T') as (j & -> & Hj). exists j. split; assumption. }
  assert (KC : forall p c, nth_error order p = Some (inr c) -> exists d vs lab vs' is is' ns, nth_error order' p = Some (inr d) /\
    nth_error (t_cells t) c = Some (vs, lab) /\ nth_error (t_cells t') d = Some (vs', lab) /\
    Permutation is vs /\ Permutation is' vs' /\
    Forall2 (fun i n => nth_error order n = Some (inl i)) is ns /\ Forall2 (fun i n => nth_error order' n = Some (inl i)) is' ns).
  { intros p c Hp. destruct (K _ _ Hp) as (x' & l & Hx' & T & T').
    destruct (node_text_cell _ _ _ _ _ _ _ T T') as (d & vs & lab & vs' & is & is' & ns & -> & R).
    exists d, vs, lab, vs', is, is', ns. split; [exact Hx'|exact R]. }
  assert (KK : map is_left order = map is_left order').
  { apply nth_error_ext. intros p. rewrite !nth_error_map. destruct (nth_error order p) as [[i|c]|] eqn:Hp.
    - destruct (KV _ _ Hp) as (j & Hj & _). rewrite Hj. reflexivity.
    - destruct (KC _ _ Hp) as (d & vs & lab & vs' & is & is' & ns & Hd & _). rewrite Hd. reflexivity.
    - apply nth_error_None in Hp. rewrite (proj2 (nth_error_None order' p)) by lia. reflexivity. }
  assert (CL : forall l : list node, length (List.filter is_left l) = length (List.filter id (map is_left l))).
  { induction l as [|[i|c] l IH]; cbn; [reflexivity|f_equal; exact IH|exact IH]. }
  destruct (numbering_sizes _ _ O) as [Sv Sn]. destruct (numbering_sizes _ _ O') as [Sv' Sn'].
  rewrite CL in Sv, Sv'. rewrite <- KK, Sv in Sv'.
  set (f := fun i => match nth_error order' (index (inl i) order) with Some (inl j) => j | _ => 0%nat end).
  set (g := fun c => match nth_error order' (index (inr c) order) with Some (inr d) => d | _ => 0%nat end).
  assert (Ff : forall p i, nth_error order p = Some (inl i) -> nth_error order' p = Some (inl (f i))).
  { intros p i Hp. destruct (KV _ _ Hp) as (j & Hj & _). subst f. cbn beta. rewrite (index_is _ _ _ D Hp), Hj. reflexivity. }
  assert (Fg : forall p c, nth_error order p = Some (inr c) -> nth_error order' p = Some (inr (g c))).
  { intros p c Hp. destruct (KC _ _ Hp) as (d & vs & lab & vs' & is & is' & ns & Hd & _). subst g. cbn beta. rewrite (index_is _ _ _ D Hp), Hd. reflexivity. }
  assert (Pv : forall i, (i < length (t_verts t))%nat -> exists p, nth_error order p = Some (inl i)).
  { intros i Hi. apply (numbering_vertex _ _ _ O), In_nth_error in Hi. exact Hi. }
  assert (Pc : forall c, (c < length (t_cells t))%nat -> exists p, nth_error order p = Some (inr c)).
  { intros i Hi. apply (numbering_cell _ _ _ O), In_nth_error in Hi. exact Hi. }
  clearbody f g. unfold text in *.
  exists f, g. split; [lia|]. split; [lia|]. split; [split|split; [split|split]].
  - intros i Hi. destruct (Pv i Hi) as (p & Hp). apply Ff, nth_error_In, (numbering_vertex _ _ _ O') in Hp. lia.
  - intros i j Hi Hj Eij. destruct (Pv i Hi) as (p & Hp). destruct (Pv j Hj) as (q & Hq).
    pose proof (Ff _ _ Hp) as Hp'. pose proof (Ff _ _ Hq) as Hq'. rewrite Eij in Hp'. pose proof (nodup_at _ _ _ _ D' Hp' Hq') as ->. congruence.
  - intros i Hi. destruct (Pc i Hi) as (p & Hp). apply Fg, nth_error_In, (numbering_cell _ _ _ O') in Hp. lia.
  - intros i j Hi Hj Eij. destruct (Pc i Hi) as (p & Hp). destruct (Pc j Hj) as (q & Hq).
    pose proof (Fg _ _ Hp) as Hp'. pose proof (Fg _ _ Hq) as Hq'. rewrite Eij in Hp'. pose proof (nodup_at _ _ _ _ D' Hp' Hq') as ->. congruence.
  - intros i Hi. destruct (Pv i Hi) as (p & Hp). pose proof (Ff _ _ Hp) as Hp'. destruct (KV _ _ Hp) as (j & Hj & Ej). rewrite Hp' in Hj. injection Hj as <-. exact Ej.
  - intros c vs lab Hc. destruct (Pc c) as (p & Hp); [apply nth_error_Some; congruence|].
    pose proof (Fg _ _ Hp) as Hp'. destruct (KC _ _ Hp) as (d & vs0 & lab0 & vs' & is & is' & ns & Hd & Hc0 & Hc' & P & P' & G & G').
    rewrite Hp' in Hd. injection Hd as <-. rewrite Hc in Hc0. injection Hc0 as <- <-. exists vs'. split; [exact Hc'|].
    rewrite <- P, <- P'. apply Permutation_refl'. clear P P' Hc Hc'. revert is' G'. induction G as [|i n is ns Hn G IH]; intros is' G'; inversion G' as [|i' n' is'' ns' Hn' G'']; subst; [reflexivity|].
    cbn [map]. pose proof (Ff _ _ Hn) as Hn2. rewrite Hn' in Hn2. injection Hn2 as ->. f_equal. apply IH. assumption.
Qed.
End ByIncidence.

(** The two kinds of text differ. *)
Lemma vertex_first print v : exists r, vertex_text print v = 118 :: r.
Proof. eexists. reflexivity. Qed.
Lemma numbered_first base ns : exists d r, numbered_text base ns = d :: r /\ 48 <= d <= 57.
Proof.
  unfold numbered_text. pose proof (numeral_nonempty 10 _ _ (digits_numeral 10 (Z.of_nat (length base)) ltac:(lia) ltac:(lia))) as Ne.
  unfold print_unsigned. destruct (digits 10 (Z.of_nat (length base))) as [|d r] eqn:E; [congruence|].
  eexists d, _. split; [reflexivity|]. apply (print_unsigned_chars (Z.of_nat (length base))); [lia|].
  unfold print_unsigned. rewrite E. left. reflexivity.
Qed.

(** * The search ends in some numbering *)
Lemma join_all_pick l : forall o r k, join_all l o = Some (r, k) -> exists k', o = Some (r, k') \/ In (Some (r, k')) l.
Proof.
  induction l as [|x l IH]; intros o r k H; cbn [join_all] in H; [exists k; left; exact H|].
  destruct (IH _ _ _ H) as (k' & [E|I]); [|exists k'; right; right; exact I].
  destruct x as [[rx kx]|], o as [[ro ko]|]; cbn in E; try discriminate. destruct (lex_leb2 ro rx); injection E as <- _.
  - exists ko. left. reflexivity.
  - exists kx. right. left. reflexivity.
Qed.
Definition coloring (n : nat) (cs : list Z) : Prop :=
  length cs = n /\ Forall (fun c => 0 <= c < Z.of_nat (length cs)) cs /\ NoDup cs.
Lemma canon_coloring fuel bases adj : adj <> [] -> forall colors r k, length colors = length adj ->
  canon fuel bases adj colors = Some (r, k) -> exists cs, coloring (length adj) cs /\ r = pure_records bases adj cs.
Proof.
  intros Ne. induction fuel as [|f IH]; intros colors0 r k L H; cbn [canon] in H; [discriminate|].
  pose proof (pure_refine_length (length adj) adj colors0 L) as Lc.
  assert (Rc : Forall (fun c => 0 <= c < Z.of_nat (length adj)) (fst (pure_refine (length adj) adj colors0))).
  { rewrite List.Forall_forall. intros c Hc. destruct adj as [|x adj']; [congruence|].
    eapply pure_refine_range; [exact L|]. exact Hc. }
  destruct (pure_refine _ _ _) as [cs c]. cbn [fst] in *.
  destruct (ambiguous cs) as [a|] eqn:Ea.
  - destruct (join_some _) as [[r' k']|] eqn:J; [|discriminate]. cbn in H. injection H as <- _.
    assert (P : exists i k1, canon f bases adj (<[i := fold_right Z.max 0 cs + 1]> cs) = Some (r', k1)).
    { unfold join_some in J. destruct (candidates cs a) as [|i l]; cbn [map] in J; [discriminate|].
      destruct (join_all_pick _ _ _ _ J) as (k1 & [E|I]); [exists i, k1; exact E|].
      apply in_map_iff in I as (j & E & _). exists j, k1. exact E. }
    destruct P as (i & k1 & E). eapply IH; [|exact E]. rewrite insert_length. exact Lc.
  - cbn in H. injection H as <- _. exists cs. split; [|reflexivity]. rewrite <- Lc in Rc. split; [exact Lc|]. split; [exact Rc|].
    apply unambiguous; assumption.
Qed.

Lemma color_node n cs c : coloring n cs -> (c < n)%nat -> exists i, (i < n)%nat /\ color cs i = Z.of_nat c /\ node_of cs (Z.of_nat c) = i.
Proof.
  intros (L & F & D) Hc. subst n. pose proof (dense_colors cs c F D Hc) as I. apply In_nth_error in I as (i & Hi).
  assert (Li : (i < length cs)%nat) by (apply nth_error_Some; congruence).
  assert (C : color cs i = Z.of_nat c) by (unfold color; apply nth_error_nth, Hi).
  exists i. split; [exact Li|]. split; [exact C|]. rewrite <- C. apply node_of_spec; assumption.
Qed.
Lemma color_range n cs i : coloring n cs -> (i < n)%nat -> 0 <= color cs i < Z.of_nat n.
Proof.
  intros (L & F & D) Hi. subst n. rewrite List.Forall_forall in F. apply F. unfold color. apply nth_In, Hi.
Qed.
Lemma color_renumbering n cs : coloring n cs -> renumbering n (fun c => node_of cs (Z.of_nat c)).
Proof.
  intros C. split.
  - intros c Hc. destruct (color_node n cs c C Hc) as (i & Hi & _ & ->). exact Hi.
  - intros c d Hc Hd E. destruct (color_node n cs c C Hc) as (i & Hi & Ci & Ni), (color_node n cs d C Hd) as (j & Hj & Cj & Nj).
    rewrite Ni, Nj in E. rewrite E in Ci. apply Nat2Z.inj. congruence.
Qed.

Lemma times_count v vs : times v vs = count_occ Nat.eq_dec vs v.
Proof.
  unfold times. induction vs as [|x vs IH]; [reflexivity|]. cbn [List.filter count_occ].
  destruct (Nat.eqb_spec v x) as [->|N]; destruct (Nat.eq_dec _ _) as [E|E]; cbn [length]; try congruence.
Qed.
Lemma count_repeat x y k : count_occ Nat.eq_dec (repeat x k) y = if Nat.eq_dec x y then k else 0%nat.
Proof. induction k as [|k IH]; cbn [repeat count_occ]; destruct (Nat.eq_dec x y); congruence. Qed.
Lemma count_seq (h : nat -> nat) x n : forall s,
  count_occ Nat.eq_dec (concat (map (fun c => repeat c (h c)) (seq s n))) x = if ((s <=? x) && (x <? s + n))%nat then h x else 0%nat.
Proof.
  induction n as [|n IH]; intros s; cbn [seq map concat].
  - destruct (Nat.leb_spec s x), (Nat.ltb_spec x (s + 0)); cbn; try lia; reflexivity.
  - rewrite count_occ_app, count_repeat, IH.
    destruct (Nat.eq_dec s x) as [Ex|Nx].
    + rewrite (proj2 (Nat.leb_gt (S s) x)), (proj2 (Nat.leb_le s x)), (proj2 (Nat.ltb_lt x (s + S n))) by lia. cbn [andb]. rewrite Ex. lia.
    + replace (s <=? x)%nat with (S s <=? x)%nat by (destruct (Nat.leb_spec (S s) x), (Nat.leb_spec s x); lia || reflexivity).
      replace (s + S n)%nat with (S s + n)%nat by lia. reflexivity.
Qed.

Section Exists.
Variable print : fp -> text.
Variable t : tri.
Hypothesis W : well_indexed t.
Notation nv := (length (t_verts t)).
Notation nc := (length (t_cells t)).
Definition kind (i : nat) : node := if (i <? length (t_verts t))%nat then inl i else inr (i - length (t_verts t))%nat.
Definition bases : list text := map (vertex_record print) (t_verts t) ++ map (fun c => B "c:" ++ print_int (snd c)) (t_cells t).
Definition adj : list (list nat) := bipartite_adjacency (length (t_verts t)) (map fst (t_cells t)).

Lemma kind_vertex i : (i < nv)%nat -> kind i = inl i.
Proof. intros H. unfold kind. rewrite (proj2 (Nat.ltb_lt i nv) H). reflexivity. Qed.
Lemma kind_cell c : kind (nv + c) = inr c.
Proof. unfold kind. rewrite (proj2 (Nat.ltb_ge (nv + c) nv)) by lia. f_equal. lia. Qed.
Lemma kinds : map kind (seq 0 (nv + nc)) = map inl (seq 0 nv) ++ map inr (seq 0 nc).
Proof.
  rewrite seq_app, map_app. f_equal.
  - apply map_ext_in. intros i Hi. apply in_seq in Hi. apply kind_vertex. lia.
  - cbn [Nat.add]. rewrite <- (Nat.add_0_r nv) at 1. generalize 0%nat as s. induction nc as [|m IH]; intros s; cbn [seq map]; [reflexivity|].
    rewrite kind_cell. f_equal. rewrite <- IH. do 2 f_equal. lia.
Qed.
Lemma adj_length : length adj = (nv + nc)%nat.
Proof. unfold adj. rewrite bipartite_length, map_length. reflexivity. Qed.
Lemma bases_length : length bases = (nv + nc)%nat.
Proof. unfold bases. rewrite app_length, !map_length. reflexivity. Qed.
Lemma cells_bound : Forall (Forall (fun i => (i < nv)%nat)) (map fst (t_cells t)).
Proof using W. unfold well_indexed in W. apply Forall_map. exact W. Qed.
Lemma adj_sized : sized adj.
Proof using W. apply (bipartite_sized _ _ (map fst (t_cells t)) eq_refl). exact cells_bound. Qed.

Definition order (cs : list Z) : list node := map (fun c => kind (node_of cs (Z.of_nat c))) (seq 0 (length cs)).
Lemma order_numbering cs : coloring (nv + nc) cs -> numbering t (order cs).
Proof.
  intros C. unfold numbering, order. rewrite <- kinds, <- map_map, (proj1 C). apply (Permutation_map kind).
  apply renumbering_perm. apply color_renumbering, C.
Qed.
Lemma order_at cs i : coloring (nv + nc) cs -> (i < nv + nc)%nat -> nth_error (order cs) (Z.to_nat (color cs i)) = Some (kind i).
Proof.
  intros C Hi. pose proof (color_range _ _ _ C Hi) as R. unfold order.
  rewrite nth_error_map, CanonRelabel.nth_error_seq by (rewrite (proj1 C); lia). cbn [option_map].
  rewrite Z2Nat.id by lia. rewrite node_of_spec; [reflexivity|rewrite (proj1 C); exact Hi|apply C].
Qed.

Lemma record_numbered cs i : coloring (nv + nc) cs -> exists js, Permutation js (nth i adj []) /\
  pure_record bases adj cs i = numbered_text (nth i bases []) (map (fun j => Z.to_nat (color cs j)) js).
Proof using W.
  intros C. unfold pure_record, near.
  destruct (Permutation_map_inv (color cs) _ (sort_by_perm Z.leb (map (color cs) (nth i adj [])))) as (js & E & P).
  exists js. split; [symmetry; exact P|]. rewrite E. unfold numbered_text.
  assert (M : map (fun c => print_unsigned c ++ B ";") (map (color cs) js) =
              map (fun n => print_unsigned (Z.of_nat n) ++ [59]) (map (fun j => Z.to_nat (color cs j)) js)).
  { rewrite !map_map. apply map_ext_in. intros j Hj.
    assert (Hn : (j < nv + nc)%nat).
    { rewrite <- adj_length. eapply adj_bound; [exact adj_sized|]. eapply Permutation_in; [symmetry; exact P|exact Hj]. }
    rewrite Z2Nat.id by (pose proof (color_range _ _ _ C Hn); lia). reflexivity. }
  rewrite M. reflexivity.
Qed.

Lemma numbered_positions cs js (h : nat -> nat) (k : nat -> node) : coloring (nv + nc) cs ->
  (forall j, In j js -> (j < nv + nc)%nat /\ kind j = k (h j)) ->
  Forall2 (fun x n => nth_error (order cs) n = Some (k x)) (map h js) (map (fun j => Z.to_nat (color cs j)) js).
Proof.
  intros C. induction js as [|j js IH]; intros H; cbn [map]; [constructor|]. constructor.
  - destruct (H j (or_introl eq_refl)) as [Hj E]. rewrite <- E. apply order_at; assumption.
  - apply IH. intros x Hx. apply H. right. exact Hx.
Qed.

Lemma record_text cs i : coloring (nv + nc) cs -> (i < nv + nc)%nat ->
  node_text print t (order cs) (kind i) (pure_record bases adj cs i).
Proof using W.
  intros C Hi. destruct (record_numbered cs i C) as (js & P & ->).
  assert (Hn : forall j, In j js -> (j < nv + nc)%nat).
  { intros j Hj. rewrite <- adj_length. eapply adj_bound; [exact adj_sized|]. eapply Permutation_in; [exact P|exact Hj]. }
  destruct (decide (i < nv)%nat) as [Hv|Hv].
  - rewrite kind_vertex by exact Hv. destruct (nth_error (t_verts t) i) as [v|] eqn:E; [|apply nth_error_None in E; lia].
    exists v, (map (fun j => j - nv)%nat js), (map (fun j => Z.to_nat (color cs j)) js).
    assert (Ad : nth i adj [] = incident_cells nv (map fst (t_cells t)) i) by (apply bipartite_vertex, Hv).
    rewrite Ad in P. rewrite incident_cells_seq in P. split; [exact E|]. split; [|split].
    + intros c. rewrite (proj1 (Permutation_count_occ Nat.eq_dec _ _) (Permutation_map (fun j => j - nv)%nat P) c).
      rewrite concat_map, map_map.
      rewrite (map_ext_in _ (fun c => repeat c (times i (nth c (map fst (t_cells t)) [])))).
      2:{ intros d _. generalize (times i (nth d (map fst (t_cells t)) [])). intros k. induction k as [|k IH]; cbn; [reflexivity|].
          rewrite IH. f_equal. lia. }
      rewrite count_seq, map_length. cbn [Nat.leb andb Nat.add]. unfold incidences.
      destruct (Nat.ltb_spec c nc).
      * destruct (nth_error (t_cells t) c) as [[vs lab]|] eqn:Ec; [|apply nth_error_None in Ec; lia].
        rewrite times_count. f_equal. apply nth_error_nth. rewrite nth_error_map, Ec. reflexivity.
      * rewrite (proj2 (nth_error_None (t_cells t) c)) by lia. reflexivity.
    + apply (numbered_positions cs js (fun j => j - nv)%nat inr C). intros j Hj. split; [apply Hn, Hj|].
      apply (Permutation_in _ P), in_concat in Hj as (x & Hx & Hj). apply in_map_iff in Hx as (d & <- & _). apply repeat_spec in Hj as ->.
      rewrite kind_cell. f_equal. lia.
    + f_equal. unfold bases. rewrite app_nth1 by (rewrite map_length; exact Hv).
      rewrite <- vertex_record_text. apply nth_error_nth. rewrite nth_error_map, E. reflexivity.
  - assert (Ei : exists c, i = (nv + c)%nat /\ (c < nc)%nat) by (exists (i - nv)%nat; lia). destruct Ei as (c & -> & Hc).
    rewrite kind_cell. destruct (nth_error (t_cells t) c) as [[vs lab]|] eqn:E; [|apply nth_error_None in E; lia].
    exists vs, lab, js, (map (fun j => Z.to_nat (color cs j)) js).
    assert (Ad : nth (nv + c) adj [] = vs).
    { unfold adj. rewrite (bipartite_cell _ [] []) by reflexivity. apply nth_error_nth. rewrite nth_error_map, E. reflexivity. }
    rewrite Ad in P. split; [exact E|]. split; [exact P|]. split.
    + pose proof (numbered_positions cs js (fun j => j) inl C) as Q. rewrite map_id in Q. apply Q. intros j Hj. split; [apply Hn, Hj|].
      apply kind_vertex. apply (Permutation_in _ P) in Hj. unfold well_indexed in W. rewrite List.Forall_forall in W.
      specialize (W _ (nth_error_In _ _ E)). cbn in W. rewrite List.Forall_forall in W. auto.
    + f_equal. unfold bases. rewrite app_nth2 by (rewrite map_length; lia). rewrite map_length.
      replace (nv + c - nv)%nat with c by lia. apply nth_error_nth. rewrite nth_error_map, E. reflexivity.
Qed.
Lemma records_text cs : coloring (nv + nc) cs -> text_by_incidence print t (ended (pure_records bases adj cs)).
Proof using W.
  intros C. exists (order cs), (pure_records bases adj cs). split; [apply order_numbering, C|]. split; [|reflexivity].
  unfold order at 2, pure_records. rewrite (proj1 C).
  assert (G : forall l, (forall c, In c l -> (c < nv + nc)%nat) ->
    Forall2 (node_text print t (order cs)) (map (fun c => kind (node_of cs (Z.of_nat c))) l)
      (map (fun c => pure_record bases adj cs (node_of cs (Z.of_nat c))) l)).
  { induction l as [|c l IH]; intros H; cbn [map]; constructor.
    - apply record_text; [exact C|]. apply (proj1 (color_renumbering _ _ C)), H. left. reflexivity.
    - apply IH. intros d Hd. apply H. right. exact Hd. }
  apply G. intros c Hc. apply in_seq in Hc. lia.
Qed.
Lemma incidence_records r : t_verts t <> [] -> incidence_topology_records print t = Val r -> text_by_incidence print t (ended r).
Proof using W.
  intros Ne H. unfold incidence_topology_records, canonical_bipartite_incidence_records in H. rewrite !map_length in H.
  rewrite Nat.eqb_refl in H. cbn [negb] in H.
  destruct (forallb _ _); cbn [negb] in H; [|discriminate]. fold bases adj in H.
  assert (La : adj <> []) by (intros E; pose proof adj_length as L; rewrite E in L; destruct (t_verts t); [congruence|discriminate L]).
  destruct bases as [|b0 bs] eqn:Eb; [pose proof bases_length as L; rewrite Eb in L; destruct (t_verts t); [congruence|discriminate L]|].
  rewrite <- Eb in H. rewrite (search_canon _ bases adj adj_sized) in H.
  2:{ rewrite bases_length, adj_length. reflexivity. }
  2:{ exact La. }
  2:{ rewrite canonical_colors_length, bases_length, adj_length. reflexivity. }
  2:{ unfold CANONICAL_INCIDENCE_WORK_BUDGET. rewrite Nat2Z.inj_succ, Z2Nat.id by lia. lia. }
  destruct (canon _ _ _ _) as [[r' k]|] eqn:Ec; cbn [within] in H; [|discriminate].
  apply canon_coloring in Ec as (cs & C & ->); [|exact La|rewrite canonical_colors_length, bases_length, adj_length; reflexivity].
  destruct (_ <=? _); [|discriminate]. cbn in H. injection H as <-. rewrite adj_length in C. apply records_text, C.
Qed.
End Exists.

(** * Both kinds together *)
Lemma join_points print ps : join_keys (map (point_key print) ps) = points_text print ps.
Proof.
  induction ps as [|p [|q r] IH]; [reflexivity| |].
  - cbn. rewrite app_nil_r. apply point_key_text.
  - rewrite points_cons, <- IH. cbn [join_keys map concat]. rewrite point_key_text. reflexivity.
Qed.
Lemma some_point t i : (i < length (t_verts t))%nat ->
  Some (match nth_error (t_verts t) i with Some v => fst v | None => (NaN, NaN, NaN) end) = option_map fst (nth_error (t_verts t) i).
Proof. intros H. destruct (nth_error (t_verts t) i) eqn:E; [reflexivity|]. apply nth_error_None in E. lia. Qed.
Lemma pure_cell_text print t c : Forall (fun i => (i < length (t_verts t))%nat) (fst c) -> cell_text print t c (pure_cell_record print t c).
Proof.
  intros F. unfold pure_cell_record. set (pts := map _ (fst c)).
  destruct (Permutation_map_inv (point_key print) pts (sort_by_perm lex_leb _)) as (ps & E & P).
  exists ps. split.
  - rewrite <- (Permutation_map Some P). subst pts. rewrite map_map. apply Permutation_refl'. apply map_ext_in. intros i Hi.
    rewrite List.Forall_forall in F. apply some_point, F, Hi.
  - rewrite E, join_points. reflexivity.
Qed.

Section Both.
Variable number : fp -> Prop.
Variable print : fp -> text.
Hypothesis SEP : separating number print.

Lemma coincident_points t : numbers number (t_verts t) ->
  has_coincident_vertices print t = false <-> NoDup (map fst (t_verts t)).
Proof using SEP.
  intros N. unfold has_coincident_vertices. rewrite has_repeat_spec.
  replace (map (fun v => point_key print (fst v)) (t_verts t)) with (map (point_key print) (map fst (t_verts t))) by apply map_map.
  split.
  - intros D. apply NoDup_ListNoDup in D. apply NoDup_map_inv in D. apply NoDup_ListNoDup. exact D.
  - intros D. apply NoDup_fmap_2_strong; [|exact D]. intros p q Hp Hq. rewrite !point_key_text.
    apply elem_of_list_In, in_map_iff in Hp as (v & <- & Hv). apply elem_of_list_In, in_map_iff in Hq as (w & <- & Hw).
    unfold numbers in N. rewrite List.Forall_forall in N. eapply point_inj; [exact SEP|exact (N v Hv)|exact (N w Hw)].
Qed.

Lemma topology_digest t h : well_indexed t -> numbers number (t_verts t) -> topology_fingerprint print t = Val h ->
  exists b, topology_text print t b /\ h = fnv1a b.
Proof using SEP.
  intros W N H. unfold topology_fingerprint in H. destruct (has_coincident_vertices print t) eqn:E.
  - destruct (incidence_topology_records print t) as [r| |] eqn:R; try discriminate. cbn in H. injection H as <-.
    exists (ended r). split; [|apply fingerprint_ended]. right.
    assert (K : ~ NoDup (map fst (t_verts t))) by (intros D; apply coincident_points in D; [congruence|exact N]).
    split; [exact K|]. apply incidence_records; [exact W| |exact R]. intros Ne. apply K. rewrite Ne. constructor.
  - rewrite (mapM_val _ (pure_cell_record print t)) in H.
    2:{ intros c Hc. apply cell_record_val. unfold well_indexed in W. rewrite List.Forall_forall in W. auto. }
    cbn [bind] in H. injection H as <-. eexists. split; [|apply fingerprint_ended]. left.
    split; [apply coincident_points; assumption|].
    exists (map (pure_cell_record print t) (t_cells t)), (sort_by lex_leb (vertex_records print t ++ map (pure_cell_record print t) (t_cells t))).
    split; [|split; [|reflexivity]].
    + unfold well_indexed in W. revert W. generalize (t_cells t). intros cs. induction 1 as [|c cs Hc F IH]; cbn [map]; constructor; [apply pure_cell_text, Hc|exact IH].
    + rewrite sort_by_perm. apply Permutation_app_tail. unfold vertex_records. rewrite sort_by_perm. apply Permutation_refl', map_ext, vertex_record_text.
Qed.

Definition digit_first (r : text) : Prop := exists d s, r = d :: s /\ 48 <= d <= 57.
Lemma node_text_first t o x l : node_text print t o x l -> digit_first l.
Proof.
  destruct x as [i|c].
  - intros (v & cs & ns & _ & _ & _ & ->). apply numbered_first.
  - intros (vs & lab & is & ns & _ & _ & _ & ->). apply numbered_first.
Qed.
Lemma kinds_differ t t' b : numbers number (t_verts t) -> numbers number (t_verts t') -> t_verts t' <> [] ->
  text_by_points print t b -> text_by_incidence print t' b -> False.
Proof using SEP.
  intros N N' Ne (cells & rs & F & P & ->) (o & rs' & O & F' & E).
  apply ended_inj in E as ->.
  2:{ rewrite P. apply List.Forall_app. split; [eapply vertex_texts_no; [exact SEP|exact N]|eapply cells_kind; [exact SEP|exact N|exact F]]. }
  2:{ eapply node_texts_no; [exact SEP|exact N'|exact F']. }
  destruct rs' as [|l ls].
  - apply Forall2_len in F'. apply numbering_sizes in O as [_ O]. cbn in F'.
    assert (length (t_verts t') <> 0%nat) by (intros Z0; apply length_zero_iff_nil in Z0; contradiction). lia.
  - destruct (Forall2_at_r _ _ _ 0%nat l F' eq_refl) as (x & _ & H). apply node_text_first in H as (d & s & -> & Hd).
    assert (I : In (d :: s) (map (vertex_text print) (t_verts t) ++ cells)) by (eapply Permutation_in; [exact P|left; reflexivity]).
    apply in_app_or in I as [I|I].
    + apply in_map_iff in I as (v & Ev & _). assert (Ed : 118 = d) by (injection Ev; auto). lia.
    + apply In_nth_error in I as (k & Hk). destruct (Forall2_at_r _ _ _ _ _ F Hk) as (c & _ & (ps & _ & Ec)).
      assert (Ed : 99 = d) by (injection Ec; auto). lia.
Qed.
Lemma coincident_nonempty t : ~ NoDup (map fst (t_verts t)) -> t_verts t <> [].
Proof. intros K E. apply K. rewrite E. constructor. Qed.
Lemma topology_separates t t' b : well_indexed t -> well_indexed t' -> numbers number (t_verts t) -> numbers number (t_verts t') ->
  topology_text print t b -> topology_text print t' b -> reordered t t'.
Proof using SEP.
  intros W W' N N' [[D T]|[D T]] [[D' T']|[D' T']].
  - eapply by_points_reordered; eassumption.
  - exact (False_ind _ (kinds_differ t t' b N N' (coincident_nonempty _ D') T T')).
  - exact (False_ind _ (kinds_differ t' t b N' N (coincident_nonempty _ D) T' T)).
  - eapply by_incidence_reordered; eassumption.
Qed.
End Both.
