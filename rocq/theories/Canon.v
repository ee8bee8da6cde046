(** The canonical incidence search gives the same records for every numbering
    of the nodes (used by C49). *)
From Verif Require Import Base Config Fnv Text PersistSpec TextFacts Persist PersistFacts FingerprintSpec.
From Coq Require Import Permutation Sorted.
From stdpp Require Import list_numbers.
From Verif Require Import Base Config Fnv Text PersistSpec TextFacts Persist PersistFacts FingerprintSpec.
Local Open Scope Z_scope.
Local Open Scope list_scope.

(** * Renumbered lists *)
Lemma renumbering_perm n f : renumbering n f -> Permutation (map f (seq 0 n)) (seq 0 n).
Proof.
  intros [Hr Hi]. apply NoDup_Permutation_bis.
  - apply NoDup_ListNoDup. apply NoDup_fmap_2_strong; [|apply NoDup_ListNoDup, seq_NoDup].
    intros x y Hx Hy E. apply elem_of_list_In, in_seq in Hx. apply elem_of_list_In, in_seq in Hy. apply Hi; [lia..|exact E].
  - rewrite map_length, seq_length. reflexivity.
  - intros x Hx. apply in_map_iff in Hx as (i & <- & Hi'). apply in_seq in Hi'. apply in_seq.
    specialize (Hr i). lia.
Qed.

Definition relab {A} (p : nat -> nat) (l l' : list A) : Prop :=
  length l' = length l /\ forall i, (i < length l)%nat -> nth_error l' (p i) = nth_error l i.

Lemma nth_error_ext {A} (l k : list A) : (forall i, nth_error l i = nth_error k i) -> l = k.
Proof. intros H. apply list_eq. intros i. rewrite <- !nth_error_lookup. apply H. Qed.

Lemma all_nth {A} (l : list A) : map Some l = map (nth_error l) (seq 0 (length l)).
Proof.
  apply nth_error_ext. intros i. rewrite !nth_error_lookup. rewrite !list_lookup_fmap.
  destruct (decide (i < length l)%nat).
  - rewrite lookup_seq_lt by assumption. cbn. rewrite nth_error_lookup.
    destruct (lookup_lt_is_Some_2 l i) as [x E]; [assumption|]. rewrite E. reflexivity.
  - rewrite lookup_seq_ge by lia. rewrite lookup_ge_None_2 by lia. reflexivity.
Qed.

Lemma perm_map_Some {A} (l k : list A) : Permutation (map Some l) (map Some k) -> Permutation l k.
Proof.
  intros P. apply (Permutation_map (fun o => match o with Some x => [x] | None => [] end)) in P.
  assert (E : forall m : list A, concat (map (fun o => match o with Some x => [x] | None => [] end) (map Some m)) = m).
  { induction m as [|x m IH]; cbn; [reflexivity|]. f_equal. exact IH. }
  rewrite <- (E l), <- (E k). clear E. revert P.
  generalize (map (fun o => match o with Some x => [x] | None => [] end) (map Some l)).
  generalize (map (fun o => match o with Some x => [x] | None => [] end) (map Some k)).
  intros a b P. induction P; cbn; auto.
  - apply Permutation_app_head, IHP.
  - rewrite !app_assoc. apply Permutation_app_tail, Permutation_app_comm.
  - etransitivity; eassumption.
Qed.

Lemma relab_perm {A} p (l l' : list A) : renumbering (length l) p -> relab p l l' -> Permutation l l'.
Proof.
  intros R [L H]. apply perm_map_Some. rewrite !all_nth, L.
  rewrite <- (renumbering_perm _ _ R) at 2. rewrite map_map.
  apply Permutation_refl'. apply map_ext_in. intros i Hi. apply in_seq in Hi. symmetry. apply H. lia.
Qed.

Lemma relab_map {A C} (h : A -> C) p l l' : relab p l l' -> relab p (map h l) (map h l').
Proof.
  intros [L H]. split; [rewrite !map_length; exact L|]. intros i Hi. rewrite map_length in Hi.
  rewrite !nth_error_map, H by exact Hi. reflexivity.
Qed.

Lemma relab_surj n p j : renumbering n p -> (j < n)%nat -> exists i, (i < n)%nat /\ p i = j.
Proof.
  intros R Hj. assert (In j (map p (seq 0 n))) as Hin.
  { eapply Permutation_in; [symmetry; apply renumbering_perm, R|]. apply in_seq. lia. }
  apply in_map_iff in Hin as (i & E & Hi). apply in_seq in Hi. exists i. split; [lia|exact E].
Qed.

Lemma relab_eq {A} p (a a' b b' : list A) : renumbering (length a) p -> length b = length a ->
  relab p a a' -> relab p b b' -> (a = b <-> a' = b').
Proof.
  intros R L [La Ha] [Lb Hb]. split.
  - intros <-. apply nth_error_ext. intros j. destruct (decide (j < length a)%nat) as [Hj|Hj].
    + destruct (relab_surj _ _ _ R Hj) as (i & Hi & <-). rewrite Ha, Hb by exact Hi. reflexivity.
    + rewrite (proj2 (nth_error_None a' j)), (proj2 (nth_error_None b' j)) by lia. reflexivity.
  - intros <-. apply nth_error_ext. intros j. destruct (decide (j < length a)%nat) as [Hj|Hj].
    + rewrite <- Ha, <- Hb by lia. reflexivity.
    + rewrite (proj2 (nth_error_None a j)), (proj2 (nth_error_None b j)) by lia. reflexivity.
Qed.

Lemma relab_insert {A} p (l l' : list A) i x : renumbering (length l) p -> relab p l l' -> (i < length l)%nat ->
  relab p (<[i := x]> l) (<[p i := x]> l').
Proof.
  intros [Rr Ri] [L H] Hi. split; [rewrite !insert_length; exact L|]. intros j Hj. rewrite insert_length in Hj.
  specialize (H j Hj). rewrite !nth_error_lookup in *.
  destruct (decide (i = j)) as [<-|N].
  - rewrite !list_lookup_insert; [reflexivity|lia|]. specialize (Rr i Hi). lia.
  - rewrite !list_lookup_insert_ne; [exact H|exact N|]. intros E. apply N, Ri; auto.
Qed.

(** * Colors *)
Lemma canonical_colors_relab p l l' : renumbering (length l) p -> relab p l l' ->
  relab p (canonical_colors l) (canonical_colors l').
Proof.
  intros R H. unfold canonical_colors. rewrite (sort_text_unique l l') by (apply (relab_perm p); assumption).
  apply relab_map, H.
Qed.
Lemma canonical_colors_length l : length (canonical_colors l) = length l.
Proof. apply map_length. Qed.

Lemma unique_length l : (length (unique l) <= length l)%nat.
Proof. induction l as [|x [|y l] IH]; cbn in *; [lia..|]. destruct (text_eqb x y); cbn in *; lia. Qed.
Lemma unique_in x l : In x l -> In x (unique l).
Proof.
  induction l as [|y [|z l] IH]; intros H; [destruct H|exact H|].
  change (In x (if text_eqb y z then unique (z :: l) else y :: unique (z :: l))).
  destruct (text_eqb y z) eqn:E.
  - apply text_eqb_spec in E as ->. apply IH. destruct H as [->|H]; [left; reflexivity|exact H].
  - destruct H as [->|H]; [left; reflexivity|right; apply IH, H].
Qed.
Lemma lex_refl a : lex_leb a a = true.
Proof. destruct (lex_total a a); assumption. Qed.
Lemma lower_bound_range l x : 0 <= lower_bound l x /\ (In x l -> lower_bound l x < Z.of_nat (length l)).
Proof.
  induction l as [|y l IH]; cbn [lower_bound length In]; [lia|].
  destruct (lex_leb x y) eqn:E; [lia|]. split; [lia|]. intros [->|H]; [rewrite lex_refl in E; discriminate|].
  apply (proj2 IH) in H. lia.
Qed.
Lemma canonical_colors_range l c : In c (canonical_colors l) -> 0 <= c < Z.of_nat (length l).
Proof.
  unfold canonical_colors. intros H. apply in_map_iff in H as (x & <- & Hx).
  destruct (lower_bound_range (unique (sort_by lex_leb l)) x) as [H1 H2]. split; [exact H1|].
  assert (K : In x (unique (sort_by lex_leb l))).
  { apply unique_in. eapply Permutation_in; [symmetry; apply sort_by_perm|exact Hx]. }
  apply H2 in K. pose proof (unique_length (sort_by lex_leb l)) as U.
  pose proof (Permutation_length (sort_by_perm lex_leb l)) as V.
  assert (W : (length (sort_by lex_leb l) = length l)%nat) by exact V. clear V.
  unfold text in *. lia.
Qed.

(** * The search without exceptions *)
Definition color (colors : list Z) (i : nat) : Z := nth i colors 0.
Definition near (adj : list (list nat)) (colors : list Z) (i : nat) : list Z :=
  sort_by Z.leb (map (color colors) (nth i adj [])).
Definition pure_signature adj colors i : text := color colors i :: near adj colors i.
Fixpoint pure_refine (m : nat) adj colors : list Z * Z :=
  match m with
  | O => (colors, 0)
  | S m => let refined := canonical_colors (map (pure_signature adj colors) (seq 0 (length adj))) in
           if text_eqb refined colors then (colors, 1)
           else let '(c, k) := pure_refine m adj refined in (c, k + 1)
  end.
Definition node_of (colors : list Z) (c : Z) : nat :=
  match find (fun i => color colors i =? c) (seq 0 (length colors)) with Some i => i | None => 0%nat end.
Definition pure_record (bases : list text) adj colors i : text :=
  let base := nth i bases [] in
  print_unsigned (Z.of_nat (length base)) ++ B ":" ++ base ++ B ":neighbors="
       ++ concat (map (fun c => print_unsigned c ++ B ";") (near adj colors i)).
Definition pure_records bases adj colors : list text :=
  map (fun c => pure_record bases adj colors (node_of colors (Z.of_nat c))) (seq 0 (length colors)).
Definition ambiguous (colors : list Z) : option Z :=
  first_ambiguous 0 (map (fun i => count_color colors (Z.of_nat i)) (seq 0 (length colors))).

Definition outcome : Type := option (list text * Z).
Definition join (a b : outcome) : outcome :=
  match a, b with
  | Some (r, k), Some (r', k') => Some (if lex_leb2 r' r then r' else r, k + k')
  | _, _ => None
  end.
Fixpoint join_all (l : list outcome) (best : outcome) : outcome :=
  match l with [] => best | x :: r => join_all r (join x best) end.
Definition join_some (l : list outcome) : outcome :=
  match l with [] => None | x :: r => join_all r x end.
Definition charge (k : Z) (o : outcome) : outcome :=
  match o with Some (r, c) => Some (r, k + c) | None => None end.

Definition candidates (colors : list Z) (a : Z) : list nat :=
  List.filter (fun i => color colors i =? a) (seq 0 (length colors)).
Fixpoint canon (fuel : nat) bases adj colors0 : outcome :=
  match fuel with
  | O => None
  | S f =>
      let '(colors, k) := pure_refine (length adj) adj colors0 in
      charge (1 + k)
       (match ambiguous colors with
        | None => Some (pure_records bases adj colors, 0)
        | Some a => join_some (map (fun i => canon f bases adj (<[i := fold_right Z.max 0 colors + 1]> colors))
                                   (candidates colors a))
        end)
  end.

(** Running with a budget. *)
Definition within (o : outcome) (b : Z) : checked (list text * Z) :=
  match o with
  | Some (r, k) => if k <=? b then Val (r, b - k) else Throws RuntimeError
  | None => Throws RuntimeError
  end.

(** * [search] is [canon] run with a budget *)
Definition sized (adj : list (list nat)) : Prop := Forall (Forall (fun j => (j < length adj)%nat)) adj.

Lemma at_nth {A} (l : list A) i d : (i < length l)%nat -> at_ l i = Val (nth i l d).
Proof. intros H. unfold at_. rewrite (nth_error_nth' l d H). reflexivity. Qed.
Lemma mapM_val {A C} (f : A -> checked C) (g : A -> C) l : (forall x, In x l -> f x = Val (g x)) ->
  mapM f l = Val (map g l).
Proof.
  induction l as [|x l IH]; intros H; cbn [mapM map]; [reflexivity|]. rewrite H by (left; reflexivity). cbn.
  rewrite IH by (intros; apply H; right; assumption). reflexivity.
Qed.
Lemma adj_bound adj i j : sized adj -> In j (nth i adj []) -> (j < length adj)%nat.
Proof.
  intros S H. destruct (nth_in_or_default i adj []) as [K|K]; [|rewrite K in H; destruct H].
  unfold sized in S. rewrite List.Forall_forall in S. specialize (S _ K). rewrite List.Forall_forall in S. auto.
Qed.
Lemma near_spec adj colors i : sized adj -> length colors = length adj ->
  neighboring_colors colors (nth i adj []) = Val (near adj colors i).
Proof.
  intros S L. unfold neighboring_colors. rewrite (mapM_val _ (color colors)); [reflexivity|].
  intros j Hj. apply at_nth. rewrite L. eapply adj_bound; eassumption.
Qed.
Lemma signatures_spec adj colors : sized adj -> length colors = length adj ->
  mapM (signature_of adj colors) (seq 0 (length adj)) = Val (map (pure_signature adj colors) (seq 0 (length adj))).
Proof.
  intros S L. apply mapM_val. intros i Hi. apply in_seq in Hi. unfold signature_of.
  rewrite (at_nth adj i []) by lia. cbn. rewrite near_spec by assumption. cbn.
  rewrite (at_nth colors i 0) by lia. reflexivity.
Qed.

Lemma pure_refine_cost m adj : forall colors, 0 <= snd (pure_refine m adj colors).
Proof.
  induction m as [|m IH]; intros colors; cbn [pure_refine]; [cbn; lia|].
  destruct (text_eqb _ _); [cbn; lia|]. specialize (IH (canonical_colors (map (pure_signature adj colors) (seq 0 (length adj))))).
  destruct (pure_refine m adj _). cbn [snd] in *. lia.
Qed.
Lemma pure_refine_length m adj : forall colors, length colors = length adj ->
  length (fst (pure_refine m adj colors)) = length adj.
Proof.
  induction m as [|m IH]; intros colors L; cbn [pure_refine]; [exact L|].
  destruct (text_eqb _ _); [exact L|]. specialize (IH (canonical_colors (map (pure_signature adj colors) (seq 0 (length adj))))).
  destruct (pure_refine m adj _). cbn [fst] in *. apply IH.
  rewrite canonical_colors_length, map_length, seq_length. reflexivity.
Qed.
Lemma pure_refine_range m adj : forall colors c, length colors = length adj ->
  In c (fst (pure_refine (S m) adj colors)) -> 0 <= c < Z.of_nat (length adj).
Proof.
  assert (G : forall colors c, In c (canonical_colors (map (pure_signature adj colors) (seq 0 (length adj)))) ->
    0 <= c < Z.of_nat (length adj)).
  { intros colors c H. apply canonical_colors_range in H. rewrite map_length, seq_length in H. exact H. }
  induction m as [|m IH]; intros colors c L H.
  - cbn in H. destruct (text_eqb _ _) eqn:E; cbn in H; [|eapply G; exact H].
    apply text_eqb_spec in E. rewrite <- E in H. eapply G; exact H.
  - cbn [pure_refine] in H. destruct (text_eqb _ _) eqn:E.
    + apply text_eqb_spec in E. cbn in H. rewrite <- E in H. eapply G; exact H.
    + specialize (IH (canonical_colors (map (pure_signature adj colors) (seq 0 (length adj)))) c).
      cbn [pure_refine] in IH. destruct (text_eqb _ _).
      * apply IH; [|exact H]. rewrite canonical_colors_length, map_length, seq_length. reflexivity.
      * destruct (pure_refine m adj _). cbn [fst] in *. apply IH; [|exact H].
        rewrite canonical_colors_length, map_length, seq_length. reflexivity.
Qed.

Lemma refine_spec m adj : forall colors b, sized adj -> length colors = length adj -> 0 <= b ->
  refine_colors m adj colors b =
  let '(c, k) := pure_refine m adj colors in if k <=? b then Val (c, b - k) else Throws RuntimeError.
Proof.
  induction m as [|m IH]; intros colors b S L Hb; cbn [refine_colors pure_refine].
  - rewrite (proj2 (Z.leb_le 0 b)) by lia. do 2 f_equal. lia.
  - unfold consume_work. destruct (Z.eqb_spec b 0) as [->|N].
    + cbn. destruct (text_eqb _ _).
      * reflexivity.
      * pose proof (pure_refine_cost m adj (canonical_colors (map (pure_signature adj colors) (seq 0 (length adj))))) as K.
        destruct (pure_refine m adj _) as [c k]. cbn [snd] in K. rewrite (proj2 (Z.leb_gt (k + 1) 0)) by lia. reflexivity.
    + cbn. rewrite signatures_spec by assumption. cbn. destruct (text_eqb _ _).
      * rewrite (proj2 (Z.leb_le 1 b)) by lia. reflexivity.
      * rewrite IH; [|assumption|rewrite canonical_colors_length, map_length, seq_length; reflexivity|lia].
        destruct (pure_refine m adj _) as [c k].
        destruct (Z.leb_spec k (b - 1)), (Z.leb_spec (k + 1) b); try lia; [|reflexivity].
        do 2 f_equal. lia.
Qed.

(** ** Records *)
Lemma nodes_by_color_spec colors : forall node acc, Forall (fun c => 0 <= c < Z.of_nat (length acc)) colors ->
  NoDup colors ->
  exists r, nodes_by_color colors node acc = Val r /\ length r = length acc /\
    (forall i c, nth_error colors i = Some c -> nth_error r (Z.to_nat c) = Some (node + i)%nat) /\
    (forall j, ~ In (Z.of_nat j) colors -> nth_error r j = nth_error acc j).
Proof.
  induction colors as [|c l IH]; intros node acc F D; cbn [nodes_by_color].
  - exists acc. repeat split; auto. intros [|i] c H; discriminate.
  - apply Forall_cons_1 in F as [Hc F]. apply stdpp.list.NoDup_cons in D as [Nc D].
    rewrite (proj2 (Z.leb_le 0 c)), (proj2 (Z.ltb_lt c _)) by lia. cbn [andb].
    destruct (IH (S node) (<[Z.to_nat c := node]> acc)) as (r & E & L & H1 & H2); [rewrite insert_length; exact F|exact D|].
    exists r. rewrite insert_length in L. repeat split; [exact E|exact L| |].
    + intros [|i] d Hd; cbn in Hd.
      * injection Hd as <-. rewrite H2.
        -- rewrite nth_error_lookup, list_lookup_insert by lia. f_equal. lia.
        -- rewrite Z2Nat.id by lia. intros K. apply Nc, elem_of_list_In, K.
      * rewrite (H1 _ _ Hd). f_equal. lia.
    + intros j Hj. rewrite H2 by (intros K; apply Hj; right; exact K).
      rewrite !nth_error_lookup, list_lookup_insert_ne; [reflexivity|]. intros <-. apply Hj. left. lia.
Qed.

Lemma first_ambiguous_none counts : forall i, first_ambiguous i counts = None <-> Forall (fun n => (n <= 1)%nat) counts.
Proof.
  induction counts as [|n l IH]; intros i; cbn [first_ambiguous]; [split; [constructor|reflexivity]|].
  destruct (Nat.ltb_spec 1 n).
  - split; [discriminate|]. intros F. apply Forall_cons_1 in F as [F _]. lia.
  - rewrite IH. split; [intros; constructor; assumption|]. intros F. apply Forall_cons_1 in F as [_ F]. exact F.
Qed.
Lemma first_ambiguous_some counts : forall i a, first_ambiguous i counts = Some a ->
  exists k n, nth_error counts k = Some n /\ (1 < n)%nat /\ a = i + Z.of_nat k.
Proof.
  induction counts as [|n l IH]; intros i a; cbn [first_ambiguous]; [discriminate|].
  destruct (Nat.ltb_spec 1 n).
  - intros [= <-]. exists 0%nat, n. split; [reflexivity|]. lia.
  - intros H1. destruct (IH _ _ H1) as (k & m & E & Hm & ->). exists (S k), m. split; [exact E|]. lia.
Qed.
Lemma count_color_pos c l : (count_color l c > 0)%nat <-> In c l.
Proof.
  unfold count_color. induction l as [|x l IH]; cbn; [split; [lia|intros []]|].
  destruct (Z.eqb_spec c x) as [->|N]; cbn; [split; [left; reflexivity|lia]|].
  rewrite IH. split; [right; assumption|]. intros [K|K]; [congruence|exact K].
Qed.
Lemma count_color_nodup l : (forall c, In c l -> (count_color l c <= 1)%nat) -> NoDup l.
Proof.
  induction l as [|x l IH]; intros H; [constructor|]. apply stdpp.list.NoDup_cons. split.
  - intros K. apply elem_of_list_In in K. specialize (H x (or_introl eq_refl)). unfold count_color in *. cbn in H.
    rewrite Z.eqb_refl in H. cbn in H. apply count_color_pos in K. unfold count_color in K. lia.
  - apply IH. intros c Hc. specialize (H c (or_intror Hc)). unfold count_color in *. cbn in H.
    destruct (c =? x); cbn in H; lia.
Qed.

Lemma in_range_counts colors n : length colors = n -> Forall (fun c => 0 <= c < Z.of_nat n) colors ->
  color_counts colors = Val (map (fun i => count_color colors (Z.of_nat i)) (seq 0 (length colors))).
Proof.
  intros <- F. unfold color_counts. rewrite (proj2 (forallb_forall _ _)); [reflexivity|].
  intros c Hc. rewrite List.Forall_forall in F. specialize (F c Hc). apply andb_true_iff. lia.
Qed.
Lemma unambiguous colors : Forall (fun c => 0 <= c < Z.of_nat (length colors)) colors -> ambiguous colors = None ->
  NoDup colors.
Proof.
  intros F H. apply count_color_nodup. intros c Hc. unfold ambiguous in H. apply first_ambiguous_none in H.
  rewrite List.Forall_forall in F, H. specialize (F c Hc). apply H. apply in_map_iff. exists (Z.to_nat c).
  split; [f_equal; lia|]. apply in_seq. lia.
Qed.
Lemma dense_colors colors j : Forall (fun c => 0 <= c < Z.of_nat (length colors)) colors -> NoDup colors ->
  (j < length colors)%nat -> In (Z.of_nat j) colors.
Proof.
  intros F D Hj.
  assert (P : Permutation colors (map Z.of_nat (seq 0 (length colors)))).
  { apply NoDup_Permutation_bis.
    - apply NoDup_ListNoDup, D.
    - rewrite map_length, seq_length. reflexivity.
    - intros c Hc. rewrite List.Forall_forall in F. specialize (F c Hc). apply in_map_iff.
      exists (Z.to_nat c). split; [lia|]. apply in_seq. lia. }
  eapply Permutation_in; [symmetry; exact P|]. apply in_map, in_seq. lia.
Qed.

Lemma node_of_spec colors i : (i < length colors)%nat -> NoDup colors -> node_of colors (color colors i) = i.
Proof.
  intros Hi D. unfold node_of. destruct (find _ _) as [k|] eqn:E.
  - apply find_some in E as [Hk E]. apply in_seq in Hk. apply Z.eqb_eq in E. unfold color in E.
    apply (proj1 (List.NoDup_nth colors 0)) with (i := k) (j := i) in E; [exact E|apply NoDup_ListNoDup, D|lia..].
  - exfalso. assert (In i (seq 0 (length colors))) as K by (apply in_seq; lia).
    apply (find_none _ _ E) in K. cbn beta in K. rewrite Z.eqb_refl in K. discriminate K.
Qed.

Lemma records_spec bases adj colors : sized adj -> length colors = length adj -> length bases = length adj ->
  Forall (fun c => 0 <= c < Z.of_nat (length colors)) colors -> NoDup colors ->
  records_for_coloring bases adj colors = Val (pure_records bases adj colors).
Proof.
  intros S L Lb F D. unfold records_for_coloring.
  destruct (nodes_by_color_spec colors 0 (repeat 0%nat (length colors))) as (r & E & Lr & H1 & _); [|exact D|].
  { rewrite repeat_length. exact F. }
  rewrite E. cbn. rewrite repeat_length in Lr.
  assert (N : r = map (fun c => node_of colors (Z.of_nat c)) (seq 0 (length colors))).
  { apply nth_error_ext. intros j. destruct (decide (j < length colors)%nat) as [Hj|Hj].
    - pose proof (dense_colors _ _ F D Hj) as K. apply In_nth_error in K as (i & Ki).
      pose proof (H1 _ _ Ki) as Q. rewrite Nat2Z.id in Q. rewrite Q. cbn.
      rewrite nth_error_map, nth_error_lookup, lookup_seq_lt by exact Hj. cbn. f_equal.
      assert (Hi : (i < length colors)%nat) by (apply nth_error_Some; congruence).
      rewrite <- (node_of_spec colors i Hi D) at 1. f_equal. unfold color. apply nth_error_nth. exact Ki.
    - rewrite (proj2 (nth_error_None r j)) by lia. symmetry. apply nth_error_None. rewrite map_length, seq_length. lia. }
  rewrite N, (mapM_val _ (pure_record bases adj colors)); [unfold pure_records; rewrite map_map; reflexivity|].
  intros i Hi. rewrite <- N in Hi. apply In_nth_error in Hi as (j & Hj).
  assert (Hjl : (j < length colors)%nat) by (rewrite <- Lr; apply nth_error_Some; congruence).
  pose proof (dense_colors _ _ F D Hjl) as K. apply In_nth_error in K as (i' & Ki).
  pose proof (H1 _ _ Ki) as Q. rewrite Nat2Z.id, Hj in Q. injection Q as ->. cbn [Nat.add].
  assert (Hi : (i' < length colors)%nat) by (apply nth_error_Some; congruence).
  unfold node_record. rewrite (at_nth adj i' []) by lia. cbn. rewrite near_spec by assumption. cbn.
  rewrite (at_nth bases i' []) by lia. reflexivity.
Qed.

(** ** The loop over candidates *)
Section Pick.
Variable F : nat -> Z -> checked (list text * Z).
Variable colors : list Z.
Variable a : Z.
Fixpoint pick (nodes : list nat) (best : option (list text)) (budget : Z) {struct nodes} : checked (list text * Z) :=
  match nodes with
  | [] => match best with Some b => Val (b, budget) | None => Undef end
  | node :: r =>
      let! c := at_ colors node in
      if negb (c =? a) then pick r best budget
      else let! p := F node budget in pick r (Some (better (fst p) best)) (snd p)
  end.
End Pick.

Definition costs (o : outcome) : Prop := match o with Some (_, k) => 0 <= k | None => True end.

Lemma join_none l : join_all l None = None.
Proof. induction l as [|[[r k]|] l IH]; cbn; auto. Qed.
Lemma join_shift l : forall b k, join_all l (Some (b, k)) = charge k (join_all l (Some (b, 0))).
Proof.
  induction l as [|[[r c]|] l IH]; intros b k; cbn [join_all join]; [cbn; do 2 f_equal; lia| |rewrite join_none; reflexivity].
  rewrite (IH _ (c + k)), (IH _ (c + 0)). destruct (join_all l _) as [[r' c']|]; cbn; [do 2 f_equal; lia|reflexivity].
Qed.
Lemma join_costs l : forall o, Forall costs l -> costs o -> costs (join_all l o).
Proof.
  induction l as [|x l IH]; intros o Fl Ho; cbn [join_all]; [exact Ho|]. apply Forall_cons_1 in Fl as [Fx Fl].
  apply IH; [exact Fl|]. destruct x as [[r c]|], o as [[r' c']|]; cbn in *; lia.
Qed.

Lemma pick_some F o colors a m (HF : forall i b, (i < length colors)%nat -> 0 <= b < m -> F i b = within (o i) b)
  (Ho : forall i, (i < length colors)%nat -> costs (o i)) nodes : Forall (fun i => (i < length colors)%nat) nodes ->
  forall best b, 0 <= b < m ->
  pick F colors a nodes (Some best) b =
  within (join_all (map o (List.filter (fun i => color colors i =? a) nodes)) (Some (best, 0))) b.
Proof.
  induction 1 as [|i nodes Hi Fn IH]; intros best b Hb; cbn [pick List.filter map join_all].
  - cbn. rewrite (proj2 (Z.leb_le 0 b)) by lia. do 2 f_equal. lia.
  - rewrite (at_nth colors i 0) by exact Hi. cbn. fold (color colors i).
    destruct (color colors i =? a); cbn [negb]; [|apply IH, Hb].
    rewrite HF by assumption. cbn [map join_all]. pose proof (Ho i Hi) as Hc.
    destruct (o i) as [[r k]|]; cbn [within join costs] in *.
    + assert (K : costs (join_all (map o (List.filter (fun i => color colors i =? a) nodes))
        (Some (if lex_leb2 best r then best else r, 0)))).
      { apply join_costs; [|cbn; lia]. rewrite List.Forall_forall. intros x Hx.
        apply in_map_iff in Hx as (j & <- & Hj). apply filter_In in Hj as [Hj _].
        rewrite List.Forall_forall in Fn. apply Ho. auto. }
      rewrite join_shift. destruct (Z.leb_spec k b); cbn.
      * rewrite IH by lia. cbn [better]. destruct (join_all _ _) as [[r' k']|]; cbn [within charge costs] in *; [|reflexivity].
        destruct (Z.leb_spec k' (b - k)), (Z.leb_spec (k + 0 + k') b); try lia; [|reflexivity]. do 2 f_equal; lia.
      * destruct (join_all _ _) as [[r' k']|]; cbn [within charge costs] in *; [|reflexivity].
        rewrite (proj2 (Z.leb_gt (k + 0 + k') b)) by lia. reflexivity.
    + rewrite join_none. reflexivity.
Qed.
Lemma pick_none F o colors a m (HF : forall i b, (i < length colors)%nat -> 0 <= b < m -> F i b = within (o i) b)
  (Ho : forall i, (i < length colors)%nat -> costs (o i)) nodes : Forall (fun i => (i < length colors)%nat) nodes ->
  List.filter (fun i => color colors i =? a) nodes <> [] ->
  forall b, 0 <= b < m ->
  pick F colors a nodes None b =
  within (join_some (map o (List.filter (fun i => color colors i =? a) nodes))) b.
Proof.
  induction 1 as [|i nodes Hi Fn IH]; intros Hn b Hb; cbn [pick List.filter map join_all] in *; [congruence|].
  rewrite (at_nth colors i 0) by exact Hi. cbn. fold (color colors i).
  destruct (color colors i =? a); cbn [negb]; [|apply IH; assumption].
  rewrite HF by assumption. cbn [map join_some]. pose proof (Ho i Hi) as Hc.
  destruct (o i) as [[r k]|]; cbn [within join costs] in *.
  - assert (K : costs (join_all (map o (List.filter (fun i => color colors i =? a) nodes)) (Some (r, 0)))).
    { apply join_costs; [|cbn; lia]. rewrite List.Forall_forall. intros x Hx.
      apply in_map_iff in Hx as (j & <- & Hj). apply filter_In in Hj as [Hj _].
      rewrite List.Forall_forall in Fn. apply Ho. auto. }
    rewrite join_shift. destruct (Z.leb_spec k b); cbn.
    + rewrite (pick_some F o colors a m) by (assumption || lia).
      destruct (join_all _ _) as [[r' k']|]; cbn [within charge costs] in *; [|reflexivity].
      destruct (Z.leb_spec k' (b - k)), (Z.leb_spec (k + k') b); try lia; [|reflexivity]. do 2 f_equal; lia.
    + destruct (join_all _ _) as [[r' k']|]; cbn [within charge costs] in *; [|reflexivity].
      rewrite (proj2 (Z.leb_gt (k + k') b)) by lia. reflexivity.
  - rewrite join_none. reflexivity.
Qed.

Lemma canon_costs fuel bases adj : forall colors, costs (canon fuel bases adj colors).
Proof.
  induction fuel as [|f IH]; intros colors; cbn [canon]; [exact I|].
  pose proof (pure_refine_cost (length adj) adj colors) as K. destruct (pure_refine _ _ _) as [cs k]. cbn [snd] in K.
  assert (C : forall o, costs o -> costs (charge (1 + k) o)).
  { intros [[r c]|] H; cbn in *; lia. }
  apply C. destruct (ambiguous cs) as [a|]; [|cbn; lia].
  unfold join_some. destruct (candidates cs a) as [|i l]; cbn [map]; [exact I|].
  apply join_costs; [|apply IH]. rewrite List.Forall_forall. intros x Hx. apply in_map_iff in Hx as (j & <- & _). apply IH.
Qed.

Lemma candidates_nonempty colors a : Forall (fun c => 0 <= c < Z.of_nat (length colors)) colors ->
  ambiguous colors = Some a -> candidates colors a <> [].
Proof.
  intros F H E. unfold ambiguous in H. apply first_ambiguous_some in H as (k & n & Hk & Hn & ->).
  rewrite nth_error_map in Hk. destruct (nth_error (seq 0 (length colors)) k) as [k'|] eqn:Es; [|discriminate].
  cbn in Hk. injection Hk as <-. rewrite nth_error_lookup in Es. apply lookup_seq in Es as [-> Hk]. cbn in *.
  assert (P : In (Z.of_nat k) colors) by (apply count_color_pos; lia).
  apply In_nth_error in P as (i & Hi).
  assert (Hl : (i < length colors)%nat) by (apply nth_error_Some; congruence).
  assert (Q : In i (candidates colors (Z.of_nat k))).
  { apply filter_In. split; [apply in_seq; lia|]. apply Z.eqb_eq. unfold color. apply nth_error_nth, Hi. }
  change (Z.of_nat k) with (0 + Z.of_nat k) in Q. rewrite E in Q. destruct Q.
Qed.

Lemma search_canon fuel bases adj : sized adj -> length bases = length adj -> adj <> [] ->
  forall colors b, length colors = length adj -> 0 <= b < Z.of_nat fuel ->
  search fuel bases adj colors b = within (canon fuel bases adj colors) b.
Proof.
  intros S Lb Ne. induction fuel as [|f IH]; intros colors0 b L Hb; [cbn in Hb; lia|].
  cbn [search]. unfold consume_work. cbn [canon].
  pose proof (pure_refine_length (length adj) adj colors0 L) as Lc.
  assert (Rc : Forall (fun c => 0 <= c < Z.of_nat (length adj)) (fst (pure_refine (length adj) adj colors0))).
  { rewrite List.Forall_forall. intros c Hc. destruct adj as [|x adj']; [congruence|].
    eapply pure_refine_range; [exact L|]. exact Hc. }
  pose proof (pure_refine_cost (length adj) adj colors0) as Kc.
  destruct (Z.eqb_spec b 0) as [->|Nb].
  { cbn. destruct (pure_refine _ _ _) as [cs k]. cbn [snd] in Kc.
    assert (C : forall o, costs o -> within (charge (1 + k) o) 0 = Throws RuntimeError).
    { intros [[r c]|] H; cbn [charge within costs] in *; [|reflexivity].
      rewrite (proj2 (Z.leb_gt (1 + k + c) 0)) by lia. reflexivity. }
    symmetry. apply C. destruct (ambiguous cs) as [a|]; [|cbn; lia].
    unfold join_some. destruct (candidates cs a) as [|i l]; cbn [map]; [exact I|].
    apply join_costs; [|apply canon_costs]. rewrite List.Forall_forall. intros x Hx.
    apply in_map_iff in Hx as (j & <- & _). apply canon_costs. }
  cbn. rewrite refine_spec by (assumption || lia).
  destruct (pure_refine _ _ _) as [cs k]. cbn [fst snd] in *.
  assert (Rcs : Forall (fun c => 0 <= c < Z.of_nat (length cs)) cs) by (rewrite Lc; exact Rc).
  set (rest := match ambiguous cs with None => _ | Some _ => _ end).
  assert (Hrest : costs rest).
  { subst rest. destruct (ambiguous cs) as [a|]; [|cbn; lia].
    unfold join_some. destruct (candidates cs a) as [|i l]; cbn [map]; [exact I|].
    apply join_costs; [|apply canon_costs]. rewrite List.Forall_forall. intros x Hx.
    apply in_map_iff in Hx as (j & <- & _). apply canon_costs. }
  destruct (Z.leb_spec k (b - 1)) as [Hk|Hk]; cbn.
  2:{ destruct rest as [[r c]|]; cbn [within charge costs] in *; [|reflexivity].
      rewrite (proj2 (Z.leb_gt (1 + k + c) b)) by lia. reflexivity. }
  rewrite (in_range_counts cs (length cs) eq_refl Rcs). cbn. fold (ambiguous cs).
  assert (W : forall o, costs o -> within o (b - 1 - k) = within (charge (1 + k) o) b).
  { intros [[r c]|] H; cbn [within charge costs] in *; [|reflexivity].
    destruct (Z.leb_spec c (b - 1 - k)), (Z.leb_spec (1 + k + c) b); try lia; [|reflexivity]. do 2 f_equal; lia. }
  rewrite <- W by exact Hrest. clear W. subst rest. destruct (ambiguous cs) as [a|] eqn:Ea.
  - unfold candidates. rewrite <- (pick_none (fun i b' => search f bases adj (<[i := fold_right Z.max 0 cs + 1]> cs) b')
        (fun i => canon f bases adj (<[i := fold_right Z.max 0 cs + 1]> cs)) cs a (Z.of_nat f)).
    + reflexivity.
    + intros i b' Hi Hb'. apply IH; [rewrite insert_length; exact Lc|exact Hb'].
    + intros i _. apply canon_costs.
    + rewrite List.Forall_forall. intros i Hi. apply in_seq in Hi. lia.
    + apply (candidates_nonempty cs a Rcs Ea).
    + lia.
  - rewrite records_spec by (assumption || lia || (apply unambiguous; assumption)). cbn.
    rewrite (proj2 (Z.leb_le 0 _)) by lia. do 2 f_equal. lia.
Qed.
