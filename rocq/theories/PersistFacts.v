(** Facts about the label sections and the causal-info block (C39, C40). *)
From Verif Require Import Base Config Fnv Text PersistSpec TextFacts Persist.
Local Open Scope Z_scope.
Local Open Scope list_scope.

Lemma nth_error_lookup {A} (l : list A) : forall i, nth_error l i = l !! i.
Proof. induction l as [|x l IH]; intros [|i]; cbn; auto. Qed.

(** * parse_record *)
Lemma parse_record_spec line prefix i v :
  (exists k, parse_record line prefix = Val (k, v) /\ parse_unsigned k 10 = Val i)
  <-> label_record prefix line i v.
Proof.
  unfold parse_record, label_record. split.
  - intros (k & H & K). destruct (strip_prefix prefix line) as [r|] eqn:E; [|discriminate].
    apply strip_prefix_spec in E as ->.
    destruct (rfind_char BAR r) as [[key info]|] eqn:Er; [|discriminate].
    apply rfind_char_spec in Er as [-> N].
    destruct ((match key with [] => true | _ => false end) || _) eqn:Eb; [discriminate|].
    destruct (parse_int info) as [z|e|] eqn:Ei; try discriminate. cbn in H. injection H as -> ->.
    exists k, info. split; [reflexivity|]. split; [|apply parse_int_spec, Ei].
    apply parse_unsigned_spec in K; [assumption|lia].
  - intros (a & b & -> & Ha & Hb). exists a. split; [|apply parse_unsigned_spec; [lia|assumption]].
    rewrite (proj2 (strip_prefix_spec prefix _ (a ++ BAR :: b)) eq_refl).
    pose proof (signed_numeral_no _ _ Hb) as (Nb & _ & Bb).
    pose proof (unsigned_numeral_no _ _ _ Ha) as (Na & _ & _).
    rewrite (proj2 (rfind_char_spec BAR _ a b) (conj eq_refl Bb)).
    destruct a; [congruence|]. destruct b; [congruence|]. cbn [orb].
    apply parse_int_spec in Hb. rewrite Hb. reflexivity.
Qed.

Lemma parse_record_cases line prefix :
  (exists kv, parse_record line prefix = Val kv) \/ parse_record line prefix = Throws FilesystemError.
Proof.
  unfold parse_record. destruct (strip_prefix prefix line); [|auto].
  destruct (rfind_char BAR t) as [[k i]|]; [|auto].
  destruct (_ || _); [auto|]. destruct (parse_int_cases i) as [[n ->]| ->]; cbn; eauto.
Qed.

Lemma label_record_fun prefix line i v i' v' :
  label_record prefix line i v -> label_record prefix line i' v' -> i = i' /\ v = v'.
Proof.
  rewrite <- !parse_record_spec. intros (k & H & K) (k' & H' & K'). split; congruence.
Qed.

Lemma label_record_nonneg prefix line i v : label_record prefix line i v -> 0 <= i.
Proof. intros (a & b & _ & [_ H] & _). lia. Qed.

(** * Filling the slots *)
Definition fill (entries : list (Z * Z)) (indexed : list (option Z)) : list (option Z) :=
  fold_left (fun ix e => <[Z.to_nat (fst e) := Some (snd e)]> ix) entries indexed.

Lemma fill_length entries : forall ix, length (fill entries ix) = length ix.
Proof.
  induction entries as [|e es IH]; intros ix; [reflexivity|]. unfold fill. cbn [fold_left].
  fold (fill es (<[Z.to_nat (fst e):=Some (snd e)]> ix)). rewrite IH, insert_length. reflexivity.
Qed.

Lemma fill_out entries : forall ix i, Forall (fun e => 0 <= fst e) entries -> ~ In (Z.of_nat i) (map fst entries) ->
  nth_error (fill entries ix) i = nth_error ix i.
Proof.
  induction entries as [|e es IH]; intros ix i F N; [reflexivity|]. unfold fill. cbn [fold_left].
  fold (fill es (<[Z.to_nat (fst e):=Some (snd e)]> ix)). apply Forall_cons_1 in F as [F1 F].
  rewrite IH; [|assumption|].
  - rewrite !nth_error_lookup. rewrite list_lookup_insert_ne; [reflexivity|].
    intros K. apply N. left. rewrite <- K, Z2Nat.id by assumption. reflexivity.
  - intros K. apply N. right. assumption.
Qed.

Lemma fill_in entries : forall ix e, NoDup (map fst entries) -> Forall (fun e => 0 <= fst e < Z.of_nat (length ix)) entries ->
  In e entries -> nth_error (fill entries ix) (Z.to_nat (fst e)) = Some (Some (snd e)).
Proof.
  induction entries as [|e0 es IH]; intros ix e ND F I; [destruct I|]. unfold fill. cbn [fold_left].
  fold (fill es (<[Z.to_nat (fst e0):=Some (snd e0)]> ix)). apply Forall_cons_1 in F as [F1 F].
  cbn [map] in ND. apply stdpp.list.NoDup_cons in ND as [N ND].
  assert (N' : ~ In (fst e0) (map fst es)) by (intros K; apply N; apply elem_of_list_In; exact K).
  destruct I as [->|I].
  - rewrite fill_out.
    + rewrite nth_error_lookup, list_lookup_insert by lia. reflexivity.
    + eapply List.Forall_impl; [|exact F]. intros a Ha. cbn beta in Ha. lia.
    + rewrite Z2Nat.id by lia. assumption.
  - apply IH; [assumption| |assumption]. rewrite insert_length. assumption.
Qed.

(** * read_records *)
Lemma read_records_spec n : forall input prefix count ix ix' rest,
  Z.of_nat (length ix) = count ->
  (read_records n input prefix count ix = Val (ix', rest) <->
   exists ls entries, lines input ls rest /\ length ls = n /\
     Forall2 (fun l e => label_record prefix l (fst e) (snd e)) ls entries /\
     NoDup (map fst entries) /\ Forall (fun e => 0 <= fst e < count) entries /\
     Forall (fun e => nth_error ix (Z.to_nat (fst e)) = Some None) entries /\
     ix' = fill entries ix).
Proof.
  induction n as [|n IH]; intros input prefix count ix ix' rest Hc.
  - cbn [read_records]. split.
    + intros [= -> ->]. exists [], []. repeat split; try constructor.
    + intros (ls & es & L & E & F & _ & _ & _ & ->). destruct ls; [|discriminate].
      inversion F; subst. inversion L; subst. reflexivity.
  - cbn [read_records]. split.
    + destruct (getline input) as [[line r]|] eqn:G; [|discriminate]. apply getline_spec in G.
      destruct (parse_record line prefix) as [[k v]|e|] eqn:P; cbn [bind]; try discriminate.
      cbn [fst snd]. destruct (parse_unsigned k 10) as [i|e|] eqn:U; cbn [bind]; try discriminate.
      destruct (Z.leb_spec count i) as [|Hi]; [discriminate|].
      destruct (nth_error ix (Z.to_nat i)) as [[w|]|] eqn:Nth; try discriminate.
      assert (R : label_record prefix line i v) by (apply parse_record_spec; eauto).
      assert (R0 := label_record_nonneg _ _ _ _ R).
      intros H. apply IH in H; [|rewrite insert_length; assumption].
      destruct H as (ls & es & L & E & F & ND & Fb & Fn & ->).
      exists (line :: ls), ((i, v) :: es). repeat split.
      * econstructor; eassumption.
      * cbn. congruence.
      * constructor; assumption.
      * cbn [map fst]. apply stdpp.list.NoDup_cons. split; [|assumption].
        intros K. apply elem_of_list_In, in_map_iff in K as (e & Ee & Ie).
        rewrite List.Forall_forall in Fn. apply Fn in Ie. rewrite Ee in Ie.
        rewrite nth_error_lookup, list_lookup_insert in Ie by lia. discriminate.
      * constructor; [cbn; lia|assumption].
      * constructor; [exact Nth|]. rewrite List.Forall_forall in Fn, Fb |- *. intros e Ie.
        specialize (Fn e Ie). specialize (Fb e Ie). cbn beta in Fb.
        rewrite nth_error_lookup in Fn |- *.
        destruct (Nat.eq_dec (Z.to_nat i) (Z.to_nat (fst e))) as [K|K].
        -- rewrite <- K, list_lookup_insert in Fn by lia. discriminate.
        -- rewrite list_lookup_insert_ne in Fn by exact K. assumption.
    + intros (ls & es & L & E & F & ND & Fb & Fn & ->).
      destruct ls as [|line ls]; [discriminate|]. inversion L as [|? ? r ? ? G L']; subst.
      inversion F as [|? [i v] ? es' R F']; subst. cbn [fst snd] in *.
      cbn [map fst] in ND. apply stdpp.list.NoDup_cons in ND as [N ND].
      apply Forall_cons_1 in Fb as [Hb Fb]. apply Forall_cons_1 in Fn as [Hn Fn]. cbn [fst] in *.
      apply getline_spec in G. rewrite G. apply parse_record_spec in R as (k & P & U).
      rewrite P. cbn [bind fst snd]. rewrite U. cbn [bind].
      destruct (Z.leb_spec (Z.of_nat (length ix)) i) as [|Hi]; [lia|]. rewrite Hn.
      apply IH; [rewrite insert_length; reflexivity|].
      exists ls, es'. repeat split; try assumption.
      * cbn in E. congruence.
      * rewrite List.Forall_forall in Fn, Fb |- *. intros e Ie.
        specialize (Fn e Ie). specialize (Fb e Ie). cbn beta in Fb.
        rewrite nth_error_lookup in Fn |- *. rewrite list_lookup_insert_ne; [assumption|].
        intros K. apply N. apply elem_of_list_In, in_map_iff. exists e. split; [lia|assumption].
Qed.

Lemma read_records_cases n : forall input prefix count ix,
  (exists p, read_records n input prefix count ix = Val p)
  \/ read_records n input prefix count ix = Throws FilesystemError.
Proof.
  induction n as [|n IH]; intros input prefix count ix; cbn [read_records]; [eauto|].
  destruct (getline input) as [[line r]|]; [|auto].
  destruct (parse_record_cases line prefix) as [[[k v] ->]| ->]; cbn [bind]; [|auto].
  cbn [fst snd]. destruct (parse_unsigned_cases k 10) as [[i ->]| ->]; cbn [bind]; [|auto].
  destruct (count <=? i); [auto|]. destruct (nth_error ix _) as [[|]|]; auto.
Qed.

Lemma all_present_spec ix : forall vs, all_present ix = Val vs <-> ix = map Some vs.
Proof.
  induction ix as [|[v|] ix IH]; intros vs; cbn [all_present].
  - destruct vs; cbn; split; congruence.
  - destruct (all_present ix) as [ws|e|] eqn:E; cbn [bind].
    + assert (ix = map Some ws) as -> by (apply IH; reflexivity). split.
      * intros [= <-]. reflexivity.
      * intros K. destruct vs as [|w vs]; [discriminate|]. cbn in K. injection K as -> K.
        assert (W : Val ws = Val vs) by (apply IH, K). injection W as ->. reflexivity.
    + split; [discriminate|]. intros K. destruct vs as [|w vs]; [discriminate|]. cbn in K. injection K as _ K.
      apply IH in K. discriminate.
    + split; [discriminate|]. intros K. destruct vs as [|w vs]; [discriminate|]. cbn in K. injection K as _ K.
      apply IH in K. discriminate.
  - split; [discriminate|]. destruct vs; discriminate.
Qed.
Lemma all_present_cases ix : (exists vs, all_present ix = Val vs) \/ all_present ix = Throws FilesystemError.
Proof.
  induction ix as [|[v|] ix IH]; cbn [all_present]; eauto.
  destruct IH as [[vs ->]| ->]; cbn [bind]; eauto.
Qed.

(** Pigeonhole: [n] distinct indices below [n] are all of them. *)
Lemma all_indices (l : list Z) n : length l = n -> NoDup l -> Forall (fun x => 0 <= x < Z.of_nat n) l ->
  forall i, (i < n)%nat -> In (Z.of_nat i) l.
Proof.
  intros E ND F i Hi.
  assert (P : incl (map Z.of_nat (seq 0 n)) l).
  { apply NoDup_length_incl.
    - apply NoDup_ListNoDup. assumption.
    - rewrite map_length, seq_length. lia.
    - intros x Hx. rewrite List.Forall_forall in F. apply F in Hx. apply in_map_iff.
      exists (Z.to_nat x). rewrite in_seq. lia. }
  apply P. apply in_map. apply in_seq. lia.
Qed.

(** * read_indexed_info: exactly the complete sections *)
Lemma read_indexed_info_spec input prefix count vals rest : 0 <= count ->
  read_indexed_info input prefix count = Val (vals, rest) <-> label_section prefix input count vals rest.
Proof.
  intros Hc. unfold read_indexed_info, label_section.
  assert (Lr : Z.of_nat (length (repeat (@None Z) (Z.to_nat count))) = count) by (rewrite repeat_length; lia).
  split.
  - intros H. destruct (read_records _ _ _ _ _) as [[ix r]|e|] eqn:R; cbn [bind] in H; try discriminate.
    cbn [fst snd] in H. destruct (all_present ix) as [vs|e|] eqn:A; cbn [bind] in H; try discriminate.
    injection H as -> ->. apply all_present_spec in A as ->.
    apply read_records_spec in R; [|assumption].
    destruct R as (ls & es & L & E & F & ND & Fb & Fn & Ef).
    exists ls, es. repeat split; try assumption.
    + lia.
    + apply (f_equal length) in Ef. rewrite map_length, fill_length, repeat_length in Ef. lia.
    + apply List.Forall_forall. intros e Ie.
      assert (K : nth_error (map Some vals) (Z.to_nat (fst e)) = Some (Some (snd e))).
      { rewrite Ef. apply fill_in; [assumption| |assumption]. rewrite Lr. assumption. }
      rewrite nth_error_map in K. destruct (nth_error vals _); cbn in K; congruence.
  - intros (ls & es & L & E & F & ND & Fb & Lv & Fv).
    assert (R : read_records (Z.to_nat count) input prefix count (repeat None (Z.to_nat count)) = Val (map Some vals, rest)).
    { apply read_records_spec; [assumption|]. exists ls, es. repeat split; try assumption.
      - lia.
      - rewrite List.Forall_forall in Fb |- *. intros e Ie. specialize (Fb e Ie). cbn beta in Fb.
        apply nth_error_repeat. lia.
      - apply list_eq. intros i. rewrite <- !nth_error_lookup.
        assert (Le : length (map fst es) = Z.to_nat count).
        { rewrite map_length, <- (Forall2_length _ _ _ F). lia. }
        destruct (le_lt_dec (Z.to_nat count) i) as [G|G].
        + transitivity (@None (option Z)); [|symmetry].
          * apply nth_error_None. rewrite map_length. lia.
          * apply nth_error_None. rewrite fill_length, repeat_length. lia.
        + assert (I : In (Z.of_nat i) (map fst es)).
          { apply (all_indices _ (Z.to_nat count)); try assumption.
            rewrite Forall_map. eapply List.Forall_impl; [|exact Fb]. cbn. intros a Ha. lia. }
          apply in_map_iff in I as (e & Ee & Ie).
          assert (Hi : i = Z.to_nat (fst e)) by lia. rewrite Hi at 2.
          rewrite fill_in; [|assumption| |assumption].
          * rewrite List.Forall_forall in Fv. rewrite Hi, nth_error_map, (Fv e Ie). reflexivity.
          * rewrite Lr. assumption. }
    rewrite R. cbn [bind fst snd]. rewrite (proj2 (all_present_spec _ _) eq_refl). reflexivity.
Qed.

Lemma read_indexed_info_cases input prefix count :
  (exists p, read_indexed_info input prefix count = Val p)
  \/ read_indexed_info input prefix count = Throws FilesystemError.
Proof.
  unfold read_indexed_info.
  destruct (read_records_cases (Z.to_nat count) input prefix count (repeat None (Z.to_nat count))) as [[[ix r] ->]| ->];
    cbn [bind]; [|auto].
  cbn [fst snd]. destruct (all_present_cases ix) as [[vs ->]| ->]; cbn [bind]; eauto.
Qed.

(** * The written block *)
Lemma label_lines_section prefix labels : forall i, 0 <= i -> i + Z.of_nat (length labels) <= two64 ->
  Forall in_int32 labels ->
  Forall2 (fun l e => label_record prefix l (fst e) (snd e)) (label_lines prefix i labels)
    (zip (map (fun k => i + Z.of_nat k) (seq 0 (length labels))) labels).
Proof.
  induction labels as [|v r IH]; intros i Hi Hb F; [constructor|].
  apply Forall_cons_1 in F as [Fv F]. cbn [length] in Hb. cbn [label_lines length seq map zip_with].
  constructor.
  - cbn [fst snd]. exists (print_unsigned i), (print_int v). split; [reflexivity|].
    rewrite Z.add_0_r. split; [apply print_unsigned_numeral; lia|apply print_int_numeral; assumption].
  - specialize (IH (i + 1) ltac:(lia) ltac:(lia) F).
    rewrite <- seq_shift, map_map.
    erewrite map_ext; [exact IH|]. intros k. cbn beta. lia.
Qed.

Lemma label_lines_length prefix labels : forall i, length (label_lines prefix i labels) = length labels.
Proof. induction labels; intros i; cbn; [reflexivity|]. rewrite IHlabels. reflexivity. Qed.

Lemma print_unsigned_no_nl n : 0 <= n -> ~ In NL (print_unsigned n).
Proof. intros H. assert (K := digits_numeral 10 n ltac:(lia) H). apply numeral_no in K. tauto. Qed.
Lemma print_int_no_nl z : ~ In NL (print_int z).
Proof.
  unfold print_int. destruct (Z.ltb_spec z 0).
  - intros [K|K]; [discriminate|]. revert K. apply (print_unsigned_no_nl (- z)). lia.
  - apply (print_unsigned_no_nl z). lia.
Qed.

Lemma label_lines_no_nl prefix labels : ~ In NL prefix -> forall i, 0 <= i ->
  Forall (fun l => ~ In NL l) (label_lines prefix i labels).
Proof.
  intros Hp. induction labels as [|v r IH]; intros i Hi; cbn [label_lines]; constructor.
  - rewrite !in_app_iff. intros [K|[K|[[K|[]]|K]]]; [tauto| |discriminate|].
    + revert K. apply print_unsigned_no_nl. assumption.
    + revert K. apply print_int_no_nl.
  - apply IH. lia.
Qed.

Lemma written_section prefix labels rest : ~ In NL prefix -> Z.of_nat (length labels) <= two64 ->
  Forall in_int32 labels ->
  label_section prefix (put_lines (label_lines prefix 0 labels) ++ rest) (Z.of_nat (length labels)) labels rest.
Proof.
  intros Hp Hb F. exists (label_lines prefix 0 labels), (zip (map (fun k => 0 + Z.of_nat k) (seq 0 (length labels))) labels).
  assert (Lz : length (map (fun k => 0 + Z.of_nat k) (seq 0 (length labels))) = length labels)
    by (rewrite map_length, seq_length; reflexivity).
  assert (Ez : map fst (zip (map (fun k => 0 + Z.of_nat k) (seq 0 (length labels))) labels)
               = map (fun k => 0 + Z.of_nat k) (seq 0 (length labels))).
  { apply (fst_zip (map (fun k => 0 + Z.of_nat k) (seq 0 (length labels))) labels). lia. }
  repeat split.
  - apply lines_unlines. apply label_lines_no_nl; [assumption|lia].
  - rewrite label_lines_length. reflexivity.
  - apply label_lines_section; [lia|lia|assumption].
  - rewrite Ez. apply (NoDup_fmap_2_strong (fun k => 0 + Z.of_nat k)); [intros a b _ _; lia|]. apply NoDup_ListNoDup, List.seq_NoDup.
  - apply List.Forall_forall. intros e He. apply (in_map fst) in He. rewrite Ez in He.
    apply in_map_iff in He as (k & <- & Hk). apply in_seq in Hk. lia.
  - apply List.Forall_forall. intros e He. apply elem_of_list_In, elem_of_list_lookup in He as [k Hk].
    apply lookup_zip_with_Some in Hk as (x & y & -> & Hx & Hy). cbn [fst snd].
    rewrite <- nth_error_lookup in Hx, Hy. rewrite nth_error_map in Hx.
    destruct (nth_error (seq 0 (length labels)) k) as [s|] eqn:Es; [|discriminate]. cbn in Hx. injection Hx as <-.
    assert (s = k) as ->.
    { assert (Hk : (k < length labels)%nat) by (apply nth_error_Some; congruence).
      apply (nth_error_nth _ _ 0%nat) in Es. rewrite seq_nth in Es by assumption. lia. }
    rewrite Z.add_0_l, Nat2Z.id. assumption.
Qed.

Lemma B_no_nl_v : ~ In NL (B "v="). Proof. vm_compute. intuition discriminate. Qed.
Lemma B_no_nl_c : ~ In NL (B "c="). Proof. vm_compute. intuition discriminate. Qed.

Lemma put_lines_app a b : put_lines (a ++ b) = put_lines a ++ put_lines b.
Proof. unfold put_lines. rewrite map_app, concat_app. reflexivity. Qed.
Lemma put_lines_one l rest : put_lines (l :: rest) = l ++ NL :: put_lines rest.
Proof. unfold put_lines. cbn [map concat]. rewrite <- app_assoc. reflexivity. Qed.

Lemma getline_put l rest : ~ In NL l -> getline (l ++ NL :: rest) = Some (l, rest).
Proof. intros H. apply getline_spec, first_line_newline, H. Qed.

Lemma count_line prefix n : 0 <= n < two64 -> parse_count_line (prefix ++ print_unsigned n) prefix = Val n.
Proof.
  intros H. unfold parse_count_line.
  rewrite (proj2 (strip_prefix_spec prefix _ (print_unsigned n)) eq_refl).
  apply parse_print_unsigned, H.
Qed.

Lemma count_line_no_nl prefix n : ~ In NL prefix -> 0 <= n -> ~ In NL (prefix ++ print_unsigned n).
Proof. intros H Hn. rewrite in_app_iff. intros [K|K]; [tauto|]. revert K. apply print_unsigned_no_nl, Hn. Qed.

(** The labels of the block are those of the triangulation it was written for. *)
Lemma causal_round_trip t raw :
  Z.of_nat (length (t_verts t)) < two64 -> Z.of_nat (length (t_cells t)) < two64 ->
  Forall (fun v => in_int32 (snd v)) (t_verts t) -> Forall (fun c => in_int32 (snd c)) (t_cells t) ->
  length (t_verts raw) = length (t_verts t) -> length (t_cells raw) = length (t_cells t) ->
  read_causal_info (skip_ws (write_causal_info t)) raw
  = Val (with_labels raw (map snd (t_verts t)) (map snd (t_cells t)), []).
Proof.
  intros Bv Bc Fv Fc Lv Lc.
  assert (E : skip_ws (write_causal_info t) =
    CAUSAL_INFO_HEADER ++ NL :: (B "vertices=" ++ print_unsigned (number_of_vertices t)) ++ NL ::
    put_lines (label_lines (B "v=") 0 (map snd (t_verts t))) ++
    (B "cells=" ++ print_unsigned (number_of_finite_cells t)) ++ NL ::
    put_lines (label_lines (B "c=") 0 (map snd (t_cells t))) ++ []).
  { unfold write_causal_info. cbn [app]. rewrite !put_lines_one. rewrite !put_lines_app, put_lines_one.
    rewrite app_nil_r. reflexivity. }
  rewrite E. unfold read_causal_info.
  rewrite getline_put by (vm_compute; intuition discriminate).
  rewrite (proj2 (text_eqb_spec _ _) eq_refl). cbn [negb].
  rewrite getline_put by (apply count_line_no_nl; [vm_compute; intuition discriminate|unfold number_of_vertices; lia]).
  rewrite count_line by (unfold number_of_vertices; lia). cbn [bind].
  unfold number_of_vertices at 1 2. rewrite Lv, Z.eqb_refl. cbn [negb].
  assert (R : forall prefix labels rest, ~ In NL prefix -> Z.of_nat (length labels) < two64 -> Forall in_int32 labels ->
    read_indexed_info (put_lines (label_lines prefix 0 labels) ++ rest) prefix (Z.of_nat (length labels)) = Val (labels, rest)).
  { intros. apply read_indexed_info_spec; [lia|]. apply written_section; [assumption|lia|assumption]. }
  replace (number_of_vertices t) with (Z.of_nat (length (map snd (t_verts t)))) by (rewrite map_length; reflexivity).
  rewrite R; [|apply B_no_nl_v|rewrite map_length; assumption|rewrite Forall_map; exact Fv].
  cbn [bind fst snd].
  rewrite getline_put by (apply count_line_no_nl; [vm_compute; intuition discriminate|unfold number_of_finite_cells; lia]).
  rewrite count_line by (unfold number_of_finite_cells; lia). cbn [bind].
  unfold number_of_finite_cells at 1 2. rewrite Lc, Z.eqb_refl. cbn [negb].
  replace (number_of_finite_cells t) with (Z.of_nat (length (map snd (t_cells t)))) by (rewrite map_length; reflexivity).
  rewrite R; [|apply B_no_nl_c|rewrite map_length; assumption|rewrite Forall_map; exact Fc].
  reflexivity.
Qed.
