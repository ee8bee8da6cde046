(** Facts about the listings of a triangulation. *)
From Verif Require Import Base Config Text PersistSpec TextFacts Transcript TranscriptSpec TranscriptFacts
  Foliation Repair FoliationSpec FoliationProps Listing ListingSpec.
From stdpp Require Import list.
From Verif Require Import Base Config Text PersistSpec TextFacts Transcript TranscriptSpec TranscriptFacts
  Foliation Repair FoliationSpec FoliationProps Listing ListingSpec.
Local Open Scope Z_scope.
Local Open Scope list_scope.

(** ** Rows *)
Lemma row_word w ps t : read_row (Word w :: ps) (w ++ t) = read_row ps t.
Proof. cbn [read_row]. rewrite (proj2 (strip_prefix_spec w (w ++ t) t) eq_refl). reflexivity. Qed.
Lemma row_word_end w : read_row [Word w] w = Some [].
Proof. pose proof (row_word w [] []) as H. rewrite app_nil_r in H. exact H. Qed.
Lemma row_int ps z t : nodigit t ->
  read_row (Int :: ps) (print_int z ++ t) = match read_row ps t with Some l => Some (VInt z :: l) | None => None end.
Proof. intros N. cbn [read_row]. rewrite (read_printed _ _ N). reflexivity. Qed.
Lemma row_int_end z : read_row [Int] (print_int z) = Some [VInt z].
Proof. pose proof (row_int [] z [] I) as H. rewrite app_nil_r in H. exact H. Qed.
Lemma row_inside ps p t : ~ In CLOSE p ->
  read_row (Inside :: ps) (p ++ CLOSE :: t) = match read_row ps (CLOSE :: t) with Some l => Some (VText p :: l) | None => None end.
Proof. intros N. cbn [read_row]. rewrite (proj2 (find_char_spec CLOSE (p ++ CLOSE :: t) p t)); [reflexivity|]. split; [reflexivity|exact N]. Qed.

(** ** Texts made of lines *)
Definition lines_are (t : text) (ls : list text) : Prop := t = unlines ls /\ Forall no_newline ls.
Lemma lines_split t ls : lines_are t ls -> split_lines t = Some ls.
Proof. intros [-> N]. apply split_unlines. exact N. Qed.
Lemma lines_nil_are : lines_are [] [].
Proof. split; [reflexivity|constructor]. Qed.
Lemma lines_app t u ls ms : lines_are t ls -> lines_are u ms -> lines_are (t ++ u) (ls ++ ms).
Proof.
  intros [-> N] [-> N']. split; [|apply Forall_app; split; assumption].
  unfold unlines. rewrite map_app, concat_app. reflexivity.
Qed.
Lemma lines_line parts : no_newline (concat parts) -> lines_are (line parts) [concat parts].
Proof.
  intros N. split; [|constructor; [exact N|constructor]].
  unfold unlines, line. cbn [map concat]. rewrite app_nil_r. reflexivity.
Qed.
Lemma lines_concat {A} (f : A -> text) (g : A -> list text) l :
  (forall x, x ∈ l -> lines_are (f x) (g x)) -> lines_are (concat (map f l)) (concat (map g l)).
Proof.
  induction l as [|x l IH]; intros H; cbn [map concat]; [apply lines_nil_are|].
  apply lines_app; [apply H; left|]. apply IH. intros y Hy. apply H. right. exact Hy.
Qed.
Lemma rows_map {A B} (row : text -> option B) (f : A -> text) (g : A -> B) l :
  (forall x, x ∈ l -> row (f x) = Some (g x)) -> read_rows row (map f l) = Some (map g l).
Proof.
  induction l as [|x l IH]; intros H; cbn [map read_rows]; [reflexivity|].
  rewrite (H x); [|left]. rewrite IH; [reflexivity|]. intros y Hy. apply H. right. exact Hy.
Qed.
Lemma concat_singles {A} (f : A -> text) l : concat (map (fun x => [f x]) l) = map f l.
Proof. induction l as [|x l IH]; cbn [map concat app]; [reflexivity|]. rewrite IH. reflexivity. Qed.
Lemma listing_rows {A B} (row : text -> option B) (parts : A -> list text) (g : A -> B) l :
  (forall x, x ∈ l -> no_newline (concat (parts x))) -> (forall x, x ∈ l -> row (concat (parts x)) = Some (g x)) ->
  read_listing row (concat (map (fun x => line (parts x)) l)) = Some (map g l).
Proof.
  intros N R. unfold read_listing.
  rewrite (lines_split _ (concat (map (fun x => [concat (parts x)]) l))).
  - rewrite concat_singles. apply rows_map. exact R.
  - apply lines_concat. intros x Hx. apply lines_line. apply N. exact Hx.
Qed.
Ltac nn := repeat first [apply no_newline_nil | apply no_newline_int | apply no_newline_app | assumption
  | apply no_newline_lit; reflexivity].
Ltac row := cbn [concat]; rewrite ?app_nil_r;
  repeat first [rewrite row_word | rewrite row_int; [|reflexivity]
    | change (B ") Timevalue: ") with (CLOSE :: B " Timevalue: "); cbn [app]; rewrite row_inside; [|assumption]
    | rewrite row_word_end | rewrite row_int_end ].

Section Listings.
  Variable expected : positive -> Z.
  Variable show : positive -> text.
  Hypothesis Hshow : plain show.

  Lemma corner_row vi j v : corner (Z.of_nat j) (concat [B "Vertex("; print_int (Z.of_nat j); B ") Point: ("; show v; B ") Timevalue: "; print_int (vi v)])
    = Some (show v, vi v).
  Proof using Hshow.
    destruct (Hshow v) as [_ C]. unfold corner.
    cbn [concat]. rewrite app_nil_r.
    rewrite row_word, row_int by reflexivity. rewrite row_word.
    change (B ") Timevalue: ") with (CLOSE :: B " Timevalue: "). cbn [app]. rewrite row_inside by exact C.
    change (CLOSE :: B " Timevalue: " ++ print_int (vi v)) with ((CLOSE :: B " Timevalue: ") ++ print_int (vi v)).
    rewrite row_word, row_int_end. rewrite Z.eqb_refl. reflexivity.
  Qed.
  Lemma corner_newline vi j v : no_newline (concat [B "Vertex("; print_int (Z.of_nat j); B ") Point: ("; show v; B ") Timevalue: "; print_int (vi v)]).
  Proof using Hshow. destruct (Hshow v) as [N _]. cbn [concat]. nn. Qed.

  Definition corner_line vi j v := concat [B "Vertex("; print_int (Z.of_nat j); B ") Point: ("; show v; B ") Timevalue: "; print_int (vi v)].
  Definition cell_lines vi (ci : list positive -> Z) c : list text :=
    concat [B "Cell info => "; print_int (ci c)] ::
    map (fun j => corner_line vi j (nth j c 1%positive)) (seq 0 4) ++ [concat [B "---"]].
  Lemma cell_lines_are vi ci c : lines_are (print_cell show vi ci c) (cell_lines vi ci c).
  Proof using Hshow.
    unfold print_cell, cell_lines. change (?a :: ?b ++ ?d) with ([a] ++ (b ++ d)).
    apply lines_app; [apply lines_line; cbn [concat]; nn|].
    apply lines_app; [|apply lines_line; cbn [concat]; nn].
    rewrite <- (concat_singles (fun j => corner_line vi j (nth j c 1%positive))). apply lines_concat. intros j _. apply lines_line. apply corner_newline.
  Qed.
  Definition told_cell vi (ci : list positive -> Z) (c : list positive) : shown_cell :=
    mkShown (ci c) (map (fun v => (show v, vi v)) c).
  Lemma blocks_told vi ci cs : (forall c, c ∈ cs -> length c = 4%nat) ->
    read_blocks (concat (map (cell_lines vi ci) cs)) = Some (map (told_cell vi ci) cs).
  Proof using Hshow.
    induction cs as [|c cs IH]; intros L; [reflexivity|]. cbn [map concat].
    unfold cell_lines at 1. cbn [seq map app read_blocks]. rewrite IH; [|intros c' H; apply L; right; exact H].
    assert (L4 : length c = 4%nat) by (apply L; left).
    destruct c as [|v0 [|v1 [|v2 [|v3 [|]]]]]; try discriminate L4. cbn [nth].
    unfold read_cell. rewrite (corner_row vi 0 v0 : corner 0 (corner_line vi 0 v0) = _), (corner_row vi 1 v1 : corner 1 (corner_line vi 1 v1) = _),
      (corner_row vi 2 v2 : corner 2 (corner_line vi 2 v2) = _), (corner_row vi 3 v3 : corner 3 (corner_line vi 3 v3) = _).
    assert (R : read_row [Word (B "Cell info => "); Int] (concat [B "Cell info => "; print_int (ci [v0; v1; v2; v3])]) = Some [VInt (ci [v0; v1; v2; v3])]).
    { cbn [concat]. rewrite app_nil_r, row_word. apply row_int_end. }
    rewrite R. reflexivity.
  Qed.
  Lemma cells_told vi ci cs : (forall c, c ∈ cs -> length c = 4%nat) ->
    read_cells (concat (map (print_cell show vi ci) cs)) = Some (map (told_cell vi ci) cs).
  Proof using Hshow.
    intros L. unfold read_cells. rewrite (lines_split _ (concat (map (cell_lines vi ci) cs))); [apply blocks_told; exact L|].
    apply lines_concat. intros c _. apply cell_lines_are.
  Qed.

  Lemma shows_between low c k : length c = 4%nat ->
    shows low (mkShown k (map (fun v => (show v, expected v)) c)) <-> exists t, between expected c t /\ number_on expected c t = low.
  Proof using.
    intros _. unfold shows, between, number_on. cbn [sc_corners]. split; intros (t & A & N); exists t; split.
    - intros v Hv. rewrite Forall_map, Forall_forall in A. apply (A v). apply elem_of_list_In. exact Hv.
    - rewrite <- N. clear. induction c as [|v c IH]; [reflexivity|]. cbn [map List.filter snd]. destruct (expected v =? t); cbn [length]; rewrite IH; reflexivity.
    - rewrite Forall_map, Forall_forall. intros v Hv. apply (A v). apply elem_of_list_In. exact Hv.
    - rewrite <- N. clear. induction c as [|v c IH]; [reflexivity|]. cbn [map List.filter snd]. destruct (expected v =? t); cbn [length]; rewrite IH; reflexivity.
  Qed.

  Lemma told_listing d f : well_formed d -> construct expected d = Val f ->
    exists shown, read_cells (print_cells show f) = Some shown /\
      map sc_corners shown = map (map (fun v => (show v, expected v))) (d_cells d) /\
      Forall (fun c => (sc_class c = THREE_ONE <-> shows 3 c) /\ (sc_class c = TWO_TWO <-> shows 2 c) /\
                       (sc_class c = ONE_THREE <-> shows 1 c) /\
                       (sc_class c = ACAUSAL <-> ~ (shows 3 c \/ shows 2 c \/ shows 1 c))) shown /\
      number_of (fun c => sc_class c =? THREE_ONE) shown = length (f_three_one f) /\
      number_of (fun c => sc_class c =? TWO_TWO) shown = length (f_two_two f) /\
      number_of (fun c => sc_class c =? ONE_THREE) shown = length (f_one_three f).
  Proof using Hshow.
    intros W E. destruct (construct_inv _ _ _ W E) as (_ & _ & R & _).
    pose proof W as (_ & Wc & _). destruct (r_cells _ _ _ R) as [_ Rc].
    set (vi := d_vinfo (f_delaunay f)) in *. set (ci := d_cinfo (f_delaunay f)) in *.
    assert (T : forall c, c ∈ d_cells d -> told_cell vi ci c = mkShown (ci c) (map (fun v => (show v, expected v)) c)).
    { intros c Hc. unfold told_cell. f_equal. apply map_ext_in. intros v Hv. f_equal. apply (r_time _ _ _ R).
      apply (Wc c Hc). apply elem_of_list_In. exact Hv. }
    exists (map (told_cell vi ci) (d_cells d)). split; [|split; [|split; [|split; [|split]]]].
    - unfold print_cells. rewrite Rc. apply cells_told. intros c Hc. apply (Wc c Hc).
    - rewrite map_map. apply map_ext_in. intros c Hc. apply elem_of_list_In in Hc. rewrite (T c Hc). reflexivity.
    - rewrite Forall_map, Forall_forall. intros c Hc. apply elem_of_list_In in Hc. rewrite (T c Hc). cbn [sc_class]. destruct (Wc c Hc) as (L4 & _ & _).
      destruct (r_class _ _ _ R c Hc) as (C1 & C2 & C3 & C4 & _). fold ci in C1, C2, C3, C4.
      pose proof (shows_between 3 c (ci c) L4) as S3. pose proof (shows_between 2 c (ci c) L4) as S2. pose proof (shows_between 1 c (ci c) L4) as S1.
      split; [rewrite C1, S3; reflexivity|]. split; [rewrite C2, S2; reflexivity|]. split; [rewrite C3, S1; reflexivity|].
      rewrite C4, S1, S2, S3. unfold causal_cell.
      assert (K : (exists t, between expected c t /\ (1 <= number_on expected c t <= 3)%nat) <->
        ((exists t, between expected c t /\ number_on expected c t = 3%nat) \/ (exists t, between expected c t /\ number_on expected c t = 2%nat) \/
         (exists t, between expected c t /\ number_on expected c t = 1%nat))).
      { split.
        - intros (t & A & N). assert (D : number_on expected c t = 3%nat \/ number_on expected c t = 2%nat \/ number_on expected c t = 1%nat) by lia.
          destruct D as [D|[D|D]]; eauto.
        - intros [(t & A & N)|[(t & A & N)|(t & A & N)]]; exists t; (split; [exact A|lia]). }
      rewrite K. reflexivity.
    - rewrite (r_three_one _ _ _ R). unfold number_of. fold ci. clear. induction (d_cells d) as [|c l IH]; [reflexivity|].
      cbn [map List.filter told_cell sc_class]. destruct (ci c =? THREE_ONE); cbn [length]; rewrite IH; reflexivity.
    - rewrite (r_two_two _ _ _ R). unfold number_of. fold ci. clear. induction (d_cells d) as [|c l IH]; [reflexivity|].
      cbn [map List.filter told_cell sc_class]. destruct (ci c =? TWO_TWO); cbn [length]; rewrite IH; reflexivity.
    - rewrite (r_one_three _ _ _ R). unfold number_of. fold ci. clear. induction (d_cells d) as [|c l IH]; [reflexivity|].
      cbn [map List.filter told_cell sc_class]. destruct (ci c =? ONE_THREE); cbn [length]; rewrite IH; reflexivity.
  Qed.

  Lemma cell_read vi ci c : length c = 4%nat ->
    read_cell (concat [B "Cell info => "; print_int (ci c)]) (corner_line vi 0 (nth 0 c 1%positive)) (corner_line vi 1 (nth 1 c 1%positive))
      (corner_line vi 2 (nth 2 c 1%positive)) (corner_line vi 3 (nth 3 c 1%positive)) (concat [B "---"]) = Some (told_cell vi ci c).
  Proof using Hshow.
    intros L. assert (L' : forall c', c' ∈ [c] -> length c' = 4%nat) by (intros c' H; apply elem_of_list_singleton in H as ->; exact L).
    pose proof (blocks_told vi ci [c] L') as H. cbn [map concat] in H. rewrite app_nil_r in H. unfold cell_lines in H.
    cbn [seq map app read_blocks] in H.
    destruct (read_cell _ _ _ _ _ _) as [x|]; [|discriminate H]. injection H as ->. reflexivity.
  Qed.
  Definition neighbor_lines vi ci (neighbor : nat -> list positive) (j : nat) : list text :=
    match cell_lines vi ci (neighbor j) with
    | [] => []
    | l :: ls => (B "Neighboring cell " ++ print_int (Z.of_nat j) ++ B ":" ++ l) :: ls
    end.
  Lemma neighbors_told vi ci neighbor : (forall j, (j < 4)%nat -> length (neighbor j) = 4%nat) ->
    match split_lines (print_neighboring_cells show vi ci neighbor) with
    | Some ls => read_neighbors 0 ls
    | None => None
    end = Some (map (fun j => told_cell vi ci (neighbor j)) (seq 0 4)).
  Proof using Hshow.
    intros L. unfold print_neighboring_cells.
    rewrite (lines_split _ (concat (map (neighbor_lines vi ci neighbor) (seq 0 4)))).
    - assert (R : forall j, (j < 4)%nat -> read_neighbor (Z.of_nat j)
        (B "Neighboring cell " ++ print_int (Z.of_nat j) ++ B ":" ++ concat [B "Cell info => "; print_int (ci (neighbor j))])
        (corner_line vi 0 (nth 0 (neighbor j) 1%positive)) (corner_line vi 1 (nth 1 (neighbor j) 1%positive))
        (corner_line vi 2 (nth 2 (neighbor j) 1%positive)) (corner_line vi 3 (nth 3 (neighbor j) 1%positive)) (concat [B "---"])
        = Some (told_cell vi ci (neighbor j))).
      { intros j Hj. unfold read_neighbor.
        match goal with |- context [strip_prefix ?w (?w ++ ?r)] => rewrite (proj2 (strip_prefix_spec w (w ++ r) r) eq_refl) end.
        rewrite read_printed by reflexivity. change (B ":" ++ ?x) with (58 :: x). cbv iota.
        rewrite Z.eqb_refl. cbn [Z.eqb Pos.eqb andb]. apply cell_read. apply L. exact Hj. }
      pose proof (R 0%nat ltac:(lia)) as R0. pose proof (R 1%nat ltac:(lia)) as R1.
      pose proof (R 2%nat ltac:(lia)) as R2. pose proof (R 3%nat ltac:(lia)) as R3.
      unfold neighbor_lines, cell_lines. cbn [seq map concat app read_neighbors].
      change (0 + 1) with 1. change (1 + 1) with 2. change (2 + 1) with 3.
      cbn [concat app] in R0, R1, R2, R3. cbn [concat app].
      change (Z.of_nat 0) with 0 in *. change (Z.of_nat 1) with 1 in *. change (Z.of_nat 2) with 2 in *. change (Z.of_nat 3) with 3 in *.
      rewrite R0, R1, R2, R3. reflexivity.
    - apply lines_concat. intros j _. destruct (cell_lines_are vi ci (neighbor j)) as [-> N].
      unfold neighbor_lines, cell_lines in *. cbn [app map] in *. split.
      + unfold unlines. cbn [map concat]. rewrite <- !app_assoc. reflexivity.
      + inversion N; subst. constructor; [nn|assumption].
  Qed.

  Lemma vertices_shown f :
    read_listing vertex_row (print_vertices show expected f) =
    Some (map (fun v => (show v, d_vinfo (f_delaunay f) v, expected v)) (f_vertices f)).
  Proof using Hshow.
    unfold print_vertices. apply listing_rows.
    - intros v _. destruct (Hshow v) as [N _]. cbn [concat]. nn.
    - intros v _. destruct (Hshow v) as [_ C]. unfold vertex_row. cbn [concat]. rewrite app_nil_r.
      rewrite row_word. change (B ") Timevalue: ") with (CLOSE :: B " Timevalue: ") at 2. cbn [app]. rewrite row_inside by exact C.
      change (CLOSE :: B " Timevalue: " ++ ?x) with (B ") Timevalue: " ++ x).
      rewrite row_word, row_int by reflexivity. rewrite row_word, row_int_end. reflexivity.
  Qed.
  Lemma vertices_told d f : well_formed d -> construct expected d = Val f ->
    read_listing vertex_row (print_vertices show expected f) = Some (map (fun v => (show v, expected v, expected v)) (d_vertices d)).
  Proof using Hshow.
    intros W E. destruct (construct_inv _ _ _ W E) as (_ & _ & R & _). rewrite vertices_shown, (proj2 (r_vertices _ _ _ R)).
    f_equal. apply map_ext_in. intros v Hv. rewrite (r_time _ _ _ R v); [reflexivity|].
    first [exact Hv|apply elem_of_list_In; exact Hv].
  Qed.
  Lemma edges_told d f : well_formed d -> construct expected d = Val f ->
    exists rows, read_listing edge_row (print_edges f) = Some rows /\ rows = map (fun e => negb (expected (fst (edge_ends e)) =? expected (snd (edge_ends e)))) (d_edges d) /\ number_of (fun b => b) rows = length (f_timelike_edges f) /\ number_of negb rows = length (f_spacelike_edges f).
  Proof using.
    intros W E. destruct (construct_inv _ _ _ W E) as (_ & _ & R & _). pose proof W as (_ & Wc & _ & We).
    exists (map (fun e => negb (expected (fst (edge_ends e)) =? expected (snd (edge_ends e)))) (d_edges d)).
    split; [|split; [reflexivity|split]].
    - unfold print_edges. rewrite (proj2 (r_edges _ _ _ R)).
      rewrite (map_ext (fun e => if edge_timelike (d_vinfo (f_delaunay f)) e then line [B "==> timelike"] else line [B "==> spacelike"])
        (fun e => line [if edge_timelike (d_vinfo (f_delaunay f)) e then B "==> timelike" else B "==> spacelike"]))
        by (intros e; destruct (edge_timelike _ e); reflexivity).
      apply listing_rows.
      + intros e _. cbn [concat]. destruct (edge_timelike _ e); nn.
      + intros [[c i] j] He. destruct (We _ _ _ He) as (Hc & Hi & Hj & _). destruct (Wc c Hc) as (L & _ & V).
        assert (T : forall i, (i < 4)%nat -> d_vinfo (f_delaunay f) (nth i c 1%positive) = expected (nth i c 1%positive)).
        { intros x Hx. apply (r_time _ _ _ R). apply V. apply elem_of_list_In. apply nth_In. lia. }
        unfold edge_timelike, edge_ends. cbn [fst snd]. rewrite (T i Hi), (T j Hj).
        destruct (expected _ =? expected _); reflexivity.
    - rewrite (r_timelike _ _ _ R). unfold number_of. clear. induction (d_edges d) as [|e l IH]; [reflexivity|].
      cbn [map List.filter]. destruct (negb _); cbn [length]; rewrite IH; reflexivity.
    - rewrite (r_spacelike _ _ _ R). unfold number_of. clear. induction (d_edges d) as [|e l IH]; [reflexivity|].
      cbn [map List.filter]. destruct (expected _ =? expected _); cbn [negb length]; rewrite IH; reflexivity.
  Qed.
  Lemma edge_told vi c i j :
    let end_of x := (Z.of_nat x, show (nth x c 1%positive), vi (nth x c 1%positive)) in
    read_listing ends_row (print_edge show vi (c, i, j)) = Some [(end_of i, end_of j)].
  Proof using Hshow.
    intros end_of. unfold print_edge, read_listing.
    destruct (Hshow (nth i c 1%positive)) as [N C], (Hshow (nth j c 1%positive)) as [N' C'].
    erewrite lines_split; [|apply lines_line; cbn [concat]; nn]. cbn [read_rows].
    unfold ends_row. cbn [concat]. rewrite app_nil_r. rewrite row_word, row_int by reflexivity. rewrite row_word.
    change (B ") Timevalue: ") with (CLOSE :: B " Timevalue: ") at 3. cbn [app]. rewrite row_inside by exact C.
    change (CLOSE :: B " Timevalue: " ++ ?x) with (B ") Timevalue: " ++ x).
    rewrite row_word, row_int by reflexivity. rewrite row_word, row_int by reflexivity. rewrite row_word.
    change (B ") Timevalue: ") with (CLOSE :: B " Timevalue: ") at 2. cbn [app]. rewrite row_inside by exact C'.
    change (CLOSE :: B " Timevalue: " ++ ?x) with (B ") Timevalue: " ++ x).
    rewrite row_word, row_int_end. reflexivity.
  Qed.
  Lemma totals_told d f : well_formed d -> construct expected d = Val f ->
    let n {A} (l : list A) := Z.of_nat (length l) in
    read_listing totals_row (print_foliated f) = Some [(n (d_vertices d), n (d_edges d), n (d_facets d), n (d_cells d))].
  Proof using.
    intros W E n. destruct (construct_inv _ _ _ W E) as (_ & _ & R & _). unfold print_foliated, read_listing.
    rewrite !print_unsigned_int by lia.
    rewrite (proj1 (r_vertices _ _ _ R)), (proj1 (r_edges _ _ _ R)), (proj1 (r_facets _ _ _ R)), (proj1 (r_cells _ _ _ R)).
    erewrite lines_split; [|apply lines_line; cbn [concat]; nn]. cbn [read_rows].
    unfold totals_row. cbn [concat]. rewrite app_nil_r.
    rewrite row_word, row_int by reflexivity. rewrite row_word, row_int by reflexivity. rewrite row_word, row_int by reflexivity.
    rewrite row_word, row_int by reflexivity. rewrite row_word_end. reflexivity.
  Qed.
  Lemma volumes_told d f t : well_formed d -> construct expected d = Val f -> print_volumes f = Val t ->
    read_listing slice_row t =
    Some (map (fun s => (s, Z.of_nat (length (List.filter (facet_on expected s) (d_facets d))))) (slices (f_min f) (f_max f))).
  Proof using.
    intros W E P. unfold print_volumes in P. rewrite (built_printed _ _ _ W E) in P.
    destruct (f_max f =? INT32_MAX); cbn [bind] in P; [discriminate|]. injection P as <-.
    match goal with |- read_listing _ (concat (map _ ?rows)) = Some ?r => change r with rows; rewrite <- (map_id rows) at 2 end.
    apply (listing_rows slice_row (fun r => [B "Timeslice "; print_int (fst r); B " has "; print_unsigned (snd r); B " spacelike faces."]) (fun r => r)).
    - intros [s n] H. apply elem_of_list_In, in_map_iff in H as (x & K & _). injection K as <- <-. cbn [fst snd]. rewrite print_unsigned_int by lia. cbn [concat]. nn.
    - intros [s n] H. apply elem_of_list_In, in_map_iff in H as (x & K & _). injection K as <- <-. cbn [fst snd]. rewrite print_unsigned_int by lia.
      unfold slice_row. cbn [concat]. rewrite app_nil_r. rewrite row_word, row_int by reflexivity. rewrite row_word, row_int by reflexivity.
      rewrite row_word_end. reflexivity.
  Qed.
End Listings.
