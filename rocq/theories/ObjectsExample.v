(** A concrete CGAL meeting the contract, and a concrete history: the hypotheses of
    the theorems about objects can be met. *)
From Verif Require Import Base Geom Simplex Foliation Repair Objects ObjectsSpec ObjectsFacts ObjectsRuns ObjectsReads ObjectsWorld.
From stdpp Require Import fin_sets gmap sorting.
From Verif Require Import Base Geom Simplex Foliation Objects ObjectsSpec ObjectsFacts ObjectsRuns ObjectsReads ObjectsWorld.
Local Open Scope Z_scope.

(** Copying shifts every handle. *)
Definition shift_copy (n : nat) (H : heap) (t : tri) : heap * tri :=
  let d := h_next H in
  (Heap (fun w => if (w <? d)%nat then h_vertex H w else h_vertex H (w - d))
        (fun c => if (c <? d)%nat then h_cell H c
                  else CRec (map (Nat.add d) (c_vertices (h_cell H (c - d)))) (c_info (h_cell H (c - d)))) (d + d),
   Tri (d + t_infinite t) (map (Nat.add d) (t_vertices t)) (map (Nat.add d) (t_cells t)) (map (Nat.add d) (t_hull t))
     (map (fun f => (d + fst f, snd f)%nat) (t_facets t)) (map (fun e => let '(c, i, j) := e in (d + c, i, j)%nat) (t_edges t))).
(** Inserting: one tetrahedron on the first four points; the others stay alone. *)
Definition toy_insert (n : nat) (H : heap) (ps : list (positive * Z)) : heap * tri :=
  let d := h_next H in
  let finite := seq (d + 1) (length ps) in
  let H' := Heap (fun w => if (w <? d)%nat then h_vertex H w else
                   match (w - d)%nat with O => VRec infinite 0 | S i => let p := nth i ps (infinite, 0) in VRec (fst p) (snd p) end)
                 (fun c => if (c <? d)%nat then h_cell H c else
                   CRec (nth (c - d)%nat [[d+1;d+2;d+3;d+4]; [d;d+2;d+3;d+4]; [d+1;d;d+3;d+4]; [d+1;d+2;d;d+4]; [d+1;d+2;d+3;d]]%nat []) 0)
                 (d + 5 + length ps)%nat in
  (H', if (4 <=? length ps)%nat
       then Tri d finite [d] [d+1;d+2;d+3;d+4]%nat [(d,0);(d,1);(d,2);(d,3)]%nat
              [(d,0,1);(d,0,2);(d,0,3);(d,1,2);(d,1,3);(d,2,3)]%nat
       else Tri d finite [] [] [] []).
(** Points given twice are inserted once. *)
Definition toy_distinct (ps : list (positive * Z)) : list (positive * Z) := map (fun p => (p, 0)) (remove_dups (map fst ps)).
Definition toy : cgal := Cgal shift_copy (fun n H ps => toy_insert n H (toy_distinct ps)) (fun _ H t _ => (H, t)) (fun _ => [(2%positive, 1); (3%positive, 1); (4%positive, 1); (5%positive, 2)]).

Lemma elem_of_shift d x l : x ∈ map (Nat.add d) l <-> exists y, x = (d + y)%nat /\ y ∈ l.
Proof. apply elem_of_list_fmap. Qed.

Section Shift.
  Variables (n : nat) (H : heap) (t : tri).
  Hypothesis W : well_made H t.
  Let d := h_next H.
  Let H' := fst (shift_copy n H t).
  Let t' := snd (shift_copy n H t).
  Lemma shift_vertex v : h_vertex H' (d + v)%nat = h_vertex H v.
  Proof using.
    unfold H', shift_copy. cbn [fst h_vertex]. fold d. rewrite (proj2 (Nat.ltb_ge (d + v) d)) by lia. replace (d + v - d)%nat with v by lia. reflexivity.
  Qed.
  Lemma shift_cell c : h_cell H' (d + c)%nat = CRec (map (Nat.add d) (c_vertices (h_cell H c))) (c_info (h_cell H c)).
  Proof using.
    unfold H', shift_copy. cbn [fst h_cell]. fold d. rewrite (proj2 (Nat.ltb_ge (d + c) d)) by lia. replace (d + c - d)%nat with c by lia. reflexivity.
  Qed.
  Lemma shift_vertex_of c i : (i < length (c_vertices (h_cell H c)))%nat -> vertex_of H' (d + c) i = (d + vertex_of H c i)%nat.
  Proof using.
    intros L. unfold vertex_of. rewrite shift_cell. cbn [c_vertices].
    rewrite (nth_indep _ 0%nat (d + 0)%nat) by (rewrite map_length; exact L). apply map_nth.
  Qed.
  Lemma shift_facet f : f ∈ t_facets t -> facet_vertices H' (d + fst f, snd f)%nat = map (Nat.add d) (facet_vertices H f).
  Proof using W.
    intros F. destruct (wm_facet H t W f F) as (_ & _ & _ & L). unfold facet_vertices. cbn [fst snd]. rewrite map_map.
    apply map_ext_in. intros i I. apply filter_In in I as [I N]. apply in_seq in I. apply shift_vertex_of, L; [lia|].
    apply negb_true_iff, Nat.eqb_neq in N. exact N.
  Qed.
  Lemma shift_below x : x ∈ vertex_handles t -> (x < d)%nat.
  Proof using W. apply (wm_below H t W). Qed.
  Lemma shift_below_cell x : x ∈ cell_handles t -> (x < d)%nat.
  Proof using W. apply (wm_below H t W). Qed.
  Lemma shift_vertices : vertex_handles t' = map (Nat.add d) (vertex_handles t).
  Proof using. reflexivity. Qed.
  Lemma shift_cells : cell_handles t' = map (Nat.add d) (cell_handles t).
  Proof using. unfold cell_handles. rewrite map_app. reflexivity. Qed.
  Lemma shift_made : well_made H' t'.
  Proof using W.
    constructor.
    - split; intros x X.
      + rewrite shift_vertices in X. apply elem_of_shift in X as (y & -> & Y). apply shift_below in Y. cbn. fold d. lia.
      + rewrite shift_cells in X. apply elem_of_shift in X as (y & -> & Y). apply shift_below_cell in Y. cbn. fold d. lia.
    - rewrite shift_vertices. apply NoDup_fmap_2; [intros ???; lia|apply W].
    - rewrite shift_cells. apply NoDup_fmap_2; [intros ???; lia|apply W].
    - intros c X. apply elem_of_shift in X as (y & -> & Y). rewrite shift_cell. cbn [c_vertices]. rewrite map_length.
      destruct (wm_cell H t W y Y) as [L I]. split; [exact L|]. intros v V. apply elem_of_shift in V as (z & -> & Z).
      apply elem_of_shift. eauto.
    - intros c v X V. apply elem_of_shift in X as (y & -> & Y). rewrite shift_cell in V. cbn [c_vertices] in V.
      apply elem_of_shift in V as (z & -> & Z). rewrite shift_vertices. apply elem_of_shift. exists z. split; [reflexivity|].
      exact (wm_hull H t W y z Y Z).
    - intros f X. cbn in X. apply elem_of_list_fmap in X as (g & -> & G). cbn [fst snd]. destruct (wm_facet H t W g G) as (A & B & I & L).
      fold d. split; [rewrite shift_cells; apply elem_of_shift; eauto|]. split; [exact B|]. split.
      + intros v V. rewrite (shift_facet g G) in V. apply elem_of_shift in V as (z & -> & Z). apply elem_of_shift. eauto.
      + rewrite shift_cell. cbn [c_vertices]. rewrite map_length. exact L.
    - intros c i j X. cbn in X. apply elem_of_list_fmap in X as ([[c0 i0] j0] & E & G). injection E as -> -> ->.
      destruct (wm_edge H t W c0 i0 j0 G) as (A & I & J & L & L'). fold d. rewrite !shift_vertex_of by assumption.
      rewrite shift_cell. cbn [c_vertices]. rewrite map_length. rewrite shift_cells. split; [apply elem_of_shift; eauto|].
      split; [apply elem_of_shift; eauto|]. split; [apply elem_of_shift; eauto|]. auto.
  Qed.
  Lemma shift_point v : point H' (d + v) = point H v.
  Proof using. unfold point. rewrite shift_vertex. reflexivity. Qed.
  Lemma shift_same : same_contents H t H' t'.
  Proof using W.
    constructor; cbn [t_vertices t_cells t_hull t_facets t_edges t' shift_copy snd]; fold d; rewrite map_map.
    - apply perm_map_ext. intros v _. unfold vertex_data, info. rewrite shift_point, shift_vertex. reflexivity.
    - apply perm_map_ext. intros c _. unfold cell_data. rewrite shift_cell. cbn [c_vertices c_info]. rewrite map_map.
      f_equal. apply map_ext. intros v. apply shift_point.
    - apply perm_map_ext. intros c _. unfold points_of. rewrite shift_cell. cbn [c_vertices]. rewrite map_map. f_equal.
      apply map_ext. intros v. apply shift_point.
    - apply perm_map_ext. intros f F. unfold facet_data. rewrite (shift_facet f F), map_map. f_equal. apply map_ext. intros v. apply shift_point.
    - apply perm_map_ext. intros [[c i] j] F. destruct (wm_edge H t W c i j F) as (_ & _ & _ & L & L'). unfold edge_data.
      rewrite !shift_vertex_of, !shift_point by assumption. reflexivity.
  Qed.
  Lemma shift_makes : makes H H' t'.
  Proof using W.
    split; [|split; [apply shift_made|split]].
    - split; [cbn; lia|]. split; intros x L _; unfold H', shift_copy; cbn [fst h_vertex h_cell]; rewrite (proj2 (Nat.ltb_lt x (h_next H))) by lia; reflexivity.
    - intros v V. rewrite shift_vertices in V. apply elem_of_shift in V as (y & -> & _). unfold d. lia.
    - intros v V. rewrite shift_cells in V. apply elem_of_shift in V as (y & -> & _). unfold d. lia.
  Qed.
End Shift.

Lemma toy_insert_makes n H ps : makes H (fst (toy_insert n H ps)) (snd (toy_insert n H ps)).
Proof.
  set (d := h_next H).
  assert (Cell : forall k, (k < 5)%nat -> c_vertices (h_cell (fst (toy_insert n H ps)) (d + k)%nat) =
    nth k [[d+1;d+2;d+3;d+4]; [d;d+2;d+3;d+4]; [d+1;d;d+3;d+4]; [d+1;d+2;d;d+4]; [d+1;d+2;d+3;d]]%nat []).
  { intros k L. cbn [fst toy_insert h_cell]. fold d. rewrite (proj2 (Nat.ltb_ge (d + k) d)) by lia. replace (d + k - d)%nat with k by lia. reflexivity. }
  pose proof (Cell 0%nat ltac:(lia)) as C0. rewrite Nat.add_0_r in C0. cbn [nth] in C0.
  assert (Fin : forall x, x ∈ seq (d + 1) (length ps) <-> (d + 1 <= x < d + 1 + length ps)%nat) by (intros x; apply elem_of_seq).
  assert (VH : forall x, x ∈ vertex_handles (snd (toy_insert n H ps)) <-> (d <= x < d + 1 + length ps)%nat).
  { intros x. unfold vertex_handles, toy_insert. cbn [snd]. fold d.
    destruct (4 <=? length ps)%nat; cbn [t_infinite t_vertices]; rewrite elem_of_cons, Fin; lia. }
  assert (CH : forall x, x ∈ cell_handles (snd (toy_insert n H ps)) -> (d <= x < d + 5)%nat).
  { intros x. unfold cell_handles, toy_insert. cbn [snd]. fold d. destruct (4 <=? length ps)%nat; cbn [t_cells t_hull app].
    - rewrite !elem_of_cons, elem_of_nil. intros X. repeat (destruct X as [-> |X]; [lia|]). destruct X.
    - intros X. apply elem_of_nil in X. destruct X. }
  split; [|split; [constructor|split]].
  - split; [cbn; lia|]. split; intros x L _; cbn [fst toy_insert h_vertex h_cell]; fold d; rewrite (proj2 (Nat.ltb_lt x d)) by exact L; reflexivity.
  - split; intros x X; [apply VH in X|apply CH in X]; cbn; fold d; lia.
  - unfold vertex_handles, toy_insert. cbn [snd]. fold d.
    destruct (4 <=? length ps)%nat; cbn [t_infinite t_vertices]; (constructor; [rewrite Fin; lia|apply NoDup_seq]).
  - unfold cell_handles, toy_insert. cbn [snd]. fold d. destruct (4 <=? length ps)%nat; cbn [t_cells t_hull app]; [|constructor].
    repeat (constructor; [rewrite ?elem_of_cons, elem_of_nil; lia|]). constructor.
  - intros c. unfold toy_insert at 1. cbn [snd]. fold d. destruct (Nat.leb_spec 4 (length ps)) as [L|L]; cbn [t_cells]; [|intros X; apply elem_of_nil in X; destruct X].
    intros X. apply elem_of_list_singleton in X as ->. rewrite C0. split; [reflexivity|]. intros v V.
    unfold toy_insert. cbn [snd]. fold d. rewrite (proj2 (Nat.leb_le 4 (length ps)) L). cbn [t_vertices]. apply Fin.
    rewrite !elem_of_cons, elem_of_nil in V. lia.
  - intros c v. unfold toy_insert at 1. cbn [snd]. fold d. destruct (Nat.leb_spec 4 (length ps)) as [L|L]; cbn [t_hull]; [|intros X; apply elem_of_nil in X; destruct X].
    intros X V. apply VH. rewrite !elem_of_cons, elem_of_nil in X.
    destruct X as [-> |[-> |[-> |[-> |[]]]]]; rewrite Cell in V by lia; cbn [nth] in V; rewrite !elem_of_cons, elem_of_nil in V; lia.
  - intros f. unfold toy_insert at 1. cbn [snd]. fold d. destruct (Nat.leb_spec 4 (length ps)) as [L|L]; cbn [t_facets]; [|intros X; apply elem_of_nil in X; destruct X].
    intros X. assert (Ef : fst f = d /\ (snd f < 4)%nat).
    { rewrite !elem_of_cons, elem_of_nil in X. destruct X as [-> |[-> |[-> |[-> |[]]]]]; cbn; lia. }
    destruct Ef as [E1 E2]. rewrite E1. split; [|split; [exact E2|split]].
    + unfold cell_handles, toy_insert. cbn [snd]. fold d. rewrite (proj2 (Nat.leb_le 4 (length ps)) L). left.
    + intros v V. unfold toy_insert. cbn [snd]. fold d. rewrite (proj2 (Nat.leb_le 4 (length ps)) L). cbn [t_vertices]. apply Fin.
      unfold facet_vertices in V. apply elem_of_list_In, in_map_iff in V as (i & <- & I). apply filter_In in I as [I _]. apply in_seq in I.
      unfold vertex_of. rewrite E1, C0. do 4 (destruct i as [|i]; [cbn; lia|]). lia.
    + intros i I _. rewrite C0. cbn. lia.
  - intros c i j. unfold toy_insert at 1. cbn [snd]. fold d. destruct (Nat.leb_spec 4 (length ps)) as [L|L]; cbn [t_edges]; [|intros X; apply elem_of_nil in X; destruct X].
    intros X. assert (Ef : c = d /\ (i < 4)%nat /\ (j < 4)%nat).
    { rewrite !elem_of_cons, elem_of_nil in X. repeat (destruct X as [[= -> -> ->]|X]; [lia|]). destruct X. }
    destruct Ef as (-> & Ei & Ej).
    assert (In4 : forall k, (k < 4)%nat -> vertex_of (fst (toy_insert n H ps)) d k ∈ t_vertices (snd (toy_insert n H ps))).
    { intros k Lk. unfold vertex_of. rewrite C0. unfold toy_insert. cbn [snd]. fold d. rewrite (proj2 (Nat.leb_le 4 (length ps)) L). cbn [t_vertices]. apply Fin.
      do 4 (destruct k as [|k]; [cbn; lia|]). lia. }
    split; [|split; [apply In4, Ei|split; [apply In4, Ej|]]].
    + unfold cell_handles, toy_insert. cbn [snd]. fold d. rewrite (proj2 (Nat.leb_le 4 (length ps)) L). left.
    + rewrite C0. cbn. lia.
  - intros v V. apply VH in V. fold d. lia.
  - intros v V. apply CH in V. fold d. lia.
Qed.

Lemma toy_insert_points n H ps : map (point (fst (toy_insert n H ps))) (t_vertices (snd (toy_insert n H ps))) = map fst ps.
Proof.
  assert (V : t_vertices (snd (toy_insert n H ps)) = seq (h_next H + 1) (length ps)).
  { unfold toy_insert. cbn [snd]. destruct (4 <=? length ps)%nat; reflexivity. }
  rewrite V. clear V.
  assert (P : forall i, point (fst (toy_insert n H ps)) (h_next H + 1 + i) = fst (nth i ps (infinite, 0))).
  { intros i. unfold point, toy_insert. cbn [fst h_vertex]. rewrite (proj2 (Nat.ltb_ge _ _)) by lia.
    replace (h_next H + 1 + i - h_next H)%nat with (S i) by lia. reflexivity. }
  revert P. generalize (point (fst (toy_insert n H ps))). intros f. generalize (h_next H + 1)%nat. 
  induction ps as [|p ps IH]; intros a P; [reflexivity|]. cbn [length seq map]. f_equal.
  - specialize (P 0%nat). rewrite Nat.add_0_r in P. exact P.
  - apply IH. intros i. specialize (P (S i)). cbn [nth] in P. rewrite <- P. f_equal. lia.
Qed.
Lemma toy_ok : cgal_ok toy.
Proof.
  constructor.
  - intros n H t H' t' W E. change (shift_copy n H t = (H', t')) in E.
    pose proof (shift_makes n H t W) as A. pose proof (shift_same n H t W) as B. rewrite E in A, B. auto.
  - intros n H ps H' t' E. change (toy_insert n H (toy_distinct ps) = (H', t')) in E. pose proof (toy_insert_makes n H (toy_distinct ps)) as A.
    pose proof (toy_insert_points n H (toy_distinct ps)) as B. rewrite E in A, B. cbn [fst snd] in A, B. split; [exact A|].
    assert (X : map (point H') (t_vertices t') = remove_dups (map fst ps)).
    { rewrite B. unfold toy_distinct. rewrite map_map. apply map_id. }
    rewrite X. split; [apply NoDup_remove_dups|]. intros p P. apply elem_of_remove_dups, P.
  - intros n H t vs H' t' W E. injection E as <- <-. apply edits_refl, W.
Qed.

(** A history: construct, snapshot, spoil the snapshot, copy, wrap, repair, swap,
    rebuild from the spoilt snapshot. *)
Definition toy_time (_ _ : fp) (p : positive) : Z := if (p =? 5)%positive then 2 else 1.
Definition toy_points : list (positive * Z) := [(2%positive, 8); (3%positive, 8); (4%positive, 8); (5%positive, 8)].
Definition toy_heap : heap := Heap (fun _ => VRec infinite 0) (fun _ => CRec [] 0) 0.
Definition spoil (H : heap) (t : tri) : heap * tri := (set_info H (hd 0%nat (t_vertices t)) 9, t).
Definition lucky (_ : nat) : nat := 1%nat.
Lemma spoil_edits H t : well_made H t -> t_vertices t <> [] -> forall H' t', spoil H t = (H', t') -> edits t H H' t'.
Proof.
  intros W N H' t' [= <- <-]. apply (relabels_edits [hd 0%nat (t_vertices t)] []); [|exact W| |].
  - repeat split.
    + intros v. unfold point, set_info. cbn. destruct (Nat.eqb_spec v (hd 0%nat (t_vertices t))) as [->|]; reflexivity.
    + intros v V. rewrite elem_of_list_singleton in V. cbn. rewrite (proj2 (Nat.eqb_neq _ _)) by exact V. reflexivity.
  - intros v V. apply elem_of_list_singleton in V as ->. apply in_vertices. destruct (t_vertices t) as [|x l]; [congruence|left].
  - intros c X. apply elem_of_nil in X. destruct X.
Qed.
(** Deciding that a statement is allowed; the only editing considered is [spoil]. *)
Inductive step : Type := Do (a : action) | Spoil (x : nat).
Definition action_of (s : step) : action := match s with Do a => a | Spoil x => Edit x spoil end.
Definition intactb (v : value) : bool := match triangulation_in v with Some _ => true | None => false end.
Definition same_typeb (v v' : value) : bool := match v, v' with VF _, VF _ => true | VM _, VM _ => true | _, _ => false end.
Definition allowedb (w : world) (s : step) : bool :=
  let dead x := match w_var w x with None => true | _ => false end in
  match s with
  | Spoil x => match w_var w x with Some (VP (Some t)) => negb (length (t_vertices t) =? 0)%nat | _ => false end
  | Do (MakeFoliated x | MakeManifold x | FoliatedRandom x _ _ | ManifoldRandom x _ _
  | FoliatedOfVertices x _ _ _ | ManifoldOfVertices x _ _ _ | Generate x _ _) => dead x
  | Do (FoliatedOfPlain x y _ _ _) => dead x && match w_var w y with Some (VP (Some _)) => true | _ => false end
  | Do (ManifoldOfFoliated x y _) => dead x && match w_var w y with Some (VF o) => intactb (VF o) | _ => false end
  | Do (Copy x y) => dead x && match w_var w y with Some v => intactb v | None => false end
  | Do (Move x y) => dead x && match w_var w y with Some v => true | None => false end
  | Do (AssignCopy x y) => match w_var w x, w_var w y with Some v, Some v' => same_typeb v v' && intactb v' | _, _ => false end
  | Do (AssignMove x y | Swap x y) => match w_var w x, w_var w y with Some v, Some v' => same_typeb v v' | _, _ => false end
  | Do (Updated x y) => dead x && match w_var w y with Some (VM m) => intactb (VM m) | _ => false end
  | Do (FixVertices x | FixCells x | IsFixed x) => match w_var w x with Some (VF o) => intactb (VF o) | _ => false end
  | Do (Snapshot x y) => dead x && match w_var w y with Some (VF o) => intactb (VF o) | Some (VM m) => intactb (VM m) | _ => false end
  | Do (Edit _ _) => false
  | Do (Destroy x) => negb (dead x)
  end.
Lemma intactb_spec v : intactb v = true -> intact v.
Proof. unfold intactb, intact. destruct (triangulation_in v); congruence. Qed.
Lemma same_typeb_spec v v' : same_typeb v v' = true -> same_type v v'.
Proof. destruct v, v'; cbn; congruence || trivial. Qed.
Lemma allowedb_spec w s : good toy_time w -> allowedb w s = true -> allowed w (action_of s).
Proof.
  intros [GV _]. destruct s as [[]|x]; cbn [allowedb action_of allowed];
  repeat match goal with |- context [w_var w ?x] => destruct (w_var w x) as [[]|] eqn:? end;
  cbn [andb negb]; try discriminate; intros E; repeat (apply andb_true_iff in E as [? E]);
  try (split; [reflexivity|]); try reflexivity; try discriminate;
  repeat match goal with o : option tri |- _ => destruct o end; try discriminate;
  try (eexists; split; [reflexivity|]; first [apply intactb_spec, E|apply (intactb_spec _ E)]);
  try (eexists; reflexivity);
  try (eexists _, _; split; [reflexivity|]; split; [reflexivity|]; try (split; [apply same_typeb_spec; assumption|]); first [apply intactb_spec, E|apply same_typeb_spec, E]);
  try (eexists; split; [reflexivity|]; split; [apply intactb_spec, E|discriminate]).
  eexists. split; [reflexivity|]. apply spoil_edits; [exact (GV _ _ Heqo t eq_refl)|].
  intros X. rewrite X in E. discriminate E.
Qed.
Fixpoint play (luck : nat -> nat) (w : world) (l : list step) : option world :=
  match l with
  | [] => Some w
  | s :: l => if allowedb w s then
      match act toy_time toy luck w (action_of s) with Done w => play luck w l | Thrown w => play luck w l | Undefined => None end else None
  end.
Lemma play_history luck l : forall w w', good toy_time w -> play luck w l = Some w' -> history toy_time toy luck w (map action_of l) w'.
Proof.
  induction l as [|s l IH]; intros w w' G; cbn [play map]; [intros [= <-]; apply history_nil|].
  destruct (allowedb w s) eqn:A; [|discriminate]. apply (allowedb_spec w s G) in A.
  pose proof (after_act toy_time toy luck toy_ok w (action_of s) G A) as X.
  destruct (act toy_time toy luck w (action_of s)) as [w1|w1|] eqn:E; [| |discriminate]; intros P.
  - eapply history_done; [exact A|exact E|]. apply IH; [apply X|exact P].
  - eapply history_thrown; [exact A|exact E|]. apply IH; [apply X|exact P].
Qed.
Definition toy_script : list step :=
  [Do (FoliatedOfVertices 0 toy_points NaN NaN); Do (Snapshot 1 0); Spoil 1; Do (Copy 2 0); Do (ManifoldOfFoliated 3 2 true);
   Do (FixCells 0); Do (FixVertices 0); Do (IsFixed 0); Do (Updated 4 3); Do (Swap 3 4); Do (AssignCopy 3 4); Do (Destroy 4);
   Do (FoliatedOfPlain 5 1 false NaN NaN)].
(** What variable [x] reads after the script. *)
Definition read_after (luck : nat -> nat) (l : list step) (x : nat) : option reading :=
  match play luck (start toy_heap) l with
  | Some w => match w_var w x with Some v => Some (read toy_time (w_heap w) v) | None => None end
  | None => None
  end.
Lemma read_after_history luck l x r : read_after luck l x = Some r ->
  exists w v, history toy_time toy luck (start toy_heap) (map action_of l) w /\ w_var w x = Some v /\ read toy_time (w_heap w) v = r.
Proof.
  unfold read_after. destruct (play luck (start toy_heap) l) as [w|] eqn:P; [|discriminate].
  destruct (w_var w x) as [v|] eqn:E; [|discriminate]. intros [= <-]. exists w, v. split; [|auto].
  apply play_history; [apply start_good|exact P].
Qed.

(** An assignment in which an allocation fails. *)
Definition other_points : list (positive * Z) := [(5%positive, 8); (6%positive, 8); (7%positive, 8); (8%positive, 8)].
Definition assign_script : list step :=
  [Do (FoliatedOfVertices 0 toy_points NaN NaN); Do (FoliatedOfVertices 1 other_points NaN NaN); Do (AssignCopy 1 0)].
Definition unlucky (n k : nat) : nat := if (k =? n)%nat then 0%nat else 1%nat.

(** Deciding that a triangulation is of dimension three. *)
Definition three_dimensionalb (H : heap) (t : tri) : bool :=
  bool_decide (point H (t_infinite t) = infinite) &&
  bool_decide (NoDup (map (point H) (vertex_handles t))) &&
  forallb (fun c => bool_decide (NoDup (c_vertices (h_cell H c)))) (cell_handles t) &&
  forallb (fun c => bool_decide (t_infinite t ∈ c_vertices (h_cell H c))) (t_hull t) &&
  bool_decide (NoDup (map (points_of H) (cell_handles t))) &&
  bool_decide (NoDup (map (facet_data H) (t_facets t))) &&
  bool_decide ((list_to_set (map (facet_data H) (t_facets t)) : gset simplex) = filter (fun s => infinite ∉ s) (Simplex.faces 3 (complex H t))) &&
  bool_decide (NoDup (map (edge_data H) (t_edges t))) &&
  bool_decide ((list_to_set (map (edge_data H) (t_edges t)) : gset simplex) = filter (fun s => infinite ∉ s) (Simplex.faces 2 (complex H t))) &&
  forallb (fun v => existsb (fun c => bool_decide (v ∈ c_vertices (h_cell H c))) (cell_handles t)) (t_vertices t).
Lemma three_dimensionalb_spec H t : three_dimensionalb H t = true -> three_dimensional H t.
Proof.
  unfold three_dimensionalb. intros E. repeat (apply andb_true_iff in E as [E ?]).
  assert (G : forall (l : list simplex) (F : gset simplex), bool_decide ((list_to_set l : gset simplex) = filter (fun s => infinite ∉ s) F) = true ->
    forall s, s ∈ l <-> s ∈ F /\ infinite ∉ s).
  { intros l F X s. apply bool_decide_eq_true in X. rewrite <- (elem_of_list_to_set (C := gset simplex)), X, elem_of_filter. tauto. }
  constructor; try (eapply bool_decide_eq_true_1; eassumption); try (apply G; assumption).
  - intros c C. eapply bool_decide_eq_true_1. match goal with X : forallb ?f (_ t) = true |- _ => refine (proj1 (forallb_forall f _) X c (proj1 (elem_of_list_In _ _) C)) end.
  - intros c C. eapply bool_decide_eq_true_1. match goal with X : forallb ?f (_ t) = true |- _ => refine (proj1 (forallb_forall f _) X c (proj1 (elem_of_list_In _ _) C)) end.
  - intros v V. assert (X : existsb (fun c => bool_decide (v ∈ c_vertices (h_cell H c))) (cell_handles t) = true).
    { match goal with X : forallb _ (t_vertices t) = true |- _ => exact (proj1 (forallb_forall _ _) X v (proj1 (elem_of_list_In _ _) V)) end. }
    apply existsb_exists in X as (c & C & X). exists c. split; [apply elem_of_list_In, C|apply bool_decide_eq_true in X; exact X].
Qed.
(** Whether variable [x] is a manifold of dimension three after the script. *)
Definition three_after (luck : nat -> nat) (l : list step) (x : nat) : bool :=
  match play luck (start toy_heap) l with
  | Some w => match w_var w x with
              | Some (VM m) => match f_tri (m_triangulation m) with Some t => three_dimensionalb (w_heap w) t && (n3 (complex (w_heap w) t) =? 1) | None => false end
              | _ => false
              end
  | None => false
  end.
Lemma three_after_history luck l x : three_after luck l x = true ->
  exists w m t, history toy_time toy luck (start toy_heap) (map action_of l) w /\ w_var w x = Some (VM m) /\
    f_tri (m_triangulation m) = Some t /\ three_dimensional (w_heap w) t /\ n3 (complex (w_heap w) t) = 1.
Proof.
  unfold three_after. destruct (play luck (start toy_heap) l) as [w|] eqn:P; [|discriminate].
  destruct (w_var w x) as [[|m|]|] eqn:E; try discriminate. destruct (f_tri (m_triangulation m)) as [t|] eqn:F; [|discriminate].
  intros X. apply andb_true_iff in X as [X Y]. exists w, m, t. split; [apply play_history; [apply start_good|exact P]|].
  split; [exact E|]. split; [exact F|]. split; [apply three_dimensionalb_spec, X|]. apply Z.eqb_eq, Y.
Qed.
