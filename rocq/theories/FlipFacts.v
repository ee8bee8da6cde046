(** When the generic flip answers and what it answers. *)
From Verif Require Import Base Tracker Command Geom Simplex Pachner Foliation Moves Links MoveCore MoveTools Manifold StarSpec StarFacts Seams Circulator.
From stdpp Require Import fin_sets gmap sorting.
From Verif Require Import Foliation Move44 Incident SeamSpec Reverse Flip.
Local Open Scope Z_scope.

(** ** Names of edges *)
Lemma names_edge_iff T e p q : names_edge T e p q <-> tds_is_edge T e = true /\ ends e = Seen (p, q).
Proof.
  split.
  - intros (h & i & j & -> & Hl & HT & Hij & Hi & Hj).
    pose proof (lookup_lt_Some _ _ _ Hi) as Li. pose proof (lookup_lt_Some _ _ _ Hj) as Lj. rewrite Hl in Li, Lj.
    unfold tds_is_edge, ends, vertex_of, tds_is_cell, valid_index, dbind. cbn [re_cell re_second re_third].
    rewrite Hl, Nat.eqb_refl, (bool_decide_eq_true_2 _ HT). cbn [andb].
    assert (Bi : (0 <=? Z.of_nat i) && (Z.of_nat i <? 4) = true) by (rewrite andb_true_iff, Z.leb_le, Z.ltb_lt; lia).
    assert (Bj : (0 <=? Z.of_nat j) && (Z.of_nat j <? 4) = true) by (rewrite andb_true_iff, Z.leb_le, Z.ltb_lt; lia).
    rewrite Bi, Bj. split; [cbn [andb]; rewrite negb_true_iff, Z.eqb_neq; lia|].
    rewrite !Nat2Z.id.
    assert (E : forall k x, h !! k = Some x -> nth_error h k = Some x).
    { intros k x. revert h Hl Hi Hj HT Li. clear. intros h _ _ _ _ _. revert k. induction h as [|y h IH]; intros [|k]; cbn; try discriminate; auto. }
    rewrite (E _ _ Hi), (E _ _ Hj). reflexivity.
  - destruct e as [c i j]. unfold tds_is_edge, ends. cbn [re_cell re_second re_third]. rewrite !andb_true_iff, negb_true_iff, Z.eqb_neq.
    intros ([[[Hc Hi] Hj] Hij] & E). unfold valid_index in Hi, Hj. rewrite andb_true_iff, Z.leb_le, Z.ltb_lt in Hi, Hj.
    destruct c as [| |h]; [discriminate Hc..|]. unfold tds_is_cell in Hc. rewrite andb_true_iff, Nat.eqb_eq in Hc.
    destruct Hc as [Hl Hc]. apply bool_decide_eq_true_1 in Hc.
    unfold vertex_of, dbind in E.
    assert (Bi : (0 <=? i) && (i <? 4) = true) by (rewrite andb_true_iff, Z.leb_le, Z.ltb_lt; lia).
    assert (Bj : (0 <=? j) && (j <? 4) = true) by (rewrite andb_true_iff, Z.leb_le, Z.ltb_lt; lia).
    rewrite Bi, Bj in E.
    destruct (nth_error h (Z.to_nat i)) as [a|] eqn:Ea; [|discriminate].
    destruct (nth_error h (Z.to_nat j)) as [b|] eqn:Eb; [|discriminate]. injection E as -> ->.
    assert (K : forall k x, nth_error h k = Some x -> h !! k = Some x).
    { clear. induction h as [|y h IH]; intros [|k] x; cbn; try discriminate; auto. }
    exists h, (Z.to_nat i), (Z.to_nat j). rewrite !Z2Nat.id by lia.
    split; [reflexivity|]. split; [exact Hl|]. split; [exact Hc|]. split; [lia|]. split; apply K; assumption.
Qed.

Lemma not_edge T e : tds_is_edge T e = false -> finite_incident_cells T e = Seen None.
Proof. intros H. unfold finite_incident_cells. rewrite H, orb_true_r. reflexivity. Qed.

(** ** The four cells around an edge as the circulator reports them *)
Lemma fa_rot T p q w x y z : four_around T p q w x y z -> four_around T p q x y z w.
Proof.
  intros (N & F & H). split; [|split].
  - apply nodup6 in N. apply nodup6. intuition congruence.
  - set_solver + F.
  - intros c. rewrite H, !elem_of_cons, !elem_of_nil. tauto.
Qed.

Section Around.
  Variable T : tds.
  Hypothesis HP : pure T.
  Hypothesis HC : closed T.
  Hypothesis HJ : joined_stars T.

  Lemma four_spec e p q l : tds_is_edge T e = true -> ends e = Seen (p, q) ->
    finite_incident_cells T e = Seen (Some l) -> length l = 4%nat ->
    exists w x y z, four_around T p q w x y z /\
      l = [of_list [p; q; w; x]; of_list [p; q; x; y]; of_list [p; q; y; z]; of_list [p; q; z; w]].
  Proof using HP HC HJ.
    intros He Ee Ef Hl. destruct (incident_exact T HP HC HJ e p q He Ee) as [[E _]|(w & ys & N & _ & Hout & _ & Hfin & P & E)];
      rewrite Ef in E; [discriminate|]. injection E as ->.
    unfold cycle in Hl. rewrite chain_length in Hl. cbn [length] in Hl. rewrite app_length in Hl. cbn [length pred] in Hl.
    destruct ys as [|x [|y [|z [|? ?]]]]; cbn [length] in Hl; try lia.
    unfold cycle in *. cbn [app chain] in *.
    assert (Q : forall u v, of_list [p; q] ∪ of_list [u; v] = of_list [p; q; u; v]) by (intros; symmetry; apply (of_list_app [p; q])).
    rewrite !Q in *. exists w, x, y, z. split; [|reflexivity].
    destruct (read_edge T e HP He) as (h & a & b & y0 & w0 & _ & _ & _ & _ & Ee' & _ & N4 & _ & _).
    rewrite Ee in Ee'. injection Ee' as <- <-. apply nodup4 in N4.
    assert (Hout' : forall k, k ∈ [w; x; y; z] -> k <> p /\ k <> q).
    { intros k Hk. apply Hout in Hk. rewrite elem_of_of_list, !elem_of_cons, elem_of_nil in Hk. tauto. }
    split; [|split].
    - apply nodup4 in N. apply nodup6. pose proof (Hout' w ltac:(set_solver +)). pose proof (Hout' x ltac:(set_solver +)).
      pose proof (Hout' y ltac:(set_solver +)). pose proof (Hout' z ltac:(set_solver +)). clear - N N4 H H0 H1 H2. intuition congruence.
    - assert (F : forall u v, of_list [p; q; u; v] ∈ [of_list [p; q; w; x]; of_list [p; q; x; y]; of_list [p; q; y; z]; of_list [p; q; z; w]] -> infinite ∉ [p; q; u; v]).
      { intros u v Hi. rewrite <- elem_of_of_list. apply Hfin. apply elem_of_elements. rewrite <- P. exact Hi. }
      pose proof (F w x ltac:(set_solver +)) as F1. pose proof (F y z ltac:(set_solver +)) as F2.
      clear - F1 F2. rewrite !elem_of_cons, !elem_of_nil in *. tauto.
    - intros c. rewrite P, elem_of_elements, elem_of_star. split.
      + intros (Hc & Hp & Hq). split; [exact Hc|]. intros k. rewrite elem_of_of_list, !elem_of_cons, elem_of_nil. intros [->|[->|[]]]; assumption.
      + intros [Hc S]. split; [exact Hc|]. split; apply S; rewrite elem_of_of_list; set_solver +.
  Qed.

  Lemma four_cells_nodup p q w x y z : NoDup [p; q; w; x; y; z] ->
    NoDup [of_list [p; q; w; x]; of_list [p; q; x; y]; of_list [p; q; y; z]; of_list [p; q; z; w]].
  Proof using.
    intros N. pose proof (proj1 (nodup6 _ _ _ _ _ _) N) as N'.
    repeat (apply NoDup_cons; split); try apply NoDup_nil_2; rewrite ?elem_of_cons, ?elem_of_nil; intros H;
        repeat (destruct H as [H|H]; [cellabsurd H N'|]); exact H.
  Qed.

  Lemma four_cells_found e p q w x y z : tds_is_edge T e = true -> ends e = Seen (p, q) -> four_around T p q w x y z ->
    exists l, finite_incident_cells T e = Seen (Some l) /\
      l ≡ₚ [of_list [p; q; w; x]; of_list [p; q; x; y]; of_list [p; q; y; z]; of_list [p; q; z; w]].
  Proof using HP HC HJ.
    intros He Ee (N & F & H).
    assert (S : forall c, c ∈ star (of_list [p; q]) T <-> c ∈ [of_list [p; q; w; x]; of_list [p; q; x; y]; of_list [p; q; y; z]; of_list [p; q; z; w]]).
    { intros c. rewrite <- H, elem_of_star. split.
      + intros [Hc S]. split; [exact Hc|]. split; apply S; rewrite elem_of_of_list; set_solver +.
      + intros (Hc & Hp & Hq). split; [exact Hc|]. intros k. rewrite elem_of_of_list, !elem_of_cons, elem_of_nil. intros [->|[->|[]]]; assumption. }
    destruct (incident_exact T HP HC HJ e p q He Ee) as [(_ & d & Hd & Hi)|(x0 & ys & _ & _ & _ & Nc & _ & P & E)].
    - exfalso. apply S in Hd. rewrite !elem_of_cons, elem_of_nil in Hd. rewrite !elem_of_cons, elem_of_nil in F.
      destruct Hd as [->|[->|[->|[->|[]]]]]; rewrite elem_of_of_list, !elem_of_cons, elem_of_nil in Hi; tauto.
    - exists (cycle (of_list [p; q]) x0 ys). split; [exact E|].
      apply NoDup_Permutation; [exact Nc|apply four_cells_nodup; exact N|]. intros c. rewrite <- S, <- elem_of_elements, P. reflexivity.
  Qed.

  Lemma count_around p q w x y z v : NoDup [p; q; w; x; y; z] -> v ∉ of_list [p; q] ->
    length (List.filter (fun c : simplex => bool_decide (v ∈ c))
      [of_list [p; q; w; x]; of_list [p; q; x; y]; of_list [p; q; y; z]; of_list [p; q; z; w]]) = 2%nat <-> v ∈ [w; x; y; z].
  Proof using.
    intros N Hv. apply nodup6 in N. rewrite elem_of_of_list, !elem_of_cons, elem_of_nil in Hv.
    assert (B : forall u t, bool_decide (v ∈ of_list [p; q; u; t]) = bool_decide (v = u) || bool_decide (v = t)).
    { intros u t. rewrite <- bool_decide_or. apply bool_decide_ext. rewrite elem_of_of_list, !elem_of_cons, elem_of_nil. tauto. }
    cbn [List.filter]. rewrite !B. rewrite !elem_of_cons, elem_of_nil.
    pose proof (bool_decide_reflect (v = w)) as Rw. pose proof (bool_decide_reflect (v = x)) as Rx.
    pose proof (bool_decide_reflect (v = y)) as Ry. pose proof (bool_decide_reflect (v = z)) as Rz.
    destruct Rw, Rx, Ry, Rz; try (exfalso; clear - N e e0; intuition congruence); cbn; split; intros K; try discriminate K; try reflexivity; try tauto.
  Qed.

  (** ** Preparation *)
  Lemma prepare_flip_safe e top bottom : exists r, prepare_flip T e top bottom = Seen r /\ r <> Unmodelled.
  Proof using HP HC HJ.
    unfold prepare_flip. destruct (negb (is_well_formed_edge e)); [eexists; split; [reflexivity|discriminate]|].
    assert (D : forall t, tds_is_vertex T t = true -> exists v, t = OwnVertex v) by (intros [| |v]; try discriminate; eauto).
    assert (X : exists r, (if negb (tds_is_edge T e) || negb (tds_is_vertex T top) || negb (tds_is_vertex T bottom)
        then Seen (Fail INVALID_TOPOLOGY) else
        match top, bottom with
        | OwnVertex top, OwnVertex bottom =>
            if bool_decide (top = infinite) || bool_decide (bottom = infinite)
            then Seen (Fail INVALID_TOPOLOGY) else
            dbind (ends e) (fun '(a, b) =>
            dbind (finite_incident_cells T e) (fun cells =>
            Seen (match cells with
                  | None => Fail INVALID_TOPOLOGY
                  | Some cells =>
                      let edge := of_list [a; b] in
                      let count v := length (List.filter (fun c : simplex => bool_decide (v ∈ c)) cells) in
                      if negb (Nat.eqb (length cells) 4) || bool_decide (top = bottom) ||
                         bool_decide (top ∈ edge) || bool_decide (bottom ∈ edge) ||
                         negb (forallb finite_simplex cells)
                      then Fail INVALID_TOPOLOGY
                      else if negb (Nat.eqb (count top) 2) || negb (Nat.eqb (count bottom) 2)
                      then Fail INVALID_TOPOLOGY
                      else Done (edge, top, bottom)
                  end)))
        | _, _ => Dangling
        end) = Seen r /\ r <> Unmodelled).
    { destruct (tds_is_edge T e) eqn:He; cbn [negb orb]; [|eexists; split; [reflexivity|discriminate]].
      destruct (tds_is_vertex T top) eqn:Ht; cbn [negb orb]; [|eexists; split; [reflexivity|discriminate]].
      destruct (tds_is_vertex T bottom) eqn:Hb; cbn [negb orb]; [|eexists; split; [reflexivity|discriminate]].
      destruct (D _ Ht) as [t ->], (D _ Hb) as [b ->].
      destruct (_ || _); [eexists; split; [reflexivity|discriminate]|].
      destruct (read_edge T e HP He) as (h & p & q & y0 & w0 & _ & _ & _ & _ & Ee & _). rewrite Ee. cbn [dbind].
      destruct (incident_exact T HP HC HJ e p q He Ee) as [[E _]|(x0 & ys & _ & _ & _ & _ & _ & _ & E)]; rewrite E; cbn [dbind];
        eexists; (split; [reflexivity|]); [discriminate|].
      cbv zeta. destruct (_ || _ || _ || _ || _); [discriminate|]. destruct (_ || _); discriminate. }
    destruct top, bottom; try exact X; eexists; (split; [reflexivity|discriminate]).
  Qed.

  Lemma prepare_flip_iff e top bottom edge t bo :
    prepare_flip T e top bottom = Seen (Done (edge, t, bo)) <->
    exists p q a far b, names_edge T e p q /\ edge = of_list [p; q] /\ top = OwnVertex t /\ bottom = OwnVertex bo /\
      four_around T p q bo a far b /\ t ∈ [a; far; b].
  Proof using HP HC HJ.
    split.
    - unfold prepare_flip. destruct (negb (is_well_formed_edge e)); [discriminate|].
      destruct top as [| |top], bottom as [| |bottom]; try discriminate;
        destruct (tds_is_edge T e) eqn:He; cbn [negb orb tds_is_vertex]; try discriminate;
        try (destruct (negb (bool_decide _)); discriminate).
      destruct (negb _ || negb _); [discriminate|]. destruct (_ || _); [discriminate|].
      destruct (read_edge T e HP He) as (h & p & q & y0 & w0 & _ & _ & _ & _ & Ee & _). rewrite Ee. cbn [dbind].
      destruct (finite_incident_cells T e) as [[l|]|] eqn:Ef; cbn [dbind]; try discriminate. cbv zeta.
      destruct (Nat.eqb (length l) 4) eqn:Hl; cbn [negb orb]; [|discriminate]. apply Nat.eqb_eq in Hl.
      destruct (bool_decide (top = bottom)) eqn:Htb; cbn [negb orb]; [discriminate|]. apply bool_decide_eq_false_1 in Htb.
      destruct (bool_decide (top ∈ _)) eqn:Hte; cbn [negb orb]; [discriminate|]. apply bool_decide_eq_false_1 in Hte.
      destruct (bool_decide (bottom ∈ _)) eqn:Hbe; cbn [negb orb]; [discriminate|]. apply bool_decide_eq_false_1 in Hbe.
      destruct (negb (forallb _ l)); [discriminate|].
      destruct (Nat.eqb (length (List.filter (fun c : simplex => bool_decide (top ∈ c)) l)) 2) eqn:Ct; cbn [negb orb]; [|discriminate].
      destruct (Nat.eqb (length (List.filter (fun c : simplex => bool_decide (bottom ∈ c)) l)) 2) eqn:Cb; cbn [negb orb]; [|discriminate].
      intros [= <- <- <-]. apply Nat.eqb_eq in Ct, Cb.
      destruct (four_spec e p q l He Ee Ef Hl) as (w & x & y & z & FA & ->).
      pose proof (proj1 FA) as N.
      apply (count_around p q w x y z _ N Hte) in Ct. apply (count_around p q w x y z _ N Hbe) in Cb.
      assert (NE : names_edge T e p q) by (apply names_edge_iff; auto).
      rewrite !elem_of_cons, elem_of_nil in Cb, Ct.
      destruct Cb as [->|[->|[->|[->|[]]]]].
      + exists p, q, x, y, z. do 4 (split; [auto|]). split; [exact FA|]. set_solver + Ct Htb.
      + exists p, q, y, z, w. do 4 (split; [auto|]). split; [apply fa_rot; exact FA|]. set_solver + Ct Htb.
      + exists p, q, z, w, x. do 4 (split; [auto|]). split; [do 2 apply fa_rot; exact FA|]. set_solver + Ct Htb.
      + exists p, q, w, x, y. do 4 (split; [auto|]). split; [do 3 apply fa_rot; exact FA|]. set_solver + Ct Htb.
    - intros (p & q & a & far & b & NE & -> & -> & -> & FA & Ht).
      apply names_edge_iff in NE as [He Ee]. pose proof FA as (N & F & HS).
      destruct (read_edge T e HP He) as (h & p' & q' & y0 & w0 & _ & _ & _ & _ & Ee' & _ & _ & _ & Wf).
      destruct (four_cells_found e p q _ _ _ _ He Ee FA) as (l & Ef & Pl).
      pose proof (proj1 (nodup6 _ _ _ _ _ _) N) as N'.
      rewrite !elem_of_cons, elem_of_nil in Ht.
      assert (Hc : forall k, k ∈ [of_list [p; q; bo; a]; of_list [p; q; a; far]; of_list [p; q; far; b]; of_list [p; q; b; bo]] -> k ∈ T).
      { intros k Hk. apply HS in Hk. tauto. }
      assert (Vt : t ∈ vertices T).
      { apply elem_of_vertices. destruct Ht as [->|[->|[->|[]]]].
        - exists (of_list [p; q; bo; a]). split; [apply Hc; set_solver +|rewrite elem_of_of_list; set_solver +].
        - exists (of_list [p; q; a; far]). split; [apply Hc; set_solver +|rewrite elem_of_of_list; set_solver +].
        - exists (of_list [p; q; far; b]). split; [apply Hc; set_solver +|rewrite elem_of_of_list; set_solver +]. }
      assert (Vb : bo ∈ vertices T).
      { apply elem_of_vertices. exists (of_list [p; q; bo; a]). split; [apply Hc; set_solver +|rewrite elem_of_of_list; set_solver +]. }
      assert (It : t <> infinite) by (intros ->; rewrite !elem_of_cons, elem_of_nil in F; clear - Ht F; intuition congruence).
      assert (Ib : bo <> infinite) by (intros ->; apply F; set_solver +).
      assert (Tb : t <> bo) by (clear - Ht N'; intuition congruence).
      assert (Te : t ∉ of_list [p; q]) by (rewrite elem_of_of_list, !elem_of_cons, elem_of_nil; clear - Ht N'; intuition congruence).
      assert (Be : bo ∉ of_list [p; q]) by (rewrite elem_of_of_list, !elem_of_cons, elem_of_nil; clear - N'; intuition congruence).
      unfold prepare_flip. rewrite Wf, He. cbn [negb orb tds_is_vertex].
      rewrite (bool_decide_eq_true_2 _ Vt), (bool_decide_eq_true_2 _ Vb), (bool_decide_eq_false_2 _ It), (bool_decide_eq_false_2 _ Ib). cbn [negb orb].
      rewrite Ee, Ef. cbn [dbind]. cbv zeta.
      rewrite (Permutation_length Pl). cbn [length Nat.eqb negb orb].
      rewrite (bool_decide_eq_false_2 _ Tb), (bool_decide_eq_false_2 _ Te), (bool_decide_eq_false_2 _ Be). cbn [orb].
      assert (Fl : forallb finite_simplex l = true).
      { apply forallb_forall. intros c Hk. apply elem_of_list_In in Hk. rewrite Pl in Hk. apply finite_spec.
        rewrite !elem_of_cons, elem_of_nil in Hk. rewrite !elem_of_cons, elem_of_nil in F.
        destruct Hk as [->|[->|[->|[->|[]]]]]; rewrite elem_of_of_list, !elem_of_cons, elem_of_nil; tauto. }
      rewrite Fl. cbn [negb].
      rewrite (filter_length_perm _ _ _ Pl), (proj2 (count_around p q bo a far b t N Te)) by set_solver + Ht.
      rewrite (filter_length_perm _ _ _ Pl), (proj2 (count_around p q bo a far b bo N Be)) by set_solver +. reflexivity.
  Qed.
End Around.

(** ** Execution *)
Section Result.
  Variable T : tds.
  Hypothesis V : valid T.

  Definition result_44 (p q bot a far b : vertex) : tds := pachner (pachner T [a; b] [p; q; bot]) [a; b; far] [p; q].
  Lemma result_44_swap p q bot a far b : result_44 p q bot a far b = result_44 p q bot b far a.
  Proof using.
    unfold result_44. rewrite (pachner_perm T [a; b] [p; q; bot] [b; a] [p; q; bot]) by (apply perm_swap || reflexivity).
    apply pachner_perm; [apply perm_swap|reflexivity].
  Qed.

  Lemma result_flipped p q bot a far b : four_around T p q bot a far b -> star (of_list [a; b]) T = ∅ ->
    flipped_44 T p q bot a far b (result_44 p q bot a far b).
  Proof using V.
    intros A H. pose proof (replaces_44 T p q a b far bot (fa_nodup _ _ _ _ _ _ _ A) (ok_first T V p q bot a far b A H) (ok_second T V p q bot a far b A H)) as R.
    unfold flipped_44, result_44.
    assert (S : forall l l', l ≡ₚ l' -> of_list l = of_list l') by apply of_list_perm.
    assert (W : forall x y z w, of_list [x; y; z; w] = of_list [x; y; w; z]) by (intros; apply S; do 2 constructor; apply perm_swap).
    rewrite (W p q bot a), (W p q far b).
    assert (E1 : of_list [a; b; bot; p] = of_list [p; a; b; bot]) by (apply set_eq; intros k; rewrite !elem_of_of_list, !elem_of_cons, !elem_of_nil; tauto).
    assert (E2 : of_list [a; b; p; far] = of_list [p; a; b; far]) by (apply set_eq; intros k; rewrite !elem_of_of_list, !elem_of_cons, !elem_of_nil; tauto).
    assert (E3 : of_list [a; b; far; q] = of_list [q; a; b; far]) by (apply set_eq; intros k; rewrite !elem_of_of_list, !elem_of_cons, !elem_of_nil; tauto).
    assert (E4 : of_list [a; b; q; bot] = of_list [q; a; b; bot]) by (apply set_eq; intros k; rewrite !elem_of_of_list, !elem_of_cons, !elem_of_nil; tauto).
    rewrite E1, E2, E3, E4. refine (replaces_perm _ _ _ _ _ _ _ _ R).
    - generalize (of_list [p; q; a; far]), (of_list [p; q; b; far]), (of_list [p; q; a; bot]), (of_list [p; q; b; bot]). clear.
      intros A B C D. change ([A] ++ [B] ++ [C] ++ [D] ≡ₚ [C] ++ [A] ++ [B] ++ [D]). solve_Permutation.
    - generalize (of_list [p; a; b; far]), (of_list [q; a; b; far]), (of_list [p; a; b; bot]), (of_list [q; a; b; bot]). clear.
      intros A B C D. change ([A] ++ [B] ++ [C] ++ [D] ≡ₚ [C] ++ [A] ++ [B] ++ [D]). solve_Permutation.
  Qed.
End Result.

Section Execute.
  Variable locates : tds -> vertex -> bool.
  Variable validator : tds -> bool.
  Variable T : tds.
  Hypothesis V : valid T.

  Notation result_44 := (result_44 T).
  Lemma execute_flip p q bot a far b t : four_around T p q bot a far b ->
    execute_44_with locates validator T (of_list [p; q]) t bot =
    if locates T p && locates T q && locates T t && locates T bot
    then if bool_decide (star (of_list [a; b]) T = ∅)
         then if validator (result_44 p q bot a far b) then Done (result_44 p q bot a far b) else Fail INVARIANT_VIOLATION
         else Fail EXECUTION_FAILURE
    else Fail STALE_CANDIDATE.
  Proof using V.
    intros A. pose proof (fa_nodup _ _ _ _ _ _ _ A) as N. pose proof (proj1 (nodup6 _ _ _ _ _ _) N) as N'.
    unfold execute_44_with.
    assert (L : forallb (locates T) (elements (of_list [p; q])) = locates T p && locates T q).
    { assert (P : elements (of_list [p; q]) ≡ₚ [p; q]).
      { apply elements_list_to_set. apply (sublist_NoDup _ [p; q; a; b; far; bot]); [repeat constructor|exact N]. }
      apply eq_true_iff_eq. rewrite forallb_forall, andb_true_iff. setoid_rewrite <- elem_of_list_In. setoid_rewrite P. split.
      - intros H. split; apply H; set_solver +.
      - intros [H1 H2] k. rewrite !elem_of_cons, elem_of_nil. intros [->|[->|[]]]; assumption. }
    rewrite L.
    assert (F : bool_decide (of_list [p; q] ∈ faces 2 T) = true).
    { apply bool_decide_eq_true_2, elem_of_faces. split.
      - apply of_list_size, (sublist_NoDup _ [p; q; a; b; far; bot]); [repeat constructor|exact N].
      - exists (of_list [p; q; a; far]). split; [apply (fa_in T p q bot a far b A); set_solver +|]. intros k. rewrite !elem_of_of_list. set_solver +. }
    rewrite F, andb_true_r. destruct (locates T p && locates T q && locates T t && locates T bot); cbn [negb]; [|reflexivity].
    destruct (elements (star ({[bot]} ∪ of_list [p; q]) T)) as [|c rest] eqn:Es.
    { exfalso. assert (H : of_list [p; q; a; bot] ∈ elements (star ({[bot]} ∪ of_list [p; q]) T)).
      { rewrite elem_of_elements, elem_of_star. split; [apply (fa_in T p q bot a far b A); set_solver +|].
        intros k. rewrite elem_of_union, elem_of_singleton, !elem_of_of_list. set_solver +. }
      rewrite Es in H. apply elem_of_nil in H. exact H. }
    assert (Hc : c ∈ star ({[bot]} ∪ of_list [p; q]) T) by (apply elem_of_elements; rewrite Es; constructor).
    apply elem_of_star in Hc as [HcT Hce].
    assert (K : exists a' b', four_around T p q bot a' far b' /\ c = of_list [p; q; a'; bot] /\
       (star (of_list [a'; b']) T = star (of_list [a; b]) T) /\ result_44 p q bot a' far b' = result_44 p q bot a far b).
    { assert (Hcs : c ∈ star (of_list [p; q]) T) by (apply elem_of_star; split; [exact HcT|set_solver + Hce]).
      assert (Hb : bot ∈ c) by (apply Hce; set_solver +).
      apply (fa_star T p q bot a far b A) in Hcs. rewrite !elem_of_cons, elem_of_nil in Hcs. destruct Hcs as [->|[->|[->|[->|[]]]]].
      - exfalso. rewrite elem_of_of_list, !elem_of_cons, elem_of_nil in Hb. clear - Hb N'. intuition congruence.
      - exfalso. rewrite elem_of_of_list, !elem_of_cons, elem_of_nil in Hb. clear - Hb N'. intuition congruence.
      - exists a, b. auto.
      - exists b, a. split; [apply four_around_swap; exact A|]. split; [reflexivity|]. split; [|apply result_44_swap].
        f_equal. apply of_list_perm, perm_swap. }
    destruct K as (a' & b' & A' & -> & ES & <-). rewrite <- ES.
    rewrite (fa_mirror T p q bot a' far b' A'), (flip_first T V p q bot a' far b' A').
    clear F. case_bool_decide as H; [|reflexivity].
    rewrite (flip_second T V p q bot a' far b' A' H).
    rewrite (proj2 (tds_valid_spec _) (valid_second T V p q bot a' far b' A' H)). rewrite orb_false_r.
    fold (result_44 p q bot a' far b'). destruct (validator _); reflexivity.
  Qed.
End Execute.

Section Whole.
  Variable locates : tds -> vertex -> bool.
  Variable validator : tds -> bool.
  Variable T : tds.
  Hypothesis V : valid T.
  Hypothesis HJ : joined_stars T.
  Notation impl := (bistellar_flip_impl locates validator T).

  Lemma flip_answers e top bottom : impl e top bottom = Nullopt \/ exists T', impl e top bottom = Flip T'.
  Proof using V HJ.
    unfold bistellar_flip_impl. destruct (prepare_flip_safe T (va_pure _ V) (va_closed _ V) HJ e top bottom) as (r & Er & Hr).
    rewrite Er. destruct r as [[[edge t] bo]|?|]; [|auto|contradiction].
    apply (prepare_flip_iff T (va_pure _ V) (va_closed _ V) HJ) in Er as (p & q & a & far & b & _ & -> & _ & _ & A & _).
    rewrite (execute_flip locates validator T V p q bo a far b t A).
    destruct (_ && _ && _ && _); [|auto]. destruct (bool_decide _); [|auto]. destruct (validator _); eauto.
  Qed.

  Lemma flip_iff e top bottom T' : impl e top bottom = Flip T' <->
    exists p q a far b t bot, names_edge T e p q /\ top = OwnVertex t /\ bottom = OwnVertex bot /\
      four_around T p q bot a far b /\ t ∈ [a; far; b] /\
      (locates T p = true /\ locates T q = true /\ locates T t = true /\ locates T bot = true) /\
      (forall c, c ∈ T -> ~ (a ∈ c /\ b ∈ c)) /\ flipped_44 T p q bot a far b T' /\ validator T' = true.
  Proof using V HJ.
    assert (SE : forall a b, star (of_list [a; b]) T = ∅ <-> forall c, c ∈ T -> ~ (a ∈ c /\ b ∈ c)).
    { intros a b. rewrite star_empty. split; intros H c Hc K; apply (H c Hc).
      - intros k. rewrite elem_of_of_list, !elem_of_cons, elem_of_nil. intros [->|[->|[]]]; tauto.
      - split; apply K; rewrite elem_of_of_list; set_solver +. }
    unfold bistellar_flip_impl. split.
    - destruct (prepare_flip T e top bottom) as [[[[edge t] bo]|?|]|] eqn:Er; try discriminate.
      apply (prepare_flip_iff T (va_pure _ V) (va_closed _ V) HJ) in Er as (p & q & a & far & b & NE & -> & -> & -> & A & Ht).
      rewrite (execute_flip locates validator T V p q bo a far b t A).
      destruct (locates T p) eqn:L1; [|discriminate]. destruct (locates T q) eqn:L2; [|discriminate].
      destruct (locates T t) eqn:L3; [|discriminate]. destruct (locates T bo) eqn:L4; [|discriminate]. cbn [andb].
      case_bool_decide as H; [|discriminate]. destruct (validator _) eqn:Hv; [|discriminate]. intros [= <-].
      exists p, q, a, far, b, t, bo. do 5 (split; [auto|]). split; [auto|]. split; [apply SE; exact H|].
      split; [apply result_flipped; assumption|exact Hv].
    - intros (p & q & a & far & b & t & bot & NE & -> & -> & A & Ht & (L1 & L2 & L3 & L4) & H & R & Hv).
      apply SE in H.
      assert (Er : prepare_flip T e (OwnVertex t) (OwnVertex bot) = Seen (Done (of_list [p; q], t, bot))).
      { apply (prepare_flip_iff T (va_pure _ V) (va_closed _ V) HJ). exists p, q, a, far, b. auto 10. }
      rewrite Er, (execute_flip locates validator T V p q bot a far b t A), L1, L2, L3, L4. cbn [andb].
      rewrite (bool_decide_eq_true_2 _ H).
      assert (ET : result_44 T p q bot a far b = T') by (exact (replaces_det _ _ _ _ _ (result_flipped T V p q bot a far b A H) R)).
      rewrite ET, Hv. reflexivity.
  Qed.

  Lemma flip_effect e top bottom T' : impl e top bottom = Flip T' ->
    valid T' /\ joined_stars T' /\ vertices T' = vertices T /\
    n3 T' = n3 T /\ n2 T' = n2 T /\ n1 T' = n1 T /\ n0 T' = n0 T.
  Proof using V HJ.
    intros H. apply flip_iff in H as (p & q & a & far & b & t & bot & _ & _ & _ & A & _ & _ & Hn & R & _).
    assert (H : star (of_list [a; b]) T = ∅).
    { apply star_empty. intros c Hc K. apply (Hn c Hc). split; apply K; rewrite elem_of_of_list; set_solver +. }
    rewrite <- (replaces_det _ _ _ _ _ (result_flipped T V p q bot a far b A H) R). clear R Hn. unfold result_44.
    pose proof (ok_first T V p q bot a far b A H) as ok1. pose proof (ok_second T V p q bot a far b A H) as ok2.
    pose proof (valid_first T V p q bot a far b A H) as V1.
    split; [exact (valid_second T V p q bot a far b A H)|]. split.
    { apply pachner_joined; [exact (va_closed _ V1)|exact ok2|]. apply pachner_joined; [exact (va_closed _ V)|exact ok1|exact HJ]. }
    split; [apply (vertices_44 T p q a b far bot ok1 ok2)|].
    pose proof (fa_fin T p q bot a far b A) as Fi.
    assert (F1 : infinite ∉ [a; b] ++ [p; q; bot]) by (clear - Fi; cbn [app]; rewrite !elem_of_cons, !elem_of_nil in *; tauto).
    assert (F2 : infinite ∉ [a; b; far] ++ [p; q]) by (clear - Fi; cbn [app]; rewrite !elem_of_cons, !elem_of_nil in *; tauto).
    pose proof (va_pure _ V) as HP. pose proof (va_pure _ V1) as HP1.
    rewrite n3_pachner, n2_pachner, n1_pachner, n0_pachner by assumption.
    rewrite n3_pachner, n2_pachner, n1_pachner, n0_pachner by assumption.
    unfold lsum, qall. cbn. lia.
  Qed.
End Whole.
