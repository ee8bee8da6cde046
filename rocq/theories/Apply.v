(** Each move applies exactly where ApplySpec.v says. *)
From Verif Require Import Base Tracker Command Geom Simplex Pachner Foliation Moves Links MoveCore MoveTools Move23 Move44 Move26 Move26Site Move62Site MoveSpec MoveSound Manifold ManifoldFacts ManifoldMoves ClassFacts Reverse Reverse44 Seams SeamSpec Flip ApplySpec.
From stdpp Require Import fin_sets gmap sorting.
From Verif Require Import Foliation.
Local Open Scope Z_scope.

Lemma sub_iff (s : list vertex) (c : simplex) : of_list s ⊆ c <-> forall y, y ∈ s -> y ∈ c.
Proof. split; [intros H y Hy; apply H, elem_of_of_list, Hy|intros H y Hy; apply H, elem_of_of_list, Hy]. Qed.
Lemma around_star T s cells : around T s cells <-> forall c, c ∈ star (of_list s) T <-> c ∈ cells.
Proof. unfold around. setoid_rewrite elem_of_star. setoid_rewrite sub_iff. reflexivity. Qed.
Lemma nowhere_sub T s : nowhere T s <-> forall c, c ∈ T -> ~ of_list s ⊆ c.
Proof. unfold nowhere. setoid_rewrite sub_iff. reflexivity. Qed.

(** ** (3,2) *)
Lemma labels_32_iff label v w a b x :
  labels_23 label v w a b x <->
  Z.abs (label v - label w) = 1 /\ (forall y, y ∈ [a; b; x] -> label y = label v \/ label y = label w) /\
  ~ (label a = label b /\ label b = label x).
Proof.
  split.
  - intros (t & p & E & Hp). unfold patterns_23 in Hp.
    cases_list Hp; subst p; injection E as Ev Ew Ea Eb Ex; (split; [lia|]);
      (split; [intros y Hy; cases_list Hy; subst y; lia|lia]).
  - intros (A & B & C). assert (D : label w = label v + 1 \/ label v = label w + 1) by lia.
    pose proof (B a ltac:(set_solver +)) as Ba. pose proof (B b ltac:(set_solver +)) as Bb. pose proof (B x ltac:(set_solver +)) as Bx. clear B A.
    assert (M : forall t p1 p2 p3 p4 p5, label v = t + p1 -> label w = t + p2 -> label a = t + p3 -> label b = t + p4 -> label x = t + p5 ->
      [p1; p2; p3; p4; p5] ∈ patterns_23 -> labels_23 label v w a b x).
    { intros t p1 p2 p3 p4 p5 H1 H2 H3 H4 H5 Hp. exists t, [p1; p2; p3; p4; p5]. split; [cbn [map]; congruence|exact Hp]. }
    unfold patterns_23 in M. destruct D as [D|D]; destruct Ba as [Ea | Ea], Bb as [Eb | Eb], Bx as [Ex | Ex]; try (exfalso; apply C; split; congruence).
    + apply (M (label v) 0 1 0 0 1); [lia..|set_solver +].
    + apply (M (label v) 0 1 0 1 0); [lia..|set_solver +].
    + apply (M (label v) 0 1 0 1 1); [lia..|set_solver +].
    + apply (M (label v) 0 1 1 0 0); [lia..|set_solver +].
    + apply (M (label v) 0 1 1 0 1); [lia..|set_solver +].
    + apply (M (label v) 0 1 1 1 0); [lia..|set_solver +].
    + apply (M (label w) 1 0 1 1 0); [lia..|set_solver +].
    + apply (M (label w) 1 0 1 0 1); [lia..|set_solver +].
    + apply (M (label w) 1 0 1 0 0); [lia..|set_solver +].
    + apply (M (label w) 1 0 0 1 1); [lia..|set_solver +].
    + apply (M (label w) 1 0 0 1 0); [lia..|set_solver +].
    + apply (M (label w) 1 0 0 0 1); [lia..|set_solver +].
Qed.
Lemma move_32_needs label junk locates geo T e T' : move_32 label junk locates geo T e = Done T' ->
  (forall y, y ∈ e -> locates T y = true) /\ geo T e = true.
Proof.
  unfold move_32, bind. destruct (prepare_32 _ _ _ _); [|discriminate..]. unfold execute_32.
  destruct (forallb (locates T) (elements e)) eqn:E1; cbn [andb negb]; [|discriminate].
  destruct (bool_decide _); cbn [negb]; [|discriminate]. destruct (geo T e); cbn [negb]; [|discriminate]. intros _.
  split; [|reflexivity]. intros y Hy. rewrite forallb_forall in E1. apply E1, elem_of_list_In, elem_of_elements, Hy.
Qed.
Lemma ok_32 label T v w a b x : site_32 label T v w a b x -> pachner_ok T [a; b; x] [v; w].
Proof.
  intros (N & F & A & _ & _ & _ & Z). pose proof (proj1 (NoDup_5 _ _ _ _ _) N) as N'.
  assert (E1 : omit [a; b; x; v; w] a = of_list [v; w; b; x]) by omits N'.
  assert (E2 : omit [a; b; x; v; w] b = of_list [v; w; a; x]) by omits N'.
  assert (E3 : omit [a; b; x; v; w] x = of_list [v; w; a; b]) by omits N'.
  rewrite around_star in A. rewrite nowhere_sub in Z.
  split; cbn [app].
  - apply NoDup_5. clear - N'. intuition congruence.
  - reflexivity.
  - discriminate.
  - discriminate.
  - intros y Hy. cases_list Hy; subst y; [rewrite E1|rewrite E2|rewrite E3]; apply (elem_of_star (of_list [v; w])), A; set_solver +.
  - intros c Hc Hs. assert (H : c ∈ star (of_list [v; w]) T) by (apply elem_of_star; auto). apply A in H.
    cases_list H; subst c; [exists x; rewrite E3|exists a; rewrite E1|exists b; rewrite E2]; split; reflexivity || set_solver +.
  - exact Z.
Qed.
Lemma exact_32 label junk locates geo T e T' : valid T ->
  move_32 label junk locates geo T e = Done T' <->
  exists v w a b x, e = of_list [v; w] /\ site_32 label T v w a b x /\
    locates T v = true /\ locates T w = true /\ geo T e = true /\
    replaces T [of_list [v; w; a; b]; of_list [v; w; b; x]; of_list [v; w; a; x]] [of_list [v; a; b; x]; of_list [w; a; b; x]] T'.
Proof.
  intros V. split.
  - intros H. destruct (move_32_needs _ _ _ _ _ _ _ H) as [HL HG].
    apply move_32_effect in H as (v & w & a & b & x & N & F & -> & ok & -> & L); [|exact V].
    exists v, w, a, b, x. split; [reflexivity|].
    pose proof (proj1 (NoDup_5 _ _ _ _ _) N) as N'.
    assert (E1 : omit [a; b; x; v; w] a = of_list [v; w; b; x]) by omits N'.
    assert (E2 : omit [a; b; x; v; w] b = of_list [v; w; a; x]) by omits N'.
    assert (E3 : omit [a; b; x; v; w] x = of_list [v; w; a; b]) by omits N'.
    split.
    { split; [exact N|]. split; [exact F|]. split.
      - apply around_star. intros c. rewrite (star_pachner _ _ _ _ ok). cbn [app map]. rewrite E1, E2, E3, !elem_of_cons, !elem_of_nil. tauto.
      - apply labels_32_iff in L as (A & B & C). split; [exact A|]. split; [exact B|]. split; [exact C|]. apply nowhere_sub. exact (po_absent _ _ _ ok). }
    split; [apply HL, elem_of_of_list; set_solver +|]. split; [apply HL, elem_of_of_list; set_solver +|]. split; [exact HG|].
    destruct (three_two_sound label T v w a b x ok V F L) as [_ (_ & _ & R & _)]. apply replaces_sym in R. exact R.
  - intros (v & w & a & b & x & -> & S & L1 & L2 & G & R). pose proof (ok_32 _ _ _ _ _ _ _ S) as ok.
    destruct S as (N & F & _ & A & B & C & _).
    assert (L : labels_23 label v w a b x) by (apply labels_32_iff; auto).
    pose proof (pachner_ok_reverse _ _ _ ok) as ok'. pose proof (pachner_inverse _ _ _ ok) as inv.
    assert (V' : valid (pachner T [a; b; x] [v; w])) by (apply pachner_valid; assumption).
    destruct (three_two_sound label T v w a b x ok V F L) as [_ (_ & _ & R' & _)]. apply replaces_sym in R'.
    pose proof (replaces_det _ _ _ _ _ R R') as ->.
    destruct (reverse_23 label junk locates geo _ v w a b x V' F ok' L) as (_ & _ & H). rewrite inv in H. apply H; assumption.
Qed.

(** ** (4,4) *)
Lemma four_of_site label T p q a b top bot : site_44 label T p q a b top bot -> four_around T p q bot a top b.
Proof.
  intros (N & F & A & _). pose proof (proj1 (nodup6 _ _ _ _ _ _) N) as N'. split; [|split].
  - apply nodup6. clear - N'. intuition congruence.
  - clear - F. rewrite !elem_of_cons, !elem_of_nil in *. tauto.
  - intros c. assert (H : (c ∈ T /\ p ∈ c /\ q ∈ c) <-> (c ∈ T /\ forall y, y ∈ [p; q] -> y ∈ c)).
    { split; [intros (X & Y & Z); split; [exact X|]; intros y Hy; cases_list Hy; subst y; assumption|].
      intros [X Y]. split; [exact X|]. split; apply Y; set_solver +. }
    rewrite H, (A c).
    assert (P1 : of_list [p; q; a; bot] = of_list [p; q; bot; a]) by (apply of_list_perm; do 2 constructor; apply perm_swap).
    assert (P2 : of_list [p; q; b; top] = of_list [p; q; top; b]) by (apply of_list_perm; do 2 constructor; apply perm_swap).
    rewrite P1, P2, !elem_of_cons, !elem_of_nil. tauto.
Qed.
Lemma move_44_needs label junk locates T e top bot T' : prepare_44 label junk T e = Done (top, bot) ->
  move_44 label junk locates T e = Done T' -> (forall y, y ∈ e -> locates T y = true) /\ locates T top = true /\ locates T bot = true.
Proof.
  intros HP. unfold move_44, bind. rewrite HP. cbn [fst snd]. unfold execute_44.
  destruct (forallb (locates T) (elements e)) eqn:E1; cbn [andb negb]; [|discriminate].
  destruct (locates T top); cbn [andb negb]; [|discriminate]. destruct (locates T bot); cbn [andb negb]; [|discriminate]. intros _.
  split; [|auto]. intros y Hy. rewrite forallb_forall in E1. apply E1, elem_of_list_In, elem_of_elements, Hy.
Qed.
Lemma site_44_moves label junk locates T p q a b top bot : valid T -> site_44 label T p q a b top bot ->
  prepare_44 label junk T (of_list [p; q]) = Done (top, bot) /\
  exists T', replaces T [of_list [p; q; a; top]; of_list [p; q; b; top]; of_list [p; q; a; bot]; of_list [p; q; b; bot]]
                        [of_list [p; a; b; top]; of_list [q; a; b; top]; of_list [p; a; b; bot]; of_list [q; a; b; bot]] T' /\
    ((forall y, y ∈ [p; q; top; bot] -> locates T y = true) -> move_44 label junk locates T (of_list [p; q]) = Done T').
Proof.
  intros V S. pose proof (four_of_site _ _ _ _ _ _ _ _ S) as A. destruct S as (N & F & _ & (t & Lp & Lq & La & Lb & Lt & Lo) & Z).
  assert (Hab : star (of_list [a; b]) T = ∅) by (apply star_empty; rewrite nowhere_sub in Z; exact Z).
  pose proof (ok_first T V p q bot a top b A Hab) as ok1. pose proof (ok_second T V p q bot a top b A Hab) as ok2.
  pose proof (replaces_44 T p q a b top bot N ok1 ok2) as R.
  pose proof (back_ok1 T p q a b top bot N ok1 ok2) as bk1. pose proof (back_ok2 T p q a b top bot N ok1 ok2) as bk2.
  pose proof (back_eq T p q a b top bot N ok1 ok2) as bk.
  set (T' := pachner (pachner T [a; b] [p; q; bot]) [a; b; top] [p; q]) in *.
  assert (V' : valid T') by (apply pachner_valid; [exact ok2|apply pachner_valid; assumption]).
  assert (N2 : NoDup [a; b; p; q; top; bot]).
  { apply nodup6 in N. apply nodup6. clear - N. intuition congruence. }
  assert (F2 : infinite ∉ [a; b; p; q; top; bot]) by (clear - F; rewrite !elem_of_cons, !elem_of_nil in *; tauto).
  assert (L2 : labels_44 label a b p q top bot) by (exists t; auto 10).
  destruct (reverse_44 label junk locates T' a b p q top bot V' N2 F2 L2 bk1 bk2) as (_ & HP & HM).
  rewrite bk in HP, HM. split; [exact HP|]. exists T'. split; [exact R|exact HM].
Qed.
Lemma exact_44 label junk locates T e T' : valid T ->
  move_44 label junk locates T e = Done T' <->
  exists p q a b top bot, e = of_list [p; q] /\ site_44 label T p q a b top bot /\
    (forall y, y ∈ [p; q; top; bot] -> locates T y = true) /\
    replaces T [of_list [p; q; a; top]; of_list [p; q; b; top]; of_list [p; q; a; bot]; of_list [p; q; b; bot]]
               [of_list [p; a; b; top]; of_list [q; a; b; top]; of_list [p; a; b; bot]; of_list [q; a; b; bot]] T'.
Proof.
  intros V. split.
  - intros H. pose proof H as HM.
    apply move_44_effect in H as (p & q & a & b & top & bot & N & F & -> & L & ok1 & ok2 & -> & V'); [|exact V].
    pose proof (replaces_44 T p q a b top bot N ok1 ok2) as R.
    assert (S : site_44 label T p q a b top bot).
    { split; [exact N|]. split; [exact F|]. split; [|split].
      - apply around_star. intros c. rewrite elem_of_star. split.
        + intros [Hc Hs]. destruct (decide (c ∈ [of_list [p; q; a; top]; of_list [p; q; b; top]; of_list [p; q; a; bot]; of_list [p; q; b; bot]])) as [|D]; [assumption|].
          exfalso. apply (no_pq T p q a b top bot ok2 c); [apply R; auto|]. split; apply Hs, elem_of_of_list; set_solver +.
        + intros Hc. split; [apply R; exact Hc|]. cases_list Hc; subst c; intros y; rewrite !elem_of_of_list, !elem_of_cons; tauto.
      - exact L.
      - apply nowhere_sub. exact (po_absent _ _ _ ok1). }
    exists p, q, a, b, top, bot. split; [reflexivity|]. split; [exact S|]. split; [|exact R].
    destruct (site_44_moves label junk locates T p q a b top bot V S) as [HP _].
    destruct (move_44_needs _ _ _ _ _ _ _ _ HP HM) as (A & B & C). intros y Hy. cases_list Hy; subst y; [apply A|apply A|exact B|exact C]; apply elem_of_of_list; set_solver +.
  - intros (p & q & a & b & top & bot & -> & S & HL & R).
    destruct (site_44_moves label junk locates T p q a b top bot V S) as (_ & T2 & R2 & HM).
    rewrite (replaces_det _ _ _ _ _ R R2). apply HM, HL.
Qed.

(** ** (6,2) *)
Lemma site_62_pachner label T a b c v d e : site_62 label T a b c v d e ->
  pachner_ok T [a; b; c] [v; e] /\ pachner_ok (pachner T [a; b; c] [v; e]) [a; b; c; d] [v].
Proof.
  intros (N & F & A & _ & Z). pose proof (proj1 (nodup6 _ _ _ _ _ _) N) as N'.
  rewrite around_star in A. rewrite nowhere_sub in Z.
  assert (Av : forall s, s ∈ T -> v ∈ s -> s ∈ [of_list [v; a; b; d]; of_list [v; b; c; d]; of_list [v; a; c; d];
                of_list [v; a; b; e]; of_list [v; b; c; e]; of_list [v; a; c; e]]).
  { intros s Hs Hv. apply A, elem_of_star. split; [exact Hs|]. intros y. rewrite elem_of_of_list, elem_of_list_singleton. intros ->. exact Hv. }
  assert (AT : forall s, s ∈ [of_list [v; a; b; d]; of_list [v; b; c; d]; of_list [v; a; c; d];
                of_list [v; a; b; e]; of_list [v; b; c; e]; of_list [v; a; c; e]] -> s ∈ T).
  { intros s Hs. apply A, elem_of_star in Hs. tauto. }
  assert (E1 : omit [a; b; c; v; e] a = of_list [v; b; c; e]) by omits N'.
  assert (E2 : omit [a; b; c; v; e] b = of_list [v; a; c; e]) by omits N'.
  assert (E3 : omit [a; b; c; v; e] c = of_list [v; a; b; e]) by omits N'.
  assert (E4 : omit [a; b; c; v; e] v = of_list [a; b; c; e]) by omits N'.
  assert (E5 : omit [a; b; c; v; e] e = of_list [a; b; c; v]) by omits N'.
  assert (okA : pachner_ok T [a; b; c] [v; e]).
  { split; cbn [app].
    - apply NoDup_5. clear - N'. intuition congruence.
    - reflexivity.
    - discriminate.
    - discriminate.
    - intros y Hy. cases_list Hy; subst y; [rewrite E1|rewrite E2|rewrite E3]; apply AT; rewrite !elem_of_cons; tauto.
    - intros s Hs Hsub. assert (Hv : v ∈ s) by (apply Hsub, elem_of_of_list; constructor).
      assert (He : e ∈ s) by (apply Hsub, elem_of_of_list; rewrite !elem_of_cons; tauto).
      pose proof (Av s Hs Hv) as H. cases_list H; subst s.
      + exfalso. rewrite elem_of_of_list, !elem_of_cons, elem_of_nil in He. clear - He N'. intuition congruence.
      + exfalso. rewrite elem_of_of_list, !elem_of_cons, elem_of_nil in He. clear - He N'. intuition congruence.
      + exfalso. rewrite elem_of_of_list, !elem_of_cons, elem_of_nil in He. clear - He N'. intuition congruence.
      + exists c. rewrite E3. split; [rewrite !elem_of_cons; tauto|reflexivity].
      + exists a. rewrite E1. split; [rewrite !elem_of_cons; tauto|reflexivity].
      + exists b. rewrite E2. split; [rewrite !elem_of_cons; tauto|reflexivity].
    - exact Z. }
  split; [exact okA|].
  pose proof (pachner_replaces _ _ _ okA) as (_ & _ & _ & _ & R). cbn [app map] in R. rewrite E1, E2, E3, E4, E5 in R.
  set (T1 := pachner T [a; b; c] [v; e]) in *.
  assert (P1 : omit [a; b; c; d; v] a = of_list [v; b; c; d]) by omits N'.
  assert (P2 : omit [a; b; c; d; v] b = of_list [v; a; c; d]) by omits N'.
  assert (P3 : omit [a; b; c; d; v] c = of_list [v; a; b; d]) by omits N'.
  assert (P4 : omit [a; b; c; d; v] d = of_list [a; b; c; v]) by omits N'.
  assert (Hin : forall s, s ∈ [of_list [v; a; b; d]; of_list [v; b; c; d]; of_list [v; a; c; d]] -> s ∈ T1).
  { intros s Hs. apply R. left. split; [apply AT; rewrite !elem_of_cons in *; tauto|].
    intros Hn. cases_list Hs; subst s; cases_list Hn; cellabsurd Hn N'. }
  split; cbn [app].
  - apply NoDup_5. clear - N'. intuition congruence.
  - reflexivity.
  - discriminate.
  - discriminate.
  - intros y Hy. cases_list Hy; subst y; [rewrite P1|rewrite P2|rewrite P3|rewrite P4; apply R; right; rewrite !elem_of_cons; tauto];
      apply Hin; rewrite !elem_of_cons; tauto.
  - intros s Hs Hsub. assert (Hv : v ∈ s) by (apply Hsub, elem_of_of_list; constructor).
    apply R in Hs as [[Hs Hn]|Hs].
    + pose proof (Av s Hs Hv) as H. rewrite !elem_of_cons in Hn. rewrite !elem_of_cons in H. rewrite elem_of_nil in H.
      destruct H as [->|[->|[->|H]]]; [exists c; rewrite P3|exists a; rewrite P1|exists b; rewrite P2|tauto]; (split; [rewrite !elem_of_cons; tauto|reflexivity]).
    + cases_list Hs; subst s.
      * exfalso. rewrite elem_of_of_list, !elem_of_cons, elem_of_nil in Hv. clear - Hv N'. intuition congruence.
      * exists d. rewrite P4. split; [rewrite !elem_of_cons; tauto|reflexivity].
  - intros s Hs Hsub. apply R in Hs as [[Hs Hn]|Hs].
    + apply (Z s Hs). intros y Hy. apply Hsub. rewrite elem_of_of_list, !elem_of_cons in *. tauto.
    + assert (Hd : d ∈ s) by (apply Hsub, elem_of_of_list; rewrite !elem_of_cons; tauto).
      cases_list Hs; subst s; rewrite elem_of_of_list, !elem_of_cons, elem_of_nil in Hd; clear - Hd N'; intuition congruence.
Qed.
Lemma replaces_62 label T a b c v d e : site_62 label T a b c v d e ->
  exists T', replaces T [of_list [v; a; b; d]; of_list [v; b; c; d]; of_list [v; a; c; d];
                of_list [v; a; b; e]; of_list [v; b; c; e]; of_list [v; a; c; e]] [of_list [a; b; c; d]; of_list [a; b; c; e]] T'.
Proof.
  intros S. destruct (site_62_pachner _ _ _ _ _ _ _ _ S) as [okA okB]. destruct S as (N & _).
  pose proof (pachner_ok_reverse _ _ _ okB) as ok1. pose proof (pachner_inverse _ _ _ okB) as I1.
  pose proof (pachner_ok_reverse _ _ _ okA) as ok2. pose proof (pachner_inverse _ _ _ okA) as I2. rewrite <- I1 in ok2, I2.
  pose proof (replaces_26 _ a b c v d e N ok1 ok2) as R. rewrite I2 in R. eexists. exact (replaces_sym _ _ _ _ R).
Qed.
Lemma move_62_needs label junk locates T v edges T' : move_62 label junk locates T v edges = Done T' ->
  locates T v = true /\ causal label T'.
Proof.
  unfold move_62, bind. destruct (prepare_62 _ _ _ _); [|discriminate..]. unfold execute_62.
  destruct (locates T v); cbn [negb]; [|discriminate]. intros H. split; [reflexivity|].
  destruct (flip_some_edge label T edges) as [T1| |]; try discriminate.
  destruct (negb _ || negb _); [discriminate|]. destruct (negb _ || _ || _); [discriminate|].
  destruct (forallb _ _) eqn:E; [|discriminate]. injection H as <-.
  rewrite forallb_forall in E. intros s Hs Fs.
  specialize (E s (proj1 (elem_of_list_In _ _) (proj2 (elem_of_elements _ _) Hs))).
  rewrite (proj2 (finite_spec s) Fs) in E. cbn [negb orb] in E. apply andb_true_iff in E as [E1 E2].
  unfold cell_type in *. apply negb_true_iff, Z.eqb_neq in E1, E2.
  assert (K : forall ts, classify ts <> ACAUSAL -> classify ts <> UNCLASSIFIED -> classify ts = THREE_ONE \/ classify ts = TWO_TWO \/ classify ts = ONE_THREE).
  { clear. intros ts. unfold classify. repeat (destruct (_ =? _) || destruct (_ <? _) || destruct (_ || _) || destruct (_ && _)); auto; congruence. }
  unfold causal_type. destruct (K _ E1 E2) as [K'|[K'|K']]; rewrite K'; reflexivity.
Qed.
Lemma exact_62 label junk locates T v edges T' : valid T -> edges ≡ₚ finite_incident_edges T v ->
  move_62 label junk locates T v edges = Done T' <->
  exists a b c d e, site_62 label T a b c v d e /\ causal label T /\ locates T v = true /\
    replaces T [of_list [v; a; b; d]; of_list [v; b; c; d]; of_list [v; a; c; d];
                of_list [v; a; b; e]; of_list [v; b; c; e]; of_list [v; a; c; e]] [of_list [a; b; c; d]; of_list [a; b; c; e]] T'.
Proof.
  intros V HE. split.
  - intros H. destruct (move_62_needs _ _ _ _ _ _ _ H) as [HL HC].
    apply move_62_effect in H; [|exact V|].
    2:{ intros ed Hin. rewrite HE in Hin. unfold finite_incident_edges in Hin.
        apply elem_of_list_fmap in Hin as (w & -> & Hw). exists w. split; [|reflexivity].
        intros ->. apply elem_of_elements, elem_of_difference in Hw as [Hw _]. unfold link_vertices in Hw. set_solver + Hw. }
    assert (W : exists a b c d e, NoDup [a; b; c; v; d; e] /\ infinite ∉ [a; b; c; v; d; e] /\
      (exists t, label a = t /\ label b = t /\ label c = t /\ label v = t /\ label d = t - 1 /\ label e = t + 1) /\
      pachner_ok T' [v] [a; b; c; d] /\ pachner_ok (pachner T' [v] [a; b; c; d]) [v; e] [a; b; c] /\
      T = pachner (pachner T' [v] [a; b; c; d]) [v; e] [a; b; c] /\ valid T').
    { destruct H as (a & b & c & d & e & N & F & (t & La & Lb & Lc & Lv & [[Ld Le]|[Ld Le]]) & ok1 & ok2 & E & V').
      - destruct (swap_26 T' a b c v d e V' N ok1 ok2) as (ok1' & ok2' & ESW).
        exists a, b, c, e, d. split; [apply nodup6 in N; apply nodup6; clear - N; intuition congruence|].
        split; [clear - F; rewrite !elem_of_cons, !elem_of_nil in *; tauto|]. split; [exists t; auto 10|].
        split; [exact ok1'|]. split; [exact ok2'|]. split; [congruence|exact V'].
      - exists a, b, c, d, e. split; [exact N|]. split; [exact F|]. split; [exists t; auto 10|]. auto. }
    destruct W as (a & b & c & d & e & N & F & L & ok1 & ok2 & E & V').
    pose proof (replaces_26 T' a b c v d e N ok1 ok2) as R. pose proof (vertices_26 T' a b c v d e N ok1 ok2) as [_ Hx].
    pose proof (po_absent _ _ _ (pachner_ok_reverse _ _ _ ok2)) as Z. rewrite <- E in R, Z.
    assert (L' : labels_26 label a b c v d e) by (destruct L as (t & HLL); exists t; tauto).
    exists a, b, c, d, e. split; [|split; [|split; [exact HL|exact (replaces_sym _ _ _ _ R)]]].
    + split; [exact N|]. split; [exact F|]. split; [|split; [exact L|apply nowhere_sub; exact Z]].
      intros s. destruct R as (_ & _ & _ & _ & R). rewrite R. fold (six_cells_of a b c v d e). split.
      * intros [[[Hs _]|Hs] Hv]; [|exact Hs]. exfalso. apply Hx, elem_of_vertices. exists s. split; [exact Hs|]. apply Hv. constructor.
      * intros Hs. split; [auto|]. intros y Hy. apply elem_of_list_singleton in Hy as ->.
        unfold six_cells_of in Hs. cases_list Hs; subst s; rewrite elem_of_of_list; constructor.
    + apply (replaces_causal label T' _ _ T R); [|exact HC]. intros s Hs.
      apply (cells_causal_26 a b c v d e N label L'). apply elem_of_app. auto.
  - intros (a & b & c & d & e & S & HC & HL & R). destruct (site_62_pachner _ _ _ _ _ _ _ _ S) as [okA okB].
    destruct S as (N & F & _ & L & _).
    assert (L' : labels_26 label a b c v d e) by (destruct L as (t & HLL); exists t; tauto).
    set (T1 := pachner T [a; b; c] [v; e]) in *. set (T2 := pachner T1 [a; b; c; d] [v]) in *.
    pose proof (pachner_ok_reverse _ _ _ okB) as ok1. fold T2 in ok1.
    pose proof (pachner_inverse _ _ _ okB) as I1. fold T2 in I1.
    pose proof (pachner_ok_reverse _ _ _ okA) as ok2. fold T1 in ok2.
    pose proof (pachner_inverse _ _ _ okA) as I2. fold T1 in I2. rewrite <- I1 in ok2, I2.
    assert (V2 : valid T2) by (apply pachner_valid; [exact okB|apply pachner_valid; assumption]).
    pose proof (replaces_26 T2 a b c v d e N ok1 ok2) as R2. rewrite I2 in R2. pose proof (replaces_sym _ _ _ _ R2) as R2'.
    assert (HC2 : causal label T2).
    { apply (replaces_causal label T _ _ T2 R2'); [|exact HC]. intros s Hs.
      apply (cells_causal_26 a b c v d e N label L'). apply elem_of_app. auto. }
    pose proof (replaces_det _ _ _ _ _ R R2') as ->.
    destruct (reverse_26 label junk locates T2 a b c v d e V2 HC2 N F ok1 ok2 L') as (_ & _ & H). rewrite I2 in H.
    exact (H HL edges HE).
Qed.

(** ** (2,6) *)
Lemma no_31_beside label T n d u1 u2 t : pure T -> n ∈ T -> d ∈ n -> u1 ∈ n -> u2 ∈ n -> NoDup [d; u1; u2] ->
  label d = t - 1 -> label u1 = t -> label u2 = t -> cell_type label n <> THREE_ONE.
Proof.
  intros HP Hn Hd H1 H2 N Ld L1 L2 K.
  assert (Hsub : of_list [d; u1; u2] ⊆ n) by (apply sub_iff; intros y Hy; cases_list Hy; subst y; assumption).
  assert (E : size (n ∖ of_list [d; u1; u2]) = 1%nat).
  { rewrite size_difference by exact Hsub. rewrite (HP n Hn), of_list_size by exact N. reflexivity. }
  destruct (size_one_inv _ E) as (w & Ew & _).
  assert (Hw : w ∈ n ∖ of_list [d; u1; u2]) by (rewrite Ew; set_solver +).
  apply elem_of_difference in Hw as [Hwn Hw]. rewrite elem_of_of_list in Hw.
  assert (En : n = of_list [w; d; u1; u2]).
  { apply set_eq. intros y. rewrite elem_of_of_list. split.
    - intros Hy. destruct (decide (y ∈ of_list [d; u1; u2])) as [D|D]; [rewrite elem_of_of_list in D; rewrite elem_of_cons; auto|].
      assert (Hy2 : y ∈ n ∖ of_list [d; u1; u2]) by (apply elem_of_difference; auto). rewrite Ew in Hy2. apply elem_of_singleton in Hy2 as ->. constructor.
    - intros Hy. cases_list Hy; subst y; assumption. }
  rewrite En, cell_type_of_list in K by (apply list.NoDup_cons; auto). cbn [map] in K. rewrite Ld, L1, L2 in K.
  destruct (causal_bits _ _ _ _ ltac:(rewrite K; reflexivity)) as (s & b1 & b2 & b3 & b4 & E1 & E2 & E3 & E4).
  rewrite E1, E2, E3, classify4 in K. destruct b2, b3; cbn [b2z] in E2, E3; try lia. destruct b1; vm_compute in K; discriminate.
Qed.
Lemma move_26_needs label junk locates centroid T c T' : move_26 label junk locates centroid T c = Done T' ->
  forall y, y ∈ c -> locates T y = true.
Proof.
  unfold move_26, bind. destruct (prepare_26 _ _ _ _) as [[n v]|?|]; [|discriminate..]. unfold execute_26.
  destruct (forallb (locates T) (elements c)) eqn:E1; cbn [andb negb]; [|discriminate]. intros _ y Hy.
  rewrite forallb_forall in E1. apply E1, elem_of_list_In, elem_of_elements, Hy.
Qed.
Lemma site_26_prepares label junk T a b c d e : valid T -> site_26 label T a b c d e ->
  neighbor T (of_list [a; b; c; d]) d = Some (of_list [a; b; c; e]) /\ of_list [a; b; c; d] ∖ {[d]} = of_list [a; b; c] /\
  prepare_26 label junk T (of_list [a; b; c; d]) = Done (of_list [a; b; c; e], d).
Proof.
  intros V (N & F & Hd & He & t & La & Lb & Lc & Ld & Le). pose proof (proj1 (NoDup_5 _ _ _ _ _) N) as N'.
  set (c0 := of_list [a; b; c; d]) in *. set (n0 := of_list [a; b; c; e]) in *.
  assert (N4 : NoDup [a; b; c; d]) by (apply nodup4; clear - N'; intuition congruence).
  assert (N4' : NoDup [a; b; c; e]) by (apply nodup4; clear - N'; intuition congruence).
  assert (Hdc : d ∈ c0) by (apply elem_of_of_list; rewrite !elem_of_cons; tauto).
  assert (Ef : c0 ∖ {[d]} = of_list [a; b; c]).
  { apply set_eq. intros y. unfold c0. rewrite elem_of_difference, elem_of_singleton, !elem_of_of_list, !elem_of_cons, !elem_of_nil.
    clear - N'. split; [tauto|]. intros H. split; [tauto|]. intros ->. intuition congruence. }
  destruct (neighbor_spec T (va_pure _ V) (va_closed _ V) c0 d Hd Hdc) as (n & w & En & Hn & Hw & Enw & _ & Em & Hall).
  assert (Enn : n = n0).
  { destruct (Hall n0 He) as [E|E]; [rewrite Ef; intros y; unfold n0; rewrite !elem_of_of_list, !elem_of_cons; tauto| |congruence].
    exfalso. assert (H : e ∈ c0) by (rewrite <- E; apply elem_of_of_list; rewrite !elem_of_cons; tauto).
    unfold c0 in H. rewrite elem_of_of_list, !elem_of_cons, elem_of_nil in H. clear - H N'. intuition congruence. }
  rewrite Enn in *. clear Enw Enn Hn Hall Hw w n. split; [exact En|]. split; [exact Ef|].
  assert (Q1 : classify [t; t; t; t - 1] = ONE_THREE).
  { pose proof (classify4 t 0 0 0 (-1)) as Q. rewrite Z.add_0_r in Q. change (t + -1) with (t - 1) in Q. rewrite Q. reflexivity. }
  assert (Q2 : classify [t; t; t; t + 1] = THREE_ONE).
  { pose proof (classify4 t 0 0 0 1) as Q. rewrite Z.add_0_r in Q. rewrite Q. reflexivity. }
  assert (K0 : cell_type label c0 = ONE_THREE) by (unfold c0; rewrite cell_type_of_list by exact N4; cbn [map]; rewrite La, Lb, Lc, Ld; exact Q1).
  assert (K1 : cell_type label n0 = THREE_ONE) by (unfold n0; rewrite cell_type_of_list by exact N4'; cbn [map]; rewrite La, Lb, Lc, Le; exact Q2).
  assert (F0 : finite_simplex c0 = true) by (apply finite_spec; unfold c0; rewrite elem_of_of_list; clear - F; rewrite !elem_of_cons, !elem_of_nil in *; tauto).
  assert (F1 : finite_simplex n0 = true) by (apply finite_spec; unfold n0; rewrite elem_of_of_list; clear - F; rewrite !elem_of_cons, !elem_of_nil in *; tauto).
  assert (C0 : correct label junk T c0 = true) by (apply correct_finite_causal; [exact F0|exact (va_pure _ V _ Hd)|rewrite K0; reflexivity]).
  assert (C1 : correct label junk T n0 = true) by (apply correct_finite_causal; [exact F1|exact (va_pure _ V _ He)|rewrite K1; reflexivity]).
  assert (HD : head (candidates_31 label junk T c0) = Some n0).
  { assert (A1 : n0 ∈ candidates_31 label junk T c0).
    { unfold candidates_31, canonicalize. rewrite (elem_of_Permutation_proper _ _ _ (merge_sort_Permutation _ _)).
      apply elem_of_list_omap. exists d. split; [apply elem_of_elements; exact Hdc|]. unfold neighbor_31. rewrite En, C1, K1. reflexivity. }
    assert (A2 : forall m, m ∈ candidates_31 label junk T c0 -> m = n0).
    { intros m Hm. unfold candidates_31, canonicalize in Hm. rewrite (elem_of_Permutation_proper _ _ _ (merge_sort_Permutation _ _)) in Hm.
      apply elem_of_list_omap in Hm as (u & Hu & Hm). apply elem_of_elements in Hu. unfold neighbor_31 in Hm.
      destruct (decide (u = d)) as [->|Hud]; [rewrite En, C1, K1 in Hm; injection Hm as <-; reflexivity|]. exfalso.
      destruct (neighbor_spec T (va_pure _ V) (va_closed _ V) c0 u Hd Hu) as (m' & w' & Em' & Hm' & _ & Emw & _).
      rewrite Em' in Hm. destruct (correct label junk T m' && _) eqn:X; [|discriminate]. apply andb_true_iff in X as [_ X]. apply Z.eqb_eq in X.
      assert (Hin : forall y, y ∈ c0 -> y <> u -> y ∈ m') by (intros y Hy Hyu; rewrite Emw; set_solver + Hy Hyu).
      revert X. assert (Hu4 := Hu). unfold c0 in Hu4. rewrite elem_of_of_list, !elem_of_cons, elem_of_nil in Hu4.
      assert (M : forall y, y ∈ [a; b; c; d] -> y <> u -> y ∈ m') by (intros y Hy; apply Hin, elem_of_of_list, Hy).
      destruct Hu4 as [->|[->|[->|[->|[]]]]]; [| | |congruence].
      - apply (no_31_beside label T m' d b c t); try assumption; [exact (va_pure _ V)|apply M..|]; try (rewrite !elem_of_cons; tauto); try (clear - N'; intuition congruence).
        apply (sublist_NoDup _ [d; a; b; c]); [repeat constructor|]. apply nodup4. clear - N'; intuition congruence.
      - apply (no_31_beside label T m' d a c t); try assumption; [exact (va_pure _ V)|apply M..|]; try (rewrite !elem_of_cons; tauto); try (clear - N'; intuition congruence).
        apply (sublist_NoDup _ [d; a; b; c]); [repeat constructor|]. apply nodup4. clear - N'; intuition congruence.
      - apply (no_31_beside label T m' d a b t); try assumption; [exact (va_pure _ V)|apply M..|]; try (rewrite !elem_of_cons; tauto); try (clear - N'; intuition congruence).
        apply (sublist_NoDup _ [d; a; b; c]); [repeat constructor|]. apply nodup4. clear - N'; intuition congruence. }
    destruct (candidates_31 label junk T c0) as [|m l]; [inversion A1|]. cbn. f_equal. apply A2. constructor. }
  unfold prepare_26. rewrite bool_decide_eq_true_2 by exact Hd. cbn [negb].
  unfold find_adjacent_31_cell. rewrite C0, K0, HD. cbn [negb orb Z.eqb]. change (ONE_THREE =? ONE_THREE) with true. cbn [negb orb].
  rewrite Em, Ef.
  assert (PE : elements (of_list [a; b; c]) ≡ₚ [a; b; c]) by (apply elements_of_list, (sublist_NoDup _ [a; b; c; d]); [repeat constructor|exact N4]).
  pose proof (Permutation_length PE) as PL.
  assert (PM : forall y, y ∈ elements (of_list [a; b; c]) -> label y = t).
  { intros y Hy. rewrite PE in Hy. cases_list Hy; subst y; assumption. }
  destruct (elements (of_list [a; b; c])) as [|k1 [|k2 [|k3 [|? ?]]]]; try discriminate PL. cbn [map].
  rewrite (PM k1), (PM k2), (PM k3) by (rewrite !elem_of_cons; tauto). rewrite Z.eqb_refl. reflexivity.
Qed.
Lemma exact_26 label junk locates centroid T c0 T' : valid T -> no_infinite_31 label junk T -> infinite ∉ c0 ->
  move_26 label junk locates centroid T c0 = Done T' <->
  exists a b c d e, let x := centroid (of_list [a; b; c]) in
    c0 = of_list [a; b; c; d] /\ site_26 label T a b c d e /\ x ∉ vertices T /\ x <> infinite /\
    (forall y, y ∈ [a; b; c; d] -> locates T y = true) /\
    replaces T [of_list [a; b; c; d]; of_list [a; b; c; e]]
      [of_list [x; a; b; d]; of_list [x; b; c; d]; of_list [x; a; c; d]; of_list [x; a; b; e]; of_list [x; b; c; e]; of_list [x; a; c; e]] T'.
Proof.
  intros V HI Fc. split.
  - intros H. pose proof (move_26_needs _ _ _ _ _ _ _ H) as HL.
    apply move_26_effect in H as (a & b & c & d & e & N & F & -> & ok1 & ok2 & -> & L); [|assumption..].
    exists a, b, c, d, e. set (x := centroid (of_list [a; b; c])) in *. cbn zeta.
    pose proof (replaces_26 T a b c x d e N ok1 ok2) as R. pose proof (vertices_26 T a b c x d e N ok1 ok2) as [_ Hx].
    split; [reflexivity|]. split; [|split; [exact Hx|split; [|split; [|exact R]]]].
    + split; [|split; [|split; [|split; [|exact L]]]].
      * apply nodup6 in N. apply NoDup_5. clear - N. intuition congruence.
      * clear - F. rewrite !elem_of_cons, !elem_of_nil in *. tauto.
      * apply R. unfold two_cells_of. rewrite !elem_of_cons. tauto.
      * apply R. unfold two_cells_of. rewrite !elem_of_cons. tauto.
    + intros E. apply F. rewrite E. rewrite !elem_of_cons. tauto.
    + intros y Hy. apply HL, elem_of_of_list, Hy.
  - intros (a & b & c & d & e & H). set (x := centroid (of_list [a; b; c])) in *. cbn zeta in H.
    destruct H as (-> & S & Hx & Hxi & HL & R).
    destruct (site_26_prepares label junk T a b c d e V S) as (En & Ef & PR).
    destruct S as (N & F & Hd & He & _). pose proof (proj1 (NoDup_5 _ _ _ _ _) N) as N'.
    unfold move_26, bind. rewrite PR. cbn [snd]. unfold execute_26.
    assert (LE : forallb (locates T) (elements (of_list [a; b; c; d])) = true).
    { apply forallb_forall. intros y Hy. apply elem_of_list_In, elem_of_elements in Hy. rewrite elem_of_of_list in Hy. auto. }
    rewrite LE. rewrite (bool_decide_eq_true_2 (of_list [a; b; c; d] ∈ T)) by exact Hd.
    rewrite (bool_decide_eq_true_2 (d ∈ of_list [a; b; c; d])) by (apply elem_of_of_list; rewrite !elem_of_cons; tauto). cbn [negb andb].
    rewrite En, Ef. fold x. rewrite bool_decide_eq_false_2 by exact Hx. rewrite bool_decide_eq_false_2 by exact Hxi. cbn [orb].
    f_equal.
    assert (N6 : NoDup [a; b; c; x; d; e]).
    { assert (D : forall y s, s ∈ T -> y ∈ s -> y <> x) by (intros y s Hs Hy ->; apply Hx, elem_of_vertices; eauto).
      assert (Da : a <> x) by (apply (D a _ Hd), elem_of_of_list; rewrite !elem_of_cons; tauto).
      assert (Db : b <> x) by (apply (D b _ Hd), elem_of_of_list; rewrite !elem_of_cons; tauto).
      assert (Dc : c <> x) by (apply (D c _ Hd), elem_of_of_list; rewrite !elem_of_cons; tauto).
      assert (Dd : d <> x) by (apply (D d _ Hd), elem_of_of_list; rewrite !elem_of_cons; tauto).
      assert (De : e <> x) by (apply (D e _ He), elem_of_of_list; rewrite !elem_of_cons; tauto).
      apply nodup6. clear - N' Da Db Dc Dd De. intuition congruence. }
    rewrite (insert_in_facet_pachner T a b c x d e (va_pure _ V) (va_closed _ V) N6 Hd He Hx).
    destruct (insert_ok T a b c x d e (va_pure _ V) (va_closed _ V) N6 Hd He Hx) as [ok1 ok2].
    exact (replaces_det _ _ _ _ _ (replaces_26 T a b c x d e N6 ok1 ok2) R).
Qed.

(** ** (2,3) *)
Lemma labels_site_23 v w a b x : classify [v; a; b; x] = TWO_TWO ->
  classify [w; a; b; x] = THREE_ONE \/ classify [w; a; b; x] = ONE_THREE ->
  Z.abs (v - w) = 1 /\ ((a = v /\ b = w /\ x = w) \/ (b = v /\ a = w /\ x = w) \/ (x = v /\ a = w /\ b = w)).
Proof.
  intros K H. destruct (facet_23_labels v w a b x K H) as (t & pv & pw & pa & pb & px & E & Hp).
  injection E as -> -> -> -> ->. cases_list Hp; injection Hp as -> -> -> -> ->; lia.
Qed.
Lemma site_labels_23 v w : Z.abs (v - w) = 1 -> classify [v; v; w; w] = TWO_TWO /\
  (classify [w; v; w; w] = THREE_ONE \/ classify [w; v; w; w] = ONE_THREE).
Proof.
  intros A. assert (D : w = v + 1 \/ w = v + -1) by lia.
  assert (G : forall p q r s, classify [v + p; v + q; v + r; v + s] = classify [p; q; r; s]) by (intros; apply classify4).
  destruct D as [-> | ->].
  - pose proof (G 0 0 1 1) as G1. pose proof (G 1 0 1 1) as G2. rewrite Z.add_0_r in G1, G2. rewrite G1, G2. split; [reflexivity|right; reflexivity].
  - pose proof (G 0 0 (-1) (-1)) as G1. pose proof (G (-1) 0 (-1) (-1)) as G2. rewrite Z.add_0_r in G1, G2. rewrite G1, G2. split; [reflexivity|left; reflexivity].
Qed.
Lemma of_list_cycle v a b x : of_list [v; a; b; x] = of_list [v; b; a; x] /\ of_list [v; a; b; x] = of_list [v; x; a; b].
Proof.
  split; apply of_list_perm; constructor; [apply perm_swap|].
  rewrite (Permutation_app_comm [a; b] [x]). reflexivity.
Qed.
Lemma site_23_types label T v w a b x : site_23 label T v w a b x ->
  cell_type label (of_list [v; a; b; x]) = TWO_TWO /\
  (cell_type label (of_list [w; a; b; x]) = THREE_ONE \/ cell_type label (of_list [w; a; b; x]) = ONE_THREE).
Proof.
  intros (N & _ & _ & _ & A & La & Lb & Lx). pose proof (proj1 (NoDup_5 _ _ _ _ _) N) as N'.
  rewrite !cell_type_of_list by (apply nodup4; clear - N'; intuition congruence). cbn [map]. rewrite La, Lb, Lx. apply site_labels_23, A.
Qed.
Lemma facet_23_iff label junk T c u : valid T -> c ∈ T -> infinite ∉ c -> cell_type label c = TWO_TWO -> u ∈ c ->
  facet_23_ok label junk T c u = true <-> exists w a b x, c = of_list [u; a; b; x] /\ site_23 label T u w a b x.
Proof.
  intros V Hc Fc K Hu.
  destruct (neighbor_spec T (va_pure _ V) (va_closed _ V) c u Hc Hu) as (n & w & En & Hn & Hw & Enw & Em & _ & Hall).
  assert (Hs3 : size (c ∖ {[u]}) = 3%nat).
  { rewrite size_difference by (set_solver + Hu). rewrite (va_pure _ V _ Hc), size_singleton. reflexivity. }
  unfold facet_23_ok. rewrite En, Em. split.
  - rewrite !andb_true_iff, orb_true_iff, !Z.eqb_eq. intros [[[Fn Cn] Tn] Ab].
    destruct (elements_three _ Hs3) as (a & b & x & _ & Nf & Efs).
    assert (Ec : c = of_list [u; a; b; x]).
    { apply set_eq. intros k. rewrite elem_of_of_list, elem_of_cons, <- elem_of_of_list, <- Efs, elem_of_difference, elem_of_singleton.
      destruct (decide (k = u)) as [->|]; tauto. }
    assert (Enn : n = of_list [w; a; b; x]).
    { rewrite Enw, Efs. apply set_eq. intros k. rewrite elem_of_union, elem_of_singleton, !elem_of_of_list, !elem_of_cons. tauto. }
    assert (Huf : u ∉ [a; b; x]) by (rewrite <- elem_of_of_list, <- Efs; set_solver +).
    assert (N : NoDup [u; w; a; b; x]).
    { rewrite Ec, elem_of_of_list in Hw. apply NoDup_cons. split.
      - rewrite elem_of_cons. intros [E|E]; [|contradiction]. apply Hw. rewrite E. constructor.
      - apply NoDup_cons. split; [|exact Nf]. intros E. apply Hw. rewrite elem_of_cons. auto. }
    pose proof (proj1 (NoDup_5 _ _ _ _ _) N) as N'.
    assert (F : infinite ∉ [u; w; a; b; x]).
    { apply finite_spec in Fn. rewrite Ec, elem_of_of_list in Fc. rewrite Enn, elem_of_of_list in Fn. clear - Fc Fn. rewrite !elem_of_cons, !elem_of_nil in *. tauto. }
    rewrite Ec, cell_type_of_list in K by (apply nodup4; clear - N'; intuition congruence).
    rewrite Enn, cell_type_of_list in Tn by (apply nodup4; clear - N'; intuition congruence).
    destruct (labels_site_23 _ _ _ _ _ K Tn) as [A B]. rewrite Ec in Hc. rewrite Enn in Hn.
    destruct (of_list_cycle u a b x) as [C1 C2]. destruct (of_list_cycle w a b x) as [D1 D2].
    destruct B as [(L1 & L2 & L3)|[(L1 & L2 & L3)|(L1 & L2 & L3)]].
    + exists w, a, b, x. split; [exact Ec|]. repeat (split; [assumption|]). auto.
    + exists w, b, a, x. split; [congruence|]. split; [apply NoDup_5; clear - N'; intuition congruence|].
      split; [clear - F; rewrite !elem_of_cons, !elem_of_nil in *; tauto|]. split; [congruence|]. split; [congruence|]. auto.
    + exists w, x, a, b. split; [congruence|]. split; [apply NoDup_5; clear - N'; intuition congruence|].
      split; [clear - F; rewrite !elem_of_cons, !elem_of_nil in *; tauto|]. split; [congruence|]. split; [congruence|]. auto.
  - intros (w' & a & b & x & Ec & S). destruct (site_23_types _ _ _ _ _ _ _ S) as [_ Tn].
    destruct S as (N & F & _ & Hn' & A & _). pose proof (proj1 (NoDup_5 _ _ _ _ _) N) as N'.
    assert (Ef : c ∖ {[u]} = of_list [a; b; x]).
    { rewrite Ec. apply set_eq. intros y. rewrite elem_of_difference, elem_of_singleton, !elem_of_of_list, !elem_of_cons, !elem_of_nil.
      clear - N'. split; [tauto|]. intros H. split; [tauto|]. intros ->. intuition congruence. }
    assert (Enn : n = of_list [w'; a; b; x]).
    { destruct (Hall _ Hn') as [E|E]; [rewrite Ef; intros y; rewrite !elem_of_of_list, !elem_of_cons; tauto| |congruence].
      exfalso. rewrite Ec in E. cellabsurd E N'. }
    assert (Ew : w' = w).
    { assert (H : w ∈ n) by (rewrite Enw; set_solver +). rewrite Enn, elem_of_of_list in H. rewrite Ec, elem_of_of_list in Hw.
      rewrite !elem_of_cons, !elem_of_nil in *. clear - H Hw. destruct H as [H|H]; [congruence|tauto]. }
    subst w'. rewrite !andb_true_iff, orb_true_iff, !Z.eqb_eq. rewrite Enn.
    assert (Fn : finite_simplex (of_list [w; a; b; x]) = true) by (apply finite_spec; rewrite elem_of_of_list; clear - F; rewrite !elem_of_cons, !elem_of_nil in *; tauto).
    split; [split; [split; [exact Fn|]|exact Tn]|exact A].
    apply correct_finite_causal; [exact Fn|exact (va_pure _ V _ Hn')|]. destruct Tn as [-> | ->]; reflexivity.
Qed.
Lemma find_sorted (f : vertex -> bool) l v : Sorted Pos.le l -> find f l = Some v ->
  forall u, u ∈ l -> f u = true -> (v <= u)%positive.
Proof.
  intros HS. apply Sorted_StronglySorted in HS; [|exact Pos.le_trans]. induction HS as [|y l HS IH HF]; [discriminate|].
  cbn. destruct (f y) eqn:E.
  - intros [= <-] u Hu _. apply elem_of_cons in Hu as [->|Hu]; [apply Pos.le_refl|]. rewrite List.Forall_forall in HF. apply HF, elem_of_list_In, Hu.
  - intros H u Hu Hf. apply elem_of_cons in Hu as [->|Hu]; [congruence|]. exact (IH H u Hu Hf).
Qed.
Lemma find_some (f : vertex -> bool) l v : v ∈ l -> f v = true -> exists u, find f l = Some u.
Proof.
  induction 1 as [v l|v y l Hv IH]; intros H; cbn; [rewrite H; eauto|]. destruct (f y); eauto.
Qed.
Lemma sorted_elements_sorted c : Sorted Pos.le (sorted_elements c).
Proof. apply Sorted_merge_sort. intros x y. destruct (Pos.leb_spec x y) as [|H]; [auto|right; apply Pos.lt_le_incl, H]. Qed.
Lemma prepare_23_iff label junk T c v : valid T -> infinite ∉ c ->
  prepare_23 label junk T c = Done v <-> exists w a b x, first_site_23 label T c v w a b x.
Proof.
  intros V Fc. unfold prepare_23, first_site_23. split.
  - destruct (bool_decide (c ∈ T)) eqn:Hc; cbn [negb]; [|discriminate]. apply bool_decide_eq_true_1 in Hc.
    destruct (correct label junk T c) eqn:Cc; cbn [negb orb]; [|discriminate].
    destruct (cell_type label c =? TWO_TWO) eqn:Ct; cbn [negb orb]; [|discriminate]. apply Z.eqb_eq in Ct.
    destruct (find _ _) as [v1|] eqn:Ef; [|discriminate]. intros [= ->].
    destruct (find_spec _ _ _ Ef) as [Hv Hok]. apply elem_of_sorted in Hv.
    apply facet_23_iff in Hok as (w & a & b & x & Ec & S); [|assumption..].
    exists w, a, b, x. split; [exact Ec|]. split; [exact S|]. intros v' w' a' b' x' Ec' S'.
    assert (Hv' : v' ∈ c) by (rewrite Ec'; apply elem_of_of_list; constructor).
    apply (find_sorted _ _ _ (sorted_elements_sorted c) Ef); [apply elem_of_sorted, Hv'|]. apply facet_23_iff; eauto 10.
  - intros (w & a & b & x & Ec & S & Hmin). destruct (site_23_types _ _ _ _ _ _ _ S) as [Ct _].
    assert (Hc : c ∈ T) by (rewrite Ec; apply S). rewrite <- Ec in Ct.
    rewrite bool_decide_eq_true_2 by exact Hc. cbn [negb].
    assert (Cc : correct label junk T c = true).
    { apply correct_finite_causal; [apply finite_spec, Fc|exact (va_pure _ V _ Hc)|rewrite Ct; reflexivity]. }
    rewrite Cc, Ct. cbn [negb orb]. change (TWO_TWO =? TWO_TWO) with true. cbn [negb].
    assert (Hv : v ∈ c) by (rewrite Ec; apply elem_of_of_list; constructor).
    assert (Hok : facet_23_ok label junk T c v = true) by (apply facet_23_iff; eauto 10).
    destruct (find_some (facet_23_ok label junk T c) (sorted_elements c) v) as [u Eu]; [apply elem_of_sorted, Hv|exact Hok|].
    rewrite Eu. f_equal. destruct (find_spec _ _ _ Eu) as [Hu Hou].
    pose proof (find_sorted _ _ _ (sorted_elements_sorted c) Eu v ltac:(apply elem_of_sorted, Hv) Hok) as L1.
    apply elem_of_sorted in Hu. apply facet_23_iff in Hou as (w' & a' & b' & x' & Ec' & S'); [|assumption..].
    pose proof (Hmin _ _ _ _ _ Ec' S') as L2. apply Pos.le_antisym; assumption.
Qed.
Lemma ok_23 label T v w a b x : valid T -> site_23 label T v w a b x -> nowhere T [v; w] -> pachner_ok T [v; w] [a; b; x].
Proof.
  intros V (N & F & Hc & Hn & _) Z. pose proof (proj1 (NoDup_5 _ _ _ _ _) N) as N'. rewrite nowhere_sub in Z.
  assert (O1 : omit [v; w; a; b; x] v = of_list [w; a; b; x]) by omits N'.
  assert (O2 : omit [v; w; a; b; x] w = of_list [v; a; b; x]) by omits N'.
  split; cbn [app].
      - exact N.
      - reflexivity.
      - discriminate.
      - discriminate.
      - intros y Hy. cases_list Hy; subst y; [rewrite O1; exact Hn|rewrite O2; exact Hc].
      - intros s Hs Hsub. assert (Hsz : size (of_list [a; b; x]) = 3%nat) by (apply of_list_size, (sublist_NoDup _ [v; w; a; b; x]); [repeat constructor|exact N]).
        destruct (two_cells T (va_closed _ V) (of_list [a; b; x]) _ Hc) as (m & Hm & Hmc & _ & Hall); [intros y; rewrite !elem_of_of_list, !elem_of_cons; tauto|exact Hsz|].
        destruct (Hall s Hs Hsub) as [->|Es].
        + exists w. rewrite O2. split; [rewrite !elem_of_cons; tauto|reflexivity].
        + exists v. rewrite O1. split; [rewrite !elem_of_cons; tauto|]. rewrite Es.
          destruct (Hall _ Hn) as [E|E]; [intros y; rewrite !elem_of_of_list, !elem_of_cons; tauto| |congruence]. exfalso. cellabsurd E N'.
      - exact Z.
Qed.
Lemma exact_23 label junk locates geo T c T' : valid T ->
  move_23 label junk locates geo T c = Done T' <->
  exists v w a b x, first_site_23 label T c v w a b x /\ nowhere T [v; w] /\
    (forall y, y ∈ c -> locates T y = true) /\ geo T c v = true /\
    replaces T [of_list [v; a; b; x]; of_list [w; a; b; x]] [of_list [v; w; a; b]; of_list [v; w; b; x]; of_list [v; w; a; x]] T'.
Proof.
  intros V. split.
  - intros H. assert (Fc : infinite ∉ c).
    { apply move_23_effect in H as (v & w & a & b & x & _ & F & -> & _); [|exact V]. rewrite elem_of_of_list. clear - F. rewrite !elem_of_cons, !elem_of_nil in *. tauto. }
    unfold move_23, bind in H. destruct (prepare_23 label junk T c) as [v|?|] eqn:PR; try discriminate.
    apply prepare_23_iff in PR as (w & a & b & x & FS); [|assumption..]. exists v, w, a, b, x. split; [exact FS|].
    destruct FS as (Ec & S & _). pose proof S as (N & F & Hc & Hn & _). pose proof (proj1 (NoDup_5 _ _ _ _ _) N) as N'.
    unfold execute_23 in H. destruct (forallb (locates T) (elements c)) eqn:EL; cbn [andb negb] in H; [|discriminate].
    destruct (negb _); [discriminate|]. destruct (neighbor T c v) as [n|] eqn:En; [|discriminate].
    destruct (negb (finite_simplex c && finite_simplex n && geo T c v)) eqn:EG; [discriminate|].
    apply negb_false_iff, andb_true_iff in EG as [_ EG].
    destruct (tds_flip_facet T c v) as [T1| |] eqn:Efl; try discriminate. injection H as <-.
    assert (HcT : c ∈ T) by (rewrite Ec; exact Hc). assert (Hv : v ∈ c) by (rewrite Ec; apply elem_of_of_list; constructor).
    destruct (flip_facet_pachner T c v T1 V HcT Hv Efl) as (n' & w' & a' & b' & x' & En' & Hn' & Em' & Ef' & Ec' & Enn' & ok & ET).
    pose proof (po_nodup _ _ _ ok) as Nd. cbn [app] in Nd.
    assert (P3 : [a'; b'; x'] ≡ₚ [a; b; x]).
    { apply of_list_eq_perm.
      - apply (sublist_NoDup _ [v; w'; a'; b'; x']); [repeat constructor|exact Nd].
      - apply (sublist_NoDup _ [v; w; a; b; x]); [repeat constructor|exact N].
      - rewrite <- Ef', Ec. apply set_eq. intros y. rewrite elem_of_difference, elem_of_singleton, !elem_of_of_list, !elem_of_cons, !elem_of_nil.
        clear - N'. split; [tauto|]. intros H. split; [tauto|]. intros ->. intuition congruence. }
    assert (Ew : w' = w).
    { destruct (neighbor_spec T (va_pure _ V) (va_closed _ V) c v HcT Hv) as (n2 & w2 & En2 & _ & Hw2 & Enw2 & Em2 & _ & Hall).
      assert (n2 = n') by congruence. subst n2. assert (w2 = w') by congruence. subst w2.
      destruct (Hall _ Hn) as [E|E].
      - rewrite Ef'. intros y. rewrite !elem_of_of_list. rewrite P3, !elem_of_cons. tauto.
      - exfalso. rewrite Ec in E. cellabsurd E N'.
      - assert (Hwn : w ∈ {[w']} ∪ c ∖ {[v]}) by (rewrite <- E; apply elem_of_of_list; constructor). rewrite elem_of_union, elem_of_singleton in Hwn.
        destruct Hwn as [Hwn|Hwn]; [auto|]. exfalso. rewrite Ef' in Hwn. rewrite elem_of_of_list, P3, !elem_of_cons, elem_of_nil in Hwn. clear - Hwn N'. intuition congruence. }
    subst w'.
    assert (ok' : pachner_ok T [v; w] [a; b; x]) by (refine (pachner_ok_perm _ _ _ _ _ _ P3 ok); reflexivity).
    assert (ET' : T1 = pachner T [v; w] [a; b; x]) by (rewrite ET; apply pachner_perm; [reflexivity|exact P3]).
    split; [apply nowhere_sub; exact (po_absent _ _ _ ok')|]. split; [|split; [exact EG|rewrite ET'; exact (replaces_23 T v w a b x ok')]].
    intros y Hy. rewrite forallb_forall in EL. apply EL, elem_of_list_In, elem_of_elements, Hy.
  - intros (v & w & a & b & x & FS & Z & HL & HG & R). pose proof FS as (Ec & S & _).
    pose proof S as (N & F & Hc & Hn & _). pose proof (proj1 (NoDup_5 _ _ _ _ _) N) as N'. rewrite nowhere_sub in Z.
    assert (Fc : finite_simplex (of_list [v; a; b; x]) = true) by (apply finite_spec; rewrite elem_of_of_list; clear - F; rewrite !elem_of_cons, !elem_of_nil in *; tauto).
    assert (Fn : finite_simplex (of_list [w; a; b; x]) = true) by (apply finite_spec; rewrite elem_of_of_list; clear - F; rewrite !elem_of_cons, !elem_of_nil in *; tauto).
    assert (O1 : omit [v; w; a; b; x] v = of_list [w; a; b; x]) by omits N'.
    assert (O2 : omit [v; w; a; b; x] w = of_list [v; a; b; x]) by omits N'.
    assert (ok : pachner_ok T [v; w] [a; b; x]) by (apply (ok_23 label); [exact V|exact S|apply nowhere_sub; exact Z]).
    destruct (flip_facet_complete T v w a b x V ok) as (FL & EN & EM).
    assert (PR : prepare_23 label junk T c = Done v) by (apply prepare_23_iff; [exact V|rewrite Ec; apply finite_spec, Fc|eauto 10]).
    unfold move_23, bind. rewrite PR. unfold execute_23.
    assert (LE : forallb (locates T) (elements c) = true).
    { apply forallb_forall. intros y Hy. apply elem_of_list_In, elem_of_elements in Hy. auto. }
    rewrite LE. rewrite (bool_decide_eq_true_2 (c ∈ T)) by (rewrite Ec; exact Hc).
    rewrite (bool_decide_eq_true_2 (v ∈ c)) by (rewrite Ec; apply elem_of_of_list; constructor). cbn [negb andb].
    rewrite HG, Ec, EN, Fc, Fn, FL. cbn [negb andb]. f_equal.
    exact (replaces_det _ _ _ _ _ (replaces_23 T v w a b x ok) R).
Qed.
