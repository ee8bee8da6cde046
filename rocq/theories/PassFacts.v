(** Expectations over the paths of the chain, and the ends of passes. *)
From Verif Require Import Base Tracker Command Run Geom Metropolis Simplex Pachner Foliation Moves Links MoveSpec Manifold ManifoldMoves MoveProps Samples SampleFacts Undo Mp Action Acceptance HastingsError KernelSpec KernelFacts KernelProps KernelBalance KernelStep ChainSpec ChainFacts ChainProps PassSpec.
From stdpp Require Import fin_sets gmap sorting relations.
From Verif Require Import Base Foliation Metropolis.
From Coq Require Import Reals Lra.
Local Open Scope R_scope.

(** ** More on sums *)
Lemma sum_on_app {A} (f : A -> R) X Y : sum_on f (X ++ Y) = sum_on f X + sum_on f Y.
Proof. induction X as [|x X IH]; [change (sum_on f Y = 0 + sum_on f Y); ring|]. change ((x :: X) ++ Y) with (x :: (X ++ Y)). rewrite !sum_on_cons, IH. ring. Qed.
Lemma sum_on_map {A B} (f : B -> R) (h : A -> B) X : sum_on f (map h X) = sum_on (fun x => f (h x)) X.
Proof. unfold sum_on. rewrite map_map. reflexivity. Qed.
Lemma sum_on_abs {A} (f : A -> R) X : Rabs (sum_on f X) <= sum_on (fun x => Rabs (f x)) X.
Proof.
  induction X as [|x X IH]; [cbn; rewrite Rabs_R0; lra|]. rewrite !sum_on_cons.
  eapply Rle_trans; [apply Rabs_triang|]. lra.
Qed.
Lemma sum_on_const {A} (c : R) (X : list A) : sum_on (fun _ => c) X = INR (length X) * c.
Proof. induction X as [|x X IH]; [cbn; ring|]. rewrite sum_on_cons, IH. cbn [length]. rewrite S_INR. ring. Qed.
Lemma sum_on_minus {A} (f g : A -> R) X : sum_on (fun x => f x - g x) X = sum_on f X - sum_on g X.
Proof. induction X as [|x X IH]; [cbn; ring|]. rewrite !sum_on_cons, IH. ring. Qed.
Lemma seq_head n : List.seq 0 (S n) = O :: map S (List.seq 0 n).
Proof. cbn. rewrite seq_shift. reflexivity. Qed.
Lemma bounded_on {A} (g : A -> R) (X : list A) : exists G, 0 <= G /\ forall x, x ∈ X -> Rabs (g x) <= G.
Proof.
  exists (sum_on (fun x => Rabs (g x)) X). split; [apply sum_on_nonneg; intros; apply Rabs_pos|].
  intros x I. apply (sum_on_term (fun x => Rabs (g x))); [intros; apply Rabs_pos|exact I].
Qed.

Lemma INR_unbounded r : exists n, r < INR n.
Proof.
  destruct (archimed r) as [H _]. exists (Z.to_nat (up r)). rewrite INR_IZR_INZ.
  eapply Rlt_le_trans; [exact H|]. apply IZR_le. lia.
Qed.
Lemma last_from {A} (path : list A) z x : List.last (z :: path) x = List.last path z.
Proof.
  revert z x. induction path as [|u path IH]; intros z x; [reflexivity|].
  change (List.last (u :: path) x = List.last (u :: path) z). rewrite (IH u x), (IH u z). reflexivity.
Qed.

Section Average.
  Variable W : world.
  Variable p : PhysicalParameters.
  Variable X : list manifold.
  Hypothesis Knonneg : forall x y, 0 <= kernel W p x y.
  Hypothesis Kone : forall x, x ∈ X -> sum_on (kernel W p x) X = 1.
  Notation K := (kernel W p).
  Notation E := (expected W p X).

  Lemma expected_ext n x F F' : x ∈ X -> (forall path, length path = n -> (forall y, y ∈ path -> y ∈ X) -> F path = F' path) -> E n x F = E n x F'.
  Proof using.
    revert x F F'. induction n as [|n IH]; intros x F F' I H; cbn.
    - apply H; [reflexivity|]. intros y Hy. apply elem_of_nil in Hy. destruct Hy.
    - apply sum_on_ext. intros y Iy. f_equal. apply IH; [exact Iy|]. intros path L P. apply H; [cbn; congruence|].
      intros z Iz. apply elem_of_cons in Iz as [->|Iz]; [exact Iy|apply P, Iz].
  Qed.
  Lemma expected_plus n x F F' : E n x (fun path => F path + F' path) = E n x F + E n x F'.
  Proof using.
    revert x F F'. induction n as [|n IH]; intros x F F'; cbn; [reflexivity|]. rewrite <- sum_on_plus. apply sum_on_ext. intros y _.
    rewrite IH. ring.
  Qed.
  Lemma expected_scale n x c F : E n x (fun path => c * F path) = c * E n x F.
  Proof using.
    revert x F. induction n as [|n IH]; intros x F; cbn; [reflexivity|]. rewrite <- sum_on_scale. apply sum_on_ext. intros y _.
    rewrite IH. ring.
  Qed.
  Lemma expected_const n x c : x ∈ X -> E n x (fun _ => c) = c.
  Proof using Kone.
    revert x. induction n as [|n IH]; intros x I; cbn; [reflexivity|].
    rewrite (sum_on_ext _ (fun y => K x y * c)) by (intros y Iy; rewrite IH by exact Iy; reflexivity).
    rewrite sum_on_scale_r, Kone by exact I. ring.
  Qed.
  Lemma expected_le n x F F' : x ∈ X -> (forall path, length path = n -> (forall y, y ∈ path -> y ∈ X) -> F path <= F' path) -> E n x F <= E n x F'.
  Proof using Knonneg.
    revert x F F'. induction n as [|n IH]; intros x F F' I H; cbn.
    - apply H; [reflexivity|]. intros y Hy. apply elem_of_nil in Hy. destruct Hy.
    - apply sum_on_le. intros y Iy. apply Rmult_le_compat_l; [apply Knonneg|]. apply IH; [exact Iy|]. intros path L P. apply H; [cbn; congruence|].
      intros z Iz. apply elem_of_cons in Iz as [->|Iz]; [exact Iy|apply P, Iz].
  Qed.
  (** The average of values within bounds. *)
  Lemma kernel_bound x (h : manifold -> R) b : x ∈ X -> (forall y, y ∈ X -> h y <= b) -> sum_on (fun y => K x y * h y) X <= b.
  Proof using Knonneg Kone.
    intros I H. apply (Rle_trans _ (sum_on (fun y => K x y * b) X)).
    - apply sum_on_le. intros y Iy. apply Rmult_le_compat_l; [apply Knonneg|apply H, Iy].
    - rewrite sum_on_scale_r, Kone by exact I. lra.
  Qed.

  (** The expected value at the end of [n] steps. *)
  Definition later (g : manifold -> R) (n : nat) (x : manifold) : R := sum_on (fun y => after W p X n x y * g y) X.
  Lemma later_succ g n x : later g (S n) x = sum_on (fun y => K x y * later g n y) X.
  Proof using.
    unfold later. cbn [after].
    rewrite (sum_on_ext _ (fun y => sum_on (fun z => K x z * after W p X n z y * g y) X)) by (intros y _; rewrite <- sum_on_scale_r; reflexivity).
    rewrite sum_on_swap. apply sum_on_ext. intros z _. rewrite <- sum_on_scale. apply sum_on_ext. intros y _. ring.
  Qed.
  Hypothesis ND : NoDup X.
  Lemma later_zero g x : x ∈ X -> later g 0 x = g x.
  Proof using ND.
    intros I. unfold later. cbn [after]. rewrite (sum_on_ext _ (fun y => if decide (x = y) then g y else 0)).
    - apply (sum_on_at' g X x ND I).
    - intros y _. destruct (decide (x = y)); ring.
  Qed.
  Lemma expected_sum n g x : x ∈ X -> E n x (sum_on g) = sum_on (fun k => later g (S k) x) (List.seq 0 n).
  Proof using Kone ND.
    revert x. induction n as [|n IH]; intros x I; [reflexivity|]. cbn [expected].
    rewrite (sum_on_ext _ (fun y => K x y * g y + K x y * sum_on (fun k => later g (S k) y) (List.seq 0 n))).
    - rewrite sum_on_plus, seq_head, sum_on_cons, sum_on_map. f_equal.
      + rewrite later_succ. apply sum_on_ext. intros y Iy. rewrite later_zero by exact Iy. reflexivity.
      + rewrite (sum_on_ext _ (fun y => sum_on (fun k => K x y * later g (S k) y) (List.seq 0 n))) by (intros y _; rewrite sum_on_scale; reflexivity).
        rewrite sum_on_swap. apply sum_on_ext. intros k _. rewrite (later_succ g (S k)). reflexivity.
    - intros y Iy. rewrite (expected_ext n y _ (fun path => g y + sum_on g path)); [|exact Iy|intros; apply sum_on_cons].
      rewrite (expected_plus n y (fun _ => g y) (sum_on g)), expected_const, IH by exact Iy. ring.
  Qed.

  Lemma expected_square n g x : x ∈ X -> E (S n) x (fun path => sum_on g path ^ 2)
    = sum_on (fun y => K x y * (g y ^ 2 + 2 * g y * E n y (sum_on g) + E n y (fun path => sum_on g path ^ 2))) X.
  Proof using Kone.
    intros I. cbn [expected]. apply sum_on_ext. intros y Iy. f_equal.
    rewrite (expected_ext n y _ (fun path => (g y ^ 2 + 2 * g y * sum_on g path) + sum_on g path ^ 2)); [|exact Iy|].
    - rewrite (expected_plus n y (fun path => g y ^ 2 + 2 * g y * sum_on g path) (fun path => sum_on g path ^ 2)).
      rewrite (expected_plus n y (fun path => g y ^ 2) (fun path => 2 * g y * sum_on g path)).
      rewrite (expected_scale n y (2 * g y) (sum_on g)), expected_const by exact Iy. ring.
    - intros path _ _. rewrite sum_on_cons. ring.
  Qed.

  (** If the values fade, the square of their sum grows slower than [n ^ 2]. *)
  Lemma sum_small g G N e : 0 <= e -> 0 <= G -> (forall x, x ∈ X -> Rabs (g x) <= G) ->
    (forall n x, (N <= n)%nat -> x ∈ X -> Rabs (later g n x) <= e) ->
    forall n x, x ∈ X -> Rabs (E n x (sum_on g)) <= INR N * G + INR n * e.
  Proof using Knonneg Kone ND.
    intros Pe PG HG Far n x I. rewrite expected_sum by exact I.
    assert (B : forall k y, y ∈ X -> Rabs (later g k y) <= G).
    { induction k as [|k IH]; intros y Iy; [rewrite later_zero by exact Iy; apply HG, Iy|]. rewrite later_succ.
      eapply Rle_trans; [apply sum_on_abs|]. rewrite (sum_on_ext _ (fun z => K y z * Rabs (later g k z))).
      - apply kernel_bound; [exact Iy|exact IH].
      - intros z _. rewrite Rabs_mult, (Rabs_right (K y z)); [reflexivity|apply Rle_ge, Knonneg]. }
    induction n as [|n IH]; [cbn; rewrite Rabs_R0; pose proof (pos_INR N); nra|].
    rewrite seq_S, sum_on_app. cbn [Nat.add]. eapply Rle_trans; [apply Rabs_triang|].
    assert (S1 : Rabs (sum_on (fun k => later g (S k) x) [n]) = Rabs (later g (S n) x)) by (f_equal; unfold sum_on; cbn; ring).
    rewrite S1, S_INR. destruct (le_lt_dec N (S n)) as [L|L].
    - specialize (Far (S n) x L I). lra.
    - clear IH. pose proof (B (S n) x I) as B1.
      assert (B2 : Rabs (sum_on (fun k => later g (S k) x) (List.seq 0 n)) <= INR n * G).
      { eapply Rle_trans; [apply sum_on_abs|]. rewrite <- (seq_length n 0) at 2. rewrite <- sum_on_const. apply sum_on_le. intros k _. apply B, I. }
      assert (INR (S n) <= INR N) by (apply le_INR; lia). rewrite S_INR in H. pose proof (pos_INR n). nra.
  Qed.
  Lemma square_small g G N e : 0 <= e -> 0 <= G -> (forall x, x ∈ X -> Rabs (g x) <= G) ->
    (forall n x, (N <= n)%nat -> x ∈ X -> Rabs (later g n x) <= e) ->
    forall n0 n x, (n <= n0)%nat -> x ∈ X -> E n x (fun path => sum_on g path ^ 2) <= INR n * (G ^ 2 + 2 * G * (INR N * G + INR n0 * e)).
  Proof using Knonneg Kone ND.
    intros Pe PG HG Far n0 n. induction n as [|n IH]; intros x Hn I; [cbn; lra|].
    rewrite expected_square, S_INR by exact I. apply kernel_bound; [exact I|]. intros y Iy.
    pose proof (HG y Iy) as H1. pose proof (sum_small g G N e Pe PG HG Far n y Iy) as H2. specialize (IH y ltac:(lia) Iy).
    assert (Hn' : INR n <= INR n0) by (apply le_INR; lia).
    assert (H3 : g y ^ 2 <= G ^ 2).
    { rewrite <- (pow2_abs (g y)). apply pow_incr. split; [apply Rabs_pos|exact H1]. }
    assert (H4 : 2 * g y * E n y (sum_on g) <= 2 * G * (INR N * G + INR n0 * e)).
    { eapply Rle_trans; [apply Rle_abs|]. rewrite !Rabs_mult, (Rabs_right 2) by lra.
      rewrite !Rmult_assoc. apply Rmult_le_compat_l; [lra|]. apply Rmult_le_compat; try apply Rabs_pos; [exact H1|].
      eapply Rle_trans; [exact H2|]. nra. }
    lra.
  Qed.
End Average.

Section Chain.
  Variable W : world.
  Variable p : PhysicalParameters.
  Hypothesis VP : valid_parameters p.
  Variable X : list manifold.
  Hypothesis ND : NoDup X.
  Hypothesis Correct : forall x, x ∈ X -> is_structurally_correct W x = true.
  Hypothesis Closed : closed W p X.
  Let Knonneg : forall x y, 0 <= kernel W p x y := kernel_nonneg W p VP.
  Let Kone : forall x, x ∈ X -> sum_on (kernel W p x) X = 1 := sums_one W p VP X ND Correct Closed.
  Lemma after_one x : x ∈ X -> forall k, sum_on (after W p X k x) X = 1.
  Proof using VP ND Correct Closed. intros I k. exact (proj2 (after_probability W p VP X ND Correct Closed k x I)). Qed.
  Lemma after_nonneg x y k : x ∈ X -> y ∈ X -> 0 <= after W p X k x y.
  Proof using VP ND Correct Closed. intros I J. exact (proj1 (after_probability W p VP X ND Correct Closed k x I) y J). Qed.
  Lemma after_add a b x y : x ∈ X -> after W p X (a + b) x y = sum_on (fun z => after W p X a x z * after W p X b z y) X.
  Proof using ND.
    intros I. rewrite after_steps, (steps_add X ND (kernel W p) a b x y I). apply sum_on_ext. intros z _. rewrite !after_steps. reflexivity.
  Qed.

  (** A probability is between 0 and 1, and the end of a path is that of [after]. *)
  Lemma likelihood_end n x y : x ∈ X -> y ∈ X -> likelihood W p X n x (fun path => List.last path x = y) = after W p X n x y.
  Proof using.
    unfold likelihood. revert x. induction n as [|n IH]; intros x I J.
    - cbn. destruct (decide (x = y)); reflexivity.
    - cbn [expected after]. apply sum_on_ext. intros z Iz. f_equal. rewrite <- (IH z Iz J). apply expected_ext; [exact Iz|].
      intros path _ _. assert (E : List.last (z :: path) x = List.last path z) by apply last_from.
      destruct (decide (List.last (z :: path) x = y)), (decide (List.last path z = y)); congruence.
  Qed.
  Lemma likelihood_range n x (E : list manifold -> Prop) {dec : forall path, Decision (E path)} : x ∈ X -> 0 <= likelihood W p X n x E <= 1.
  Proof using VP ND Correct Closed.
    intros I. unfold likelihood. split.
    - apply (Rle_trans _ (expected W p X n x (fun _ => 0))); [rewrite (expected_const W p X Kone) by exact I; lra|]. apply expected_le; [exact Knonneg|exact I|]. intros path _ _. destruct (decide (E path)); lra.
    - apply (Rle_trans _ (expected W p X n x (fun _ => 1))); [|rewrite (expected_const W p X Kone) by exact I; lra]. apply expected_le; [exact Knonneg|exact I|]. intros path _ _. destruct (decide (E path)); lra.
  Qed.

  Hypothesis Two : two_way W p X.
  Hypothesis Linked : linked W p X.
  Section Converging.
  Variable m0 : manifold.
  Hypothesis I0 : m0 ∈ X.
  Hypothesis P0 : 0 < kernel W p m0 m0.
  Lemma later_mean f e : 0 < e -> exists N, forall n x, (N <= n)%nat -> x ∈ X -> Rabs (later W p X (fun y => f y - mean W p X f) n x) <= e.
  Proof using VP ND Correct Closed Two Linked I0 P0.
    intros Pe. destruct (bounded_on (fun y => Rabs (f y)) X) as (G & PG & HG).
    set (S := sum_on (fun y => Rabs (f y)) X). assert (PS : 0 <= S) by (apply sum_on_nonneg; intros; apply Rabs_pos).
    destruct (to_equilibrium W p VP X ND Correct Closed Two Linked m0 I0 P0 (e / (S + 1))) as [N H]; [apply Rdiv_lt_0_compat; lra|].
    exists N. intros n x Hn I. unfold later.
    assert (E : sum_on (fun y => after W p X n x y * (f y - mean W p X f)) X = sum_on (fun y => (after W p X n x y - equilibrium W p X y) * f y) X).
    { rewrite (sum_on_ext _ (fun y => after W p X n x y * f y - after W p X n x y * mean W p X f)) by (intros; ring).
      rewrite (sum_on_ext (fun y => (_ - _) * _) (fun y => after W p X n x y * f y - equilibrium W p X y * f y)) by (intros; ring).
      rewrite !sum_on_minus, sum_on_scale_r, after_one by exact I. unfold mean. ring. }
    rewrite E. eapply Rle_trans; [apply sum_on_abs|].
    apply (Rle_trans _ (sum_on (fun y => e / (S + 1) * Rabs (f y)) X)).
    - apply sum_on_le. intros y Iy. rewrite Rabs_mult. apply Rmult_le_compat_r; [apply Rabs_pos|]. apply Rlt_le, H; assumption.
    - rewrite sum_on_scale. fold S. apply (Rmult_le_reg_r (S + 1)); [lra|]. field_simplify; [|lra]. nra.
  Qed.
  Lemma average_minus f path : path <> [] -> average f path - mean W p X f = sum_on (fun y => f y - mean W p X f) path / INR (length path).
  Proof using.
    intros Ne. unfold average. rewrite sum_on_minus, sum_on_const. field. destruct path as [|x path]; [congruence|].
    cbn [length]. rewrite S_INR. pose proof (pos_INR (length path)). lra.
  Qed.
  Lemma average_near f d eps : 0 < d -> 0 < eps -> exists N, forall n x, (N <= n)%nat -> x ∈ X ->
    1 - eps < likelihood W p X n x (fun path => Rabs (average f path - mean W p X f) < d).
  Proof using VP ND Correct Closed Two Linked I0 P0.
    intros Pd Pe. set (g := fun y => f y - mean W p X f). destruct (bounded_on g X) as (G & PG & HG).
    set (e := eps * (d * d) / (4 * (G + 1))). assert (Pd2 : 0 < d * d) by nra.
    assert (Pe' : 0 < e) by (apply Rdiv_lt_0_compat; nra).
    assert (E4 : 4 * (G + 1) * e = eps * (d * d)) by (unfold e; field; lra).
    destruct (later_mean f e Pe') as [N HN]. fold g in HN.
    set (C := G ^ 2 + 2 * G * (INR N * G)). assert (PC : 0 <= C) by (unfold C; pose proof (pos_INR N); nra).
    destruct (INR_unbounded (2 * C / (eps * (d * d)))) as [N1 H1]. exists (S N1). intros n x Hn I.
    assert (Pn : 2 * C < INR n * (eps * (d * d))).
    { assert (L : INR N1 <= INR n) by (apply le_INR; lia). assert (Q : 0 < eps * (d * d)) by nra.
      assert (H2 : 2 * C / (eps * (d * d)) < INR n) by lra.
      apply (Rmult_lt_compat_r (eps * (d * d))) in H2; [|exact Q]. unfold Rdiv in H2. rewrite Rmult_assoc, Rinv_l in H2; lra. }
    assert (n0 : 0 < INR n) by (apply lt_0_INR; lia).
    set (c := / (INR n * d * (INR n * d))). assert (Pc : 0 < c) by (apply Rinv_0_lt_compat; nra).
    assert (Q : expected W p X n x (fun path => sum_on g path ^ 2) < eps * (INR n * d * (INR n * d))).
    { eapply Rle_lt_trans; [apply (square_small W p X Knonneg Kone ND g G N e (Rlt_le _ _ Pe') PG HG HN n n x (le_n n) I)|].
      replace (G ^ 2 + 2 * G * (INR N * G + INR n * e)) with (C + 2 * G * INR n * e) by (unfold C; ring).
      assert (2 * G * e <= eps * (d * d) / 2) by nra. nra. }
    apply (Rlt_le_trans _ (expected W p X n x (fun path => 1 + - c * sum_on g path ^ 2))).
    - rewrite (expected_plus W p X n x (fun _ => 1)), (expected_scale W p X n x (- c)), (expected_const W p X Kone) by exact I.
      assert (c * expected W p X n x (fun path => sum_on g path ^ 2) < c * (eps * (INR n * d * (INR n * d)))) by (apply Rmult_lt_compat_l; assumption).
      assert (Ec : c * (INR n * d * (INR n * d)) = 1) by (unfold c; apply Rinv_l; nra). nra.
    - unfold likelihood. apply expected_le; [exact Knonneg|exact I|]. intros path L _.
      assert (Ne : path <> []) by (intros ->; cbn in L; lia).
      destruct (decide _) as [B|B].
      + pose proof (pow2_ge_0 (sum_on g path)). nra.
      + apply Rnot_lt_le in B. rewrite (average_minus f path Ne) in B. fold g in B. rewrite L in B.
        unfold Rdiv in B. rewrite Rabs_mult, (Rabs_right (/ INR n)) in B by (left; apply Rinv_0_lt_compat, n0).
        assert (B' : INR n * d <= Rabs (sum_on g path)).
        { apply (Rmult_le_compat_l (INR n)) in B; [|lra]. rewrite (Rmult_comm (Rabs _)), <- Rmult_assoc, Rinv_r, Rmult_1_l in B by lra. exact B. }
        rewrite <- (pow2_abs (sum_on g path)). assert (Ec : c * (INR n * d * (INR n * d)) = 1) by (unfold c; apply Rinv_l; nra).
        assert (INR n * d * (INR n * d) <= Rabs (sum_on g path) ^ 2) by (replace (Rabs (sum_on g path) ^ 2) with (Rabs (sum_on g path) * Rabs (sum_on g path)) by ring; apply Rmult_le_compat; try exact B'; apply Rmult_le_pos; lra).
        assert (c * (INR n * d * (INR n * d)) <= c * Rabs (sum_on g path) ^ 2) by (apply Rmult_le_compat_l; [lra|assumption]). lra.
  Qed.
  (** ... and its expected value tends to the mean. *)
  Lemma average_expected f eps : 0 < eps -> exists N, forall n x, (N <= n)%nat -> x ∈ X ->
    Rabs (expected W p X n x (average f) - mean W p X f) < eps.
  Proof using VP ND Correct Closed Two Linked I0 P0.
    intros Pe. set (g := fun y => f y - mean W p X f). destruct (bounded_on g X) as (G & PG & HG).
    destruct (later_mean f (eps / 2) ltac:(lra)) as [N HN]. fold g in HN.
    destruct (INR_unbounded (2 * (INR N * G) / eps)) as [N1 H1]. exists (S N1). intros n x Hn I.
    assert (Pn : 2 * (INR N * G) < INR n * eps).
    { assert (L : INR N1 <= INR n) by (apply le_INR; lia). assert (H2 : 2 * (INR N * G) / eps < INR n) by lra.
      apply (Rmult_lt_compat_r eps) in H2; [|exact Pe]. unfold Rdiv in H2. rewrite Rmult_assoc, Rinv_l in H2; lra. }
    assert (n0 : 0 < INR n) by (apply lt_0_INR; lia).
    assert (E : expected W p X n x (average f) - mean W p X f = / INR n * expected W p X n x (sum_on g)).
    { rewrite <- (expected_scale W p X n x (/ INR n) (sum_on g)).
      rewrite (expected_ext W p X n x (average f) (fun path => mean W p X f + / INR n * sum_on g path)); [|exact I|].
      - rewrite (expected_plus W p X n x (fun _ => mean W p X f)), (expected_const W p X Kone) by exact I. ring.
      - intros path L _. assert (Ne : path <> []) by (intros ->; cbn in L; lia). pose proof (average_minus f path Ne) as M. fold g in M.
        rewrite L in M. unfold Rdiv in M. rewrite Rmult_comm in M. lra. }
    rewrite E, Rabs_mult, (Rabs_right (/ INR n)) by (left; apply Rinv_0_lt_compat, n0).
    pose proof (sum_small W p X Knonneg Kone ND g G N (eps / 2) ltac:(lra) PG HG HN n x I) as B.
    apply (Rmult_lt_reg_l (INR n)); [exact n0|]. rewrite <- Rmult_assoc, Rinv_r, Rmult_1_l by lra. lra.
  Qed.
  Lemma passes_alike L : (forall x, x ∈ X -> pass_length W x = L) -> (0 < L)%nat ->
    (forall n x y, x ∈ X -> y ∈ X -> passes_end W p X n x y = after W p X (n * L) x y) /\
    forall eps, 0 < eps -> exists N, forall n x y, (N <= n)%nat -> x ∈ X -> y ∈ X -> Rabs (passes_end W p X n x y - equilibrium W p X y) < eps.
  Proof using VP ND Correct Closed Two Linked I0 P0.
    intros HL PL. assert (E : forall n x y, x ∈ X -> y ∈ X -> passes_end W p X n x y = after W p X (n * L) x y).
    { induction n as [|n IH]; intros x y I J; [reflexivity|]. change (S n * L)%nat with (L + n * L)%nat. rewrite after_add by exact I.
      cbn [passes_end]. apply sum_on_ext. intros z Iz. unfold pass_end. rewrite HL, IH by assumption. reflexivity. }
    split; [exact E|]. intros eps Pe. destruct (to_equilibrium W p VP X ND Correct Closed Two Linked m0 I0 P0 eps Pe) as [N H].
    exists N. intros n x y Hn I J. rewrite E by assumption. apply H; [|exact I|exact J]. nia.
  Qed.
  End Converging.

  Lemma pass_probability x : x ∈ X -> (forall y, y ∈ X -> 0 <= pass_end W p X x y) /\ sum_on (pass_end W p X x) X = 1.
  Proof using VP ND Correct Closed. intros I. exact (after_probability W p VP X ND Correct Closed (pass_length W x) x I). Qed.

  (** ** The attempts of a pass *)
  Lemma attempts_sum x : x ∈ X -> sum_on (attempts_at W p X x) X = INR (pass_length W x).
  Proof using VP ND Correct Closed.
    intros I. unfold attempts_at. rewrite sum_on_swap. rewrite (sum_on_ext _ (fun _ => 1)) by (intros k _; apply after_one, I).
    rewrite sum_on_const, seq_length. ring.
  Qed.
  Lemma one_step x y : y ∈ X -> after W p X 1 x y = kernel W p x y.
  Proof using ND.
    intros J. cbn [after]. rewrite (sum_on_ext _ (fun z => if decide (z = y) then kernel W p x z else 0)).
    - apply (sum_on_at (kernel W p x) X y ND J).
    - intros z _. destruct (decide (z = y)); ring.
  Qed.
  Lemma attempts_next x y : x ∈ X -> y ∈ X -> sum_on (fun z => attempts_at W p X x z * kernel W p z y) X
    = attempts_at W p X x y + pass_end W p X x y - after W p X 0 x y.
  Proof using ND.
    intros I J. unfold attempts_at, pass_end. generalize (pass_length W x) as L. intros L.
    rewrite (sum_on_ext _ (fun z => sum_on (fun k => after W p X k x z * kernel W p z y) (List.seq 0 L))) by (intros z _; rewrite sum_on_scale_r; reflexivity).
    rewrite sum_on_swap. rewrite (sum_on_ext _ (fun k => after W p X (S k) x y)).
    - induction L as [|L IH]; [unfold sum_on; cbn [map fold_right List.seq]; ring|].
      rewrite seq_S, !sum_on_app, IH. unfold sum_on. cbn [map fold_right Nat.add]. ring.
    - intros k _. replace (S k) with (k + 1)%nat by lia. rewrite after_add by exact I. apply sum_on_ext. intros z _. rewrite one_step by exact J. reflexivity.
  Qed.
  Lemma attempts_equilibrium nu : (forall y, y ∈ X -> sum_on (fun x => nu x * pass_end W p X x y) X = nu y) ->
    forall y, y ∈ X -> sum_on (fun x => nu x * attempts_at W p X x y) X = equilibrium W p X y * sum_on (fun x => nu x * INR (pass_length W x)) X.
  Proof using VP ND Correct Closed Two Linked.
    intros St y J. set (mu := fun y => sum_on (fun x => nu x * attempts_at W p X x y) X).
    set (c := sum_on (fun x => nu x * INR (pass_length W x)) X).
    assert (Sum : sum_on mu X = c).
    { unfold mu. rewrite sum_on_swap. apply sum_on_ext. intros x I. rewrite sum_on_scale, attempts_sum by exact I. reflexivity. }
    assert (Next : forall z, z ∈ X -> sum_on (fun x => mu x * kernel W p x z) X = mu z).
    { intros z Iz. unfold mu. rewrite (sum_on_ext _ (fun u => sum_on (fun x => nu x * (attempts_at W p X x u * kernel W p u z)) X)).
      - rewrite sum_on_swap. rewrite (sum_on_ext _ (fun x => nu x * attempts_at W p X x z + (nu x * pass_end W p X x z - nu x * after W p X 0 x z))).
        + rewrite sum_on_plus, sum_on_minus, St by exact Iz.
          rewrite (sum_on_ext (fun x => nu x * after W p X 0 x z) (fun x => if decide (x = z) then nu x else 0)).
          * rewrite (sum_on_at nu X z ND Iz). ring.
          * intros x _. cbn [after]. destruct (decide (x = z)); ring.
        + intros x I. rewrite sum_on_scale, attempts_next by assumption. ring.
      - intros u _. rewrite <- sum_on_scale_r. apply sum_on_ext. intros x _. ring. }
    pose proof (equilibrium_probability W p X y J) as [_ E1].
    assert (G := only_equilibrium W p VP X ND Correct Closed Two Linked (fun z => mu z + (1 - c) * equilibrium W p X z)).
    cbn beta in G. assert (R1 : mu y + (1 - c) * equilibrium W p X y = equilibrium W p X y).
    { apply G; [| |exact J].
      - rewrite sum_on_plus, sum_on_scale, Sum, E1. ring.
      - intros z Iz. rewrite (sum_on_ext _ (fun x => mu x * kernel W p x z + (1 - c) * (equilibrium W p X x * kernel W p x z))) by (intros; ring).
        rewrite sum_on_plus, sum_on_scale, Next by exact Iz.
        pose proof (equilibrium_stationary W p VP X ND Correct Closed Two 1 z Iz) as S1.
        rewrite (sum_on_ext _ (fun x => equilibrium W p X x * kernel W p x z)) in S1 by (intros x _; rewrite one_step by exact Iz; reflexivity).
        rewrite S1. reflexivity. }
    change (mu y = equilibrium W p X y * c). lra.
  Qed.
End Chain.

(** ** Two states *)
Section TwoStates.
  Variables u v : manifold.
  Hypothesis Ne : u <> v.
  Variable K : manifold -> manifold -> R.
  Variables a b : R.
  Hypothesis Kuv : K u v = a.
  Hypothesis Kvu : K v u = b.
  Hypothesis Kuu : K u u = 1 - a.
  Hypothesis Kvv : K v v = 1 - b.
  Hypothesis Pab : 0 < a + b.
  Lemma two_steps n :
    steps [u; v] K n u v = a / (a + b) * (1 - (1 - (a + b)) ^ n) /\ steps [u; v] K n v v = 1 - b / (a + b) * (1 - (1 - (a + b)) ^ n) /\
    steps [u; v] K n v u = b / (a + b) * (1 - (1 - (a + b)) ^ n) /\ steps [u; v] K n u u = 1 - a / (a + b) * (1 - (1 - (a + b)) ^ n).
  Proof using All.
    assert (Z : forall x y k, steps [u; v] K (S k) x y = K x u * steps [u; v] K k u y + K x v * steps [u; v] K k v y).
    { intros x y k. cbn [steps]. unfold sum_on. cbn [map fold_right]. ring. }
    induction n as [|n (I1 & I2 & I3 & I4)].
    - cbn [steps pow]. repeat split; try (rewrite decide_True by reflexivity); try (rewrite decide_False by congruence); field; lra.
    - rewrite !Z, I1, I2, I3, I4, Kuv, Kvu, Kuu, Kvv. cbn [pow]. set (q := (1 - (a + b)) ^ n). repeat split; field; lra.
  Qed.
  Lemma two_limit : Rabs (1 - (a + b)) < 1 -> forall eps, 0 < eps -> exists N, forall n x y, (N <= n)%nat -> x ∈ [u; v] -> y ∈ [u; v] ->
    Rabs (steps [u; v] K n x y - (if decide (y = u) then b / (a + b) else a / (a + b))) < eps.
  Proof using All.
    intros Q eps Pe. set (M := Rabs (a / (a + b)) + Rabs (b / (a + b)) + 1).
    assert (PM : 0 < M) by (unfold M; pose proof (Rabs_pos (a / (a + b))); pose proof (Rabs_pos (b / (a + b))); lra).
    destruct (pow_lt_1_zero (1 - (a + b)) Q (eps / M)) as [N H]; [apply Rdiv_lt_0_compat; lra|].
    exists N. intros n x y Hn Hx Hy. specialize (H n Hn). destruct (two_steps n) as (I1 & I2 & I3 & I4).
    set (q := (1 - (a + b)) ^ n) in *.
    assert (B : forall c, Rabs c <= M -> Rabs (c * q) < eps).
    { intros c Hc. rewrite Rabs_mult. apply (Rle_lt_trans _ (M * Rabs q)); [apply Rmult_le_compat_r; [apply Rabs_pos|exact Hc]|].
      apply (Rmult_lt_compat_l M) in H; [|exact PM]. unfold Rdiv in H. rewrite (Rmult_comm eps), <- Rmult_assoc, Rinv_r, Rmult_1_l in H by lra. exact H. }
    assert (Ba : Rabs (a / (a + b)) <= M) by (unfold M; pose proof (Rabs_pos (b / (a + b))); lra).
    assert (Bb : Rabs (b / (a + b)) <= M) by (unfold M; pose proof (Rabs_pos (a / (a + b))); lra).
    apply elem_of_cons in Hx as [->|Hx]; [|apply elem_of_list_singleton in Hx as ->];
      (apply elem_of_cons in Hy as [->|Hy]; [|apply elem_of_list_singleton in Hy as ->]);
      try (rewrite decide_True by reflexivity); try (rewrite decide_False by congruence).
    - rewrite I4. replace (1 - a / (a + b) * (1 - q) - b / (a + b)) with (a / (a + b) * q) by (field; lra). apply B, Ba.
    - rewrite I1. replace (a / (a + b) * (1 - q) - a / (a + b)) with (- (a / (a + b) * q)) by ring. rewrite Rabs_Ropp. apply B, Ba.
    - rewrite I3. replace (b / (a + b) * (1 - q) - b / (a + b)) with (- (b / (a + b) * q)) by ring. rewrite Rabs_Ropp. apply B, Bb.
    - rewrite I2. replace (1 - b / (a + b) * (1 - q) - a / (a + b)) with (b / (a + b) * q) by (field; lra). apply B, Bb.
  Qed.
End TwoStates.

Lemma passes_steps W p X n x y : passes_end W p X n x y = steps X (pass_end W p X) n x y.
Proof. revert x. induction n as [|n IH]; intros x; cbn; [reflexivity|]. apply sum_on_ext. intros z _. rewrite IH. reflexivity. Qed.

(** One kind of move at most leads from one manifold to another. *)
Lemma step_fifth W p m x : valid_parameters p -> valid (m_cells m) -> step_probability W p m x <= 1 / 5.
Proof.
  intros VP V. pose proof (step_nonneg W p VP m x) as [P|P]; [|rewrite <- P; lra].
  apply (step_positive W p VP m x V) in P as (k & _ & C). rewrite (step_by W p VP m k x V C).
  pose proof (by_kind_fifth W p VP m k [x] ltac:(constructor; [apply not_elem_of_nil|constructor])) as H.
  unfold sum_on in H. cbn [map fold_right] in H. lra.
Qed.

Lemma rtc_stuck {A} (S : A -> A -> Prop) u y : (forall w, S u w -> w = u) -> rtc S u y -> y = u.
Proof.
  intros H T. remember u as x eqn:E in T. induction T as [x|x z y P T IH]; [exact E|]. apply IH. rewrite E in P. apply H, P.
Qed.
Definition ends_at (A B : R) (y : manifold) : R := if decide (y = m_26) then B / (A + B) else A / (A + B).
Lemma lengths_two : pass_length W_flat m_26 = 2%nat /\ pass_length W_flat m_62 = 6%nat.
Proof. split; vm_compute; reflexivity. Qed.
Lemma two_passes p : valid_parameters p -> exists A B,
  0 < A /\ 0 < B /\ A + B < 1 /\
  pass_end W_flat p two_states m_26 m_62 = A /\ pass_end W_flat p two_states m_62 m_26 = B /\
  (forall y, y ∈ two_states -> sum_on (fun x => ends_at A B x * pass_end W_flat p two_states x y) two_states = ends_at A B y) /\
  sum_on (ends_at A B) two_states = 1 /\
  (forall eps, 0 < eps -> exists N, forall n x y, (N <= n)%nat -> x ∈ two_states -> y ∈ two_states ->
     Rabs (passes_end W_flat p two_states n x y - ends_at A B y) < eps) /\
  ends_at A B m_62 < equilibrium W_flat p two_states m_62.
Proof.
  intros VP. destruct (two_states_chain p VP) as (ND & Cor & Cl & Tw & Li & _).
  assert (Ne : m_26 <> m_62) by (inversion ND as [|? ? Hn]; subst; intros E; apply Hn, elem_of_list_singleton, E).
  assert (I1 : m_26 ∈ two_states) by apply elem_of_list_here.
  assert (I2 : m_62 ∈ two_states) by apply elem_of_list_further, elem_of_list_here.
  assert (V : valid (m_cells m_26)) by (apply (correct_valid W_flat), Cor, I1).
  assert (V' : valid (m_cells m_62)) by (apply (correct_valid W_flat), Cor, I2).
  set (K := kernel W_flat p). set (a := K m_26 m_62). set (b := K m_62 m_26).
  assert (Sums : forall x, x ∈ two_states -> K x m_26 + K x m_62 = 1).
  { intros x I. rewrite <- (sums_one W_flat p VP two_states ND Cor Cl x I). unfold two_states, sum_on, K. cbn [map fold_right]. ring. }
  pose proof (Sums m_26 I1) as S1. pose proof (Sums m_62 I2) as S2. fold a in S1. fold b in S2.
  assert (La : a <= 1 / 5).
  { unfold a, K, kernel. rewrite decide_False by exact Ne. pose proof (step_fifth W_flat p m_26 m_62 VP V). lra. }
  assert (Lb : b <= 1 / 5).
  { unfold b, K, kernel. rewrite decide_False by congruence. pose proof (step_fifth W_flat p m_62 m_26 VP V'). lra. }
  assert (Pa : 0 < a).
  { unfold a, K, kernel. rewrite decide_False by exact Ne. pose proof (Li m_26 m_62 I1 I2) as R0.
    destruct (Rle_lt_or_eq_dec _ _ (step_nonneg W_flat p VP m_26 m_62)) as [P|P]; [lra|]. exfalso.
    apply (not_eq_sym Ne). revert R0. apply rtc_stuck. intros w P1.
    pose proof (Cl m_26 w I1 P1) as Iw. apply elem_of_cons in Iw as [E|Iw]; [exact E|].
    apply elem_of_list_singleton in Iw. rewrite Iw in P1. lra. }
  assert (Bal : weight W_flat p m_26 * a = weight W_flat p m_62 * b) by (exact (chain_balance W_flat p VP two_states Cor Tw m_26 m_62 I1 I2)).
  pose proof (weight_pos W_flat p m_26) as W1. pose proof (weight_pos W_flat p m_62) as W2.
  assert (Pb : 0 < b) by nra.
  pose proof (two_steps m_26 m_62 Ne K a b eq_refl eq_refl ltac:(lra) ltac:(lra) ltac:(lra)) as Steps.
  destruct lengths_two as [L1 L2].
  assert (EA : pass_end W_flat p two_states m_26 m_62 = a / (a + b) * (1 - (1 - (a + b)) ^ 2)).
  { unfold pass_end. rewrite L1, after_steps. exact (proj1 (Steps 2%nat)). }
  assert (EB : pass_end W_flat p two_states m_62 m_26 = b / (a + b) * (1 - (1 - (a + b)) ^ 6)).
  { unfold pass_end. rewrite L2, after_steps. exact (proj1 (proj2 (proj2 (Steps 6%nat)))). }
  set (q := 1 - (a + b)) in *. assert (Q1 : 0 < q < 1) by (unfold q; lra).
  assert (Q2 : 0 < q ^ 2 < 1) by (cbn; nra). assert (Q4 : 0 < q ^ 4 < 1) by (replace (q ^ 4) with (q ^ 2 * q ^ 2) by ring; nra).
  assert (Q6 : 0 < q ^ 6 < q ^ 2) by (replace (q ^ 6) with (q ^ 2 * q ^ 4) by ring; nra).
  set (A := pass_end W_flat p two_states m_26 m_62) in *. set (B := pass_end W_flat p two_states m_62 m_26) in *.
  assert (As : A * (a + b) = a * (1 - q ^ 2)) by (rewrite EA; field; lra).
  assert (Bs : B * (a + b) = b * (1 - q ^ 6)) by (rewrite EB; field; lra).
  assert (PA : 0 < A) by nra. assert (PB : 0 < B) by nra.
  assert (AB : A + B < 1) by nra.
  assert (Ends : forall x, x ∈ two_states -> pass_end W_flat p two_states x m_26 + pass_end W_flat p two_states x m_62 = 1).
  { intros x I. rewrite <- (proj2 (pass_probability W_flat p VP two_states ND Cor Cl x I)). unfold two_states, sum_on. cbn [map fold_right]. ring. }
  pose proof (Ends m_26 I1) as T1. pose proof (Ends m_62 I2) as T2. fold A in T1. fold B in T2.
  exists A, B. split; [exact PA|]. split; [exact PB|]. split; [exact AB|]. split; [reflexivity|]. split; [reflexivity|].
  assert (D1 : ends_at A B m_26 = B / (A + B)) by (unfold ends_at; rewrite decide_True by reflexivity; reflexivity).
  assert (D2 : ends_at A B m_62 = A / (A + B)) by (unfold ends_at; rewrite decide_False by congruence; reflexivity).
  split; [|split; [|split]].
  - intros y Iy. unfold two_states at 2, sum_on. cbn [map fold_right]. rewrite D1, D2.
    apply elem_of_cons in Iy as [->|Iy]; [|apply elem_of_list_singleton in Iy as ->].
    + rewrite D1. fold B. replace (pass_end W_flat p two_states m_26 m_26) with (1 - A) by lra. field. lra.
    + rewrite D2. fold A. replace (pass_end W_flat p two_states m_62 m_62) with (1 - B) by lra. field. lra.
  - unfold two_states, sum_on. cbn [map fold_right]. rewrite D1, D2. field. lra.
  - intros eps Pe. destruct (two_limit m_26 m_62 Ne (pass_end W_flat p two_states) A B eq_refl eq_refl ltac:(lra) ltac:(lra) ltac:(lra)) with (eps := eps) as [N H].
    + rewrite Rabs_right; lra.
    + exact Pe.
    + exists N. intros n x y Hn Ix Iy. rewrite passes_steps. exact (H n x y Hn Ix Iy).
  - rewrite D2. assert (Eq : equilibrium W_flat p two_states m_62 = a / (a + b)).
    { unfold equilibrium, two_states, sum_on. cbn [map fold_right]. rewrite Rplus_0_r.
      clear - W1 W2 Pa Pb Bal. revert W1 W2 Bal. generalize (weight W_flat p m_26) as w1, (weight W_flat p m_62) as w2. intros w1 w2 W1 W2 Bal.
      assert (Z : w2 * (a + b) = a * (w1 + w2)) by lra.
      apply (Rmult_eq_reg_r (a + b)); [|lra]. replace (a / (a + b) * (a + b)) with a by (field; lra).
      replace (w2 / (w1 + w2) * (a + b)) with (w2 * (a + b) / (w1 + w2)) by (field; lra). rewrite Z. field. lra. }
    rewrite Eq. apply (Rmult_lt_reg_r ((A + B) * (a + b))); [nra|].
    replace (A / (A + B) * ((A + B) * (a + b))) with (A * (a + b)) by (field; lra).
    replace (a / (a + b) * ((A + B) * (a + b))) with (a * (A + B)) by (field; lra).
    assert (Z : A * b < a * B).
    { apply (Rmult_lt_reg_r (a + b)); [lra|]. replace (A * b * (a + b)) with (b * (A * (a + b))) by ring.
      replace (a * B * (a + b)) with (a * (B * (a + b))) by ring. rewrite As, Bs.
      replace (b * (a * (1 - q ^ 2))) with (a * b * (1 - q ^ 2)) by ring. replace (a * (b * (1 - q ^ 6))) with (a * b * (1 - q ^ 6)) by ring.
      apply Rmult_lt_compat_l; [apply Rmult_lt_0_compat; assumption|lra]. }
    lra.
Qed.
Lemma two_ends p : valid_parameters p -> exists nu,
  (forall y, y ∈ two_states -> sum_on (fun x => nu x * pass_end W_flat p two_states x y) two_states = nu y) /\
  sum_on nu two_states = 1 /\
  (forall eps, 0 < eps -> exists N, forall n x y, (N <= n)%nat -> x ∈ two_states -> y ∈ two_states ->
     Rabs (passes_end W_flat p two_states n x y - nu y) < eps) /\
  0 < nu m_62 < equilibrium W_flat p two_states m_62.
Proof.
  intros VP. destruct (two_passes p VP) as (A & B & PA & PB & _ & _ & _ & St & S1 & Lim & Lt). exists (ends_at A B).
  split; [exact St|]. split; [exact S1|]. split; [exact Lim|]. split; [|exact Lt].
  unfold ends_at. rewrite decide_False; [apply Rdiv_lt_0_compat; lra|]. refine (bool_decide_unpack _ _). vm_compute. exact I.
Qed.

(** Two manifolds with the same number of simplices, a (4,4) move apart. *)
Definition two_level : list manifold := [m_44; m_44'].
Definition steps_to (W : world) (m m' : manifold) (k : MoveType) : bool :=
  existsb (fun i => match candidate W i m k with Moved x => bool_decide (x = m') && check_move W m x k | _ => false end) (List.seq 0 (indices W m k)).
Lemma steps_to_spec W p m m' k : valid_parameters p -> valid (m_cells m) -> steps_to W m m' k = true -> 0 < step_probability W p m m'.
Proof.
  intros VP V H. apply existsb_exists in H as (i & Hi & H). apply in_seq in Hi.
  apply (possible_step W p m m' VP V). exists k, i. split; [lia|]. destruct (candidate W i m k) as [x| |]; try discriminate.
  apply andb_true_iff in H as [E C]. apply bool_decide_eq_true in E. subst x. auto.
Qed.
Lemma pair_chain W p u v : u <> v -> 0 < step_probability W p u v -> 0 < step_probability W p v u ->
  (forall x, 0 < step_probability W p u x -> x = v) -> (forall x, 0 < step_probability W p v x -> x = u) ->
  NoDup [u; v] /\ closed W p [u; v] /\ two_way W p [u; v] /\ linked W p [u; v].
Proof.
  intros Ne P1 P2 N1 N2.
  assert (Z : forall x, x ∈ [u; v] -> x = u \/ x = v).
  { intros x H. apply elem_of_cons in H as [->|H]; [auto|]. apply elem_of_list_singleton in H. auto. }
  split; [constructor; [|constructor; [apply not_elem_of_nil|constructor]]; intros H; apply elem_of_list_singleton in H; exact (Ne H)|].
  split; [|split].
  - intros m m' H Q. destruct (Z m H) as [-> | ->].
    + rewrite (N1 m' Q). apply elem_of_list_further, elem_of_list_here.
    + rewrite (N2 m' Q). apply elem_of_list_here.
  - intros m m' H H'. destruct (Z m H) as [-> | ->], (Z m' H') as [-> | ->]; tauto.
  - intros m m' H H'. destruct (Z m H) as [-> | ->], (Z m' H') as [-> | ->]; try apply rtc_refl; apply rtc_once; assumption.
Qed.
Lemma two_level_chain p : valid_parameters p ->
  NoDup two_level /\ (forall x, x ∈ two_level -> is_structurally_correct W_44 x = true) /\
  closed W_44 p two_level /\ two_way W_44 p two_level /\ linked W_44 p two_level /\
  0 < kernel W_44 p m_44 m_44 /\ (forall x, x ∈ two_level -> pass_length W_44 x = 4%nat).
Proof.
  intros VP.
  assert (Ne : m_44 <> m_44') by (refine (bool_decide_unpack _ _); vm_compute; exact I).
  assert (S : is_structurally_correct W_44 m_44 = true) by (vm_compute; reflexivity).
  assert (S' : is_structurally_correct W_44 m_44' = true) by (vm_compute; reflexivity).
  assert (V : valid (m_cells m_44)) by (apply (correct_valid W_44), S).
  assert (V' : valid (m_cells m_44')) by (apply (correct_valid W_44), S').
  assert (P1 : 0 < step_probability W_44 p m_44 m_44') by (apply (steps_to_spec _ _ _ _ FOUR_FOUR VP V); vm_compute; reflexivity).
  assert (P2 : 0 < step_probability W_44 p m_44' m_44) by (apply (steps_to_spec _ _ _ _ FOUR_FOUR VP V'); vm_compute; reflexivity).
  assert (O1 : outcomes W_44 m_44 = [m_44']) by (refine (bool_decide_unpack _ _); vm_compute; exact I).
  assert (O2 : outcomes W_44 m_44' = [m_44]) by (refine (bool_decide_unpack _ _); vm_compute; exact I).
  assert (L1 : pass_length W_44 m_44 = 4%nat) by (vm_compute; reflexivity).
  assert (L2 : pass_length W_44 m_44' = 4%nat) by (vm_compute; reflexivity).
  assert (Z : forall x, x ∈ two_level -> x = m_44 \/ x = m_44').
  { intros x H. apply elem_of_cons in H as [->|H]; [auto|]. apply elem_of_list_singleton in H. auto. }
  assert (N1 : forall x, 0 < step_probability W_44 p m_44 x -> x = m_44').
  { intros x H. apply (step_outcome W_44 p VP m_44 x V) in H. rewrite O1 in H. apply elem_of_list_singleton in H. exact H. }
  assert (N2 : forall x, 0 < step_probability W_44 p m_44' x -> x = m_44).
  { intros x H. apply (step_outcome W_44 p VP m_44' x V') in H. rewrite O2 in H. apply elem_of_list_singleton in H. exact H. }
  destruct (pair_chain W_44 p m_44 m_44' Ne P1 P2 N1 N2) as (A & B & C & D).
  split; [exact A|]. split; [intros x H; destruct (Z x H) as [E|E]; rewrite E; [exact S|exact S']|].
  split; [exact B|]. split; [exact C|]. split; [exact D|]. split.
  - apply (Rlt_le_trans _ (1 / 5)); [lra|]. apply (idle_kind W_44 p VP m_44 TWO_THREE V); [left; reflexivity|].
    intros i x Hi. assert (E : indices W_44 m_44 TWO_THREE = 0%nat) by (vm_compute; reflexivity). lia.
  - intros x H. destruct (Z x H) as [E|E]; rewrite E; [exact L1|exact L2].
Qed.
