(** Reversible Markov chains on a finite set, and the program's. *)
From Verif Require Import Base Tracker Command Run Geom Metropolis Simplex Pachner Foliation Moves Links MoveSpec Manifold ManifoldMoves MoveProps Samples SampleFacts Undo Mp Action Acceptance HastingsError KernelSpec KernelFacts KernelProps KernelBalance KernelStep ChainSpec.
From stdpp Require Import fin_sets gmap sorting relations.
From Verif Require Import Base Foliation Metropolis.
From Coq Require Import Reals Lra.
Local Open Scope R_scope.

(** ** Sums *)
Section Sums.
  Context {A : Type}.
  Implicit Types (f g : A -> R) (X : list A).
  Lemma sum_on_cons f x X : sum_on f (x :: X) = f x + sum_on f X.
  Proof using. reflexivity. Qed.
  Lemma sum_on_ext f g X : (forall x, x ∈ X -> f x = g x) -> sum_on f X = sum_on g X.
  Proof using.
    intros H. induction X as [|x X IH]; [reflexivity|]. rewrite !sum_on_cons, H by apply elem_of_list_here.
    rewrite IH; [reflexivity|]. intros y Hy. apply H, elem_of_list_further, Hy.
  Qed.
  Lemma sum_on_scale f c X : sum_on (fun x => c * f x) X = c * sum_on f X.
  Proof using. induction X as [|x X IH]; [cbn; ring|]. rewrite !sum_on_cons, IH. ring. Qed.
  Lemma sum_on_scale_r f c X : sum_on (fun x => f x * c) X = sum_on f X * c.
  Proof using. induction X as [|x X IH]; [cbn; ring|]. rewrite !sum_on_cons, IH. ring. Qed.
  Lemma sum_on_plus f g X : sum_on (fun x => f x + g x) X = sum_on f X + sum_on g X.
  Proof using. induction X as [|x X IH]; [cbn; ring|]. rewrite !sum_on_cons, IH. ring. Qed.
  Lemma sum_on_le f g X : (forall x, x ∈ X -> f x <= g x) -> sum_on f X <= sum_on g X.
  Proof using.
    intros H. induction X as [|x X IH]; [cbn; lra|]. rewrite !sum_on_cons. apply Rplus_le_compat; [apply H, elem_of_list_here|].
    apply IH. intros y Hy. apply H, elem_of_list_further, Hy.
  Qed.
  Lemma sum_on_zero f X : (forall x, x ∈ X -> f x = 0) -> sum_on f X = 0.
  Proof using. intros H. rewrite (sum_on_ext f (fun _ => 0) X H). induction X as [|x X IH]; [reflexivity|]. rewrite sum_on_cons, IH; [ring|]. intros y Hy. apply H, elem_of_list_further, Hy. Qed.
  Lemma sum_on_nonneg f X : (forall x, x ∈ X -> 0 <= f x) -> 0 <= sum_on f X.
  Proof using. intros H. rewrite <- (sum_on_zero (fun _ => 0) X) by reflexivity. apply sum_on_le, H. Qed.
  Lemma sum_on_swap {B} (f : A -> B -> R) X (Y : list B) :
    sum_on (fun a => sum_on (f a) Y) X = sum_on (fun b => sum_on (fun a => f a b) X) Y.
  Proof using. apply rsum_swap. Qed.
  (** A term of a sum of nonnegative terms. *)
  Lemma sum_on_term f X x : (forall y, y ∈ X -> 0 <= f y) -> x ∈ X -> f x <= sum_on f X.
  Proof using.
    intros H I. induction X as [|y X IH]; [apply elem_of_nil in I; destruct I|]. rewrite sum_on_cons.
    assert (HX : forall z, z ∈ X -> 0 <= f z) by (intros z Hz; apply H, elem_of_list_further, Hz).
    pose proof (H y (elem_of_list_here _ _)). apply elem_of_cons in I as [->|I].
    - pose proof (sum_on_nonneg f X HX). lra.
    - specialize (IH HX I). lra.
  Qed.
  Lemma sum_on_positive_term f X : (forall y, y ∈ X -> 0 <= f y) -> 0 < sum_on f X -> exists x, x ∈ X /\ 0 < f x.
  Proof using.
    intros H P. induction X as [|y X IH]; [cbn in P; lra|]. rewrite sum_on_cons in P.
    destruct (Rlt_dec 0 (f y)) as [L|L]; [exists y; split; [apply elem_of_list_here|exact L]|].
    destruct IH as (x & I & Q); [intros z Hz; apply H, elem_of_list_further, Hz|lra|].
    exists x. split; [apply elem_of_list_further, I|exact Q].
  Qed.
  Lemma sum_on_zero_terms f X : (forall y, y ∈ X -> 0 <= f y) -> sum_on f X = 0 -> forall x, x ∈ X -> f x = 0.
  Proof using. intros H E x I. pose proof (sum_on_term f X x H I). specialize (H x I). lra. Qed.
  Context `{EqDecision A}.
  Lemma sum_on_at f X x : NoDup X -> x ∈ X -> sum_on (fun y => if decide (y = x) then f y else 0) X = f x.
  Proof using.
    intros ND I. induction ND as [|y X N ND IH]; [apply elem_of_nil in I; destruct I|]. rewrite sum_on_cons.
    apply elem_of_cons in I as [->|I].
    - rewrite decide_True by reflexivity. rewrite sum_on_zero; [ring|]. intros z Hz. rewrite decide_False; [reflexivity|]. intros ->. contradiction.
    - rewrite decide_False by (intros ->; contradiction). rewrite IH by exact I. ring.
  Qed.
  Lemma sum_on_at' f X x : NoDup X -> x ∈ X -> sum_on (fun y => if decide (x = y) then f y else 0) X = f x.
  Proof using.
    intros ND I. rewrite <- (sum_on_at f X x ND I). apply sum_on_ext. intros y _. destruct (decide (x = y)), (decide (y = x)); congruence.
  Qed.
  (** Sums over two lists with the same nonzero terms. *)
  Lemma sum_on_support f X Y : NoDup X -> NoDup Y -> (forall x, f x <> 0 -> x ∈ X <-> x ∈ Y) -> sum_on f X = sum_on f Y.
  Proof using EqDecision0.
    intros NX NY S.
    transitivity (sum_on (fun x => sum_on (fun y => if decide (y = x) then f y else 0) Y) X).
    - apply sum_on_ext. intros x I. destruct (decide (x ∈ Y)) as [J|J]; [rewrite sum_on_at by assumption; reflexivity|].
      destruct (Req_dec (f x) 0) as [E|E]; [|exfalso; apply J, S; assumption]. rewrite E. symmetry. apply sum_on_zero.
      intros y Hy. rewrite decide_False; [reflexivity|]. intros ->. contradiction.
    - rewrite sum_on_swap. apply sum_on_ext. intros y I. destruct (decide (y ∈ X)) as [J|J].
      + exact (sum_on_at' (fun _ => f y) X y NX J).
      + destruct (Req_dec (f y) 0) as [E|E]; [|exfalso; apply J, S; assumption]. rewrite E. apply sum_on_zero.
        intros x _. destruct (decide (y = x)); reflexivity.
  Qed.
End Sums.

(** ** Reversible chains *)
Section Reversible.
  Context {A : Type} `{EqDecision A}.
  Variable X : list A.
  Hypothesis NX : NoDup X.
  Variable K : A -> A -> R.
  Variable w : A -> R.
  Hypothesis Knonneg : forall x y, x ∈ X -> y ∈ X -> 0 <= K x y.
  Hypothesis Kone : forall x, x ∈ X -> sum_on (K x) X = 1.
  Hypothesis wpos : forall x, x ∈ X -> 0 < w x.
  Hypothesis balance : forall x y, x ∈ X -> y ∈ X -> w x * K x y = w y * K y x.

  Fixpoint steps (n : nat) (x y : A) : R :=
    match n with O => if decide (x = y) then 1 else 0 | S n => sum_on (fun z => K x z * steps n z y) X end.

  Lemma stationary y : y ∈ X -> sum_on (fun x => w x * K x y) X = w y.
  Proof using balance Kone.
    intros I. rewrite (sum_on_ext _ (fun x => w y * K y x)) by (intros x J; apply balance; assumption).
    rewrite sum_on_scale, Kone by exact I. ring.
  Qed.
  Lemma sum_positive_w x : x ∈ X -> 0 < sum_on w X.
  Proof using wpos.
    intros I. apply (Rlt_le_trans _ (w x)); [apply wpos, I|]. apply sum_on_term; [|exact I]. intros y J. apply Rlt_le, wpos, J.
  Qed.

  (** Harmonic functions are constant on linked states. *)
  Lemma maximum (h : A -> R) x0 : x0 ∈ X -> exists x, x ∈ X /\ forall y, y ∈ X -> h y <= h x.
  Proof using.
    clear. intros I. assert (N : X <> []) by (intros ->; apply elem_of_nil in I; exact I). clear I. induction X as [|a l IH]; [contradiction|]. destruct l as [|b l].
    - exists a. split; [apply elem_of_list_here|]. intros y J. apply elem_of_list_singleton in J as ->. lra.
    - destruct IH as (x & J & M); [discriminate|]. destruct (Rle_dec (h x) (h a)) as [L|L].
      + exists a. split; [apply elem_of_list_here|]. intros y Q. apply elem_of_cons in Q as [->|Q]; [lra|]. specialize (M y Q). lra.
      + exists x. split; [apply elem_of_list_further, J|]. intros y Q. apply elem_of_cons in Q as [->|Q]; [lra|]. apply M, Q.
  Qed.
  Lemma harmonic (h : A -> R) : (forall x, x ∈ X -> h x = sum_on (fun y => K x y * h y) X) ->
    (forall x y, x ∈ X -> y ∈ X -> rtc (fun a b => b ∈ X /\ 0 < K a b) x y) ->
    forall x y, x ∈ X -> y ∈ X -> h x = h y.
  Proof using Knonneg Kone.
    intros H L. assert (T : forall x0, x0 ∈ X -> exists t, t ∈ X /\ forall y, y ∈ X -> h y = h t).
    { intros x0 I0. destruct (maximum h x0 I0) as (t & I & M). exists t. split; [exact I|]. intros y J.
      assert (Step : forall a b, a ∈ X -> b ∈ X -> 0 < K a b -> h a = h t -> h b = h t).
      { intros a b Ia Ib P E.
        assert (Z : sum_on (fun z => K a z * (h t - h z)) X = 0).
        { rewrite (sum_on_ext _ (fun z => h t * K a z + (-1) * (K a z * h z))) by (intros; ring).
          rewrite sum_on_plus, !sum_on_scale, Kone, <- H by exact Ia. rewrite E. ring. }
        pose proof (sum_on_zero_terms (fun z => K a z * (h t - h z)) X) as Q.
        assert (E2 : K a b * (h t - h b) = 0).
        { apply Q; [|exact Z|exact Ib]. intros z Iz. apply Rmult_le_pos; [apply Knonneg; assumption|]. specialize (M z Iz). lra. }
        apply Rmult_integral in E2 as [E2|E2]; lra. }
      assert (Gen : forall a c, rtc (fun a b => b ∈ X /\ 0 < K a b) a c -> a ∈ X -> h a = h t -> h c = h t).
      { intros a c Ra. induction Ra as [a|a b c [Ib P] Rb IH]; intros Ia E; [exact E|]. apply IH; [exact Ib|]. exact (Step a b Ia Ib P E). }
      exact (Gen t y (L t y I J) I eq_refl). }
    intros x y Ix Iy. destruct (T x Ix) as (t & _ & C). rewrite (C x Ix), (C y Iy). reflexivity.
  Qed.

  Lemma unique (mu : A -> R) : (forall x y, x ∈ X -> y ∈ X -> rtc (fun a b => b ∈ X /\ 0 < K a b) x y) ->
    sum_on mu X = 1 -> (forall y, y ∈ X -> sum_on (fun x => mu x * K x y) X = mu y) ->
    forall x, x ∈ X -> mu x = w x / sum_on w X.
  Proof using Knonneg Kone wpos balance.
    intros L S1 St x Ix. set (h := fun x => mu x / w x).
    assert (Mh : forall z, z ∈ X -> mu z = w z * h z) by (intros z Iz; unfold h; pose proof (wpos z Iz); field; lra).
    assert (H : forall y, y ∈ X -> h y = sum_on (fun z => K y z * h z) X).
    { intros y Iy. unfold h at 1. rewrite <- (St y Iy). rewrite (sum_on_ext _ (fun z => w y * (K y z * h z))).
      - rewrite sum_on_scale. pose proof (wpos y Iy). field. lra.
      - intros z Iz. rewrite (Mh z Iz). transitivity (h z * (w z * K z y)); [ring|]. rewrite (balance z y Iz Iy). ring. }
    pose proof (harmonic h H L) as C. assert (E : sum_on mu X = h x * sum_on w X).
    { rewrite <- sum_on_scale. apply sum_on_ext. intros z Iz. rewrite (Mh z Iz), (C z x Iz Ix). ring. }
    rewrite (Mh x Ix). rewrite S1 in E. pose proof (sum_positive_w x Ix) as P.
    assert (Eh : h x = 1 / sum_on w X) by (rewrite E; field; lra). rewrite Eh. field. lra.
  Qed.

  (** Several steps. *)
  Lemma steps_nonneg n x y : x ∈ X -> y ∈ X -> 0 <= steps n x y.
  Proof using Knonneg.
    revert x. induction n as [|n IH]; intros x Ix Iy; cbn [steps]; [destruct (decide (x = y)); lra|].
    apply sum_on_nonneg. intros z Iz. apply Rmult_le_pos; [apply Knonneg; assumption|apply IH; assumption].
  Qed.
  Lemma steps_one n x : x ∈ X -> sum_on (steps n x) X = 1.
  Proof using NX Kone.
    revert x. induction n as [|n IH]; intros x Ix; cbn [steps].
    - exact (sum_on_at' (fun _ => 1) X x NX Ix).
    - rewrite sum_on_swap. rewrite (sum_on_ext _ (fun z => K x z)); [apply Kone, Ix|].
      intros z Iz. rewrite sum_on_scale, IH by exact Iz. ring.
  Qed.
  Lemma steps_add a b x y : x ∈ X -> steps (a + b) x y = sum_on (fun z => steps a x z * steps b z y) X.
  Proof using NX.
    revert x. induction a as [|a IH]; intros x Ix; cbn [steps Nat.add].
    - rewrite (sum_on_ext _ (fun z => if decide (x = z) then steps b z y else 0)); [|intros z _; destruct (decide (x = z)); ring].
      symmetry. exact (sum_on_at' (fun z => steps b z y) X x NX Ix).
    - rewrite (sum_on_ext _ (fun z => sum_on (fun u => K x z * (steps a z u * steps b u y)) X))
        by (intros z Iz; rewrite IH, sum_on_scale by exact Iz; reflexivity).
      rewrite sum_on_swap. apply sum_on_ext. intros u _. rewrite <- sum_on_scale_r. apply sum_on_ext. intros z _. ring.
  Qed.
  Lemma steps_stationary n y : y ∈ X -> sum_on (fun x => w x * steps n x y) X = w y.
  Proof using NX balance Kone.
    intros Iy. induction n as [|n IH]; cbn [steps].
    - rewrite (sum_on_ext _ (fun x => if decide (x = y) then w x else 0)); [apply sum_on_at; assumption|].
      intros x _. destruct (decide (x = y)); ring.
    - rewrite (sum_on_ext _ (fun x => sum_on (fun z => w x * (K x z * steps n z y)) X)) by (intros x _; rewrite sum_on_scale; reflexivity).
      rewrite sum_on_swap. rewrite <- IH. apply sum_on_ext. intros z Iz. rewrite <- (stationary z Iz), <- sum_on_scale_r.
      apply sum_on_ext. intros x _. ring.
  Qed.

  (** A state with a chance of staying is reached from everywhere in one number of
      steps. *)
  Lemma reach_longer m0 n x : m0 ∈ X -> 0 < K m0 m0 -> x ∈ X -> 0 < steps n x m0 -> 0 < steps (S n) x m0.
  Proof using Knonneg NX.
    intros I0 P0. revert x. induction n as [|n IH]; intros x Ix P.
    - cbn [steps] in P. destruct (decide (x = m0)) as [->|]; [|lra]. cbn [steps].
      apply (Rlt_le_trans _ (K m0 m0 * 1)); [lra|].
      pose proof (sum_on_term (fun z => K m0 z * (if decide (z = m0) then 1 else 0)) X m0) as T. cbn beta in T.
      rewrite decide_True in T by reflexivity. apply T; [|exact I0].
      intros y Iy. apply Rmult_le_pos; [apply Knonneg; assumption|]. destruct (decide (y = m0)); lra.
    - cbn [steps] in P. apply sum_on_positive_term in P as (z & Iz & P).
      2: { intros y Iy. apply Rmult_le_pos; [apply Knonneg; assumption|apply steps_nonneg; assumption]. }
      pose proof (Knonneg x z Ix Iz) as Kp. pose proof (steps_nonneg n z m0 Iz I0) as Sp.
      assert (Q : 0 < steps n z m0) by (destruct Sp as [Q|E]; [exact Q|rewrite <- E in P; lra]).
      assert (Kq : 0 < K x z) by (destruct Kp as [Q'|E]; [exact Q'|rewrite <- E in P; lra]).
      specialize (IH z Iz Q). change (0 < sum_on (fun z => K x z * steps (S n) z m0) X).
      apply (Rlt_le_trans _ (K x z * steps (S n) z m0)); [apply Rmult_lt_0_compat; assumption|].
      apply (sum_on_term (fun z => K x z * steps (S n) z m0)); [|exact Iz].
      intros y Iy. apply Rmult_le_pos; [apply Knonneg; assumption|apply steps_nonneg; assumption].
  Qed.
  Lemma reach_one m0 x : m0 ∈ X -> x ∈ X -> rtc (fun a b => b ∈ X /\ 0 < K a b) x m0 -> exists n, 0 < steps n x m0.
  Proof using Knonneg.
    intros I0 Ix R0. induction R0 as [x|x y z [Iy P] R0 IH].
    - exists 0%nat. cbn. rewrite decide_True by reflexivity. lra.
    - destruct (IH I0 Iy) as [n Q]. exists (S n). cbn [steps].
      apply (Rlt_le_trans _ (K x y * steps n y z)); [apply Rmult_lt_0_compat; assumption|].
      apply (sum_on_term (fun u => K x u * steps n u z)); [|exact Iy].
      intros u Iu. apply Rmult_le_pos; [apply Knonneg; assumption|apply steps_nonneg; assumption].
  Qed.
  Lemma reach_more m0 x a b : m0 ∈ X -> 0 < K m0 m0 -> x ∈ X -> (a <= b)%nat -> 0 < steps a x m0 -> 0 < steps b x m0.
  Proof using Knonneg NX. intros I0 P0 Ix Hab P. induction Hab as [|b Hb IH]; [exact P|]. apply reach_longer; assumption. Qed.
  Lemma reach_all m0 : m0 ∈ X -> 0 < K m0 m0 -> (forall x, x ∈ X -> rtc (fun a b => b ∈ X /\ 0 < K a b) x m0) ->
    exists n d, 0 < d /\ forall x, x ∈ X -> d <= steps n x m0.
  Proof using Knonneg NX.
    intros I0 P0 L.
    assert (N : forall Y : list A, (forall x, x ∈ Y -> x ∈ X) -> exists n, forall x, x ∈ Y -> 0 < steps n x m0).
    { intros Y. induction Y as [|y Y IH]; intros Sub; [exists 0%nat; intros x J; apply elem_of_nil in J; destruct J|].
      destruct IH as [n Hn]; [intros x J; apply Sub, elem_of_list_further, J|].
      assert (Iy : y ∈ X) by apply Sub, elem_of_list_here.
      destruct (reach_one m0 y I0 Iy (L y Iy)) as [k Hk]. exists (Nat.max n k). intros x J. apply elem_of_cons in J as [->|J].
      - apply (reach_more m0 y k); [assumption..|lia|assumption].
      - apply (reach_more m0 x n); [assumption..|apply Sub, elem_of_list_further, J|lia|apply Hn, J]. }
    destruct (N X (fun x J => J)) as [n Hn]. exists n.
    assert (D : forall Y : list A, (forall x, x ∈ Y -> 0 < steps n x m0) -> exists d, 0 < d /\ forall x, x ∈ Y -> d <= steps n x m0).
    { intros Y. induction Y as [|y Y IH]; intros H; [exists 1; split; [lra|intros x J; apply elem_of_nil in J; destruct J]|].
      destruct IH as (d & Pd & Hd); [intros x J; apply H, elem_of_list_further, J|].
      exists (Rmin d (steps n y m0)). split; [apply Rmin_glb_lt; [exact Pd|apply H, elem_of_list_here]|].
      intros x J. apply elem_of_cons in J as [->|J]; [apply Rmin_r|]. apply (Rle_trans _ d); [apply Rmin_l|apply Hd, J]. }
    exact (D X Hn).
  Qed.

  (** Convergence. *)
  Definition within_bounds (y : A) (n : nat) (a b : R) : Prop := forall x, x ∈ X -> a <= steps n x y <= b.
  Lemma average (p f : A -> R) a b : (forall z, z ∈ X -> 0 <= p z) -> sum_on p X = 1 -> (forall z, z ∈ X -> a <= f z <= b) ->
    a <= sum_on (fun z => p z * f z) X <= b.
  Proof using.
    intros Pp P1 F. split.
    - rewrite <- (Rmult_1_r a), <- P1, <- sum_on_scale. apply sum_on_le. intros z Iz. specialize (Pp z Iz). specialize (F z Iz). nra.
    - rewrite <- (Rmult_1_r b), <- P1, <- sum_on_scale. apply sum_on_le. intros z Iz. specialize (Pp z Iz). specialize (F z Iz). nra.
  Qed.
  Lemma bounds_more y n k a b : within_bounds y n a b -> within_bounds y (k + n) a b.
  Proof using Knonneg Kone NX.
    intros B. destruct (decide (y ∈ X)) as [Iy|Ny].
    - intros x Ix. rewrite steps_add by exact Ix. apply average; [|apply steps_one, Ix|intros z Iz; apply B, Iz].
      intros z Iz. apply steps_nonneg; assumption.
    - intros x Ix. rewrite steps_add by exact Ix. apply average; [|apply steps_one, Ix|intros z Iz; apply B, Iz].
      intros z Iz. apply steps_nonneg; assumption.
  Qed.
  Lemma bounds_closer m0 N d y n a b : m0 ∈ X -> 0 < d -> (forall x, x ∈ X -> d <= steps N x m0) -> within_bounds y n a b ->
    exists a' b', within_bounds y (N + n) a' b' /\ b' - a' = (1 - d) * (b - a).
  Proof using Knonneg Kone NX.
    intros I0 Pd Hd B. set (c := steps n m0 y). assert (Hc : a <= c <= b) by apply B, I0.
    exists (a + d * (c - a)), (b - d * (b - c)). split; [|ring]. intros x Ix. rewrite steps_add by exact Ix.
    pose proof (Hd x Ix) as Dx. set (q := steps N x m0) in *.
    assert (Low : 0 <= sum_on (fun z => steps N x z * (steps n z y - a) ) X - q * (c - a)).
    { pose proof (sum_on_term (fun z => steps N x z * (steps n z y - a)) X m0) as T. cbn beta in T. fold q c in T.
      enough (q * (c - a) <= sum_on (fun z => steps N x z * (steps n z y - a)) X) by lra. apply T; [|exact I0].
      intros z Iz. apply Rmult_le_pos; [apply steps_nonneg; assumption|]. specialize (B z Iz). lra. }
    assert (High : 0 <= sum_on (fun z => steps N x z * (b - steps n z y) ) X - q * (b - c)).
    { pose proof (sum_on_term (fun z => steps N x z * (b - steps n z y)) X m0) as T. cbn beta in T. fold q c in T.
      enough (q * (b - c) <= sum_on (fun z => steps N x z * (b - steps n z y)) X) by lra. apply T; [|exact I0].
      intros z Iz. apply Rmult_le_pos; [apply steps_nonneg; assumption|]. specialize (B z Iz). lra. }
    rewrite (sum_on_ext _ (fun z => steps N x z * steps n z y + (- a) * steps N x z)) in Low by (intros; ring).
    rewrite (sum_on_ext _ (fun z => b * steps N x z + (-1) * (steps N x z * steps n z y))) in High by (intros; ring).
    rewrite sum_on_plus, sum_on_scale, steps_one in Low by exact Ix.
    rewrite sum_on_plus, !sum_on_scale, steps_one in High by exact Ix.
    split; nra.
  Qed.
  Lemma bounds_target y n a b : y ∈ X -> within_bounds y n a b -> a <= w y / sum_on w X <= b.
  Proof using Kone NX balance wpos.
    intros Iy B. pose proof (sum_positive_w y Iy) as P.
    assert (E : w y / sum_on w X = sum_on (fun x => w x / sum_on w X * steps n x y) X).
    { rewrite <- (steps_stationary n y Iy) at 1. unfold Rdiv. rewrite <- sum_on_scale_r. apply sum_on_ext. intros; ring. }
    rewrite E. apply average; [|unfold Rdiv; rewrite sum_on_scale_r; field; lra|intros z Iz; apply B, Iz].
    intros z Iz. apply Rlt_le, Rdiv_lt_0_compat; [apply wpos, Iz|exact P].
  Qed.
  Lemma converges m0 : m0 ∈ X -> 0 < K m0 m0 -> (forall x, x ∈ X -> rtc (fun a b => b ∈ X /\ 0 < K a b) x m0) ->
    forall eps, 0 < eps -> exists N, forall n x y, (N <= n)%nat -> x ∈ X -> y ∈ X -> Rabs (steps n x y - w y / sum_on w X) < eps.
  Proof using Knonneg Kone NX balance wpos.
    intros I0 P0 L eps Pe. destruct (reach_all m0 I0 P0 L) as (N & d & Pd & Hd).
    assert (D1 : d <= 1).
    { apply (Rle_trans _ (steps N m0 m0)); [apply Hd, I0|]. rewrite <- (steps_one N m0 I0).
      apply (sum_on_term (steps N m0)); [|exact I0]. intros z Iz. apply steps_nonneg; assumption. }
    assert (B : forall k y, y ∈ X -> exists a b, within_bounds y (k * N) a b /\ b - a = (1 - d) ^ k).
    { intros k y Iy. induction k as [|k (a & b & B & E)].
      - exists 0, 1. split; [|cbn; ring]. intros x _. cbn. destruct (decide (x = y)); lra.
      - destruct (bounds_closer m0 N d y _ a b I0 Pd Hd B) as (a' & b' & B' & E'). exists a', b'. split; [exact B'|].
        rewrite E', E. cbn. ring. }
    destruct (pow_lt_1_zero (1 - d)) with (y := eps) as [k Hk]; [rewrite Rabs_right by lra; lra|lra|].
    exists (k * N)%nat. intros n x y Hn Ix Iy. destruct (B k y Iy) as (a & b & Bk & E).
    assert (Bn : within_bounds y n a b).
    { replace n with ((n - k * N) + k * N)%nat by lia. apply bounds_more, Bk. }
    pose proof (Bn x Ix) as S1. pose proof (bounds_target y n a b Iy Bn) as S2. specialize (Hk k (le_n k)).
    rewrite <- E, Rabs_right in Hk by lra. apply Rabs_def1; lra.
  Qed.
End Reversible.
