(** Every legal bistellar move keeps the stars of all faces joined. *)
From Verif Require Import Base Simplex Pachner Moves Links StarSpec.
From stdpp Require Import fin_sets gmap.
Local Open Scope Z_scope.

Lemma joined_trans T s a b c : joined T s a b -> joined T s b c -> joined T s a c.
Proof. induction 1; intros H'; [exact H'|]. eapply joined_step; eauto. Qed.

Lemma joined_one T s c f n : n ∈ T -> s ⊆ f -> size f = 3%nat -> f ⊆ c -> f ⊆ n -> joined T s c n.
Proof. intros. eapply joined_step; eauto. constructor. Qed.

Lemma joined_sym T s a b : a ∈ T -> joined T s a b -> joined T s b a.
Proof.
  intros Ha H. induction H as [c|c f n c' Hn Hs Hf Hc Hn' _ IH]; [constructor|].
  eapply joined_trans; [exact (IH Hn)|]. apply (joined_one _ _ _ f); assumption.
Qed.

Section Pachner.
  Variable T : tds.
  Variables lU lV : list vertex.
  Hypothesis HP : pure T.
  Hypothesis HC : closed T.
  Hypothesis ok : pachner_ok T lU lV.
  Hypothesis HJ : joined_stars T.
  Let B := lU ++ lV.
  Let V := of_list lV.
  Let T' := pachner T lU lV.

  Let two x y : simplex := omit B x ∖ {[y]}.
  Lemma two_size x y : x ∈ B -> y ∈ B -> x <> y -> size (two x y) = 3%nat.
  Proof using ok.
    intros Hx Hy Hxy. unfold two. rewrite size_difference.
    - rewrite size_singleton, omit_size by (exact (po_nodup _ _ _ ok) || exact Hx).
      unfold B. rewrite (po_five _ _ _ ok). reflexivity.
    - intros k Hk. apply elem_of_singleton in Hk as ->. apply elem_of_omit. auto.
  Qed.

  Lemma added_in x : x ∈ lV -> omit B x ∈ T'.
  Proof using ok. intros Hx. apply (elem_of_pachner _ _ _ ok). right. eauto. Qed.

  (** The new cells containing [s] are pairwise adjacent. *)
  Lemma added_joined s x y : s ⊆ of_list B -> x ∈ lV -> y ∈ lV -> x ∉ s -> y ∉ s ->
    joined T' s (omit B x) (omit B y).
  Proof using ok.
    intros Hs Hx Hy Hxs Hys. destruct (decide (x = y)) as [->|Hxy]; [constructor|].
    apply (joined_one _ _ _ (two x y)); [apply added_in; exact Hy| | | |].
    - intros k Hk. unfold two. rewrite elem_of_difference, elem_of_singleton, elem_of_omit. pose proof (Hs k Hk) as Hb.
      rewrite elem_of_of_list in Hb. repeat split; [exact Hb| |]; intros ->; contradiction.
    - apply two_size; [apply elem_of_app; auto..|exact Hxy].
    - unfold two. intros k. rewrite elem_of_difference. tauto.
    - unfold two. intros k. rewrite elem_of_difference, elem_of_singleton, !elem_of_omit. tauto.
  Qed.

  (** A triangle shared by an old cell of the ball and a cell outside it lies on
      the sphere, hence also in a new cell. *)
  Lemma boundary u c f : u ∈ lU -> c ∈ T -> ~ V ⊆ c -> size f = 3%nat -> f ⊆ omit B u -> f ⊆ c ->
    exists y, y ∈ lV /\ f ⊆ omit B y /\ y ∉ f.
  Proof using HC ok.
    intros Hu Hc HVc Hf Hfu Hfc.
    assert (Hone : size (omit B u ∖ f) = 1%nat).
    { rewrite size_difference by exact Hfu. rewrite omit_size by (exact (po_nodup _ _ _ ok) || (apply elem_of_app; auto)).
      unfold B. rewrite (po_five _ _ _ ok), Hf. reflexivity. }
    destruct (size_one_inv _ Hone) as (y & Ey & _).
    assert (Hy : y ∈ omit B u /\ y ∉ f) by (apply elem_of_difference; rewrite Ey; set_solver +).
    destruct Hy as [Hyu Hyf]. apply elem_of_omit in Hyu as [HyB Hyu].
    assert (Hfy : f ⊆ omit B y).
    { intros k Hk. apply elem_of_omit. split; [exact (proj1 (proj1 (elem_of_omit _ _ _) (Hfu k Hk)))|]. intros ->. contradiction. }
    apply elem_of_app in HyB as [HyU|HyV]; [|exists y; auto].
    exfalso. pose proof (po_present _ _ _ ok u Hu) as Pu. pose proof (po_present _ _ _ ok y HyU) as Py.
    destruct (two_cells T HC f (omit B u) Pu Hfu Hf) as (n & _ & _ & _ & Hall).
    assert (Hne : omit B y <> omit B u).
    { intros E. apply Hyu. symmetry. apply (omit_inj B); [apply elem_of_app; auto|congruence]. }
    destruct (Hall _ Py Hfy) as [E|E]; [contradiction|].
    destruct (Hall _ Hc Hfc) as [E'|E']; subst c.
    - apply HVc. apply (omit_V _ _ _ ok). exact Hu.
    - rewrite <- E in HVc. apply HVc. apply (omit_V _ _ _ ok). exact HyU.
  Qed.

  Lemma survivor c : c ∈ T -> ~ V ⊆ c -> c ∈ T'.
  Proof using ok. intros A E. apply (elem_of_pachner _ _ _ ok). auto. Qed.

  (** Re-routing a path of [T] around the ball. *)
  Lemma reroute s c c' : s ⊆ of_list B -> c' ∈ T -> ~ V ⊆ c' ->
    joined T s c c' -> c ∈ T ->
    (~ V ⊆ c -> joined T' s c c') /\
    (V ⊆ c -> forall x, x ∈ lV -> x ∉ s -> joined T' s (omit B x) c').
  Proof using HC ok.
    intros Hs Hc' HV' J. induction J as [c|c f n c' Hn Hsf Hf Hfc Hfn _ IH]; intros Hc.
    { split; [constructor|]. intros H. contradiction. }
    destruct (IH Hc' HV' Hn) as [IH1 IH2]. clear IH. split.
    - intros HVc. destruct (decide (V ⊆ n)) as [HVn|HVn].
      + destruct (po_around _ _ _ ok n Hn HVn) as (u & Hu & ->).
        destruct (boundary u c f Hu Hc HVc Hf Hfn Hfc) as (y & Hy & Hfy & Hyf).
        eapply joined_step; [apply added_in; exact Hy|exact Hsf|exact Hf|exact Hfc|exact Hfy|].
        apply IH2; [exact HVn|exact Hy|]. intros H. apply Hyf, Hsf, H.
      + eapply joined_step; [apply survivor; [exact Hn|exact HVn]|exact Hsf|exact Hf|exact Hfc|exact Hfn|]. auto.
    - intros HVc x Hx Hxs. destruct (decide (V ⊆ n)) as [HVn|HVn]; [apply IH2; assumption|].
      destruct (po_around _ _ _ ok c Hc HVc) as (u & Hu & ->).
      destruct (boundary u n f Hu Hn HVn Hf Hfc Hfn) as (y & Hy & Hfy & Hyf).
      eapply joined_trans; [apply (added_joined s x y); try assumption|].
      + intros H. apply Hyf, Hsf, H.
      + eapply joined_step; [apply survivor; [exact Hn|exact HVn]|exact Hsf|exact Hf|exact Hfy|exact Hfn|]. auto.
  Qed.

  Lemma joined_outside s c c' : ~ s ⊆ of_list B -> joined T s c c' -> joined T' s c c'.
  Proof using ok.
    intros Hs J. induction J as [c|c f n c' Hn Hsf Hf Hfc Hfn _ IH]; [constructor|].
    eapply joined_step; [|exact Hsf|exact Hf|exact Hfc|exact Hfn|exact IH].
    apply survivor; [exact Hn|]. intros HV. destruct (po_around _ _ _ ok n Hn HV) as (u & _ & ->).
    apply Hs. intros k Hk. apply (omit_B lU lV u), Hfn, Hsf, Hk.
  Qed.

  Lemma pachner_joined : joined_stars T'.
  Proof using HC ok HJ.
    intros s c c' Hc Hc' Hsc Hsc'.
    apply (elem_of_pachner _ _ _ ok) in Hc, Hc'.
    destruct (decide (s ⊆ of_list B)) as [Hs|Hs].
    2: { destruct Hc as [[Hc HVc]|(x & _ & ->)]; [|exfalso; apply Hs; intros k Hk; apply (omit_B lU lV x), Hsc, Hk].
         destruct Hc' as [[Hc' HVc']|(x & _ & ->)]; [|exfalso; apply Hs; intros k Hk; apply (omit_B lU lV x), Hsc', Hk].
         apply joined_outside; [exact Hs|]. apply HJ; assumption. }
    assert (old : forall d, d ∈ T -> s ⊆ d -> exists u, u ∈ lU /\ u ∉ s).
    { intros d Hd Hsd. destruct (not_subseteq (of_list lU) s) as (u & Hu & Hus).
      - intros H. apply (po_absent _ _ _ ok d Hd). intros k Hk. apply Hsd, H, Hk.
      - exists u. rewrite <- elem_of_of_list. auto. }
    assert (half : forall d x, d ∈ T -> ~ V ⊆ d -> s ⊆ d -> x ∈ lV -> s ⊆ omit B x -> joined T' s (omit B x) d).
    { intros d x Hd HVd Hsd Hx Hsx. destruct (old d Hd Hsd) as (u & Hu & Hus).
      pose proof (po_present _ _ _ ok u Hu) as Pu.
      assert (Hsu : s ⊆ omit B u) by (apply subset_omit_gen; assumption).
      apply (reroute s (omit B u) d Hs Hd HVd (HJ s _ _ Pu Hd Hsu Hsd) Pu); [apply (omit_V _ _ _ ok); exact Hu|exact Hx|].
      intros H. apply Hsx in H. apply elem_of_omit in H. tauto. }
    destruct Hc as [[Hc HVc]|(x & Hx & ->)], Hc' as [[Hc' HVc']|(x' & Hx' & ->)].
    - apply reroute; auto.
    - apply joined_sym; [apply added_in; exact Hx'|]. apply half; assumption.
    - apply half; assumption.
    - apply added_joined; try assumption; intros H; [apply Hsc in H|apply Hsc' in H]; apply elem_of_omit in H; tauto.
  Qed.
End Pachner.
