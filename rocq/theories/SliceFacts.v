(** Facts about surfaces and their bistellar moves (no program in sight). *)
From Verif Require Import Base Simplex Pachner Foliation SliceSpec.
From stdpp Require Import fin_sets gmap relations.
From Verif Require Import Foliation.
Local Open Scope Z_scope.

Lemma elem_of_slice label t T s : s ∈ slice label t T <->
  (1 <= size s <= 3)%nat /\ (exists c, c ∈ T /\ s ⊆ c) /\ forall v, v ∈ s -> v <> infinite /\ label v = t.
Proof.
  unfold slice. rewrite elem_of_filter, !elem_of_union, !elem_of_faces. unfold set_Forall. split.
  - intros [A [[B|B]|B]]; (split; [lia|]); tauto.
  - intros ([A B] & C & D). split; [exact D|].
    assert (size s = 1 \/ size s = 2 \/ size s = 3)%nat as [E|[E|E]] by lia; tauto.
Qed.

Lemma slice_complex label t T : complex2 (slice label t T).
Proof.
  constructor.
  - intros s H. apply elem_of_slice in H. tauto.
  - intros s r H Hr N. apply elem_of_slice in H as (A & (c & Hc & Hs) & L). apply elem_of_slice. split; [|split].
    + pose proof (subseteq_size _ _ Hr). assert (size r <> 0)%nat; [|lia]. intros E. apply size_empty_inv in E. apply N. set_solver + E.
    + exists c. split; [exact Hc|]. set_solver + Hs Hr.
    + intros v Hv. apply L, Hr, Hv.
Qed.

(** Its triangles are what the program counts. *)
Lemma slice_triangles label t T : members 3 (slice label t T) = slice_volume label t T.
Proof.
  unfold members, slice_volume, count. do 2 f_equal. apply set_eq. intros s.
  rewrite !elem_of_filter, elem_of_slice, elem_of_faces, andb_true_iff, bool_decide_eq_true.
  assert (K : size s = 3%nat -> (finite_simplex s = true /\ facet_slice label s = Some t) <-> (forall v, v ∈ s -> v <> infinite /\ label v = t)).
  { intros E. unfold finite_simplex, facet_slice. change (length (elements s) = 3%nat) in E.
    destruct (elements s) as [|a [|b [|c [|? ?]]]] eqn:Es; try discriminate.
    assert (Q : forall v, v ∈ s <-> v = a \/ v = b \/ v = c).
    { intros v. rewrite <- elem_of_elements, Es, !elem_of_cons, elem_of_nil. tauto. }
    split.
    - intros [F H] v Hv. destruct ((label a =? label b) && (label b =? label c)) eqn:L; [|discriminate].
      apply andb_true_iff in L as [L1 L2]. apply Z.eqb_eq in L1, L2. injection H as H.
      split.
      + intros ->. apply negb_true_iff, bool_decide_eq_false in F. contradiction.
      + apply Q in Hv as [->|[->| ->]]; congruence.
    - intros H. split.
      + apply negb_true_iff, bool_decide_eq_false. intros I. apply H in I. tauto.
      + pose proof (proj2 (H a ltac:(apply Q; auto))) as La. pose proof (proj2 (H b ltac:(apply Q; auto))) as Lb. pose proof (proj2 (H c ltac:(apply Q; auto))) as Lc.
        rewrite La, Lb, Lc, Z.eqb_refl. reflexivity. }
  split.
  - intros (A & _ & C & L). split; [apply (K A); exact L|]. auto.
  - intros (F & A & C). split; [exact A|]. split; [lia|]. split; [exact C|]. apply (K A). exact F.
Qed.

Section Move.
  Variables S S' : gset simplex.
  Variables lU lV : list vertex.
  Hypothesis C : complex2 S.
  Hypothesis M : surface_move S lU lV S'.
  Let B := of_list (lU ++ lV).
  Let U := of_list lU.
  Let V := of_list lV.

  Lemma UV : U ## V.
  Proof using M.
    intros x HU HV. apply elem_of_of_list in HU, HV. destruct M as [Hn _ _ _ _ _ _ _].
    apply NoDup_app in Hn as (_ & H & _). exact (H x HU HV).
  Qed.
  Lemma BUV : B = U ∪ V.
  Proof using. apply of_list_app. Qed.
  Lemma some_U : exists u, u ∈ U.
  Proof using M. destruct lU as [|u l] eqn:E; [destruct (sv_U _ _ _ _ M); reflexivity|]. exists u. apply elem_of_of_list. constructor. Qed.
  Lemma some_V : exists v, v ∈ V.
  Proof using M. destruct lV as [|u l] eqn:E; [destruct (sv_V _ _ _ _ M); reflexivity|]. exists u. apply elem_of_of_list. constructor. Qed.
  Lemma B_four : size B = 4%nat.
  Proof using M. unfold B. rewrite of_list_size by apply (sv_nodup _ _ _ _ M). apply (sv_four _ _ _ _ M). Qed.
  (** A proper part of the tetrahedron missing a vertex of [lU] is old. *)
  Lemma old_face (s : simplex) u : s ⊆ B -> s <> ∅ -> u ∈ U -> u ∉ s -> s ∈ S.
  Proof using M C.
    intros Hs N Hu Hus. apply (c2_faces _ C (B ∖ {[u]})); [|set_solver + Hs Hus|exact N].
    apply (sv_present _ _ _ _ M), elem_of_of_list, Hu.
  Qed.
  Lemma in_B (s : simplex) : s ⊆ B -> s <> ∅ -> ~ V ⊆ s -> s ∈ S'.
  Proof using M C.
    intros Hs N HV. apply (sv_result _ _ _ _ M). destruct (decide (U ⊆ s)) as [HU|HU]; [right; auto|left].
    apply not_subseteq in HU as (u & Hu & Hus). split; [eapply old_face; eassumption|exact HV].
  Qed.

  Lemma move_complex : complex2 S'.
  Proof using M C.
    constructor.
    - intros s H. apply (sv_result _ _ _ _ M) in H as [[H _]|(HU & HB & HV)]; [apply (c2_size _ C); exact H|].
      destruct some_U as [u Hu]. split.
      + assert (size s <> 0)%nat; [|lia]. intros E. apply size_empty_inv in E. set_solver + E HU Hu.
      + pose proof B_four as F. fold B in HB. assert (size s < size B)%nat; [|lia]. apply subset_size. split; [exact HB|].
        intros K. apply HV. etransitivity; [|exact K]. unfold B. rewrite of_list_app. set_solver +.
    - intros s r H Hr N. pose proof H as H0. apply (sv_result _ _ _ _ M) in H as [[H HV]|(HU & HB & HV)].
      + apply (sv_result _ _ _ _ M). left. split; [apply (c2_faces _ C s); assumption|]. set_solver + HV Hr.
      + apply in_B; [set_solver + HB Hr|exact N|]. set_solver + HV Hr.
  Qed.

  Lemma move_back : surface_move S' lV lU S.
  Proof using M C.
    pose proof BUV as E. assert (EB : of_list (lV ++ lU) = B) by (unfold B; rewrite !of_list_app; set_solver +).
    constructor; rewrite ?EB.
    - rewrite (Permutation_app_comm lV lU). apply (sv_nodup _ _ _ _ M).
    - rewrite app_length, Nat.add_comm, <- app_length. apply (sv_four _ _ _ _ M).
    - apply (sv_V _ _ _ _ M).
    - apply (sv_U _ _ _ _ M).
    - intros v Hv. assert (Hv' : v ∈ V) by (apply elem_of_of_list; exact Hv). apply in_B; [set_solver +| |set_solver + Hv'].
      destruct some_U as [u Hu]. pose proof (UV u Hu). assert (u ∈ B ∖ {[v]}); [|set_solver + H0].
      rewrite E. apply elem_of_difference. split; [set_solver + Hu|]. intros K. apply elem_of_singleton in K as ->. apply H. exact Hv'.
    - intros s H HU. apply (sv_result _ _ _ _ M) in H as [[H _]|(_ & HB & _)]; [|exact HB].
      destruct (sv_absent _ _ _ _ M s H HU).
    - intros s H HV. apply (sv_result _ _ _ _ M) in H as [[_ H]|(_ & _ & H)]; contradiction.
    - intros s. rewrite (sv_result _ _ _ _ M). fold U V B. split.
      + intros H. pose proof (sv_absent _ _ _ _ M s H) as HU. fold U in HU. destruct (decide (V ⊆ s)) as [HV|HV].
        * right. split; [exact HV|]. split; [|exact HU]. apply (sv_around _ _ _ _ M s H HV).
        * left. auto.
      + intros [[[[H _]|(HU & _)] HU']|(HV & HB & HU)]; [exact H|contradiction|].
        apply not_subseteq in HU as (u & Hu & Hus). apply (old_face s u); [exact HB| |exact Hu|exact Hus].
        destruct some_V as [v Hv]. intros ->. apply HV in Hv. set_solver + Hv.
  Qed.

  (** Numbers of simplices. *)
  Lemma members_count k X : members k X = count (fun s => bool_decide (size s = k)) X.
  Proof using.
    unfold members, count. do 2 f_equal. apply set_eq. intros s. rewrite !elem_of_filter, bool_decide_eq_true. reflexivity.
  Qed.
  Lemma members_move k : (k <= 3)%nat ->
    members k S' = members k S - Z.of_nat (length (star_faces k lV lU)) + Z.of_nat (length (star_faces k lU lV)).
  Proof using M C.
    intros Hk. rewrite !members_count.
    pose proof (sv_nodup _ _ _ _ M) as Hn.
    assert (Hn' : NoDup (lV ++ lU)) by (rewrite (Permutation_app_comm lV lU); exact Hn).
    assert (EB : of_list (lV ++ lU) = B) by (unfold B; rewrite !of_list_app; set_solver +).
    assert (SZ : forall s, size s = k -> s ⊆ B -> U ⊆ s -> ~ V ⊆ s).
    { intros s Hs HB HU HV. pose proof B_four as F. assert (s = B); [|subst; lia]. rewrite BUV in *. set_solver + HB HU HV. }
    set (Sk := filter (fun s => size s = k) S). set (Sk' := filter (fun s => size s = k) S').
    assert (EQ : Sk' = (Sk ∖ list_to_set (star_faces k lV lU)) ∪ list_to_set (star_faces k lU lV)).
    { apply set_eq. intros s. unfold Sk, Sk'.
      rewrite elem_of_union, elem_of_difference, !elem_of_list_to_set, !elem_of_star_faces, !elem_of_filter, (sv_result _ _ _ _ M) by assumption.
      rewrite EB. fold U V B. split.
      - intros (Hs & [[A X]|(A & X & Y)]); [left; tauto|right; auto].
      - intros [[[Hs A] X]|(Hs & A & X)].
        + split; [exact Hs|]. left. split; [exact A|]. intros HV. apply X. split; [exact Hs|]. split; [exact HV|]. apply (sv_around _ _ _ _ M s A HV).
        + split; [exact Hs|]. right. auto. }
    assert (CF : forall X, count (fun s => bool_decide (size s = k)) X = count (fun _ => true) (filter (fun s => size s = k) X)).
    { intros X. unfold count. do 2 f_equal. apply set_eq. intros s. rewrite !elem_of_filter, bool_decide_eq_true. tauto. }
    rewrite !CF. fold Sk Sk'. rewrite EQ, count_change.
    - assert (SO : forall l, sum_of (fun _ => true) l = Z.of_nat (length l)).
      { induction l as [|x l IH]; [reflexivity|]. cbn [sum_of fold_right length]. change (fold_right _ 0 l) with (sum_of (fun _ => true) l). rewrite IH. lia. }
      rewrite !SO. reflexivity.
    - apply star_faces_NoDup; assumption.
    - apply star_faces_NoDup; assumption.
    - intros s H. apply elem_of_star_faces in H as (Hs & HV & HB); [|exact Hn']. rewrite EB in HB. fold V in HV.
      apply elem_of_filter. split; [exact Hs|].
      assert (HU : ~ U ⊆ s) by (intros HU; exact (SZ s Hs HB HU HV)).
      apply not_subseteq in HU as (u & Hu & Hus). apply (old_face s u); [exact HB| |exact Hu|exact Hus].
      destruct some_V as [v Hv]. intros ->. apply HV in Hv. set_solver + Hv.
    - intros s H K. apply elem_of_star_faces in H as (Hs & HU & HB); [|exact Hn]. apply elem_of_filter in K as [_ K].
      exact (sv_absent _ _ _ _ M s K HU).
  Qed.

  Lemma shape : (length lU = 1 /\ length lV = 3)%nat \/ (length lU = 2 /\ length lV = 2)%nat \/ (length lU = 3 /\ length lV = 1)%nat.
  Proof using M.
    pose proof (sv_four _ _ _ _ M) as F. rewrite app_length in F.
    pose proof (sv_U _ _ _ _ M). pose proof (sv_V _ _ _ _ M). destruct lU, lV; cbn in *; try congruence; lia.
  Qed.
  Lemma members_change : let n := Z.of_nat (length lV) - Z.of_nat (length lU) in
    2 * members 1 S' = 2 * members 1 S + n /\ 2 * members 2 S' = 2 * members 2 S + 3 * n /\ members 3 S' = members 3 S + n.
  Proof using M C.
    intros n. rewrite !members_move by lia. unfold n.
    destruct shape as [[E F]|[[E F]|[E F]]]; destruct lU as [|? [|? [|? [|? ?]]]], lV as [|? [|? [|? [|? ?]]]]; try discriminate; cbn; lia.
  Qed.
  Lemma euler_move : euler_of S' = euler_of S.
  Proof using M C. unfold euler_of. pose proof members_change as (A & D & E). lia. Qed.

  (** Edges bound two triangles. *)
  Lemma closed_move : closed_surface S -> closed_surface S'.
  Proof using M C.
    intros HC e He E2.
    assert (TR : forall X, Z.of_nat (size (filter (fun f => size f = 3%nat /\ e ⊆ f) X)) = cofaces e (filter (fun f => size f = 3%nat) X)).
    { intros X. unfold cofaces, count. do 2 f_equal. apply set_eq. intros f. rewrite !elem_of_filter, bool_decide_eq_true. tauto. }
    assert (GOAL : cofaces e (filter (fun f => size f = 3%nat) S') = 2); [|rewrite <- TR in GOAL; lia].
    pose proof (sv_nodup _ _ _ _ M) as Hn. pose proof Hn as Hn'. apply NoDup_app in Hn' as (NU & ND & NV).
    pose proof B_four as F. pose proof BUV as EB. pose proof UV as Hd.
    assert (EQ : filter (fun f => size f = 3%nat) S' =
       (filter (fun f => size f = 3%nat) S ∖ list_to_set (map (omit (lU ++ lV)) lU)) ∪ list_to_set (map (omit (lU ++ lV)) lV)).
    { apply set_eq. intros f. rewrite elem_of_union, elem_of_difference, !elem_of_list_to_set, !elem_of_list_fmap, !elem_of_filter.
      rewrite (sv_result _ _ _ _ M). fold U V B. split.
      - intros (S3 & [[A X]|(A & X & Y)]).
        + left. split; [auto|]. intros (u & -> & Hu). apply X. intros v Hv. apply elem_of_omit. split; [apply elem_of_app; right; apply elem_of_of_list; exact Hv|].
          intros ->. apply (Hd u); [apply elem_of_of_list; exact Hu|exact Hv].
        + right. apply not_subseteq in Y as (v & Hv & Hvf). exists v. split; [|apply elem_of_of_list; exact Hv].
          assert (f ⊆ omit (lU ++ lV) v) as Q by (apply subset_omit_gen; assumption).
          apply set_eq. intros y. split; [apply Q|]. intros Hy. destruct (decide (y ∈ f)) as [|Hyf]; [assumption|]. exfalso.
          assert (K : (size f < size (omit (lU ++ lV) v))%nat) by (apply subset_size; split; [exact Q|]; intros K; apply Hyf, K, Hy).
          rewrite omit_size in K; [rewrite (sv_four _ _ _ _ M) in K; cbn in K; lia|exact Hn|]. apply elem_of_app. right. apply elem_of_of_list. exact Hv.
      - intros [[[S3 A] X]|(v & -> & Hv)].
        + split; [exact S3|]. left. split; [exact A|]. intros HV. pose proof (sv_around _ _ _ _ M f A HV) as HB. apply X.
          assert (HU : ~ U ⊆ f) by (apply (sv_absent _ _ _ _ M f A)). apply not_subseteq in HU as (u & Hu & Huf). exists u.
          split; [|apply elem_of_of_list; exact Hu].
          assert (f ⊆ omit (lU ++ lV) u) as Q by (apply subset_omit_gen; assumption).
          apply set_eq. intros y. split; [apply Q|]. intros Hy. destruct (decide (y ∈ f)) as [|Hyf]; [assumption|]. exfalso.
          assert (K : (size f < size (omit (lU ++ lV) u))%nat) by (apply subset_size; split; [exact Q|]; intros K; apply Hyf, K, Hy).
          rewrite omit_size in K; [rewrite (sv_four _ _ _ _ M) in K; cbn in K; lia|exact Hn|]. apply elem_of_app. left. apply elem_of_of_list. exact Hu.
        + split; [rewrite omit_size; [rewrite (sv_four _ _ _ _ M); reflexivity|exact Hn|apply elem_of_app; auto]|].
          right. split; [|split].
          * intros u Hu. apply elem_of_omit. split; [apply elem_of_app; left; apply elem_of_of_list; exact Hu|].
            intros ->. apply (Hd v); [exact Hu|apply elem_of_of_list; exact Hv].
          * intros y Hy. apply elem_of_omit in Hy as [Hy _]. apply elem_of_of_list. exact Hy.
          * intros K. assert (v ∈ omit (lU ++ lV) v) as Q by (apply K, elem_of_of_list, Hv). apply elem_of_omit in Q. tauto. }
    assert (CE : cofaces e (filter (fun f => size f = 3%nat) S') = cofaces e (filter (fun f => size f = 3%nat) S)
       - sum_of (fun c => bool_decide (e ⊆ c)) (map (omit (lU ++ lV)) lU) + sum_of (fun c => bool_decide (e ⊆ c)) (map (omit (lU ++ lV)) lV)).
    { unfold cofaces at 1. rewrite EQ. apply count_change.
      - apply map_omit_NoDup; [exact NU|]. intros x Hx. apply elem_of_app. auto.
      - apply map_omit_NoDup; [exact NV|]. intros x Hx. apply elem_of_app. auto.
      - intros s Hs. apply elem_of_list_fmap in Hs as (u & -> & Hu). apply elem_of_filter. split.
        + rewrite omit_size; [rewrite (sv_four _ _ _ _ M); reflexivity|exact Hn|apply elem_of_app; auto].
        + apply (sv_present _ _ _ _ M u Hu).
      - intros s Hs K. apply elem_of_list_fmap in Hs as (v & -> & Hv). apply elem_of_filter in K as [_ K].
        apply (sv_absent _ _ _ _ M _ K). intros u Hu. apply elem_of_omit. split; [apply elem_of_app; left; apply elem_of_of_list; exact Hu|].
        intros ->. apply (Hd v); [exact Hu|apply elem_of_of_list; exact Hv]. }
    rewrite CE. clear CE EQ.
    assert (OLD : e ∈ S -> cofaces e (filter (fun f => size f = 3%nat) S) = 2).
    { intros H. rewrite <- TR, (HC e H E2). reflexivity. }
    apply (sv_result _ _ _ _ M) in He. fold U V B in He.
    destruct (decide (e ⊆ B)) as [HB|HB].
    - rewrite !sum_of_omit; try assumption; try (intros x Hx; apply elem_of_app; auto). fold U V.
      assert (Hsz : (size (U ∖ e) + size (V ∖ e) = 2)%nat).
      { assert (E : size (B ∖ e) = 2%nat) by (rewrite size_difference by exact HB; lia).
        rewrite EB, difference_union_distr_l_L, size_union in E by set_solver + Hd. exact E. }
      destruct He as [[He HVe]|(HU & _ & HVe)].
      + assert (size (V ∖ e) <> 0)%nat.
        { intros E. apply size_empty_inv in E. apply HVe. intros y Hy. destruct (decide (y ∈ e)); [assumption|]. set_solver + E Hy n. }
        assert (size (U ∖ e) <> 0)%nat.
        { intros E. apply size_empty_inv in E. apply (sv_absent _ _ _ _ M e He). intros y Hy. destruct (decide (y ∈ e)); [assumption|]. set_solver + E Hy n. }
        rewrite (OLD He). lia.
      + assert (E : cofaces e (filter (fun f => size f = 3%nat) S) = 0).
        { unfold cofaces, count. match goal with |- Z.of_nat (size ?X) = 0 => replace X with (∅ : gset simplex); [reflexivity|] end.
          symmetry. apply set_eq. intros c. rewrite elem_of_filter, bool_decide_eq_true, elem_of_filter. split; [|set_solver +].
          intros (A & _ & Hc). destruct (sv_absent _ _ _ _ M c Hc). fold U. set_solver + A HU. }
        assert (E0 : size (U ∖ e) = 0%nat).
        { replace (U ∖ e) with (∅ : simplex) by set_solver + HU. apply size_empty. }
        lia.
    - destruct He as [[He HVe]|(_ & He & _)]; [|contradiction].
      rewrite (OLD He), !sum_of_none; [reflexivity| |];
        intros s Hs; apply elem_of_list_fmap in Hs as (x & -> & _); apply bool_decide_eq_false; intros Hs; apply HB;
        (etransitivity; [exact Hs|]; intros y Hy; apply elem_of_omit in Hy as [Hy _]; apply elem_of_of_list; exact Hy).
  Qed.

  (** Paths. *)
  Lemma of_list2 (v w : vertex) : of_list [v; w] = {[v; w]}.
  Proof using. unfold of_list. cbn. set_solver +. Qed.
  Lemma path_sym X v w : path X v w -> path X w v.
  Proof using.
    induction 1 as [v|v y w H _ IH]; [apply rtc_refl|]. eapply rtc_r; [exact IH|].
    unfold neighbours in *. rewrite of_list2 in *. replace ({[y; v]} : simplex) with ({[v; y]} : simplex) by set_solver +. exact H.
  Qed.
  (** All vertices of the tetrahedron that are left are joined to any one of [lU]. *)
  Lemma hub u y : u ∈ U -> y ∈ B -> {[y]} ∈ S' -> path S' u y.
  Proof using M C.
    intros Hu Hy Hy'. apply rtc_once. unfold neighbours. rewrite of_list2.
    apply in_B; [rewrite BUV in *; set_solver + Hu Hy|set_solver +|].
    intros HV. pose proof (UV u Hu) as Huv.
    assert (V ⊆ {[y]}) as K by (intros v Hv; specialize (HV v Hv); assert (v <> u) by congruence; set_solver + HV H).
    apply (sv_result _ _ _ _ M) in Hy' as [[_ Q]|(_ & _ & Q)]; contradiction.
  Qed.
  Lemma old_path v w : {[v]} ∈ S' -> path S v w ->
    ({[w]} ∈ S' -> path S' v w) /\ ({[w]} ∉ S' -> forall u, u ∈ U -> path S' v u).
  Proof using M C.
    intros Hv. apply (rtc_ind_r (fun w => ({[w]} ∈ S' -> path S' v w) /\ ({[w]} ∉ S' -> forall u, u ∈ U -> path S' v u))).
    - split; [intros _; apply rtc_refl|]. intros K. contradiction.
    - intros y z P N [IH1 IH2]. unfold neighbours in N. rewrite of_list2 in N.
      destruct (decide (V ⊆ {[y; z]})) as [HV|HV].
      + pose proof (sv_around _ _ _ _ M _ N HV) as HB. fold B in HB.
        assert (Hy : y ∈ B) by (apply HB; set_solver +). assert (Hz : z ∈ B) by (apply HB; set_solver +).
        assert (HU : forall u, u ∈ U -> path S' v u).
        { intros u Hu. destruct (decide ({[y]} ∈ S')) as [Hy'|Hy']; [|apply IH2; assumption].
          eapply rtc_transitive; [apply IH1; exact Hy'|]. apply path_sym, hub; assumption. }
        split; [|intros _; exact HU]. intros Hz'. destruct some_U as [u Hu]. eapply rtc_transitive; [apply (HU u Hu)|]. apply hub; assumption.
      + assert (N' : {[y; z]} ∈ S') by (apply (sv_result _ _ _ _ M); left; auto).
        assert (Hy' : {[y]} ∈ S') by (apply (c2_faces _ move_complex _ _ N'); set_solver +).
        assert (Hz' : {[z]} ∈ S') by (apply (c2_faces _ move_complex _ _ N'); set_solver +).
        split; [|contradiction]. intros _. eapply rtc_r; [apply IH1; exact Hy'|]. unfold neighbours. rewrite of_list2. exact N'.
  Qed.
  (** A vertex that is new is joined to an old one. *)
  Lemma new_vertex v : {[v]} ∈ S' -> {[v]} ∉ S -> exists y, {[y]} ∈ S /\ {[y]} ∈ S' /\ path S' v y.
  Proof using M C.
    intros H N. apply (sv_result _ _ _ _ M) in H as [[H _]|(HU & HB & HV)]; [contradiction|].
    fold U in HU. fold B in HB. fold V in HV. destruct some_U as [u Hu].
    assert (U = {[v]}) as EU. { apply set_eq. intros y. split; [apply HU|]. intros Hy. apply elem_of_singleton in Hy as ->. pose proof (HU u Hu) as K. apply elem_of_singleton in K as ->. exact Hu. }
    assert (SV : size V = 3%nat).
    { pose proof B_four as F. rewrite BUV, size_union in F by apply UV. rewrite EU, size_singleton in F. lia. }
    destruct some_V as [y Hy].
    assert (Hy1 : ~ V ⊆ {[y]}). { intros K. apply subseteq_size in K. rewrite size_singleton in K. lia. }
    assert (HyB : {[y]} ⊆ B) by (rewrite BUV; set_solver + Hy).
    assert (Hy' : {[y]} ∈ S') by (apply in_B; [exact HyB|set_solver +|exact Hy1]).
    exists y. split; [|split; [exact Hy'|]].
    - apply (old_face {[y]} u); [exact HyB|set_solver +|exact Hu|]. intros K. apply elem_of_singleton in K as ->. exact (UV y Hu Hy).
    - apply hub; [rewrite EU; set_solver +|apply HyB; set_solver +|exact Hy'].
  Qed.
  Lemma connected_move : connected_surface S -> connected_surface S'.
  Proof using M C.
    intros HC.
    assert (Q : forall v, {[v]} ∈ S' -> exists y, {[y]} ∈ S /\ {[y]} ∈ S' /\ path S' v y).
    { intros v H. destruct (decide ({[v]} ∈ S)) as [K|K]; [|apply new_vertex; assumption]. exists v. split; [exact K|]. split; [exact H|apply rtc_refl]. }
    intros v w Hv Hw. destruct (Q v Hv) as (y & A & A' & P). destruct (Q w Hw) as (z & D & D' & P').
    eapply rtc_transitive; [exact P|]. eapply rtc_transitive; [|apply path_sym; exact P'].
    apply old_path; [exact A'|apply HC; assumption|exact D'].
  Qed.
End Move.

Lemma move_paths S S' lU lV v w : complex2 S -> surface_move S lU lV S' ->
  {[v]} ∈ S -> {[v]} ∈ S' -> {[w]} ∈ S -> {[w]} ∈ S' -> path S v w <-> path S' v w.
Proof.
  intros C M Hv Hv' Hw Hw'. split; intros P.
  - apply (proj1 (old_path S S' lU lV C M v w Hv' P)). exact Hw'.
  - apply (proj1 (old_path S' S lV lU (move_complex S S' lU lV C M) (move_back S S' lU lV C M) v w Hv P)). exact Hw.
Qed.

(** The same for any number of moves. *)
Lemma step_back S S' : complex2 S -> surface_step S S' -> complex2 S' /\ surface_step S' S.
Proof. intros C (lU & lV & M). split; [eapply move_complex; eassumption|]. exists lV, lU. eapply move_back; eassumption. Qed.
Lemma same_back S S' : complex2 S -> same_surface S S' -> complex2 S' /\ same_surface S' S.
Proof.
  intros C H. revert C. induction H as [S|S X S' H _ IH]; intros C; [split; [exact C|apply rtc_refl]|].
  destruct (step_back _ _ C H) as [CX B]. destruct (IH CX) as [C' P]. split; [exact C'|]. eapply rtc_r; eassumption.
Qed.
Lemma same_euler S S' : complex2 S -> same_surface S S' -> euler_of S' = euler_of S.
Proof.
  intros C H. revert C. induction H as [S|S X S' H _ IH]; intros C; [reflexivity|].
  destruct (step_back _ _ C H) as [CX _]. rewrite (IH CX). destruct H as (lU & lV & M). exact (euler_move S X lU lV C M).
Qed.
Lemma same_triangles S S' : complex2 S -> same_surface S S' -> exists n, members 3 S' = members 3 S + 2 * n /\ members 2 S' = members 2 S + 3 * n /\ members 1 S' = members 1 S + n.
Proof.
  intros C H. revert C. induction H as [S|S X S' H _ IH]; intros C; [exists 0; lia|].
  destruct (step_back _ _ C H) as [CX _]. destruct (IH CX) as (n & A & B & D). destruct H as (lU & lV & M).
  pose proof (members_change S X lU lV C M) as (E1 & E2 & E3). cbv zeta in *.
  exists (n + (members 1 X - members 1 S)). lia.
Qed.
Lemma same_closed S S' : complex2 S -> same_surface S S' -> closed_surface S <-> closed_surface S'.
Proof.
  assert (F : forall S S', complex2 S -> same_surface S S' -> closed_surface S -> closed_surface S').
  { clear. intros S S' C H. revert C. induction H as [S|S X S' H _ IH]; intros C K; [exact K|].
    destruct (step_back _ _ C H) as [CX _]. apply (IH CX). destruct H as (lU & lV & M). exact (closed_move S X lU lV C M K). }
  intros C H. split; [apply F; assumption|]. destruct (same_back _ _ C H) as [C' H']. apply F; assumption.
Qed.
Lemma same_connected S S' : complex2 S -> same_surface S S' -> connected_surface S <-> connected_surface S'.
Proof.
  assert (F : forall S S', complex2 S -> same_surface S S' -> connected_surface S -> connected_surface S').
  { clear. intros S S' C H. revert C. induction H as [S|S X S' H _ IH]; intros C K; [exact K|].
    destruct (step_back _ _ C H) as [CX _]. apply (IH CX). destruct H as (lU & lV & M). exact (connected_move S X lU lV C M K). }
  intros C H. split; [apply F; assumption|]. destruct (same_back _ _ C H) as [C' H']. apply F; assumption.
Qed.
