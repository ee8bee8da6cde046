(** Ownership of lock grids is kept by every action (C58). *)
From Verif Require Import Base Locks LockSpec.
Local Open Scope list_scope.
Local Open Scope nat_scope.

Definition held (F : nat -> option state) (g x : nat) : Prop := exists s, F x = Some s /\ s_owner s = Some g.
Definition good (parallel : bool) (s : state) : Prop :=
  d_lock (s_tri s) = s_owner s /\ (parallel = false -> s_owner s = None).
(** The variables in [F] and temporaries owning the grids [T]. *)
Record holds (parallel : bool) (F : nat -> option state) (w : world) (T : list nat) : Prop := {
  h_fresh : forall g, In g (w_grids w) \/ In g (w_mine w) -> g < w_next w;
  h_good : forall x s, F x = Some s -> good parallel s;
  h_one : forall g x y, held F g x -> held F g y -> x = y;
  h_live : forall g x, held F g x -> In g (w_grids w) /\ ~ In g (w_mine w) /\ ~ In g T;
  h_nodup : List.NoDup T;
  h_tmp : forall g, In g T -> In g (w_grids w) /\ ~ In g (w_mine w);
  h_leak : forall g, In g (w_grids w) -> In g (w_mine w) \/ In g T \/ exists x, held F g x;
  h_plain : forall d t g, w_plain w d = Some t -> d_lock t = Some g -> In g (w_mine w)
}.
Definition same (w w' : world) : Prop :=
  w_foliated w' = w_foliated w /\ w_plain w' = w_plain w /\ w_mine w' = w_mine w.
Lemma same_refl w : same w w. Proof. repeat split. Qed.
Lemma same_trans a b c : same a b -> same b c -> same a c.
Proof. intros (A1 & A2 & A3) (B1 & B2 & B3). repeat split; congruence. Qed.

Lemma bool_cases (b : bool) : b = true \/ b = false.
Proof. destruct b; auto. Qed.

Section Logic.
Variable parallel : bool.
Notation holds := (holds parallel).
Notation good := (good parallel).

(** From temporaries [T], [m] does nothing undefined; it leaves temporaries
    [T' a] when it returns [a] and [E] when it throws. *)
Definition spec {A} (T : list nat) (m : M A) (T' : A -> list nat) (E : list nat) (P : A -> Prop) : Prop :=
  forall F w, holds F w T ->
  match m w with
  | Ok a w' => same w w' /\ holds F w' (T' a) /\ P a
  | Ex w' => same w w' /\ holds F w' E
  | Bad => False
  end.

Lemma spec_ret {A} T (a : A) (T' : A -> list nat) E (P : A -> Prop) : T' a = T -> P a -> spec T (ret a) T' E P.
Proof. intros <- Ha F w H. cbn. split; [apply same_refl|]. split; assumption. Qed.
Lemma spec_throw {A} T (T' : A -> list nat) P : spec T throw T' T P.
Proof. intros F w H. cbn. split; [apply same_refl|assumption]. Qed.
Lemma spec_bind {A C} T (m : M A) (f : A -> M C) T1 T' E P1 (P : C -> Prop) :
  spec T m T1 E P1 -> (forall a, P1 a -> spec (T1 a) (f a) T' E P) -> spec T (bind m f) T' E P.
Proof.
  intros Hm Hf F w H. unfold bind. specialize (Hm F w H). destruct (m w) as [a w1|w1|]; [|assumption|assumption].
  destruct Hm as (S1 & H1 & P1a). specialize (Hf a P1a F w1 H1). destruct (f a w1) as [b w2|w2|]; [| |assumption].
  - destruct Hf as (S2 & H2 & P2). split; [eapply same_trans; eassumption|]. split; assumption.
  - destruct Hf as (S2 & H2). split; [eapply same_trans; eassumption|assumption].
Qed.
Lemma spec_unwinding {A} T (m : M A) d T' E E' (P : A -> Prop) :
  spec T m T' E P -> spec E d (fun _ => E') E' (fun _ => True) -> spec T (unwinding m d) T' E' P.
Proof.
  intros Hm Hd F w H. unfold unwinding. specialize (Hm F w H). destruct (m w) as [a w1|w1|]; [assumption| |assumption].
  destruct Hm as (S1 & H1). specialize (Hd F w1 H1). destruct (d w1) as [b w2|w2|]; [| |assumption].
  - destruct Hd as (S2 & H2 & _). split; [eapply same_trans; eassumption|assumption].
  - destruct Hd as (S2 & H2). split; [eapply same_trans; eassumption|assumption].
Qed.
Lemma spec_weaken {A} T (m : M A) T' E (P Q : A -> Prop) : spec T m T' E P -> (forall a, P a -> Q a) -> spec T m T' E Q.
Proof.
  intros Hm I F w H. specialize (Hm F w H). destruct (m w); [|assumption..]. destruct Hm as (S1 & H1 & Pa). auto.
Qed.

Lemma spec_choose T E : spec T choose (fun _ => T) E (fun _ => True).
Proof.
  intros F w H. cbn. split; [repeat split|]. split; [|exact I]. destruct H. constructor; assumption.
Qed.
Lemma spec_may_throw T : spec T may_throw (fun _ => T) T (fun _ => True).
Proof.
  unfold may_throw. eapply spec_bind; [apply spec_choose|]. intros c _. cbn beta.
  destruct (c =? 0); [apply spec_throw|apply spec_ret; [reflexivity|exact I]].
Qed.
Lemma spec_make_unique T : spec T make_unique (fun g => g :: T) T (fun _ => True).
Proof.
  unfold make_unique. eapply spec_bind; [apply spec_may_throw|]. intros ? _ F w H. cbn beta in H. cbn. destruct H as [Hf Hg Ho Hl Hn Ht Hk Hp].
  split; [repeat split|]. split; [|exact I].
  assert (N : forall g, In g (w_grids w) -> g <> w_next w) by (intros g K ->; specialize (Hf _ (or_introl K)); lia).
  assert (Nm : ~ In (w_next w) (w_mine w)) by (intros K; specialize (Hf _ (or_intror K)); lia).
  constructor; cbn [w_grids w_mine w_next w_plain set_grids In]; try assumption.
  - intros g [[<-|K]|K]; [lia| |]; [specialize (Hf _ (or_introl K))|specialize (Hf _ (or_intror K))]; lia.
  - intros g x K. destruct (Hl g x K) as (L1 & L2 & L3). split; [right; exact L1|]. split; [exact L2|].
    intros [E|E]; [apply (N g L1); congruence|contradiction].
  - constructor; [|exact Hn]. intros K. apply Ht in K as [K _]. apply (N _ K). reflexivity.
  - intros g [<-|K]; [split; [left; reflexivity|exact Nm]|]. destruct (Ht g K). split; [right|]; assumption.
  - intros g [<-|K]; [right; left; left; reflexivity|]. destruct (Hk g K) as [K1|[K1|K1]]; auto.
Qed.
Lemma spec_free g T E : spec (g :: T) (free g) (fun _ => T) E (fun _ => True).
Proof.
  intros F w H. pose proof H as [Hf Hg Ho Hl Hn Ht Hk Hp]. unfold free.
  rewrite (proj2 (existsb_exists _ _)) by (exists g; split; [apply Ht; left; reflexivity|apply Nat.eqb_refl]).
  split; [repeat split|]. split; [|exact I]. inversion Hn as [|? ? Ng Hn']; subst.
  assert (K : forall h, In h (List.filter (fun h => negb (h =? g)) (w_grids w)) <-> In h (w_grids w) /\ h <> g).
  { intros h. rewrite filter_In, negb_true_iff, Nat.eqb_neq. reflexivity. }
  constructor; cbn [w_grids w_mine w_next w_plain set_grids]; try assumption.
  - intros h [Kh|Kh]; [apply K in Kh as [Kh _]; apply Hf; left; exact Kh|apply Hf; right; exact Kh].
  - intros h x Kh. destruct (Hl h x Kh) as (L1 & L2 & L3). split; [apply K; split; [exact L1|]|].
    + intros ->. apply L3. left. reflexivity.
    + split; [exact L2|]. intros Kt. apply L3. right. exact Kt.
  - intros h Kh. destruct (Ht h (or_intror Kh)) as [L1 L2]. split; [apply K; split; [exact L1|]|exact L2].
    intros ->. contradiction.
  - intros h Kh. apply K in Kh as [Kh Nh]. destruct (Hk h Kh) as [L|[[L|L]|L]]; auto. congruence.
Qed.
Definition tok (s : state) : list nat := match s_owner s with Some g => [g] | None => [] end.
Lemma spec_reset o T E : spec (match o with Some g => [g] | None => [] end ++ T) (reset o) (fun _ => T) E (fun _ => True).
Proof. destruct o as [g|]; cbn; [apply spec_free|apply spec_ret; [reflexivity|exact I]]. Qed.
Lemma spec_destroy s T E : spec (tok s ++ T) (destroy s) (fun _ => T) E (fun _ => True).
Proof. apply spec_reset. Qed.
Lemma spec_locking d T : (forall g, d_lock d = Some g -> In g T) -> spec T (locking d) (fun _ => T) T (fun _ => True).
Proof.
  intros Hd F w H. unfold locking. destruct (d_lock d) as [g|]; [|apply (spec_may_throw T F w H)].
  rewrite (proj2 (existsb_exists _ _)); [apply (spec_may_throw T F w H)|].
  exists g. split; [|apply Nat.eqb_refl]. apply (h_tmp _ _ _ _ H). apply Hd. reflexivity.
Qed.

(** ** Delaunay_state *)
Definition ok_pending (p : option nat * delaunay) : Prop := good (of_pending p).
Lemma spec_make_empty T : spec T (make_empty_state parallel) (fun p => tok (of_pending p) ++ T) T ok_pending.
Proof.
  unfold make_empty_state. pose proof (bool_cases parallel) as Hpar. destruct Hpar as [Hpar|Hpar]; rewrite Hpar.
  - eapply spec_bind; [apply spec_may_throw|]. intros ? _. cbn beta. eapply spec_bind; [apply spec_make_unique|]. intros g _. cbn beta.
    eapply spec_bind; [eapply spec_unwinding; [apply spec_may_throw|apply spec_free]|]. intros ? _. cbn beta.
    apply spec_ret; [reflexivity|]. split; [reflexivity|congruence].
  - eapply spec_bind; [apply spec_may_throw|]. intros ? _. cbn beta. apply spec_ret; [reflexivity|]. split; [reflexivity|reflexivity].
Qed.
Lemma spec_make_insertion T : spec T (make_insertion_state parallel) (fun p => tok (of_pending p) ++ T) T ok_pending.
Proof. exact (spec_make_empty T). Qed.
Lemma spec_make_adopted d T : spec T (make_adopted_state parallel d) (fun p => tok (of_pending p) ++ T) T
  (fun p => ok_pending p /\ d_size (snd p) = d_size d).
Proof.
  unfold make_adopted_state. pose proof (bool_cases parallel) as Hpar. destruct Hpar as [Hpar|Hpar]; rewrite Hpar.
  - eapply spec_bind; [apply spec_may_throw|]. intros ? _. cbn beta. eapply spec_bind; [apply spec_make_unique|]. intros g _. cbn beta.
    apply spec_ret; [reflexivity|]. split; [split; [reflexivity|congruence]|reflexivity].
  - apply spec_ret; [reflexivity|]. split; [split; reflexivity|reflexivity].
Qed.
Lemma spec_state_empty T : spec T (state_empty parallel) (fun s => tok s ++ T) T good.
Proof. unfold state_empty. eapply spec_bind; [apply spec_make_empty|]. intros p Hp. apply spec_ret; [reflexivity|exact Hp]. Qed.
Lemma good_lock s g : good s -> d_lock (s_tri s) = Some g -> In g (tok s).
Proof. intros [H _] E. unfold tok. rewrite <- H, E. left. reflexivity. Qed.
Lemma spec_state_of_vertices n T : spec T (state_of_vertices parallel n) (fun s => tok s ++ T) T good.
Proof.
  unfold state_of_vertices. eapply spec_bind; [apply spec_make_insertion|]. intros p Hp. cbn beta zeta.
  eapply spec_unwinding; [|apply spec_destroy].
  eapply spec_bind; [apply spec_locking; intros g E; apply in_or_app; left; eapply good_lock; [exact Hp|exact E]|].
  intros ? _. cbn beta. eapply spec_bind; [apply spec_choose|]. intros k _. cbn beta.
  destruct (k =? n); [|apply spec_throw]. apply spec_ret; [reflexivity|]. exact Hp.
Qed.
Lemma spec_state_of_delaunay d T : spec T (state_of_delaunay parallel d) (fun s => tok s ++ T) T good.
Proof.
  unfold state_of_delaunay. eapply spec_bind; [apply spec_make_adopted|]. intros p [Hp _]. apply spec_ret; [reflexivity|exact Hp].
Qed.
Lemma spec_state_copy s T : spec T (state_copy parallel s) (fun s => tok s ++ T) T good.
Proof. unfold state_copy. eapply spec_bind; [apply spec_may_throw|]. intros ? _. cbn beta. apply spec_state_of_delaunay. Qed.

(** ** FoliatedTriangulation *)
Lemma spec_foliated s T : good s -> spec (tok s ++ T) (foliated s) (fun s => tok s ++ T) T good.
Proof.
  intros G. unfold foliated, require_nonempty. eapply spec_bind with (T1 := fun s => tok s ++ T) (P1 := good).
  - destruct (_ =? 0).
    + eapply spec_bind; [apply spec_destroy|]. intros ? _. cbn beta. apply spec_throw.
    + apply spec_ret; [reflexivity|]. exact G.
  - intros s' G'. cbn beta. eapply spec_bind; [eapply spec_unwinding; [apply spec_may_throw|apply spec_destroy]|].
    intros ? _. cbn beta. apply spec_ret; [reflexivity|exact G'].
Qed.
Lemma spec_of_delaunay d T : spec T (foliated_of_delaunay parallel d) (fun s => tok s ++ T) T good.
Proof. unfold foliated_of_delaunay. eapply spec_bind; [apply spec_state_of_delaunay|]. intros s G. apply spec_foliated, G. Qed.
Lemma spec_of_vertices n T : spec T (foliated_of_vertices parallel n) (fun s => tok s ++ T) T good.
Proof. unfold foliated_of_vertices. eapply spec_bind; [apply spec_state_of_vertices|]. intros s G. apply spec_foliated, G. Qed.
Definition detached (d : delaunay) : Prop := d_lock d = None.
Lemma spec_make_triangulation n T : spec T (make_triangulation parallel n) (fun _ => T) T detached.
Proof.
  unfold make_triangulation. eapply spec_bind; [apply spec_may_throw|]. intros ? _. cbn beta.
  eapply spec_bind; [apply spec_state_of_vertices|]. intros s G. cbn beta.
  eapply spec_bind; [eapply spec_unwinding; [apply spec_locking|apply spec_destroy]|].
  { intros g E. apply in_or_app. left. eapply good_lock; eassumption. }
  intros ? _. cbn beta. eapply spec_bind; [apply spec_choose|]. intros size _. cbn beta.
  eapply spec_bind; [apply spec_choose|]. intros left _. cbn beta.
  unfold into_detached. eapply spec_bind with (T1 := fun r => tok (snd r) ++ T) (P1 := fun r => detached (fst r)).
  - cbn [s_owner s_tri]. eapply spec_bind; [apply spec_reset|]. intros ? _. cbn beta. apply spec_ret; reflexivity.
  - intros r Hr. cbn beta. eapply spec_bind; [apply spec_destroy|]. intros ? _. cbn beta. apply spec_ret; [reflexivity|exact Hr].
Qed.
Lemma spec_random n T : spec T (foliated_random parallel n) (fun s => tok s ++ T) T good.
Proof. unfold foliated_random. eapply spec_bind; [apply spec_make_triangulation|]. intros d _. apply spec_of_delaunay. Qed.
Lemma spec_perm {A} T T2 (m : M A) T' E P : Permutation T2 T -> spec T m T' E P -> spec T2 m T' E P.
Proof.
  intros Q Hm F w H. apply Hm. destruct H as [Hf Hg Ho Hl Hn Ht Hk Hp]. constructor; try assumption.
  - intros g x K. destruct (Hl g x K) as (L1 & L2 & L3). split; [exact L1|]. split; [exact L2|].
    intros K2. apply L3. eapply Permutation_in; [symmetry; exact Q|exact K2].
  - eapply Permutation_NoDup; eassumption.
  - intros g K. apply Ht. eapply Permutation_in; [symmetry; exact Q|exact K].
  - intros g K. destruct (Hk g K) as [L|[L|L]]; auto. right. left. eapply Permutation_in; eassumption.
Qed.
Lemma spec_foliated_copy s T : spec T (foliated_copy parallel s) (fun s => tok s ++ T) T good.
Proof.
  unfold foliated_copy. eapply spec_bind; [apply spec_state_empty|]. intros this G. cbn beta.
  destruct (_ =? 0); [apply spec_ret; [reflexivity|exact G]|].
  eapply spec_bind; [eapply spec_unwinding; [|apply spec_destroy]|].
  - eapply spec_bind; [apply spec_state_copy|]. intros c Gc. apply spec_foliated, Gc.
  - intros copy Gc. cbn beta. cbn [state_swap].
    apply spec_perm with (T := tok this ++ tok copy ++ T);
      [|eapply spec_bind; [apply (spec_destroy (State (s_owner this) (s_tri this)))|]].
    + rewrite !app_assoc. apply Permutation_app_tail, Permutation_app_comm.
    + intros ? _. cbn beta. apply spec_ret; [reflexivity|exact Gc].
Qed.
Lemma spec_is_fixed s T : good s -> spec (tok s ++ T) (is_fixed parallel s) (fun s => tok s ++ T) (tok s ++ T) good.
Proof.
  intros G. unfold is_fixed. eapply spec_bind; [apply spec_may_throw|]. intros ? _. cbn beta. cbn beta zeta.
  eapply spec_bind; [apply spec_locking; intros g E; apply in_or_app; left; eapply good_lock; eassumption|].
  intros ? _. cbn beta. eapply spec_bind; [apply spec_choose|]. intros c _. cbn beta.
  destruct (c =? 0); [apply spec_ret; [reflexivity|exact G]|].
  eapply spec_bind; [apply spec_choose|]. intros size _. cbn beta.
  eapply spec_bind; [apply spec_of_delaunay|]. intros r Gr. cbn beta. cbn [state_swap].
  apply spec_perm with (T := tok s ++ tok r ++ T).
  { rewrite !app_assoc. apply Permutation_app_tail, Permutation_app_comm. }
  eapply spec_bind; [apply (spec_destroy (State (s_owner s) (s_tri s)))|]. intros ? _. cbn beta.
  apply spec_ret; [reflexivity|exact Gr].
Qed.
Lemma spec_snapshot s T : spec T (delaunay_snapshot s) (fun _ => T) T detached.
Proof. unfold delaunay_snapshot. eapply spec_bind; [apply spec_may_throw|]. intros ? _. cbn beta. apply spec_ret; reflexivity. Qed.
Lemma spec_updated s T : spec T (updated parallel s) (fun s => tok s ++ T) T good.
Proof.
  unfold updated. destruct (_ =? 0); [apply spec_state_empty|].
  eapply spec_bind; [apply spec_snapshot|]. intros d _. apply spec_of_delaunay.
Qed.

(** ** Variables *)
Definition upd (F : nat -> option state) (x : nat) (s : option state) : nat -> option state := fun y => if y =? x then s else F y.
Lemma upd_same F x s : upd F x s x = s. Proof. unfold upd. rewrite Nat.eqb_refl. reflexivity. Qed.
Lemma upd_other F x s y : y <> x -> upd F x s y = F y.
Proof. intros N. unfold upd. rewrite (proj2 (Nat.eqb_neq y x) N). reflexivity. Qed.
Lemma held_ext F G g x : (forall y, F y = G y) -> held F g x -> held G g x.
Proof. intros E (s & K & O). exists s. rewrite <- E. auto. Qed.
Lemma holds_ext F G w T : (forall y, F y = G y) -> holds F w T -> holds G w T.
Proof.
  intros E [Hf Hg Ho Hl Hn Ht Hk Hp]. assert (E' : forall y, G y = F y) by (intros; symmetry; apply E). constructor; try assumption.
  - intros x s K. apply (Hg x). rewrite E. exact K.
  - intros g x y K1 K2. apply (Ho g); eapply held_ext; eassumption.
  - intros g x K. eapply Hl, held_ext; eassumption.
  - intros g K. destruct (Hk g K) as [L|[L|[x L]]]; auto. right. right. exists x. eapply held_ext; eassumption.
Qed.
(** A temporary becomes a variable, and back. *)
Lemma give F w T x s : F x = None -> good s -> holds F w (tok s ++ T) -> holds (upd F x (Some s)) w T.
Proof.
  intros Dx G [Hf Hg Ho Hl Hn Ht Hk Hp].
  assert (O : forall g y, held (upd F x (Some s)) g y -> (y = x /\ In g (tok s)) \/ (y <> x /\ held F g y)).
  { intros g y (s' & K & E). destruct (decide (y = x)) as [->|N].
    - rewrite upd_same in K. injection K as <-. left. split; [reflexivity|]. unfold tok. rewrite E. left. reflexivity.
    - rewrite upd_other in K by exact N. right. split; [exact N|]. exists s'. auto. }
  assert (I1 : forall g, In g (tok s) -> In g (tok s ++ T)) by (intros; apply in_or_app; auto).
  assert (I2 : forall g, In g T -> In g (tok s ++ T)) by (intros; apply in_or_app; auto).
  assert (T1 : forall g h, In g (tok s) -> In h (tok s) -> g = h).
  { intros g h. unfold tok. destruct (s_owner s); cbn; [intros [<-|[]] [<-|[]]; reflexivity|intros []]. }
  constructor; try assumption.
  - intros y s' K. destruct (decide (y = x)) as [->|N]; [rewrite upd_same in K; injection K as <-; exact G|].
    rewrite upd_other in K by exact N. eapply Hg, K.
  - intros g y z K1 K2. apply O in K1, K2. destruct K1 as [[-> K1]|[N1 K1]], K2 as [[-> K2]|[N2 K2]]; auto.
    + destruct (Hl g z K2) as (_ & _ & L). exfalso. auto.
    + destruct (Hl g y K1) as (_ & _ & L). exfalso. auto.
    + apply (Ho g); assumption.
  - intros g y K. apply O in K as [[-> K]|[N K]].
    + destruct (Ht g (I1 g K)) as [L1 L2]. split; [exact L1|]. split; [exact L2|].
      intros K2. revert K Hn. unfold tok. destruct (s_owner s) as [h|]; [|intros []]. intros [->|[]] Hn. cbn in Hn.
      inversion Hn; contradiction.
    + destruct (Hl g y K) as (L1 & L2 & L3). split; [exact L1|]. split; [exact L2|]. intros K2. apply L3, I2, K2.
  - clear - Hn. unfold tok in Hn. destruct (s_owner s); [inversion Hn; assumption|exact Hn].
  - intros g K. auto.
  - intros g K. destruct (Hk g K) as [L|[L|[y L]]]; auto.
    + apply in_app_or in L as [L|L]; auto. right. right. exists x. exists s. rewrite upd_same. split; [reflexivity|].
      revert L. unfold tok. destruct (s_owner s); [intros [->|[]]; reflexivity|intros []].
    + right. right. exists y. destruct L as (s' & K1 & K2). exists s'. rewrite upd_other; [auto|]. intros ->. congruence.
Qed.
Lemma take F w T x s : F x = Some s -> holds F w T -> good s /\ holds (upd F x None) w (tok s ++ T).
Proof.
  intros Fx [Hf Hg Ho Hl Hn Ht Hk Hp].
  assert (O : forall g y, held (upd F x None) g y -> y <> x /\ held F g y).
  { intros g y (s' & K & E). destruct (decide (y = x)) as [->|N]; [rewrite upd_same in K; discriminate|].
    rewrite upd_other in K by exact N. split; [exact N|]. exists s'. auto. }
  assert (Ox : forall g, In g (tok s) -> held F g x).
  { intros g K. exists s. split; [exact Fx|]. revert K. unfold tok. destruct (s_owner s); [intros [->|[]]; reflexivity|intros []]. }
  split; [eapply Hg, Fx|]. constructor; try assumption.
  - intros y s' K. destruct (decide (y = x)) as [->|N]; [rewrite upd_same in K; discriminate|].
    rewrite upd_other in K by exact N. eapply Hg, K.
  - intros g y z K1 K2. apply O in K1 as [_ K1], K2 as [_ K2]. apply (Ho g); assumption.
  - intros g y K. apply O in K as [N K]. destruct (Hl g y K) as (L1 & L2 & L3). split; [exact L1|]. split; [exact L2|].
    intros K2. apply in_app_or in K2 as [K2|K2]; [|contradiction]. apply N. apply (Ho g); auto.
  - assert (Q : forall g, In g (tok s) -> ~ In g T) by (intros g K; apply (Hl g x), Ox, K).
    revert Q. unfold tok. destruct (s_owner s) as [h|]; cbn; [|intros; exact Hn].
    intros Q. constructor; [apply Q; left; reflexivity|exact Hn].
  - intros g K. apply in_app_or in K as [K|K]; [|auto]. destruct (Hl g x (Ox g K)) as (L1 & L2 & _). auto.
  - intros g K. destruct (Hk g K) as [L|[L|[y L]]]; auto.
    + right. left. apply in_or_app. auto.
    + destruct L as (s' & K1 & K2). destruct (decide (y = x)) as [->|N].
      * right. left. apply in_or_app. left. rewrite Fx in K1. injection K1 as <-. unfold tok. rewrite K2. left. reflexivity.
      * right. right. exists y, s'. rewrite upd_other by exact N. auto.
Qed.
Lemma put_holds F w T x s : holds F w T -> holds F (put x s w) T.
Proof. intros [Hf Hg Ho Hl Hn Ht Hk Hp]. constructor; assumption. Qed.
Lemma put_foliated x s w y : w_foliated (put x s w) y = upd (w_foliated w) x s y.
Proof. reflexivity. Qed.
Lemma put_plain_holds F w T d t : (forall t' g, t = Some t' -> d_lock t' = Some g -> In g (w_mine w)) ->
  holds F w T -> holds F (put_plain d t w) T.
Proof.
  intros Hd [Hf Hg Ho Hl Hn Ht Hk Hp]. constructor; try assumption. intros e t' g. cbn.
  destruct (Nat.eqb_spec e d) as [->|N]; [intros E L; eapply Hd; eassumption|apply Hp].
Qed.

Definition ok (w : world) : Prop := holds (w_foliated w) w [].
(** The outcome of an action keeps [ok]. *)
Definition keeps (o : out unit) : Prop := match o with Ok _ w' => ok w' | Ex w' => ok w' | Bad => False end.

Lemma construct_keeps x m w : ok w -> w_foliated w x = None -> spec [] m (fun s => tok s ++ []) [] good ->
  keeps (construct x m w).
Proof.
  intros H Dx Hm. unfold construct, bind. specialize (Hm _ _ H). destruct (m w) as [s w1|w1|]; [| |exact Hm].
  - destruct Hm as ((S1 & S2 & S3) & H1 & G). cbn. unfold ok.
    eapply holds_ext; [intros y; symmetry; apply put_foliated|]. apply put_holds. rewrite S1. apply give; assumption.
  - destruct Hm as ((S1 & S2 & S3) & H1). cbn. unfold ok. rewrite S1. exact H1.
Qed.
Lemma construct_plain_keeps d m w : ok w -> spec [] m (fun _ => []) [] detached -> keeps (construct_plain d m w).
Proof.
  intros H Hm. unfold construct_plain, bind. specialize (Hm _ _ H). destruct (m w) as [t w1|w1|]; [| |exact Hm].
  - destruct Hm as ((S1 & S2 & S3) & H1 & G). cbn. unfold ok. change (w_foliated (put_plain d (Some t) w1)) with (w_foliated w1).
    apply put_plain_holds; [|rewrite S1; exact H1]. intros t' g [= <-] L. unfold detached in G. congruence.
  - destruct Hm as ((S1 & S2 & S3) & H1). cbn. unfold ok. rewrite S1. exact H1.
Qed.
(** Replace variable [x] by the result of [m], which consumes it. *)
Lemma swap_keeps x y w : ok w -> x <> y -> w_foliated w x <> None -> w_foliated w y <> None -> keeps (swap_variables x y w).
Proof.
  intros H N Lx Ly. unfold swap_variables, with_foliated. destruct (w_foliated w x) as [a|] eqn:Ex; [|congruence].
  destruct (w_foliated w y) as [b|] eqn:Ey; [|congruence]. cbn. unfold ok.
  apply put_holds, put_holds.
  destruct (take _ _ _ _ _ Ex H) as [Ga H1].
  assert (Ey' : upd (w_foliated w) x None y = Some b) by (rewrite upd_other by congruence; exact Ey).
  destruct (take _ _ _ _ _ Ey' H1) as [Gb H2].
  assert (H3 : holds (upd (upd (upd (upd (w_foliated w) x None) y None) x (Some b)) y (Some a)) w []).
  { apply give; [rewrite upd_other, upd_same by congruence; reflexivity|exact Ga|].
    apply give; [rewrite upd_other, upd_same by congruence; reflexivity|exact Gb|]. exact H2. }
  eapply holds_ext; [|exact H3]. intros z. cbn. unfold upd. destruct (z =? y) eqn:Ez.
  - destruct a; reflexivity.
  - destruct (z =? x); [destruct b; reflexivity|reflexivity].
Qed.

Lemma act_keeps a w : ok w -> allowed a w -> keeps (act parallel a w).
Proof.
  intros H A. destruct a; cbn [act allowed] in *.
  - apply construct_keeps; [assumption..|]. apply spec_state_empty.
  - apply construct_keeps; [assumption..|]. apply spec_random.
  - apply construct_keeps; [assumption..|]. apply spec_of_vertices.
  - destruct A as [Dx Ld]. unfold with_plain. destruct (w_plain w d) as [t|] eqn:Ed; [|congruence].
    destruct by_move.
    + unfold bind at 1. cbn [bind choose store_plain]. apply construct_keeps; [|exact Dx|apply spec_of_delaunay].
      unfold ok. cbn. apply put_plain_holds.
      * intros t' g [= <-] L. apply (h_plain _ _ _ _ H d t g); assumption.
      * destruct H as [Hf Hg Ho Hl Hn Ht Hk Hp]. constructor; assumption.
    + unfold bind at 1. pose proof (spec_may_throw [] _ _ H) as K. destruct (may_throw w) as [u w1|w1|]; [| |exact K].
      * destruct K as ((S1 & S2 & S3) & H1 & _). apply construct_keeps; [unfold ok; rewrite S1; exact H1|rewrite S1; exact Dx|apply spec_of_delaunay].
      * destruct K as ((S1 & S2 & S3) & H1). cbn. unfold ok. rewrite S1. exact H1.
  - destruct A as [Dx Ly]. unfold with_foliated. destruct (w_foliated w y) as [s|] eqn:Ey; [|congruence].
    apply construct_keeps; [assumption..|]. apply spec_foliated_copy.
  - destruct A as [Dx Ly]. unfold with_foliated. destruct (w_foliated w y) as [s|] eqn:Ey; [|congruence]. cbn.
    assert (N : y <> x) by congruence. unfold ok. apply put_holds, put_holds.
    destruct (take _ _ _ _ _ Ey H) as [G H1].
    assert (H2 : holds (upd (upd (upd (w_foliated w) y None) x (Some s)) y (Some (State None (Delaunay None (w_luck w (w_clock w)))))) w []).
    { apply give; [rewrite upd_other, upd_same by congruence; reflexivity|split; reflexivity|]. cbn [tok s_owner app].
      apply give; [rewrite upd_other by congruence; exact Dx|exact G|exact H1]. }
    apply holds_ext with (F := upd (upd (upd (w_foliated w) y None) x (Some s)) y (Some (State None (Delaunay None (w_luck w (w_clock w)))))).
    { intros z. cbn. unfold upd. destruct (Nat.eqb_spec z x) as [->|Nz].
      - rewrite (proj2 (Nat.eqb_neq x y)) by congruence. destruct s; reflexivity.
      - destruct (z =? y); reflexivity. }
    destruct H2 as [Hf Hg Ho Hl Hn Ht Hk Hp]. constructor; assumption.
  - destruct A as [Dx Ly]. unfold with_foliated. destruct (w_foliated w y) as [s|] eqn:Ey; [|congruence].
    apply construct_keeps; [assumption..|]. apply spec_updated.
  - destruct A as [Lx Ly]. destruct (Nat.eqb_spec x y) as [->|N]; [exact H|].
    unfold with_foliated at 1. destruct (w_foliated w y) as [s|] eqn:Ey; [|congruence].
    unfold bind. pose proof (spec_foliated_copy s [] _ _ H) as K. destruct (foliated_copy parallel s w) as [c w1|w1|]; [| |exact K].
    + destruct K as ((S1 & S2 & S3) & H1 & Gc). unfold with_foliated. rewrite S1.
      destruct (w_foliated w x) as [this|] eqn:Ex; [|congruence]. cbn [state_swap].
      destruct (take _ _ _ _ _ Ex H1) as [Gt H2]. cbn [store].
      assert (H3 : holds (upd (upd (w_foliated w) x None) x (Some c)) (put x (Some (State (s_owner c) (s_tri c))) w1) (tok this ++ [])).
      { apply put_holds. apply give; [apply upd_same|exact Gc|].
        assert (P : Permutation (tok this ++ tok c ++ []) (tok c ++ tok this ++ [])) by (rewrite !app_assoc; apply Permutation_app_tail, Permutation_app_comm).
        pose proof (spec_perm _ _ (ret tt) (fun _ => tok c ++ tok this ++ []) [] (fun _ => True) P (spec_ret _ _ _ _ _ eq_refl I) _ _ H2) as R.
        cbn in R. apply R. }
      pose proof (spec_destroy (State (s_owner this) (s_tri this)) [] [] _ _ H3) as K.
      destruct (destroy _ _) as [u w2|w2|]; [| |exact K].
      * destruct K as ((R1 & R2 & R3) & H4 & _). cbn. unfold ok. rewrite R1. eapply holds_ext; [|exact H4].
        intros z. cbn. rewrite S1. unfold upd. destruct (z =? x); [destruct c; reflexivity|reflexivity].
      * destruct K as ((R1 & R2 & R3) & H4). cbn. unfold ok. rewrite R1. eapply holds_ext; [|exact H4].
        intros z. cbn. rewrite S1. unfold upd. destruct (z =? x); [destruct c; reflexivity|reflexivity].
    + destruct K as ((S1 & S2 & S3) & H1). cbn. unfold ok. rewrite S1. exact H1.
  - destruct A as [Lx Ly]. destruct (Nat.eqb_spec x y) as [->|N]; [exact H|]. apply swap_keeps; auto.
  - destruct A as [Lx Ly]. destruct (Nat.eqb_spec x y) as [->|N]; [exact H|]. apply swap_keeps; auto.
  - unfold with_foliated. destruct (w_foliated w x) as [s|] eqn:Ex; [|congruence].
    destruct (take _ _ _ _ _ Ex H) as [G H1]. unfold bind.
    pose proof (spec_is_fixed s [] G _ _ H1) as K. destruct (is_fixed parallel s w) as [s' w1|w1|]; [| |exact K].
    + destruct K as ((S1 & S2 & S3) & H2 & G'). cbn. unfold ok. apply put_holds.
      pose proof (give (upd (w_foliated w) x None) w1 [] x s' (upd_same _ _ _) G' H2) as H3.
      eapply holds_ext; [|exact H3].
      intros z. cbn. rewrite S1. unfold upd. destruct (z =? x); reflexivity.
    + destruct K as ((S1 & S2 & S3) & H2). cbn. unfold ok. rewrite S1.
      pose proof (give (upd (w_foliated w) x None) w1 [] x s (upd_same _ _ _) G H2) as H3.
      eapply holds_ext; [|exact H3].
      intros z. unfold upd. destruct (Nat.eqb_spec z x) as [->|]; [symmetry; exact Ex|reflexivity].
  - unfold with_foliated. destruct (w_foliated w x) as [s|] eqn:Ex; [|congruence].
    destruct (take _ _ _ _ _ Ex H) as [G H1]. unfold bind. cbn [store].
    pose proof (spec_destroy s [] [] _ _ (put_holds _ _ _ x None H1)) as K. destruct (destroy s _) as [u w1|w1|]; [| |exact K].
    + destruct K as ((S1 & S2 & S3) & H2 & _). cbn. unfold ok. rewrite S1. exact H2.
    + destruct K as ((S1 & S2 & S3) & H2). cbn. unfold ok. rewrite S1. exact H2.
  - destruct A as [Dd Lx]. unfold with_foliated. destruct (w_foliated w x) as [s|] eqn:Ex; [|congruence].
    apply construct_plain_keeps; [exact H|apply spec_snapshot].
  - apply construct_plain_keeps; [exact H|apply spec_make_triangulation].
  - destruct A as [Dd Le]. unfold with_plain. destruct (w_plain w e) as [t|] eqn:Ee; [|congruence].
    unfold construct_plain, bind. pose proof (spec_may_throw [] _ _ H) as K. destruct (may_throw w) as [u w1|w1|]; [| |exact K].
    + destruct K as ((S1 & S2 & S3) & H1 & _). cbn. unfold ok. change (w_foliated (put_plain d (Some t) w1)) with (w_foliated w1).
      apply put_plain_holds; [|rewrite S1; exact H1]. intros t' g [= <-] L. rewrite S3. apply (h_plain _ _ _ _ H e t g); assumption.
    + destruct K as ((S1 & S2 & S3) & H1). cbn. unfold ok. rewrite S1. exact H1.
  - cbn. unfold ok. change (w_foliated (put_plain d None w)) with (w_foliated w). apply put_plain_holds; [discriminate|exact H].
  - unfold bind. pose proof (spec_make_unique [] _ _ H) as K. destruct (make_unique w) as [g w1|w1|]; [| |exact K].
    + destruct K as ((S1 & S2 & S3) & [Hf Hg Ho Hl Hn Ht Hk Hp] & _). cbn. unfold ok. cbn. rewrite S1.
      constructor; cbn [w_grids w_mine w_next w_plain set_grids In]; try assumption.
      * intros h [K|[<-|K]]; apply Hf; auto. left. apply Ht. left. reflexivity.
      * intros h x K. destruct (Hl h x K) as (L1 & L2 & L3). split; [exact L1|]. split; [|intros []].
        intros [<-|K2]; [apply L3; left; reflexivity|contradiction].
      * constructor.
      * intros h [].
      * intros h K. destruct (Hk h K) as [L|[[<-|[]]|L]]; auto.
      * intros e t h K L. right. rewrite S2 in K. rewrite S3. eapply (h_plain _ _ _ _ H); eassumption.
    + destruct K as ((S1 & S2 & S3) & H1). cbn. unfold ok. rewrite S1. exact H1.
  - destruct A as [Am Ag]. pose proof H as [Hf Hg Ho Hl Hn Ht Hk Hp]. unfold free.
    rewrite (proj2 (existsb_exists _ _)) by (exists g; split; [exact Ag|apply Nat.eqb_refl]). cbn. unfold ok. cbn.
    assert (K : forall h, In h (List.filter (fun h => negb (h =? g)) (w_grids w)) <-> In h (w_grids w) /\ h <> g).
    { intros h. rewrite filter_In, negb_true_iff, Nat.eqb_neq. reflexivity. }
    constructor; cbn [w_grids w_mine w_next w_plain set_grids]; try assumption.
    + intros h [Kh|Kh]; [apply K in Kh as [Kh _]; apply Hf; left; exact Kh|apply Hf; right; exact Kh].
    + intros h x Kh. destruct (Hl h x Kh) as (L1 & L2 & L3). split; [apply K; split; [exact L1|]|auto].
      intros ->. contradiction.
    + intros h [].
    + intros h Kh. apply K in Kh as [Kh Nh]. apply (Hk h Kh).
  - destruct A as [Ld Lg]. unfold with_plain. destruct (w_plain w d) as [t|] eqn:Ed; [|congruence]. cbn. unfold ok.
    change (w_foliated (put_plain d (Some (rebind t (Some g))) w)) with (w_foliated w).
    apply put_plain_holds; [|exact H]. intros t' h [= <-] [= <-]. exact Lg.
Qed.

Lemma ok_proper w : ok w -> proper w.
Proof.
  intros [Hf Hg Ho Hl Hn Ht Hk Hp]. constructor.
  - intros x g. split; intros (s & K & E); destruct (Hg _ _ K) as [G _]; exists s; split; auto; congruence.
  - intros x g K. destruct (Hl g x K) as (L1 & L2 & _). auto.
  - intros x y g K1 K2. eapply Ho; eassumption.
  - intros d g (t & K & L). eapply Hp; eassumption.
  - intros g K. destruct (Hk g K) as [L|[[]|L]]; auto.
Qed.
Lemma ok_start luck : ok (start luck).
Proof.
  constructor; cbn.
  - intros g [[]|[]].
  - discriminate.
  - intros g x y (s & K & _). discriminate.
  - intros g x (s & K & _). discriminate.
  - constructor.
  - intros g [].
  - intros g [].
  - discriminate.
Qed.
Lemma history_keeps w l w' : ok w -> history parallel w l w' -> ok w'.
Proof.
  intros H. induction 1 as [w|w a w1 l w2 A E Hh IH|w a w1 l w2 A E Hh IH]; [exact H| |];
  apply IH; pose proof (act_keeps a w H A) as K; rewrite E in K; exact K.
Qed.
Lemma history_proper luck l w : history parallel (start luck) l w -> proper w.
Proof. intros H. eapply ok_proper, history_keeps; [apply ok_start|exact H]. Qed.
Lemma history_defined luck l w a : history parallel (start luck) l w -> allowed a w -> act parallel a w <> Bad.
Proof.
  intros H A E. pose proof (act_keeps a w) as K. rewrite E in K. apply K; [|exact A].
  eapply history_keeps; [apply ok_start|exact H].
Qed.
Lemma binding_consistent luck l w x s : history parallel (start luck) l w -> w_foliated w x = Some s ->
  has_consistent_lock_binding s = true.
Proof.
  intros H Ex. destruct (h_good _ _ _ _ (history_keeps _ _ _ (ok_start luck) H) _ _ Ex) as [E _].
  unfold has_consistent_lock_binding. rewrite E. destruct (s_owner s); [apply Nat.eqb_refl|reflexivity].
Qed.
Lemma sequential_unlocked luck l w x s : parallel = false -> history parallel (start luck) l w -> w_foliated w x = Some s ->
  s_owner s = None /\ d_lock (s_tri s) = None.
Proof.
  intros P H Ex. destruct (h_good _ _ _ _ (history_keeps _ _ _ (ok_start luck) H) _ _ Ex) as [E K].
  rewrite E. auto.
Qed.
End Logic.

Lemma binding_check_exact (s : state) : has_consistent_lock_binding s = true <-> d_lock (s_tri s) = s_owner s.
Proof.
  unfold has_consistent_lock_binding. destruct (d_lock (s_tri s)) as [a|], (s_owner s) as [b|];
    rewrite ?Nat.eqb_eq; split; congruence.
Qed.
