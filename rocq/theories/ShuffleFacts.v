(** std::shuffle reaches every order from exactly one outcome of its draws. *)
From Coq Require Import QArith_base.
From Verif Require Import Base Tracker Run Pcg PcgFacts PcgProps Manifold Draw DrawFacts DrawProps.
From Coq Require Import ZArith.
Local Open Scope Z_scope.

(** Consecutive draws of [generate_random_int<std::size_t>(g, 0, bound - 1)]. *)
Fixpoint draw_all (bounds : list Z) (g : Random pcg64) : drawn (list Z) :=
  match bounds with
  | [] => Drawn [] g
  | b :: bs =>
      match generate_random_int UInt64 g 0 (b - 1) with
      | Drawn x g' =>
          match draw_all bs g' with Drawn xs g'' => Drawn (x :: xs) g'' | Endless => Endless | OutOfDomain => OutOfDomain end
      | Endless => Endless
      | OutOfDomain => OutOfDomain
      end
  end.
Definition in_bounds (bounds xs : list Z) : Prop := Forall2 (fun b x => 0 <= x < b) bounds xs.

(** * Swaps *)
Section Swaps.
  Context {A : Type}.
  Implicit Types l : list A.

  Fixpoint swaps (i : nat) l (ds : list nat) : list A :=
    match ds with [] => l | d :: ds => swaps (S i) (iter_swap l i d) ds end.
  (** [ds] are positions at most i, i + 1, ... *)
  Fixpoint positions (i : nat) (ds : list nat) : Prop :=
    match ds with [] => True | d :: ds => (d <= i)%nat /\ positions (S i) ds end.

  Lemma swaps_app ds ds' : forall i l, swaps i l (ds ++ ds') = swaps (i + length ds) (swaps i l ds) ds'.
  Proof.
    induction ds as [|d ds IH]; intros i l; [cbn; rewrite Nat.add_0_r; reflexivity|].
    cbn [app swaps length]. rewrite IH. f_equal. lia.
  Qed.
  Lemma positions_app ds ds' : forall i, positions i (ds ++ ds') <-> positions i ds /\ positions (i + length ds) ds'.
  Proof.
    induction ds as [|d ds IH]; intros i; [cbn; rewrite Nat.add_0_r; tauto|].
    cbn [app positions length]. rewrite IH. replace (S i + length ds)%nat with (i + S (length ds))%nat by lia. tauto.
  Qed.
  Lemma iter_swap_length l i j : length (iter_swap l i j) = length l.
  Proof. apply Permutation_length, iter_swap_perm. Qed.
  Lemma swaps_length ds : forall i l, length (swaps i l ds) = length l.
  Proof. induction ds as [|d ds IH]; intros i l; [reflexivity|]. cbn [swaps]. rewrite IH. apply iter_swap_length. Qed.
  Lemma swaps_perm ds : forall i l, swaps i l ds ≡ₚ l.
  Proof. induction ds as [|d ds IH]; intros i l; [reflexivity|]. cbn [swaps]. rewrite IH. apply iter_swap_perm. Qed.
  Lemma iter_swap_prefix l x i j : (i < length l)%nat -> (j < length l)%nat -> iter_swap (l ++ [x]) i j = iter_swap l i j ++ [x].
  Proof.
    intros Hi Hj. unfold iter_swap. rewrite !lookup_app_l by assumption.
    destruct (l !! i) as [a|]; [|reflexivity]. destruct (l !! j) as [b|]; [|reflexivity].
    rewrite insert_app_l by assumption. rewrite insert_app_l by (rewrite insert_length; assumption). reflexivity.
  Qed.
  Lemma swaps_prefix x ds : forall i l, positions i ds -> (i + length ds <= length l)%nat -> swaps i (l ++ [x]) ds = swaps i l ds ++ [x].
  Proof.
    induction ds as [|d ds IH]; intros i l P L; [reflexivity|]. cbn [length] in L. destruct P as [P1 P2]. cbn [swaps].
    rewrite iter_swap_prefix by lia. apply IH; [exact P2|rewrite iter_swap_length; lia].
  Qed.
  Lemma iter_swap_invol l i j : iter_swap (iter_swap l i j) i j = l.
  Proof.
    unfold iter_swap at 2. destruct (l !! i) as [x|] eqn:Ei; [destruct (l !! j) as [y|] eqn:Ej|].
    - pose proof (lookup_lt_Some _ _ _ Ei). pose proof (lookup_lt_Some _ _ _ Ej). unfold iter_swap.
      destruct (Nat.eq_dec i j) as [-> | N].
      + rewrite Ei in Ej. injection Ej as <-. rewrite !list_insert_id by (rewrite ?list_insert_id; assumption). rewrite Ei.
        rewrite !list_insert_id by (rewrite ?list_insert_id; assumption). reflexivity.
      + rewrite list_lookup_insert by (rewrite insert_length; assumption). rewrite list_lookup_insert_ne by congruence. rewrite list_lookup_insert by assumption.
        apply list_eq. intros k. destruct (Nat.eq_dec k i) as [-> | Ki].
        * rewrite list_lookup_insert by (rewrite !insert_length; assumption). congruence.
        * rewrite list_lookup_insert_ne by congruence. destruct (Nat.eq_dec k j) as [-> | Kj].
          -- rewrite list_lookup_insert by (rewrite !insert_length; assumption). congruence.
          -- rewrite !list_lookup_insert_ne by congruence. reflexivity.
    - unfold iter_swap. rewrite Ei, Ej. reflexivity.
    - unfold iter_swap. rewrite Ei. reflexivity.
  Qed.
  (** Where the last element goes. *)
  Lemma iter_swap_last l x d : (d <= length l)%nat -> iter_swap (l ++ [x]) (length l) d !! d = Some x.
  Proof.
    intros D. unfold iter_swap. rewrite (lookup_app_r l [x] (length l)) by lia. rewrite Nat.sub_diag. cbn [lookup list_lookup].
    assert (Hd : (d < length (l ++ [x]))%nat) by (rewrite app_length; cbn; lia).
    destruct ((l ++ [x]) !! d) as [y|] eqn:E; [|apply lookup_ge_None in E; lia].
    destruct (Nat.eq_dec d (length l)) as [-> | N].
    - rewrite list_lookup_insert by (rewrite insert_length; exact Hd). rewrite lookup_app_r in E by lia. rewrite Nat.sub_diag in E. exact (eq_sym E).
    - rewrite list_lookup_insert_ne by congruence. apply list_lookup_insert. exact Hd.
  Qed.
  Lemma iter_swap_to_last l x d : l !! d = Some x -> exists l1, iter_swap l (length l - 1) d = l1 ++ [x] /\ length l1 = (length l - 1)%nat.
  Proof.
    intros D. pose proof (lookup_lt_Some _ _ _ D) as B. destruct l as [|a l _] using rev_ind; [cbn in B; lia|].
    rewrite app_length in *. cbn [length] in *. replace (length l + 1 - 1)%nat with (length l) by lia.
    pose proof (iter_swap_length (l ++ [a]) (length l) d) as L. rewrite app_length in L. cbn [length] in L.
    assert (LK : iter_swap (l ++ [a]) (length l) d !! length l = Some x).
    { unfold iter_swap. rewrite D. rewrite (lookup_app_r l [a] (length l)) by lia. rewrite Nat.sub_diag. cbn [lookup list_lookup].
      apply list_lookup_insert. rewrite insert_length, app_length. cbn. lia. }
    destruct (iter_swap (l ++ [a]) (length l) d) as [|b r _] using rev_ind; [cbn in L; lia|].
    rewrite app_length in L. cbn [length] in L. rewrite lookup_app_r in LK by lia. replace (length l - length r)%nat with O in LK by lia.
    injection LK as ->. exists r. split; [reflexivity|lia].
  Qed.

  Lemma orders l : NoDup l -> forall l', l' ≡ₚ l ->
    exists ds, (length ds = length l - 1)%nat /\ positions 1 ds /\ swaps 1 l ds = l' /\
      forall ds', (length ds' = length l - 1)%nat -> positions 1 ds' -> swaps 1 l ds' = l' -> ds' = ds.
  Proof.
    induction l as [|x l IH] using rev_ind; intros N l' P.
    - exists []. apply Permutation_nil_r in P. subst l'. split; [reflexivity|]. split; [exact I|]. split; [reflexivity|].
      intros ds' L _ _. destruct ds'; [reflexivity|discriminate L].
    - assert (Len : length l' = S (length l)) by (rewrite (Permutation_length P), app_length; cbn; lia).
      replace (length (l ++ [x]) - 1)%nat with (length l) by (rewrite app_length; cbn; lia).
      assert (N' : NoDup l') by (rewrite P; exact N).
      assert (Nl : NoDup l) by (apply list.NoDup_app in N; apply N).
      destruct (Nat.eq_dec (length l) 0) as [Z | NZ].
      { apply nil_length_inv in Z. subst l. cbn [app length] in *. exists [].
        split; [reflexivity|]. split; [exact I|]. split; [|intros ds' L _ _; destruct ds'; [reflexivity|discriminate L]].
        cbn [swaps]. apply Permutation_singleton_r in P. symmetry. exact P. }
      assert (Ix : x ∈ l') by (rewrite P; apply elem_of_app; right; apply elem_of_list_singleton; reflexivity).
      apply elem_of_list_lookup in Ix. destruct Ix as (d & D). pose proof (lookup_lt_Some _ _ _ D) as Dl.
      destruct (iter_swap_to_last l' x d D) as (l1 & E1 & L1). rewrite Len in E1, L1. replace (S (length l) - 1)%nat with (length l) in E1, L1 by lia.
      assert (P1 : l1 ≡ₚ l).
      { pose proof (iter_swap_perm l' (length l) d) as Q. rewrite E1, P in Q. exact (Permutation_app_inv_r [x] _ _ Q). }
      destruct (IH Nl l1 P1) as (ds & D1 & D2 & D3 & D4). exists (ds ++ [d]).
      assert (SL : forall es, (length es = length l - 1)%nat -> positions 1 es -> forall e, swaps 1 (l ++ [x]) (es ++ [e]) = iter_swap (swaps 1 l es ++ [x]) (length l) e).
      { intros es EL EP e. rewrite swaps_app. cbn [swaps]. rewrite swaps_prefix by (assumption || lia). f_equal. lia. }
      split; [rewrite app_length, D1; cbn; lia|]. split; [apply positions_app; split; [exact D2|]; cbn [positions]; split; [lia|exact I]|].
      split.
      + rewrite SL, D3 by assumption. rewrite <- E1. apply iter_swap_invol.
      + intros ds' L' Q' E'. destruct ds' as [|e es _] using rev_ind; [cbn in L'; lia|].
        rewrite app_length in L'. cbn [length] in L'. apply positions_app in Q'. destruct Q' as [Q1 [Q2 _]].
        rewrite SL in E' by (assumption || lia).
        pose proof (swaps_length es 1 l) as LS.
        assert (Ee : e = d).
        { pose proof (iter_swap_last (swaps 1 l es) x e ltac:(lia)) as K. rewrite LS, E' in K. exact (NoDup_lookup _ _ _ _ N' K D). }
        subst e. f_equal. apply D4; [lia|exact Q1|].
        assert (K : swaps 1 l es ++ [x] = l1 ++ [x]) by (rewrite <- E1, <- E', iter_swap_invol; reflexivity).
        apply app_inj_tail in K. apply K.
  Qed.
End Swaps.

(** * Draws and positions *)
(** The draws of the loop over pairs, from position [i]. *)
Fixpoint pair_bounds (pairs i : nat) : list Z :=
  match pairs with
  | O => []
  | S p => (Z.of_nat i + 1) * (Z.of_nat i + 1 + 1) :: pair_bounds p (S (S i))
  end.
Fixpoint pair_positions (i : nat) (xs : list Z) : list nat :=
  match xs with
  | [] => []
  | x :: xs => Z.to_nat (x / (Z.of_nat i + 1 + 1)) :: Z.to_nat (x mod (Z.of_nat i + 1 + 1)) :: pair_positions (S (S i)) xs
  end.
Fixpoint pair_draws (i : nat) (ds : list nat) : list Z :=
  match ds with
  | d :: d' :: ds => Z.of_nat d * (Z.of_nat i + 1 + 1) + Z.of_nat d' :: pair_draws (S (S i)) ds
  | _ => []
  end.
Lemma pair_positions_ok p : forall i xs, in_bounds (pair_bounds p i) xs ->
  positions i (pair_positions i xs) /\ length (pair_positions i xs) = (2 * p)%nat.
Proof.
  induction p as [|p IH]; intros i xs H; cbn [pair_bounds] in H.
  - inversion H; subst. split; [exact I|reflexivity].
  - inversion H as [|b x bs xs' B Bs]; subst. destruct (IH _ _ Bs) as [P L]. cbn [pair_positions positions length].
    split; [|rewrite L; lia].
    assert (0 <= x / (Z.of_nat i + 1 + 1) < Z.of_nat i + 1).
    { split; [apply Z.div_pos; lia|apply Z.div_lt_upper_bound; lia]. }
    pose proof (Z.mod_pos_bound x (Z.of_nat i + 1 + 1) ltac:(lia)). split; [lia|]. split; [lia|exact P].
Qed.
Lemma pair_draws_ok p : forall i ds, length ds = (2 * p)%nat -> positions i ds ->
  in_bounds (pair_bounds p i) (pair_draws i ds) /\ pair_positions i (pair_draws i ds) = ds.
Proof.
  induction p as [|p IH]; intros i ds L P.
  - destruct ds; [|discriminate L]. split; [constructor|reflexivity].
  - destruct ds as [|d [|d' ds]]; cbn [length] in L; [lia|lia|]. destruct P as (P1 & P2 & P3).
    destruct (IH (S (S i)) ds ltac:(lia) P3) as [W E]. cbn [pair_draws pair_bounds pair_positions]. split.
    + constructor; [|exact W]. nia.
    + rewrite E. rewrite Z.div_add_l, Z.div_small by lia. rewrite Z.add_0_r.
      rewrite Z.add_comm, Z_mod_plus_full, Z.mod_small by lia. rewrite !Nat2Z.id. reflexivity.
Qed.
Lemma pair_draws_inv p : forall i xs, in_bounds (pair_bounds p i) xs -> pair_draws i (pair_positions i xs) = xs.
Proof.
  induction p as [|p IH]; intros i xs H; cbn [pair_bounds] in H.
  - inversion H; subst. reflexivity.
  - inversion H as [|b x bs xs' B Bs]; subst. cbn [pair_positions pair_draws]. rewrite (IH _ _ Bs). f_equal.
    assert (0 <= x / (Z.of_nat i + 1 + 1)) by (apply Z.div_pos; lia).
    pose proof (Z.mod_pos_bound x (Z.of_nat i + 1 + 1) ltac:(lia)). rewrite !Z2Nat.id by lia.
    pose proof (Z.div_mod x (Z.of_nat i + 1 + 1) ltac:(lia)). lia.
Qed.
Lemma shuffle_pairs_draws {A} p : forall i (l : list A) g,
  shuffle_pairs p i l g = match draw_all (pair_bounds p i) g with
    | Drawn xs g' => Drawn (swaps i l (pair_positions i xs)) g' | Endless => Endless | OutOfDomain => OutOfDomain end.
Proof.
  induction p as [|p IH]; intros i l g; [reflexivity|]. cbn [shuffle_pairs pair_bounds draw_all]. cbv zeta. unfold generate_random_int.
  destruct (uniform_int UInt64 0 _ g) as [x g'| |]; [|reflexivity|reflexivity]. rewrite IH.
  destruct (draw_all _ g') as [xs g''| |]; reflexivity.
Qed.

(** The loop over single positions. *)
Fixpoint single_bounds (c i : nat) : list Z :=
  match c with O => [] | S c => Z.of_nat i + 1 :: single_bounds c (S i) end.
Lemma shuffle_singles_draws {A} c : forall i (l : list A) g,
  shuffle_singles c i l g = match draw_all (single_bounds c i) g with
    | Drawn xs g' => Drawn (swaps i l (map Z.to_nat xs)) g' | Endless => Endless | OutOfDomain => OutOfDomain end.
Proof.
  induction c as [|c IH]; intros i l g; [reflexivity|]. cbn [shuffle_singles single_bounds draw_all]. unfold generate_random_int.
  replace (Z.of_nat i + 1 - 1) with (Z.of_nat i) by ring.
  destruct (uniform_int UInt64 0 _ g) as [x g'| |]; [|reflexivity|reflexivity]. rewrite IH.
  destruct (draw_all _ g') as [xs g''| |]; reflexivity.
Qed.
Lemma single_positions c : forall i xs, in_bounds (single_bounds c i) xs -> positions i (map Z.to_nat xs) /\ length (map Z.to_nat xs) = c /\ map Z.of_nat (map Z.to_nat xs) = xs.
Proof.
  induction c as [|c IH]; intros i xs H; cbn [single_bounds] in H; inversion H as [|b x bs xs' B Bs]; subst.
  - split; [exact I|split; reflexivity].
  - destruct (IH _ _ Bs) as (P & L & E). cbn [map positions length]. split; [split; [lia|exact P]|]. split; [rewrite L; reflexivity|]. rewrite E, Z2Nat.id by lia. reflexivity.
Qed.
Lemma single_draws c : forall i ds, length ds = c -> positions i ds -> in_bounds (single_bounds c i) (map Z.of_nat ds) /\ map Z.to_nat (map Z.of_nat ds) = ds.
Proof.
  induction c as [|c IH]; intros i ds L P; (destruct ds as [|d ds]; [|]); cbn [length] in L; try lia.
  - split; [constructor|reflexivity].
  - destruct P as [P1 P2]. destruct (IH (S i) ds ltac:(lia) P2) as [W E]. cbn [map single_bounds]. split; [constructor; [lia|exact W]|]. rewrite E, Nat2Z.id. reflexivity.
Qed.

(** A coding of the position lists by draws. *)
Definition codes (n : nat) (bounds : list Z) (decode : list Z -> list nat) : Prop :=
  (forall xs, in_bounds bounds xs -> positions 1 (decode xs) /\ length (decode xs) = (n - 1)%nat) /\
  (forall ds, positions 1 ds -> length ds = (n - 1)%nat -> exists xs, in_bounds bounds xs /\ decode xs = ds) /\
  (forall xs xs', in_bounds bounds xs -> in_bounds bounds xs' -> decode xs = decode xs' -> xs = xs').

Lemma codes_odd n : (1 <= n)%nat -> Nat.even n = false -> codes n (pair_bounds (Nat.div2 (n - 1)) 1) (pair_positions 1).
Proof.
  intros N E. assert (D : (2 * Nat.div2 (n - 1) = n - 1)%nat).
  { rewrite <- Nat.double_twice. symmetry. apply Nat.Even_double. destruct n as [|n]; [lia|]. rewrite Nat.sub_succ, Nat.sub_0_r. 
    apply Nat.even_spec. rewrite Nat.even_succ, <- Nat.negb_even in E. destruct (Nat.even n); [reflexivity|discriminate E]. }
  split; [|split].
  - intros xs H. destruct (pair_positions_ok _ _ _ H) as [P L]. split; [exact P|lia].
  - intros ds P L. destruct (pair_draws_ok (Nat.div2 (n - 1)) 1 ds ltac:(lia) P) as [W Q]. exists (pair_draws 1 ds). split; assumption.
  - intros xs xs' H H' Q. rewrite <- (pair_draws_inv _ _ _ H), <- (pair_draws_inv _ _ _ H'), Q. reflexivity.
Qed.
Definition even_decode (xs : list Z) : list nat :=
  match xs with [] => [] | x :: xs => Z.to_nat x :: pair_positions 2 xs end.
Lemma codes_even n : (1 <= n)%nat -> Nat.even n = true -> codes n (2 :: pair_bounds (Nat.div2 (n - 2)) 2) even_decode.
Proof.
  intros N E. assert (D : (2 * Nat.div2 (n - 2) = n - 2)%nat).
  { rewrite <- Nat.double_twice. symmetry. apply Nat.Even_double. apply Nat.even_spec. destruct n as [|[|n]]; [lia|discriminate E|].
    replace (S (S n) - 2)%nat with n by lia. exact E. }
  assert (N2 : (2 <= n)%nat) by (destruct n as [|[|n]]; [lia|discriminate E|lia]).
  split; [|split].
  - intros xs H. inversion H as [|b x bs xs' B Bs]; subst. destruct (pair_positions_ok _ _ _ Bs) as [P L]. cbn [even_decode positions length].
    split; [split; [lia|exact P]|lia].
  - intros ds P L. destruct ds as [|d ds]; cbn [length] in L; [lia|]. destruct P as [P1 P2].
    destruct (pair_draws_ok (Nat.div2 (n - 2)) 2 ds ltac:(lia) P2) as [W Q]. exists (Z.of_nat d :: pair_draws 2 ds). split; [constructor; [lia|exact W]|].
    cbn [even_decode]. rewrite Q, Nat2Z.id. reflexivity.
  - intros xs xs' H H' Q. inversion H as [|b x bs ys B Bs]; subst. inversion H' as [|b' x' bs' ys' B' Bs']; subst. cbn [even_decode] in Q.
    injection Q as Q1 Q2. f_equal; [lia|]. rewrite <- (pair_draws_inv _ _ _ Bs), <- (pair_draws_inv _ _ _ Bs'), Q2. reflexivity.
Qed.
Lemma codes_single n : (1 <= n)%nat -> codes n (single_bounds (n - 1) 1) (map Z.to_nat).
Proof.
  intros N. split; [|split].
  - intros xs H. destruct (single_positions _ _ _ H) as (P & L & _). split; assumption.
  - intros ds P L. destruct (single_draws _ _ _ L P) as [W E]. exists (map Z.of_nat ds). split; assumption.
  - intros xs xs' H H' Q. destruct (single_positions _ _ _ H) as (_ & _ & E). destruct (single_positions _ _ _ H') as (_ & _ & E'). congruence.
Qed.

Lemma draw_all_some bounds : forall g, random_ok g -> Forall (fun b => 0 < b <= 2 ^ 64) bounds ->
  exists xs n, draw_all bounds g = Drawn xs (random_after n g) /\ in_bounds bounds xs.
Proof.
  induction bounds as [|b bs IH]; intros g Hg H.
  - exists [], O. split; [reflexivity|constructor].
  - apply Forall_cons_1 in H. destruct H as [B Bs].
    assert (T : forall z, 0 <= z < 2 ^ 64 -> in_type UInt64 z) by (intros z Hz; unfold in_type; cbn [type_min type_size]; lia).
    destruct (choice_result UInt64 0 (b - 1) (T 0 ltac:(lia)) (T (b - 1) ltac:(lia)) ltac:(lia) g Hg) as (v & n & E & V & _).
    destruct (IH (random_after (S n) g) (after_ok _ g Hg) Bs) as (xs & m & E' & W).
    exists (v :: xs), (S n + m)%nat. cbn [draw_all]. unfold generate_random_int. rewrite E, E', after_add. split; [reflexivity|]. constructor; [lia|exact W].
Qed.

Lemma pair_bounds_bound p : forall i L, (i + 2 * p <= L)%nat -> Forall (fun b => 0 < b <= Z.of_nat L * Z.of_nat L) (pair_bounds p i).
Proof.
  induction p as [|p IH]; intros i L H; cbn [pair_bounds]; constructor; [|apply IH; lia].
  assert (Z.of_nat i + 1 + 1 <= Z.of_nat L) by lia. assert (0 <= Z.of_nat i) by lia. nia.
Qed.
Lemma single_bounds_bound c : forall i L, (i + c <= L)%nat -> Forall (fun b => 0 < b <= Z.of_nat L) (single_bounds c i).
Proof.
  induction c as [|c IH]; intros i L H; cbn [single_bounds]; constructor; [lia|apply IH; lia].
Qed.

Lemma shuffle_orders {A : Type} (l : list A) : NoDup l -> Z.of_nat (length l) <= 2 ^ 64 ->
  exists (bounds : list Z) (order : list Z -> list A),
    Forall (fun b => 0 < b <= 2 ^ 64) bounds /\
    (forall g, std_shuffle l g = match draw_all bounds g with
       | Drawn xs g' => Drawn (order xs) g' | Endless => Endless | OutOfDomain => OutOfDomain end) /\
    (forall xs, in_bounds bounds xs -> order xs ≡ₚ l) /\
    (forall l', l' ≡ₚ l -> exists xs, in_bounds bounds xs /\ order xs = l' /\ forall xs', in_bounds bounds xs' -> order xs' = l' -> xs' = xs).
Proof.
  intros N B. destruct (Nat.eq_dec (length l) 0) as [Z | NZ].
  { apply nil_length_inv in Z. subst l. exists [], (fun _ => []). split; [constructor|]. split; [intros g; reflexivity|]. split; [intros xs _; reflexivity|].
    intros l' P. apply Permutation_nil_r in P. subst l'. exists []. split; [constructor|]. split; [reflexivity|]. intros xs' H _. inversion H. reflexivity. }
  enough (H : exists bounds decode, codes (length l) bounds decode /\ Forall (fun b => 0 < b <= 2 ^ 64) bounds /\
    forall g, std_shuffle l g = match draw_all bounds g with
       | Drawn xs g' => Drawn (swaps 1 l (decode xs)) g' | Endless => Endless | OutOfDomain => OutOfDomain end).
  { destruct H as (bounds & decode & (C1 & C2 & C3) & FB & SH). exists bounds, (fun xs => swaps 1 l (decode xs)).
    split; [exact FB|]. split; [exact SH|]. split; [intros xs _; apply swaps_perm|].
    intros l' P. destruct (orders l N l' P) as (ds & D1 & D2 & D3 & D4). destruct (C2 ds D2 D1) as (xs & X1 & X2).
    exists xs. split; [exact X1|]. split; [rewrite X2; exact D3|]. intros xs' H E. destruct (C1 xs' H) as [Q1 Q2].
    apply C3; [exact H|exact X1|]. rewrite X2. apply D4; assumption. }
  destruct l as [|x0 l0] eqn:El; [cbn in NZ; lia|]. rewrite <- El in *. assert (SH : forall g, std_shuffle l g =
     if Z.of_nat (length l) <=? (two64 - 1) / Z.of_nat (length l) then
        if Nat.even (length l) then
          match uniform_int UInt64 0 1 g with
          | Drawn x g' => shuffle_pairs (Nat.div2 (length l - 2)) 2 (iter_swap l 1 (Z.to_nat x)) g'
          | Endless => Endless
          | OutOfDomain => OutOfDomain
          end
        else shuffle_pairs (Nat.div2 (length l - 1)) 1 l g
      else shuffle_singles (length l - 1) 1 l g) by (intros g; rewrite El; reflexivity).
  clear El x0 l0. set (n := length l) in *. assert (N1 : (1 <= n)%nat) by lia.
  destruct (Z.of_nat n <=? (two64 - 1) / Z.of_nat n) eqn:Eq.
  - apply Z.leb_le in Eq. assert (SQ : Z.of_nat n * Z.of_nat n <= 2 ^ 64).
    { pose proof (Z.mul_div_le (two64 - 1) (Z.of_nat n) ltac:(lia)). change two64 with (2 ^ 64) in *. nia. }
    assert (PB : forall p i, (i + 2 * p <= n)%nat -> Forall (fun b => 0 < b <= 2 ^ 64) (pair_bounds p i)).
    { intros p i H. eapply List.Forall_impl; [|exact (pair_bounds_bound p i n H)]. intros b Hb. cbn beta in Hb. lia. }
    destruct (Nat.even n) eqn:Ev.
    + exists (2 :: pair_bounds (Nat.div2 (n - 2)) 2), even_decode. split; [apply codes_even; assumption|].
      split; [constructor; [lia|]|].
      * apply PB. destruct n as [|[|n']]; [lia|discriminate Ev|]. replace (S (S n') - 2)%nat with n' by lia.
        pose proof (Nat.div2_odd n'). destruct (Nat.odd n'); cbn [Nat.b2n] in *; lia.
      * intros g. rewrite SH. cbn [draw_all]. unfold generate_random_int. change (2 - 1) with 1.
        destruct (uniform_int UInt64 0 1 g) as [x g'| |]; [|reflexivity|reflexivity]. rewrite shuffle_pairs_draws.
        destruct (draw_all _ g') as [xs g''| |]; reflexivity.
    + exists (pair_bounds (Nat.div2 (n - 1)) 1), (pair_positions 1). split; [apply codes_odd; assumption|]. split.
      * apply PB. pose proof (Nat.div2_odd (n - 1)). destruct (Nat.odd (n - 1)); cbn [Nat.b2n] in *; lia.
      * intros g. rewrite SH. apply shuffle_pairs_draws.
  - exists (single_bounds (n - 1) 1), (map Z.to_nat). split; [apply codes_single; exact N1|]. split.
    + eapply List.Forall_impl; [|exact (single_bounds_bound (n - 1) 1 n ltac:(lia))]. intros b Hb. cbn beta in Hb. lia.
    + intros g. rewrite SH. apply shuffle_singles_draws.
Qed.
Lemma shuffle_total {A : Type} (l : list A) g : random_ok g -> Z.of_nat (length l) <= 2 ^ 64 ->
  exists l' n, std_shuffle l g = Drawn l' (random_after n g) /\ l' ≡ₚ l.
Proof.
  intros Hg B. pose proof (proj2 (NoDup_ListNoDup _) (seq_NoDup (length l) 0)) as N.
  destruct (shuffle_orders (seq 0 (length l)) N ltac:(rewrite seq_length; exact B)) as (bounds & order & FB & SH & _).
  destruct (draw_all_some bounds g Hg FB) as (xs & n & E & _).
  pose proof (SH g) as S0. rewrite E in S0.
  enough (H : exists l', std_shuffle l g = Drawn l' (random_after n g)).
  { destruct H as (l' & H). exists l', n. split; [exact H|]. exact (shuffle_result_perm _ _ _ _ H). }
  (* the draws depend on the length only *)
  revert S0. generalize (order xs). clear. intros o S0. 
  assert (PP : forall p i (s : list nat) (l : list A) g1 o g2, shuffle_pairs p i s g1 = Drawn o g2 -> exists l', shuffle_pairs p i l g1 = Drawn l' g2).
  { induction p as [|p IH]; intros i s k g1 o1 g2 H; [injection H as _ <-; exists k; reflexivity|]. cbn [shuffle_pairs] in *.
    destruct (uniform_int _ _ _ g1) as [x g3| |]; [|discriminate H|discriminate H]. exact (IH _ _ _ _ _ _ H). }
  assert (SS : forall c i (s : list nat) (l : list A) g1 o g2, shuffle_singles c i s g1 = Drawn o g2 -> exists l', shuffle_singles c i l g1 = Drawn l' g2).
  { induction c as [|c IH]; intros i s k g1 o1 g2 H; [injection H as _ <-; exists k; reflexivity|]. cbn [shuffle_singles] in *.
    destruct (uniform_int _ _ _ g1) as [x g3| |]; [|discriminate H|discriminate H]. exact (IH _ _ _ _ _ _ H). }
  destruct l as [|x l]; [injection S0 as _ <-; exists []; reflexivity|].
  unfold std_shuffle in *. cbn [length seq] in S0. rewrite seq_length in S0. cbn [length]. cbv zeta in *.
  destruct (_ <=? _); [|exact (SS _ _ _ _ _ _ _ S0)]. destruct (Nat.even _); [|exact (PP _ _ _ _ _ _ _ S0)].
  destruct (uniform_int _ _ _ g) as [x1 g3| |]; [|discriminate S0|discriminate S0]. exact (PP _ _ _ _ _ _ _ S0).
Qed.
