(** Orientation of faces under rounding. *)
From Verif Require Import Base Config ViewerScene ViewerSceneSpec ViewerSceneFacts.
From Coq Require Import QArith Qabs Lqa Qround.
Local Open Scope Q_scope.

Section Rounded.
Context (rd : Q -> fp) (u big r : Q) (RD : rounds u big rd).
Context (U0 : 0 <= u) (U1 : u * 1000 <= 1) (R1 : 1 <= r) (Big : 1000 * (r * r * r) <= big).
Fixpoint pw (d : nat) : Q := match d with O => 1 | S d => r * pw d end.
Lemma pw_ge d : 1 <= pw d.
Proof using R1. induction d as [|d IH]; cbn [pw]; [lra|nra]. Qed.
Lemma pw_add a b : pw (a + b) == pw a * pw b.
Proof. induction a as [|a IH]; cbn [pw Nat.add]; [ring|rewrite IH; ring]. Qed.
Lemma pw_mono d : (d <= 3)%nat -> pw d <= r * r * r.
Proof using R1.
  intros L. destruct d as [|[|[|[|d]]]]; cbn [pw]; [| | | |lia].
  - nra.
  - assert (1 <= r * r) by nra. nra.
  - assert (0 <= r * r) by nra. nra.
  - lra.
Qed.
(** [x] is within [e u r^d] of [v], which is at most [m r^d]. *)
Definition near (x : fp) (v : Q) (d : nat) (m e : Q) : Prop :=
  exists q, x = Fin q /\ Qabs (q - v) <= e * u * pw d /\ Qabs v <= m * pw d.
Lemma near_size x v d m e q : e <= 1000 -> 0 <= e -> x = Fin q -> Qabs (q - v) <= e * u * pw d -> Qabs v <= m * pw d ->
  Qabs q <= (m + 1) * pw d.
Proof using U0 U1 R1.
  intros E E0 _ H1 H2. pose proof (Qabs_triangle (q - v) v) as T. rewrite (Qabs_wd (q - v + v) q) in T by ring.
  pose proof (pw_ge d). assert (e * u <= 1) by nra. assert (e * u * pw d <= 1 * pw d) by (apply Qmult_le_compat_r; lra). lra.
Qed.
Lemma near_add x y v w d m m' e e' : (d <= 3)%nat -> 0 <= m -> 0 <= m' -> m + m' + 1 <= 1000 -> 0 <= e -> 0 <= e' -> e + e' <= 1000 ->
  near x v d m e -> near y w d m' e' -> near (fadd rd x y) (v + w) d (m + m') (e + e' + (m + m' + 1)).
Proof using RD U0 U1 R1 Big.
  intros Hd M M' MM E E' EE (p & -> & P1 & P2) (q & -> & Q1 & Q2). cbn [fadd].
  pose proof (pw_ge d) as G. pose proof (pw_mono d Hd) as Mo.
  assert (D : Qabs (p + q - (v + w)) <= (e + e') * u * pw d).
  { rewrite (Qabs_wd (p + q - (v + w)) ((p - v) + (q - w))) by ring. pose proof (Qabs_triangle (p - v) (q - w)). lra. }
  assert (W : Qabs (v + w) <= (m + m') * pw d).
  { pose proof (Qabs_triangle v w). lra. }
  assert (S : Qabs (p + q) <= (m + m' + 1) * pw d).
  { eapply near_size; [exact EE|lra|reflexivity|exact D|exact W]. }
  destruct (RD (p + q) ((m + m' + 1) * pw d)) as (z & Ez & Dz).
  { split; [nra|]. apply Qle_trans with (1000 * pw d); [apply Qmult_le_compat_r; lra|]. lra. }
  { exact S. }
  exists z. split; [exact Ez|]. split; [|exact W].
  rewrite (Qabs_wd (z - (v + w)) ((z - (p + q)) + (p + q - (v + w)))) by ring.
  pose proof (Qabs_triangle (z - (p + q)) (p + q - (v + w))) as T. lra.
Qed.
Lemma near_neg x v d m e : near x v d m e -> near (fneg x) (- v) d m e.
Proof.
  intros (q & -> & A & B). exists (- q). split; [done|]. split.
  - rewrite (Qabs_wd (- q - - v) (- (q - v))) by ring. by rewrite Qabs_opp.
  - by rewrite Qabs_opp.
Qed.
Lemma near_sub x y v w d m m' e e' : (d <= 3)%nat -> 0 <= m -> 0 <= m' -> m + m' + 1 <= 1000 -> 0 <= e -> 0 <= e' -> e + e' <= 1000 ->
  near x v d m e -> near y w d m' e' -> near (fminus rd x y) (v - w) d (m + m') (e + e' + (m + m' + 1)).
Proof using RD U0 U1 R1 Big. intros. apply near_add; try done. by apply near_neg. Qed.
Lemma near_mul x y v w d d' m m' e e' : (d + d' <= 3)%nat -> 0 <= m -> 0 <= m' -> (m + 1) * (m' + 1) <= 1000 ->
  0 <= e <= 1000 -> 0 <= e' <= 1000 ->
  near x v d m e -> near y w d' m' e' ->
  near (fmul rd x y) (v * w) (d + d') (m * m') ((m + 1) * e' + m' * e + (m + 1) * (m' + 1)).
Proof using RD U0 U1 R1 Big.
  intros Hd M M' MM [E E1] [E' E1'] (p & -> & P1 & P2) (q & -> & Q1 & Q2). cbn [fmul].
  pose proof (pw_ge d) as G. pose proof (pw_ge d') as G'. pose proof (pw_ge (d + d')) as GG. pose proof (pw_mono (d + d') Hd) as Mo.
  assert (Sp : Qabs p <= (m + 1) * pw d) by (eapply near_size; [exact E1|exact E|reflexivity|exact P1|exact P2]).
  assert (Sq : Qabs q <= (m' + 1) * pw d') by (eapply near_size; [exact E1'|exact E'|reflexivity|exact Q1|exact Q2]).
  assert (Pr : forall a b A B, Qabs a <= A -> Qabs b <= B -> Qabs (a * b) <= A * B).
  { intros a b A B HA HB. rewrite Qabs_Qmult. apply Qmult_le_compat_nonneg; (split; [apply Qabs_nonneg|done]). }
  assert (W : Qabs (v * w) <= m * m' * pw (d + d')).
  { rewrite pw_add. pose proof (Pr v w _ _ P2 Q2) as H.
    setoid_replace (m * m' * (pw d * pw d')) with (m * pw d * (m' * pw d')) by ring. exact H. }
  assert (S : Qabs (p * q) <= (m + 1) * (m' + 1) * pw (d + d')).
  { rewrite pw_add. pose proof (Pr p q _ _ Sp Sq) as H.
    setoid_replace ((m + 1) * (m' + 1) * (pw d * pw d')) with ((m + 1) * pw d * ((m' + 1) * pw d')) by ring. exact H. }
  assert (D : Qabs (p * q - v * w) <= ((m + 1) * e' + m' * e) * u * pw (d + d')).
  { rewrite (Qabs_wd (p * q - v * w) (p * (q - w) + (p - v) * w)) by ring.
    pose proof (Qabs_triangle (p * (q - w)) ((p - v) * w)) as T.
    pose proof (Pr p (q - w) _ _ Sp Q1) as H1. pose proof (Pr (p - v) w _ _ P1 Q2) as H2. rewrite pw_add.
    setoid_replace (((m + 1) * e' + m' * e) * u * (pw d * pw d'))
      with ((m + 1) * pw d * (e' * u * pw d') + e * u * pw d * (m' * pw d')) by ring. lra. }
  destruct (RD (p * q) ((m + 1) * (m' + 1) * pw (d + d'))) as (z & Ez & Dz).
  { assert (1 <= (m + 1) * (m' + 1)) by nra. split; [nra|]. apply Qle_trans with (1000 * pw (d + d')); [apply Qmult_le_compat_r; lra|]. lra. }
  { exact S. }
  exists z. split; [exact Ez|]. split; [|exact W].
  rewrite (Qabs_wd (z - v * w) ((z - p * q) + (p * q - v * w))) by ring.
  pose proof (Qabs_triangle (z - p * q) (p * q - v * w)) as T. lra.
Qed.
Lemma near_wd x v w d m m' e e' : near x v d m e -> v == w -> m == m' -> e == e' -> near x w d m' e'.
Proof. intros (q & -> & A & B) V M E. exists q. split; [done|]. rewrite <- V, <- M, <- E. done. Qed.

Lemma alignment_near a b c p q t : at_point a p -> at_point b q -> at_point c t -> within r p -> within r q -> within r t ->
  exists s, radial_alignment rd a b c = Fin s /\ Qabs (s - 3 * det3 p q t) <= 932 * u * (r * r * r).
Proof using RD U0 U1 R1 Big.
  destruct p as [[p1 p2] p3], q as [[q1 q2] q3], t as [[r1 r2] r3].
  intros (A1 & A2 & A3) (B1 & B2 & B3) (C1 & C2 & C3) (Wp1 & Wp2 & Wp3) (Wq1 & Wq2 & Wq3) (Wr1 & Wr2 & Wr3).
  unfold radial_alignment, sub3. cbn [xc yc zc].
  assert (Co : forall x v, x = Fin v -> Qabs v <= r -> near x v 1 1 0).
  { intros x v -> H. exists v. split; [done|]. split; [|cbn [pw]; lra]. rewrite (Qabs_wd (v - v) 0) by ring.
    change (Qabs 0) with 0. cbn [pw]. lra. }
  apply Co in A1, A2, A3, B1, B2, B3, C1, C2, C3; try done. clear Co.
  assert (Sub : forall x y v w, near x v 1 1 0 -> near y w 1 1 0 -> near (fminus rd x y) (v - w) 1 2 3).
  { intros x y v w X Y. eapply near_wd; [apply near_sub; [..|exact X|exact Y]; try lia; lra|lra..]. }
  assert (Mul : forall x y v w, near x v 1 2 3 -> near y w 1 2 3 -> near (ftimes rd x y) (v * w) 2 4 24).
  { intros x y v w X Y. eapply near_wd; [apply (near_mul x y v w 1 1 2 2 3 3); [lia|lra..|exact X|exact Y]|lra..]. }
  assert (Nor : forall x y v w, near x v 2 4 24 -> near y w 2 4 24 -> near (fminus rd x y) (v - w) 2 8 57).
  { intros x y v w X Y. eapply near_wd; [apply near_sub; [..|exact X|exact Y]; try lia; lra|lra..]. }
  assert (Sum : forall x y z v w k, near x v 1 1 0 -> near y w 1 1 0 -> near z k 1 1 0 ->
    near (fplus rd (fplus rd x y) z) (v + w + k) 1 3 7).
  { intros x y z v w k X Y Zz.
    assert (XY : near (fplus rd x y) (v + w) 1 2 3) by (eapply near_wd; [apply near_add; [..|exact X|exact Y]; try lia; lra|lra..]).
    eapply near_wd; [apply near_add; [..|exact XY|exact Zz]; try lia; lra|lra..]. }
  assert (Dot : forall x y v w, near x v 2 8 57 -> near y w 1 3 7 -> near (ftimes rd x y) (v * w) 3 24 270).
  { intros x y v w X Y. eapply near_wd; [apply (near_mul x y v w 2 1 8 3 57 7); [lia|lra..|exact X|exact Y]|lra..]. }
  assert (Fin3 : forall x y z v w k, near x v 3 24 270 -> near y w 3 24 270 -> near z k 3 24 270 ->
    near (fplus rd (fplus rd x y) z) (v + w + k) 3 72 932).
  { intros x y z v w k X Y Zz.
    assert (XY : near (fplus rd x y) (v + w) 3 48 589) by (eapply near_wd; [apply near_add; [..|exact X|exact Y]; try lia; lra|lra..]).
    eapply near_wd; [apply near_add; [..|exact XY|exact Zz]; try lia; lra|lra..]. }
  pose proof (Fin3 _ _ _ _ _ _
    (Dot _ _ _ _ (Nor _ _ _ _ (Mul _ _ _ _ (Sub _ _ _ _ B2 A2) (Sub _ _ _ _ C3 A3)) (Mul _ _ _ _ (Sub _ _ _ _ B3 A3) (Sub _ _ _ _ C2 A2))) (Sum _ _ _ _ _ _ A1 B1 C1))
    (Dot _ _ _ _ (Nor _ _ _ _ (Mul _ _ _ _ (Sub _ _ _ _ B3 A3) (Sub _ _ _ _ C1 A1)) (Mul _ _ _ _ (Sub _ _ _ _ B1 A1) (Sub _ _ _ _ C3 A3))) (Sum _ _ _ _ _ _ A2 B2 C2))
    (Dot _ _ _ _ (Nor _ _ _ _ (Mul _ _ _ _ (Sub _ _ _ _ B1 A1) (Sub _ _ _ _ C2 A2)) (Mul _ _ _ _ (Sub _ _ _ _ B2 A2) (Sub _ _ _ _ C1 A1))) (Sum _ _ _ _ _ _ A3 B3 C3)))
    as (s & E & D & _).
  exists s. split; [exact E|]. cbn [pw] in D.
  setoid_replace (932 * u * (r * r * r)) with (932 * u * (r * (r * (r * 1)))) by ring.
  match type of D with Qabs (s - ?v) <= _ => rewrite (Qabs_wd (s - 3 * det3 (p1, p2, p3) (q1, q2, q3) (r1, r2, r3)) (s - v)) end; [exact D|].
  unfold det3. ring.
Qed.
Lemma det3_swap a b c : det3 a c b == - det3 a b c.
Proof. destruct a as [[? ?] ?], b as [[? ?] ?], c as [[? ?] ?]. unfold det3. ring. Qed.
Lemma outward_rounded {V} (point_of : V -> point3) (pos : V -> Q * Q * Q) vs :
  (forall v, v ∈ vs -> at_point (point_of v) (pos v) /\ within r (pos v)) -> length vs = 3%nat ->
  exists a b c, orient_outward point_of rd vs = [a; b; c] /\ [a; b; c] ≡ₚ vs /\
    - (311 * u * (r * r * r)) <= det3 (pos a) (pos b) (pos c).
Proof using RD U0 U1 R1 Big.
  intros H L. destruct vs as [|a [|b [|c [|]]]]; try done. cbn [orient_outward].
  destruct (H a) as [Ha Wa]; [left|]. destruct (H b) as [Hb Wb]; [right; left|]. destruct (H c) as [Hc Wc]; [right; right; left|].
  destruct (alignment_near _ _ _ _ _ _ Ha Hb Hc Wa Wb Wc) as (s & E & D). rewrite E.
  apply Qabs_Qle_condition in D as [D1 D2]. cbn [fp_lt fpz].
  assert (R3 : 0 <= u * (r * r * r)) by (assert (0 <= r * r) by nra; assert (0 <= r * r * r) by nra; nra).
  destruct (Qle_bool (inject_Z 0) s) eqn:Q0; cbn [negb].
  - exists a, b, c. split; [done|]. split; [done|]. apply Qle_bool_iff in Q0. change (inject_Z 0) with 0 in Q0. nra.
  - exists a, c, b. split; [done|]. split; [constructor; apply perm_swap|]. rewrite det3_swap.
    assert (s < 0). { apply Qnot_le_lt. intros G. apply Qle_bool_iff in G. change (inject_Z 0) with 0 in Q0. congruence. }
    nra.
Qed.
End Rounded.

(** Rounding down to multiples of 2^-60 is such a rounding. *)
Definition fixed_point (q : Q) : fp := Fin (Qmake (Qfloor (q * (1152921504606846976 # 1))) 1152921504606846976).
Lemma fixed_point_rounds big : rounds (1 # 9007199254740992) big fixed_point.
Proof.
  intros q m [M _] _. eexists. split; [reflexivity|].
  set (k := q * (1152921504606846976 # 1)). pose proof (Qfloor_le k) as A. pose proof (Qlt_floor k) as B.
  assert (E : q == k * (1 # 1152921504606846976)) by (unfold k; field).
  assert (F : Qmake (Qfloor k) 1152921504606846976 == inject_Z (Qfloor k) * (1 # 1152921504606846976)).
  { unfold Qeq, inject_Z. cbn. lia. }
  rewrite F, E. rewrite inject_Z_plus in B. change (inject_Z 1) with 1 in B. apply Qabs_Qle_condition. split; lra.
Qed.
