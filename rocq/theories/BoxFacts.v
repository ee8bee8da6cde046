(** The box of the lock grid contains the points. *)
From Verif Require Import Base Config ConfigSpec ConfigFacts FoliationSpec Repair ViewerScene Radii RadiiSpec.
From Coq Require Import QArith QArith.Qabs Lqa Lia List.
Local Open Scope Q_scope.

Definition finite (x : fp) : Prop := exists q, x = Fin q.
(** The finite doubles. *)
Definition fdouble (rd : Q -> fp) (x : fp) : Prop := exists q, x = Fin q /\ exact rd q.
Lemma fp_le_refl x : x <> NaN -> fp_le x x = true.
Proof. destruct x as [|[]|q]; [congruence|reflexivity|reflexivity|]. intros _. apply fp_le_fin. lra. Qed.
Lemma fmin_le a b : finite a -> finite b -> finite (fmin a b) /\ fp_le (fmin a b) a = true /\ fp_le (fmin a b) b = true /\ (fmin a b = a \/ fmin a b = b).
Proof.
  intros [p ->] [q ->]. unfold fmin. destruct (fp_lt (Fin q) (Fin p)) eqn:E.
  - apply fp_lt_fin in E. split; [exists q; reflexivity|]. split; [apply fp_le_fin; lra|]. split; [apply fp_le_fin; lra|]. right. reflexivity.
  - assert (L : p <= q). { apply Qnot_lt_le. intros K. apply fp_lt_fin in K. congruence. }
    split; [exists p; reflexivity|]. split; [apply fp_le_fin; lra|]. split; [apply fp_le_fin; lra|]. left. reflexivity.
Qed.
Lemma fmax_le a b : finite a -> finite b -> finite (fmax a b) /\ fp_le a (fmax a b) = true /\ fp_le b (fmax a b) = true /\ (fmax a b = a \/ fmax a b = b).
Proof.
  intros [p ->] [q ->]. unfold fmax. destruct (fp_lt (Fin p) (Fin q)) eqn:E.
  - apply fp_lt_fin in E. split; [exists q; reflexivity|]. split; [apply fp_le_fin; lra|]. split; [apply fp_le_fin; lra|]. right. reflexivity.
  - assert (L : q <= p). { apply Qnot_lt_le. intros K. apply fp_lt_fin in K. congruence. }
    split; [exists p; reflexivity|]. split; [apply fp_le_fin; lra|]. split; [apply fp_le_fin; lra|]. left. reflexivity.
Qed.

(** One coordinate of the union. *)
Definition lows (f : point3 -> fp) (p : point3) (rest : list point3) : fp := fold_left (fun a q => fmin a (f q)) rest (f p).
Definition highs (f : point3 -> fp) (p : point3) (rest : list point3) : fp := fold_left (fun a q => fmax a (f q)) rest (f p).
Lemma union_coordinates rest b : fold_left (fun b q => box_union b (point_box q)) rest b =
  mkBox (fold_left (fun a q => fmin a (xc q)) rest (bxmin b)) (fold_left (fun a q => fmin a (yc q)) rest (bymin b)) (fold_left (fun a q => fmin a (zc q)) rest (bzmin b))
        (fold_left (fun a q => fmax a (xc q)) rest (bxmax b)) (fold_left (fun a q => fmax a (yc q)) rest (bymax b)) (fold_left (fun a q => fmax a (zc q)) rest (bzmax b)).
Proof. revert b. induction rest as [|q r IH]; intros b; cbn [fold_left]; [destruct b; reflexivity|]. rewrite IH. reflexivity. Qed.
Lemma fold_min (f : point3 -> fp) rest a : finite a -> (forall q, In q rest -> finite (f q)) ->
  let m := fold_left (fun a q => fmin a (f q)) rest a in
  (m = a \/ exists q, In q rest /\ m = f q) /\ fp_le m a = true /\ forall q, In q rest -> fp_le m (f q) = true.
Proof.
  revert a. induction rest as [|q r IH]; intros a A F; cbn [fold_left].
  - split; [left; reflexivity|]. split; [apply fp_le_refl; destruct A as [? ->]; discriminate|]. intros q [].
  - destruct (fmin_le a (f q) A (F q (or_introl eq_refl))) as (M1 & M2 & M3 & M4).
    destruct (IH _ M1 (fun x Hx => F x (or_intror Hx))) as (I1 & I2 & I3).
    set (m := fold_left _ r _) in *. split.
    + destruct I1 as [I1|(x & X & E)]; [|right; exists x; split; [right; exact X|exact E]].
      destruct M4 as [M4|M4]; rewrite M4 in I1; [left; exact I1|right; exists q; split; [left; reflexivity|exact I1]].
    + assert (FM : finite m). { destruct I1 as [I1|(x & X & E)]; [rewrite I1; exact M1|rewrite E; apply F; right; exact X]. }
      assert (TR : forall y, finite y -> fp_le (fmin a (f q)) y = true -> fp_le m y = true).
      { intros y [y' ->]. destruct FM as [m' ->]. destruct M1 as [k K]. rewrite K in *. rewrite !fp_le_fin in *. intros. lra. }
      split; [apply TR; [exact A|exact M2]|]. intros x [<-|X]; [apply TR; [apply F; left; reflexivity|exact M3]|apply I3; exact X].
Qed.
Lemma fold_max (f : point3 -> fp) rest a : finite a -> (forall q, In q rest -> finite (f q)) ->
  let m := fold_left (fun a q => fmax a (f q)) rest a in
  (m = a \/ exists q, In q rest /\ m = f q) /\ fp_le a m = true /\ forall q, In q rest -> fp_le (f q) m = true.
Proof.
  revert a. induction rest as [|q r IH]; intros a A F; cbn [fold_left].
  - split; [left; reflexivity|]. split; [apply fp_le_refl; destruct A as [? ->]; discriminate|]. intros q [].
  - destruct (fmax_le a (f q) A (F q (or_introl eq_refl))) as (M1 & M2 & M3 & M4).
    destruct (IH _ M1 (fun x Hx => F x (or_intror Hx))) as (I1 & I2 & I3).
    set (m := fold_left _ r _) in *. split.
    + destruct I1 as [I1|(x & X & E)]; [|right; exists x; split; [right; exact X|exact E]].
      destruct M4 as [M4|M4]; rewrite M4 in I1; [left; exact I1|right; exists q; split; [left; reflexivity|exact I1]].
    + assert (FM : finite m). { destruct I1 as [I1|(x & X & E)]; [rewrite I1; exact M1|rewrite E; apply F; right; exact X]. }
      assert (TR : forall y, finite y -> fp_le y (fmax a (f q)) = true -> fp_le y m = true).
      { intros y [y' ->]. destruct FM as [m' ->]. destruct M1 as [k K]. rewrite K in *. rewrite !fp_le_fin in *. intros. lra. }
      split; [apply TR; [exact A|exact M2]|]. intros x [<-|X]; [apply TR; [apply F; left; reflexivity|exact M3]|apply I3; exact X].
Qed.

Section Pad.
  Variable rd : Q -> fp.
  Hypothesis MO : forall p q, p <= q -> fp_le (rd p) (rd q) = true.

  Lemma fmax_keeps a b : fp_le (fpz 1) a = true -> fp_le (fpz 1) (fmax a b) = true.
  Proof using.
    intros H. unfold fmax. destruct (fp_lt a b) eqn:E; [|exact H]. unfold fpz in *.
    destruct a as [|[]|p], b as [|[]|q]; try discriminate H; try discriminate E; try reflexivity.
    apply fp_lt_fin in E. apply fp_le_fin in H. apply fp_le_fin. lra.
  Qed.
  Lemma padding_cases w : fp_le (fpz 1) w = true -> w = Inf false \/ exists q, w = Fin q /\ 1 <= q.
  Proof using.
    destruct w as [|[]|q]; intros H; try discriminate H; [left; reflexivity|]. right. exists q. split; [reflexivity|].
    apply fp_le_fin in H. exact H.
  Qed.
  Lemma less_le lo w : fdouble rd lo -> fp_le (fpz 1) w = true -> fp_le (fadd rd lo (fneg w)) lo = true.
  Proof using MO.
    intros (q & -> & E) W. apply padding_cases in W. destruct W as [->|(p & -> & P)]; [reflexivity|]. cbn [fneg fadd].
    pose proof (MO (q + - p) q ltac:(lra)) as M. unfold exact in E. destruct (rd q) as [| |q']; [destruct E..|].
    destruct (rd (q + - p)) as [|[]|a]; try discriminate M; [reflexivity|]. apply fp_le_fin in M. apply fp_le_fin. lra.
  Qed.
  Lemma more_ge hi w : fdouble rd hi -> fp_le (fpz 1) w = true -> fp_le hi (fadd rd hi w) = true.
  Proof using MO.
    intros (q & -> & E) W. apply padding_cases in W. destruct W as [->|(p & -> & P)]; [reflexivity|]. cbn [fadd].
    pose proof (MO q (q + p) ltac:(lra)) as M. unfold exact in E. destruct (rd q) as [| |q']; [destruct E..|].
    destruct (rd (q + p)) as [|[]|a]; try discriminate M; [reflexivity|]. apply fp_le_fin in M. apply fp_le_fin. lra.
  Qed.
  Definition modest (x : fp) : Prop := exists q, x = Fin q /\ Qabs q <= pow2 52.
  Hypothesis NR : ieee_double rd.
  Lemma near_one q : Qabs q <= pow2 52 + 1 -> exists q', rd q = Fin q' /\ q - 1 < q' < q + 1.
  Proof using NR.
    intros H. assert (P : pow2 52 == 4503599627370496) by (vm_compute; reflexivity). rewrite P in H.
    assert (P1 : 4503599627370497 <= pow2 1000) by (vm_compute; discriminate).
    destruct (NR q) as (q' & E & B); [lra|]. exists q'. split; [exact E|].
    assert (P2 : pow2 (-1074) <= 1 # 1000) by (vm_compute; discriminate).
    assert (P3 : pow2 (-53) == 1 # 9007199254740992) by (vm_compute; reflexivity). rewrite P3 in B.
    apply Qabs_Qle_condition in B. lra.
  Qed.
  Lemma less_lt lo w : modest lo -> fp_le (fpz 1) w = true -> fp_lt (fadd rd lo (fneg w)) lo = true.
  Proof using MO NR.
    intros (q & -> & A) W. apply padding_cases in W. destruct W as [->|(p & -> & P)]; [reflexivity|]. cbn [fneg fadd].
    apply Qabs_Qle_condition in A. destruct (near_one (q - 1)) as (a & Ea & Ba).
    { apply Qabs_Qle_condition. lra. }
    pose proof (MO (q + - p) (q - 1) ltac:(lra)) as M. rewrite Ea in M.
    destruct (rd (q + - p)) as [|[]|b]; try discriminate M; [reflexivity|]. apply fp_le_fin in M. apply fp_lt_fin. lra.
  Qed.
  Lemma more_gt hi w : modest hi -> fp_le (fpz 1) w = true -> fp_lt hi (fadd rd hi w) = true.
  Proof using MO NR.
    intros (q & -> & A) W. apply padding_cases in W. destruct W as [->|(p & -> & P)]; [reflexivity|]. cbn [fadd].
    apply Qabs_Qle_condition in A. destruct (near_one (q + 1)) as (a & Ea & Ba).
    { apply Qabs_Qle_condition. lra. }
    pose proof (MO (q + 1) (q + p) ltac:(lra)) as M. rewrite Ea in M.
    destruct (rd (q + p)) as [|[]|b]; try discriminate M; [reflexivity|]. apply fp_le_fin in M. apply fp_lt_fin. lra.
  Qed.
End Pad.

Lemma le_trans3 a b c : fp_le a b = true -> fp_le b c = true -> fp_le a c = true.
Proof.
  destruct a as [|[]|p], b as [|[]|q], c as [|[]|r]; intros H K; try discriminate H; try discriminate K; try reflexivity.
  apply fp_le_fin in H, K. apply fp_le_fin. lra.
Qed.
Lemma lt_le_trans3 a b c : fp_lt a b = true -> fp_le b c = true -> fp_lt a c = true.
Proof.
  destruct a as [|[]|p], b as [|[]|q], c as [|[]|r]; intros H K; try discriminate H; try discriminate K; try reflexivity.
  apply fp_lt_fin in H. apply fp_le_fin in K. apply fp_lt_fin. lra.
Qed.
Lemma le_lt_trans3 a b c : fp_le a b = true -> fp_lt b c = true -> fp_lt a c = true.
Proof.
  destruct a as [|[]|p], b as [|[]|q], c as [|[]|r]; intros H K; try discriminate H; try discriminate K; try reflexivity.
  apply fp_le_fin in H. apply fp_lt_fin in K. apply fp_lt_fin. lra.
Qed.

(** A coordinate of the padded box against every point. *)
Section Box.
  Variable rd : Q -> fp.
  Hypothesis MO : forall p q, p <= q -> fp_le (rd p) (rd q) = true.
  Variables (p : point3) (rest : list point3) (f : point3 -> fp).
  Hypothesis D : forall q, In q (p :: rest) -> fdouble rd (f q).
  Lemma finite_all q : In q (p :: rest) -> finite (f q).
  Proof using D. intros H. destruct (D q H) as (x & E & _). exists x. exact E. Qed.
  Lemma low_is : exists q0, In q0 (p :: rest) /\ lows f p rest = f q0 /\ forall q, In q (p :: rest) -> fp_le (f q0) (f q) = true.
  Proof using D.
    destruct (fold_min f rest (f p) (finite_all p (or_introl eq_refl)) (fun q H => finite_all q (or_intror H))) as (A & B & C).
    destruct A as [A|(q & Q & A)].
    - exists p. split; [left; reflexivity|]. split; [exact A|]. intros q [<-|H]; [rewrite <- A at 1; exact B|rewrite <- A; apply C; exact H].
    - exists q. split; [right; exact Q|]. split; [exact A|]. intros x [<-|H]; [rewrite <- A; exact B|rewrite <- A; apply C; exact H].
  Qed.
  Lemma high_is : exists q0, In q0 (p :: rest) /\ highs f p rest = f q0 /\ forall q, In q (p :: rest) -> fp_le (f q) (f q0) = true.
  Proof using D.
    destruct (fold_max f rest (f p) (finite_all p (or_introl eq_refl)) (fun q H => finite_all q (or_intror H))) as (A & B & C).
    destruct A as [A|(q & Q & A)].
    - exists p. split; [left; reflexivity|]. split; [exact A|]. intros q [<-|H]; [rewrite <- A at 2; exact B|rewrite <- A; apply C; exact H].
    - exists q. split; [right; exact Q|]. split; [exact A|]. intros x [<-|H]; [rewrite <- A; exact B|rewrite <- A; apply C; exact H].
  Qed.
  Variable w : fp.
  Hypothesis W : fp_le (fpz 1) w = true.
  Lemma low_contains q : In q (p :: rest) -> fp_le (fadd rd (lows f p rest) (fneg w)) (f q) = true.
  Proof using D MO W.
    intros H. destruct low_is as (q0 & Q0 & E & L). rewrite E. exact (le_trans3 _ _ _ (less_le rd MO _ _ (D q0 Q0) W) (L q H)).
  Qed.
  Lemma high_contains q : In q (p :: rest) -> fp_le (f q) (fadd rd (highs f p rest) w) = true.
  Proof using D MO W.
    intros H. destruct high_is as (q0 & Q0 & E & L). rewrite E. exact (le_trans3 _ _ _ (L q H) (more_ge rd MO _ _ (D q0 Q0) W)).
  Qed.
  Hypothesis NR : ieee_double rd.
  Hypothesis M : forall q, In q (p :: rest) -> modest (f q).
  Lemma low_strict q : In q (p :: rest) -> fp_lt (fadd rd (lows f p rest) (fneg w)) (f q) = true.
  Proof using D MO W NR M.
    intros H. destruct low_is as (q0 & Q0 & E & L). rewrite E. exact (lt_le_trans3 _ _ _ (less_lt rd MO NR _ _ (M q0 Q0) W) (L q H)).
  Qed.
  Lemma high_strict q : In q (p :: rest) -> fp_lt (f q) (fadd rd (highs f p rest) w) = true.
  Proof using D MO W NR M.
    intros H. destruct high_is as (q0 & Q0 & E & L). rewrite E. exact (le_lt_trans3 _ _ _ (L q H) (more_gt rd MO NR _ _ (M q0 Q0) W)).
  Qed.
End Box.

Lemma coordinates rd points : (forall q, In q points -> double_point rd q) ->
  (forall q, In q points -> fdouble rd (xc q)) /\ (forall q, In q points -> fdouble rd (yc q)) /\ (forall q, In q points -> fdouble rd (zc q)).
Proof.
  intros H. split; [|split]; intros q Q; destruct (H q Q) as (x & y & z & (X & Y & Z) & EX & EY & EZ); eexists; split; eassumption.
Qed.
Lemma box_contains rd points : (forall p q, p <= q -> fp_le (rd p) (rd q) = true) ->
  (forall q, In q points -> double_point rd q) -> forall q, In q points -> inside q (locking_box rd points).
Proof.
  intros MO D q H. destruct points as [|p rest]; [destruct H|]. unfold locking_box. rewrite union_coordinates. cbn [point_box bxmin bymin bzmin bxmax bymax bzmax].
  fold (lows xc p rest) (lows yc p rest) (lows zc p rest) (highs xc p rest) (highs yc p rest) (highs zc p rest).
  destruct (coordinates rd _ D) as (DX & DY & DZ).
  unfold pad_locking_box. cbn [bxmin bymin bzmin bxmax bymax bzmax]. set (w := fmax _ _).
  assert (W : fp_le (fpz 1) w = true) by (unfold w; repeat apply fmax_keeps; reflexivity). clearbody w.
  unfold inside. cbn [bxmin bymin bzmin bxmax bymax bzmax].
  repeat split; (apply low_contains || apply high_contains); assumption.
Qed.
Lemma box_strict rd points : (forall p q, p <= q -> fp_le (rd p) (rd q) = true) -> ieee_double rd ->
  (forall q, In q points -> double_point rd q /\ modest (xc q) /\ modest (yc q) /\ modest (zc q)) ->
  forall q, In q points -> strictly_inside q (locking_box rd points).
Proof.
  intros MO NR D q H. destruct points as [|p rest]; [destruct H|]. unfold locking_box. rewrite union_coordinates. cbn [point_box bxmin bymin bzmin bxmax bymax bzmax].
  fold (lows xc p rest) (lows yc p rest) (lows zc p rest) (highs xc p rest) (highs yc p rest) (highs zc p rest).
  destruct (coordinates rd (p :: rest) (fun q Q => proj1 (D q Q))) as (DX & DY & DZ).
  unfold pad_locking_box. cbn [bxmin bymin bzmin bxmax bymax bzmax]. set (w := fmax _ _).
  assert (W : fp_le (fpz 1) w = true) by (unfold w; repeat apply fmax_keeps; reflexivity). clearbody w.
  unfold strictly_inside. cbn [bxmin bymin bzmin bxmax bymax bzmax].
  repeat split; (apply low_strict || apply high_strict); try assumption; intros x X; apply D; exact X.
Qed.

(** In exact arithmetic: the smallest box, enlarged by the largest of 1 and a
    hundredth of each side. *)
Definition qmax (a b : Q) : Q := if Qlt_le_dec a b then b else a.
Lemma fmax_fin a b : fmax (Fin a) (Fin b) = Fin (qmax a b).
Proof.
  unfold fmax, qmax. destruct (Qlt_le_dec a b) as [L|L].
  - rewrite (proj2 (fp_lt_fin a b) L). reflexivity.
  - destruct (fp_lt (Fin a) (Fin b)) eqn:E; [|reflexivity]. apply fp_lt_fin in E. lra.
Qed.
Definition bounds (f : point3 -> fp) (points : list point3) (lo hi : Q) : Prop :=
  (exists p, In p points /\ f p = Fin lo) /\ (exists p, In p points /\ f p = Fin hi) /\
  forall p q, In p points -> f p = Fin q -> lo <= q <= hi.
Lemma exact_bounds f p rest : (forall q, In q (p :: rest) -> finite (f q)) ->
  exists lo hi, lows f p rest = Fin lo /\ highs f p rest = Fin hi /\ bounds f (p :: rest) lo hi.
Proof.
  intros F.
  assert (D : forall q, In q (p :: rest) -> fdouble Fin (f q)).
  { intros q Q. destruct (F q Q) as [x E]. exists x. split; [exact E|]. unfold exact. reflexivity. }
  destruct (low_is Fin p rest f D) as (a & A & Ea & La). destruct (high_is Fin p rest f D) as (b & B & Eb & Lb).
  destruct (F a A) as [lo Elo]. destruct (F b B) as [hi Ehi]. exists lo, hi. rewrite Ea, Eb. split; [exact Elo|]. split; [exact Ehi|].
  split; [exists a; split; assumption|]. split; [exists b; split; assumption|].
  intros q x Q E. specialize (La q Q). specialize (Lb q Q). rewrite E, Elo in La. rewrite E, Ehi in Lb. rewrite fp_le_fin in La, Lb. split; assumption.
Qed.
Lemma box_exact points : points <> nil -> (forall p, In p points -> exists x y z, located p x y z) ->
  exists x1 x2 y1 y2 z1 z2 pad, bounds xc points x1 x2 /\ bounds yc points y1 y2 /\ bounds zc points z1 z2 /\
  pad = qmax (qmax (qmax 1 ((x2 - x1) * (1 # 100))) ((y2 - y1) * (1 # 100))) ((z2 - z1) * (1 # 100)) /\
  locking_box Fin points = mkBox (Fin (x1 - pad)) (Fin (y1 - pad)) (Fin (z1 - pad)) (Fin (x2 + pad)) (Fin (y2 + pad)) (Fin (z2 + pad)).
Proof.
  intros NE F. destruct points as [|p rest]; [congruence|].
  destruct (exact_bounds xc p rest) as (x1 & x2 & X1 & X2 & BX). { intros q Q. destruct (F q Q) as (x & y & z & X & _). exists x. exact X. }
  destruct (exact_bounds yc p rest) as (y1 & y2 & Y1 & Y2 & BY). { intros q Q. destruct (F q Q) as (x & y & z & _ & Y & _). exists y. exact Y. }
  destruct (exact_bounds zc p rest) as (z1 & z2 & Z1 & Z2 & BZ). { intros q Q. destruct (F q Q) as (x & y & z & _ & _ & Z). exists z. exact Z. }
  exists x1, x2, y1, y2, z1, z2. eexists. split; [exact BX|]. split; [exact BY|]. split; [exact BZ|]. split; [reflexivity|].
  unfold locking_box. rewrite union_coordinates. cbn [point_box bxmin bymin bzmin bxmax bymax bzmax].
  fold (lows xc p rest) (lows yc p rest) (lows zc p rest) (highs xc p rest) (highs yc p rest) (highs zc p rest).
  rewrite X1, X2, Y1, Y2, Z1, Z2. unfold pad_locking_box. cbn [bxmin bymin bzmin bxmax bymax bzmax fneg fadd fmul]. unfold fpz.
  rewrite !fmax_fin. cbn [fneg fadd]. reflexivity.
Qed.
Lemma box_strictly rd points : (forall p q, p <= q -> fp_le (rd p) (rd q) = true) -> ieee_double rd ->
  (forall q, In q points -> exists x y z, located q x y z /\ (exact rd x /\ exact rd y /\ exact rd z) /\
     (Qabs x <= pow2 52 /\ Qabs y <= pow2 52 /\ Qabs z <= pow2 52)) ->
  forall q, In q points -> strictly_inside q (locking_box rd points).
Proof.
  intros MO NR H. apply box_strict; [exact MO|exact NR|]. intros q Q. destruct (H q Q) as (x & y & z & L & (E1 & E2 & E3) & A1 & A2 & A3).
  split; [exists x, y, z; split; [exact L|]; split; [exact E1|split; [exact E2|exact E3]]|].
  destruct L as (X & Y & Z). split; [exists x; split; assumption|]. split; [exists y; split; assumption|exists z; split; assumption].
Qed.
