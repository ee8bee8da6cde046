(** An accepted frame has at most 2^28 pixels, whatever the rounding. *)
From Verif Require Import Base Config ConfigSpec Text ViewerImage Viewer ViewerSpec ViewerFacts.
From Coq Require Import QArith Qround.
Local Open Scope Z_scope.

Lemma fp_le_lt_false x y : fp_le x y = true -> fp_lt y x = false.
Proof.
  destruct x as [|a|p], y as [|b|q]; cbn; try done.
  - by destruct a, b.
  - by destruct a.
  - by destruct b.
  - intros E. by rewrite E.
Qed.
Lemma fp_lt_mono x y z : fp_lt x y = true -> fp_le y z = true -> fp_lt x z = true.
Proof.
  destruct x as [|a|p], y as [|b|q], z as [|c|r]; cbn; try done; try (destruct a; done); try (destruct b; done);
    try (destruct a, b, c; done); try (destruct b, c; done); try (destruct a, b; done).
  - intros L E. apply negb_true_iff. apply not_true_iff_false. intros H. apply Qle_bool_iff in E, H.
    apply negb_true_iff, not_true_iff_false in L. apply L. apply Qle_bool_iff. by eapply Qle_trans.
Qed.

Section Frame.
Context (rd rl : Q -> fp) (C : fp_contract rd rl).
Lemma rl_at_least z q : in_int32 z -> (inject_Z z <= q)%Q ->
  rl q = Inf false \/ exists r, rl q = Fin r /\ (inject_Z z <= r)%Q.
Proof using C.
  intros Hz L. pose proof (rl_mono _ _ C _ _ L) as M. pose proof (rl_int _ _ C z Hz) as X. unfold exact in X.
  destruct (rl (inject_Z z)) as [|a|p]; [done..|]. destruct (rl q) as [|b|r]; cbn in M; [done| |].
  - left. by destruct b.
  - right. exists r. split; [done|]. apply Qle_bool_iff in M. by rewrite <- X.
Qed.
Lemma sampled_at_least n o : in_int32 n -> 0 <= n -> (1 <= o)%Q ->
  sampled rl n o = Inf false \/ exists z, sampled rl n o = Fin (inject_Z z) /\ n <= z.
Proof using C.
  intros Hn H0 Ho. unfold sampled.
  destruct (rl_at_least n (inject_Z n * o)%Q Hn) as [-> | (r & -> & L)].
  - rewrite <- (Qmult_1_r (inject_Z n)) at 1. rewrite !(Qmult_comm (inject_Z n)). apply Qmult_le_compat_r; [done|].
    change 0%Q with (inject_Z 0). by rewrite <- Zle_Qle.
  - auto.
  - right. eexists. split; [done|]. rewrite Zle_Qle. eapply Qle_trans; [exact L|]. apply Qle_ceiling.
Qed.
Lemma frame_bounded w h o : 0 < w <= INT32_MAX -> 0 < h <= INT32_MAX -> (1 <= o)%Q ->
  fp_lt (fpz INT32_MAX) (sampled rl w o) = false -> fp_lt (fpz INT32_MAX) (sampled rl h o) = false ->
  fp_lt (fpz 268435456) (fmul rl (sampled rl w o) (sampled rl h o)) = false ->
  w * h <= 268435456.
Proof using C.
  intros Hw Hh Ho F1 F2 F3. destruct (Z.le_gt_cases (w * h) 268435456) as [|G]; [done|]. exfalso.
  assert (Iw : in_int32 w) by (unfold in_int32, INT32_MIN; lia). assert (Ih : in_int32 h) by (unfold in_int32, INT32_MIN; lia).
  destruct (sampled_at_least w o Iw) as [E | (a & E & La)]; [lia|done|rewrite E in F1; done|].
  destruct (sampled_at_least h o Ih) as [E' | (b & E' & Lb)]; [lia|done|rewrite E' in F2; done|].
  rewrite E, E' in F3. cbn [fmul] in F3.
  assert (I1 : in_int32 268435457) by (unfold in_int32, INT32_MIN, INT32_MAX; lia).
  destruct (rl_at_least 268435457 (inject_Z a * inject_Z b)%Q I1) as [R | (r & R & L)].
  - rewrite <- inject_Z_mult, <- Zle_Qle. nia.
  - rewrite R in F3. done.
  - rewrite R in F3. cbn [fp_lt fpz] in F3. apply negb_false_iff, Qle_bool_iff in F3.
    assert (X : (inject_Z 268435457 <= inject_Z 268435456)%Q) by (by eapply Qle_trans).
    rewrite <- Zle_Qle in X. lia.
Qed.
End Frame.
