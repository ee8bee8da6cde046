(** [floating 53 1024] is the set of doubles. *)
From Verif Require Import Base Config ConfigSpec ConfigFacts.
From Coq Require Import Reals Lra QArith QArith.Qreals QArith.Qabs QArith.Qpower.
From Verif Require Import Ieee IeeeSpec.
Local Open Scope Z_scope.

Lemma Q_of_scaled m e : -1074 <= e -> (Q_of m e * inject_Z (2 ^ 1074) == inject_Z (m * 2 ^ (e + 1074)))%Q.
Proof.
  intros H. unfold Q_of. destruct (Z.leb_spec 0 e).
  - rewrite <- inject_Z_mult. rewrite <- Z.mul_assoc, <- Z.pow_add_r by lia. reflexivity.
  - unfold Qeq, Qmult, inject_Z. cbn [Qnum Qden]. assert (P : 0 < 2 ^ (- e)) by (apply Z.pow_pos_nonneg; lia).
    rewrite Pos.mul_1_r, Z.mul_1_r, (Z2Pos.id _ P). rewrite <- Z.mul_assoc, <- Z.pow_add_r by lia.
    f_equal. f_equal. lia.
Qed.
Lemma pow_nonzero : ~ (inject_Z (2 ^ 1074) == 0)%Q.
Proof. intros H. unfold Qeq, inject_Z in H. cbn [Qnum Qden] in H. rewrite Z.mul_1_r, Z.mul_0_l in H. revert H. apply Z.pow_nonzero; lia. Qed.
Lemma floating_double w : floating 53 1024 w <-> double_number w.
Proof.
  unfold floating, double_number. split; intros [A B]; (split; [exact A|]).
  - destruct B as (m & e & M & E & W). change (emin 53 1024) with (-1074) in E. exists m, (e + 1074).
    split; [lia|]. split; [exact M|]. rewrite W. apply Q_of_scaled. exact E.
  - destruct B as (m & k & K & M & W). exists m, (k - 1074). split; [exact M|].
    split; [change (emin 53 1024) with (-1074); lia|].
    apply (Qmult_inj_r _ _ _ pow_nonzero). rewrite W, Q_of_scaled by lia. replace (k - 1074 + 1074) with k by lia. reflexivity.
Qed.
Lemma double_nearest q v : double_round q = Fin v ->
  double_number v /\ forall w, double_number w -> (Qabs (v - q) <= Qabs (w - q))%Q.
Proof.
  intros H. apply ieee_nearest in H as [A B]; [|reflexivity|discriminate]. split; [apply floating_double; exact A|].
  intros w W. apply B. apply floating_double. exact W.
Qed.
Lemma double_sample : double_number (3 # 8).
Proof. apply floating_double. apply ieee_sample. Qed.
