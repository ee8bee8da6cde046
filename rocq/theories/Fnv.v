(** FNV-1a 64 as used by Metropolis.hpp (transition trace) and Utilities.hpp
    (payload integrity, fingerprints). *)
From Verif Require Import Base.

(** include/Metropolis.hpp:63 and include/Utilities.hpp:159-163. *)
Definition fnv_offset : Z := 14695981039346656037.
(** include/Metropolis.hpp:111, include/Utilities.hpp:191-224. *)
Definition fnv_prime : Z := 1099511628211.

(** One byte: xor, then multiply modulo 2^64 (std::uint64_t), Metropolis.hpp:109-112. *)
Definition fnv_step (h b : Z) : Z := wrap64 (Z.lxor h b * fnv_prime).
(** A sequence of bytes. *)
Definition fnv_from (h : Z) (bs : list Z) : Z := fold_left fnv_step bs h.
Definition fnv1a (bs : list Z) : Z := fnv_from fnv_offset bs.

Definition u64 (z : Z) : Prop := 0 <= z < two64.
Definition byte (z : Z) : Prop := 0 <= z < 256.

(** Multiplicative inverse of the prime modulo 2^64. *)
Definition fnv_inverse : Z := 14886173955864302971.
Lemma fnv_inverse_ok : wrap64 (fnv_prime * fnv_inverse) = 1.
Proof. vm_compute. reflexivity. Qed.

Lemma u64_lxor a b : u64 a -> u64 b -> u64 (Z.lxor a b).
Proof.
  unfold u64. change two64 with (2 ^ 64). intros [Ha Ha'] [Hb Hb'].
  assert (Hn : 0 <= Z.lxor a b) by (apply Z.lxor_nonneg; lia).
  split; [assumption|].
  destruct (Z.eq_dec (Z.lxor a b) 0) as [E0|E0]; [rewrite E0; lia|].
  apply Z.log2_lt_pow2; [lia|].
  eapply Z.le_lt_trans; [apply Z.log2_lxor; assumption|].
  apply Z.max_lub_lt.
  - destruct (Z.eq_dec a 0) as [->|]; [cbn; lia|]. apply Z.log2_lt_pow2; lia.
  - destruct (Z.eq_dec b 0) as [->|]; [cbn; lia|]. apply Z.log2_lt_pow2; lia.
Qed.

Lemma wrap64_u64 z : u64 (wrap64 z).
Proof. unfold u64, wrap64. apply Z.mod_pos_bound. unfold two64. lia. Qed.

Lemma mul_prime_inj x y : u64 x -> u64 y ->
  wrap64 (x * fnv_prime) = wrap64 (y * fnv_prime) -> x = y.
Proof.
  intros Hx Hy H.
  assert (K : forall z, u64 z -> wrap64 (wrap64 (z * fnv_prime) * fnv_inverse) = z).
  { intros z Hz. unfold wrap64. rewrite Z.mul_mod_idemp_l by (unfold two64; lia).
    rewrite <- Z.mul_assoc. rewrite <- Z.mul_mod_idemp_r by (unfold two64; lia).
    change ((fnv_prime * fnv_inverse) mod two64) with (wrap64 (fnv_prime * fnv_inverse)).
    rewrite fnv_inverse_ok, Z.mul_1_r. apply Z.mod_small. exact Hz. }
  rewrite <- (K x Hx), <- (K y Hy), H. reflexivity.
Qed.

Lemma lxor_inj_l a x y : Z.lxor a x = Z.lxor a y -> x = y.
Proof.
  intros H. assert (E : Z.lxor a (Z.lxor a x) = Z.lxor a (Z.lxor a y)) by congruence.
  rewrite <- !Z.lxor_assoc, Z.lxor_nilpotent, !Z.lxor_0_l in E. exact E.
Qed.

Lemma byte_u64 b : byte b -> u64 b.
Proof. unfold byte, u64, two64. lia. Qed.

Lemma fnv_step_inj_byte h a b : u64 h -> byte a -> byte b ->
  fnv_step h a = fnv_step h b -> a = b.
Proof.
  intros Hh Ha Hb H. apply mul_prime_inj in H; [|apply u64_lxor; auto using byte_u64..].
  eapply lxor_inj_l; eassumption.
Qed.

Lemma fnv_step_inj_state h1 h2 b : u64 h1 -> u64 h2 -> byte b ->
  fnv_step h1 b = fnv_step h2 b -> h1 = h2.
Proof.
  intros H1 H2 Hb H. apply mul_prime_inj in H; [|apply u64_lxor; auto using byte_u64..].
  rewrite (Z.lxor_comm h1), (Z.lxor_comm h2) in H. eapply lxor_inj_l; eassumption.
Qed.

Lemma fnv_from_u64 bs : forall h, u64 h -> u64 (fnv_from h bs).
Proof.
  induction bs as [|b bs IH]; intros h Hh; [exact Hh|].
  apply IH. apply wrap64_u64.
Qed.

Lemma fnv_from_inj bs : forall h1 h2, u64 h1 -> u64 h2 -> Forall byte bs ->
  fnv_from h1 bs = fnv_from h2 bs -> h1 = h2.
Proof.
  induction bs as [|b bs IH]; intros h1 h2 H1 H2 Hbs H; [exact H|].
  apply Forall_cons_1 in Hbs as [Hb Hbs].
  eapply (fnv_step_inj_state _ _ b); try assumption.
  apply IH; try apply wrap64_u64; assumption.
Qed.

Lemma fnv_from_app h a b : fnv_from h (a ++ b) = fnv_from (fnv_from h a) b.
Proof. apply fold_left_app. Qed.

Lemma fnv_offset_u64 : u64 fnv_offset.
Proof. unfold u64, fnv_offset, two64. lia. Qed.

(** Changing exactly one byte always changes the hash. *)
Lemma fnv1a_one_byte pre a b post :
  Forall byte post -> byte a -> byte b -> a <> b ->
  fnv1a (pre ++ a :: post) <> fnv1a (pre ++ b :: post).
Proof.
  intros Hpost Ha Hb Hne H. apply Hne.
  unfold fnv1a in H. rewrite !fnv_from_app in H. cbn in H.
  apply fnv_from_inj in H; try apply wrap64_u64; [|assumption].
  eapply fnv_step_inj_byte; try eassumption. apply fnv_from_u64, fnv_offset_u64.
Qed.
