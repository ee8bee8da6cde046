(** The numbers of the IEEE 754 binary64 format: m 2^e with |m| < 2^53 and
    e >= -1074, of magnitude below 2^1024. *)
From Coq Require Import ZArith QArith QArith.Qabs.
Definition double_number (w : Q) : Prop :=
  (Qabs w < inject_Z (2 ^ 1024))%Q /\
  exists m k : Z, (0 <= k)%Z /\ (Z.abs m < 2 ^ 53)%Z /\ (w * inject_Z (2 ^ 1074) == inject_Z (m * 2 ^ k))%Q.
