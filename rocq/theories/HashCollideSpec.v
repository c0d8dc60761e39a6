(** Specification: where a collision of the hash comes from.  A block and the
    value it is combined with are given to the compression function of
    FIPS 180-4; hashing a message does so for every block of the padded message. *)
From Verif Require Import Base HashApi HashSpec.
From Verif Require Sha256Spec.

Definition compress : list N -> list N -> list N := Sha256Spec.compress_with Sha256Spec.K.
(** The compression function is applied to [v] and [b] when [m] is hashed. *)
Definition applied (m v b : list N) : Prop := exists before after,
  Sha256Spec.blocks (Sha256Spec.pad m) = before ++ b :: after /\ v = fold_left compress before Sha256Spec.H0.
(** Hashing the messages [m] and [n] applies the compression function to
    different arguments with the same result. *)
Definition collides (m n : list N) : Prop := exists v b w c,
  applied m v b /\ applied n w c /\ (v <> w \/ b <> c) /\ compress v b = compress w c.

(** The two messages that RFC 2104 hashes for a key and a message, other than
    the key itself. *)
Definition inner (key msg : list N) : list N := xor_byte 0x36 (hmac_key Sha256Spec.sha256 64 key) ++ msg.
Definition outer (key msg : list N) : list N :=
  xor_byte 0x5c (hmac_key Sha256Spec.sha256 64 key) ++ Sha256Spec.sha256 (inner key msg).
