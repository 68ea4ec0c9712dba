(** What is assumed of zlib, and the words used about strings. *)
From Verif.Model Require Import Common Gzip.
Local Open Scope Z_scope.
(** Decoding an encoded string gives it back; error codes are neither Z_OK nor Z_STREAM_END. *)
Definition zlib_ok (z : zlib) : Prop :=
  (forall level s, decode z (encode z level s) = (s, DEnd)) /\ (forall s p c, decode z s = (p, DBad c) -> c <> 0 /\ c <> 1).
(** Shorter than 4 GiB. *)
Definition small (s : list Z) : Prop := Z.of_nat (length s) < 2 ^ 32.
(** zlib's compression levels. *)
Definition level_ok (l : Z) : Prop := -1 <= l <= 9.
(** [r] is [s] followed by more bytes, up to a length of 16 KiB or 32 KiB or 64 KiB ..., not more than 16 KiB or twice as long as [s]. *)
Definition padded (s pad r : list Z) : Prop :=
  r = s ++ pad /\ exists j, 0 <= j /\ Z.of_nat (length r) = 16384 * 2 ^ j /\ (j = 0 \/ Z.of_nat (length r) <= 2 * Z.of_nat (length s)).
