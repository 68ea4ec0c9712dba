(** base/sys/byteorders.h on a little endian machine (ARCH_CPU_LITTLE_ENDIAN). *)
From Verif.Model Require Import Common.
Open Scope Z_scope.

(** byte [i] of [x] (0 = least significant) *)
Definition byte_at (x : Z) (i : Z) : Z := Z.land (Z.shiftr x (8 * i)) 255.
(** __builtin_bswap16 (byteorders.h:14-21) *)
Definition bswap16 (x : Z) : Z := Z.shiftl (byte_at x 0) 8 + byte_at x 1.
(** __builtin_bswap32 (byteorders.h:23-29) *)
Definition bswap32 (x : Z) : Z :=
  Z.shiftl (byte_at x 0) 24 + Z.shiftl (byte_at x 1) 16 + Z.shiftl (byte_at x 2) 8 + byte_at x 3.
(** __builtin_bswap64 (byteorders.h:31-44) *)
Definition bswap64 (x : Z) : Z :=
  Z.shiftl (byte_at x 0) 56 + Z.shiftl (byte_at x 1) 48 + Z.shiftl (byte_at x 2) 40 + Z.shiftl (byte_at x 3) 32
  + Z.shiftl (byte_at x 4) 24 + Z.shiftl (byte_at x 5) 16 + Z.shiftl (byte_at x 6) 8 + byte_at x 7.

(** byteorders.h:109-129 *)
Definition HostToNet16 (x : Z) : Z := bswap16 x.
Definition HostToNet32 (x : Z) : Z := bswap32 x.
Definition HostToNet64 (x : Z) : Z := bswap64 x.
(** byteorders.h:85-105 *)
Definition NetToHost16 (x : Z) : Z := bswap16 x.
Definition NetToHost32 (x : Z) : Z := bswap32 x.
Definition NetToHost64 (x : Z) : Z := bswap64 x.
(** byteorders.h:61-81 *)
Definition ByteSwapToLE16 (x : Z) : Z := x.
Definition ByteSwapToLE32 (x : Z) : Z := x.
Definition ByteSwapToLE64 (x : Z) : Z := x.
