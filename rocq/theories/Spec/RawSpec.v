(** Specification of the raw wire format, independent of the decoder. *)
From Verif.Model Require Import Common Bytes RawCodec.
Open Scope Z_scope.

(** A message as an application builds it: fields in range, size field set by SetContent. *)
Definition valid_raw (m : rawmsg) : Prop :=
  is_byte (rcode m) /\ is_byte (rmethod m) /\ 0 <= rseq m < 2 ^ 64 /\
  rsize m = Z.of_nat (length (rcontent m)) /\ rsize m < 2 ^ 63.

(** The wire image of [m] with padding bytes [pad]: 24 byte header and content. *)
Definition wire (x : list Z * rawmsg) : list Z :=
  let '(pad, m) := x in
  [rcode m; rmethod m] ++ pad ++ le_encode 8 (Z.of_nat (length (rcontent m))) ++ le_encode 8 (rseq m) ++ rcontent m.

Definition sendable (x : list Z * rawmsg) : Prop := length (fst x) = 6%nat /\ valid_raw (snd x).

(** [t] is a frame that has only partly arrived. *)
Definition partial_frame (t : list Z) : Prop :=
  t = [] \/ exists x u, sendable x /\ wire x = t ++ u /\ u <> [].
