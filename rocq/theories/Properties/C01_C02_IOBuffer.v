(** C01, C02: the I/O buffer is a FIFO of bytes and never leaves its storage. *)
From Verif.Model Require Import Common IOBuffer.
From Verif.Spec Require Import ByteQueue.
From Verif.Proofs Require IOBufferProofs.

(** For every history in which the caller only produces bytes it reserved, the buffer's readable bytes are
    those of a FIFO driven by the same history: what was written minus a consumed prefix. *)
Theorem C01_iobuffer_fifo : forall os, forallb op_ok os = true ->
  exists b, buf_run new_buf os = Ok b /\ as_string b = fold_left queue_step os [] /\
  (exists consumed, concat (map written os) = consumed ++ as_string b).
Proof. exact IOBufferProofs.fifo. Qed.
Print Assumptions C01_iobuffer_fifo.

(** Consume(n) removes exactly min(n, readable) bytes from the front. *)
Theorem C01_consume_exact : forall os b n, forallb op_ok os = true -> buf_run new_buf os = Ok b ->
  as_string (consume b n) = skipn n (as_string b) /\
  can_read (consume b n) = can_read b - Nat.min n (can_read b).
Proof. exact IOBufferProofs.consume_exact. Qed.
Print Assumptions C01_consume_exact.

(** No history reaches a write outside the storage ([UB]) or the CHECK failure, and the cursors stay ordered. *)
Theorem C02_iobuffer_in_bounds : forall os, forallb op_ok os = true ->
  exists b, buf_run new_buf os = Ok b /\ rd b <= wr b <= length (data b).
Proof. exact IOBufferProofs.bounds. Qed.
Print Assumptions C02_iobuffer_in_bounds.

(** EnsureWritableSize(n) always succeeds, leaves room for n bytes and keeps the readable bytes. *)
Theorem C02_reserve : forall os b n, forallb op_ok os = true -> buf_run new_buf os = Ok b ->
  exists b', ensure_writable b n = Ok b' /\ n <= can_write b' /\ as_string b' = as_string b.
Proof. exact IOBufferProofs.reserve. Qed.
Print Assumptions C02_reserve.

(** Non-vacuity: a history that grows, compacts, moves and consumes. *)
Definition ex_hist : list buf_op :=
  [BWrite (repeat 7%Z 500); BConsume 490; BWrite (repeat 8%Z 100); BMove;
   BFill 700 (repeat 9%Z 3); BReserve 5; BConsume 10; BConsume 200].
Example C01_nonvacuous : forallb op_ok ex_hist = true /\
  fold_left queue_step (firstn 7 ex_hist) [] = repeat 8%Z 100 ++ repeat 9%Z 3.
Proof. vm_compute. split; reflexivity. Qed.
Example C02_nonvacuous : exists b, buf_run new_buf ex_hist = Ok b /\ as_string b = [].
Proof. eexists. vm_compute. split; reflexivity. Qed.
