(** Specification: a plain FIFO of bytes driven by the same history of operations. *)
From Verif.Model Require Import Common IOBuffer.

(** The caller only produces what it reserved (GetWrite/Produce contract). *)
Definition op_ok (o : buf_op) : bool :=
  match o with BFill n bs => length bs <=? n | _ => true end.

Definition queue_step (q : list Z) (o : buf_op) : list Z :=
  match o with
  | BWrite bs => q ++ bs
  | BReserve _ => q
  | BFill _ bs => q ++ bs
  | BConsume n => skipn n q
  | BMove => q
  end.

(** What a history puts in. *)
Definition written (o : buf_op) : list Z :=
  match o with BWrite bs => bs | BFill _ bs => bs | _ => [] end.

(** A usable buffer: read index <= write index <= storage size. Every buffer reachable through the API is one
    (C02_iobuffer_in_bounds). *)
Definition binv (b : iobuf) : Prop := rd b <= wr b /\ wr b <= length (data b).
