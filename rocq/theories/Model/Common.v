(** Shared vocabulary of the model: bytes, slices and the outcome type that keeps
    undefined behaviour and CHECK failures apart from normal results. *)
From Coq Require Export List Arith ZArith Lia Bool.
Export ListNotations.

(** C++ [char]/[uint8_t] value: an integer in [0,256). *)
Definition is_byte (b : Z) : Prop := (0 <= b < 256)%Z.
Definition is_byteb (b : Z) : bool := ((0 <=? b) && (b <? 256))%Z.

(** [n] elements of [l] from index [i] ([l.begin()+i, l.begin()+i+n)). *)
Definition slice {A} (l : list A) (i n : nat) : list A := firstn n (skipn i l).

(** memcpy of [bs] to [l.begin()+off]; [None] when it would leave the storage (undefined behaviour). *)
Definition mem_write {A} (l : list A) (off : nat) (bs : list A) : option (list A) :=
  if off + length bs <=? length l
  then Some (firstn off l ++ bs ++ skipn (off + length bs) l)
  else None.

(** Result of running modelled code. [UB]: the C++ program has undefined behaviour at this
    point. [CheckFail]: a CHECK/assert terminates the process. *)
Inductive outcome (A : Type) : Type :=
| Ok : A -> outcome A
| UB : outcome A
| CheckFail : outcome A.
Arguments Ok {A} _.
Arguments UB {A}.
Arguments CheckFail {A}.

Definition obind {A B} (x : outcome A) (f : A -> outcome B) : outcome B :=
  match x with Ok a => f a | UB => UB | CheckFail => CheckFail end.
