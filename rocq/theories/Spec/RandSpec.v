(** The bytes a device delivers over a sequence of reads, as a user sees them. *)
From Verif.Model Require Import Common Rand.
(** The bytes before the first read that ends the stream or fails; an empty read is an end of file, interrupts deliver nothing. *)
Fixpoint delivered (reads : list rd) : list Z :=
  match reads with
  | RGot (x :: b) :: reads => (x :: b) ++ delivered reads
  | RIntr :: reads => delivered reads
  | _ => []
  end.
(** The stream ends or fails after these reads' bytes. *)
Fixpoint broken (reads : list rd) : bool :=
  match reads with
  | [] => false
  | RGot (_ :: _) :: reads | RIntr :: reads => broken reads
  | _ => true
  end.
(** No read returns more than it was asked for, when [n] bytes are wanted in all. *)
Fixpoint honest (n : nat) (reads : list rd) : Prop :=
  match reads with
  | [] => True
  | RGot b :: reads => n = 0%nat \/ ((length b <= n)%nat /\ honest (n - length b) reads)
  | _ :: reads => honest n reads
  end.
