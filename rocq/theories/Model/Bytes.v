(** Fixed-width integers as byte lists (object representation of uint16/32/64 in memory). *)
From Verif.Model Require Import Common.
Open Scope Z_scope.

(** Little-endian object representation of an n-byte unsigned integer (x86-64/aarch64 memory layout). *)
Fixpoint le_encode (n : nat) (v : Z) : list Z :=
  match n with
  | O => []
  | S n => (v mod 256) :: le_encode n (v / 256)
  end.
Fixpoint le_decode (l : list Z) : Z :=
  match l with
  | [] => 0
  | b :: l => b + 256 * le_decode l
  end.

(** Most significant byte first. *)
Definition be_encode (n : nat) (v : Z) : list Z := rev (le_encode n v).
Definition be_decode (l : list Z) : Z := le_decode (rev l).
