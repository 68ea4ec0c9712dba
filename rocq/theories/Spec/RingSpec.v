(** Consistent hashing: hash values on a circle of 2^32 points. *)
From Coq Require Import List ZArith.
Import ListNotations.
Local Open Scope Z_scope.

(** how far clockwise from [k] the point [h] is *)
Definition clockwise (k h : Z) : Z := (h - k) mod 2 ^ 32.

(** [q] is the node of [nodes] that a key with hash [k] belongs to: the first one clockwise *)
Definition owner {T} (k : Z) (nodes : list (Z * T)) (q : Z * T) : Prop :=
  In q nodes /\ forall q', In q' nodes -> clockwise k (fst q) <= clockwise k (fst q').
