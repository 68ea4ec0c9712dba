(** What the operations of a view of a string mean, on plain byte strings. *)
From Verif.Model Require Import Common.
Local Open Scope nat_scope.

(** [n] occurs in [h] at [i]. *)
Definition occurs (h n : list Z) (i : nat) : Prop := exists a b, h = a ++ n ++ b /\ length a = i.
(** The first / last position from a range at which [P] holds; None: there is none. *)
Definition first_at (P : nat -> Prop) (r : option nat) : Prop := match r with Some i => P i /\ (forall j, j < i -> ~ P j) | None => forall j, ~ P j end.
Definition last_at (P : nat -> Prop) (r : option nat) : Prop := match r with Some i => P i /\ (forall j, i < j -> ~ P j) | None => forall j, ~ P j end.
(** The byte at [i] is / is not one of [set]. *)
Definition byte_in (h set : list Z) (i : nat) : Prop := exists c, nth_error h i = Some c /\ In c set.
Definition byte_not_in (h set : list Z) (i : nat) : Prop := exists c, nth_error h i = Some c /\ ~ In c set.
(** The order of byte strings: the first difference decides, a prefix comes first. *)
Inductive before : list Z -> list Z -> Prop :=
| before_end : forall y b, before [] (y :: b)
| before_byte : forall x y a b, (x < y)%Z -> before (x :: a) (y :: b)
| before_cons : forall x a b, before a b -> before (x :: a) (x :: b).
