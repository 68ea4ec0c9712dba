(** Independent vocabulary for tasks with replies. *)
From Verif.Model Require Import Common TaskReply.

(** What a program asks for: (loop, label) of every closure; for a reply the loop it should run on. *)
Definition asked (o : op) : list (nat * nat) :=
  match o with
  | OPost _ l n => [(l, n)]
  | OReply _ l n r => [(l, n); (l, r)]
  | OReplyTo _ l n r None => [(l, n); (l, r)]
  | OReplyTo _ l n r (Some k) => [(l, n); (k, r)]
  | _ => []
  end.
(** The task and the reply of one post. *)
Definition pair (o : op) : list ((nat * nat) * (nat * nat)) := match asked o with [a; b] => [(a, b)] | _ => [] end.
Definition before {A} (l : list A) (x y : A) : Prop := exists a b c, l = a ++ x :: b ++ y :: c.
Definition idle (L : loop) : Prop := sched L = [] /\ nested L = [] /\ batch L = [].
Definition quits (o : op) : bool := match o with OQuit _ => true | _ => false end.
(** Every loop named by an operation exists. *)
Definition known (n : nat) (o : op) : Prop :=
  match o with
  | OPost _ l _ | OReply _ l _ _ | OReplyTo _ l _ _ None => l < n
  | OReplyTo _ l _ _ (Some k) => l < n /\ k < n
  | _ => True
  end.
