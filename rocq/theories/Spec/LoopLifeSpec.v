(** Specification vocabulary for the life of a message loop: only observable events. *)
From Verif.Model Require Import Common LoopLife.

(** Thread c has called k and has not returned. *)
Definition inside (c : nat) (k : xcall) (h : list xev) : Prop :=
  exists h1 h2, h = h1 ++ XCall c k :: h2 /\ ~ In (XRet c k) h2.

(** Nobody has asked the loop to stop. *)
Definition no_quit (h : list xev) : Prop :=
  ~ In XQuit h /\ forall c, ~ In (XCall c KDtor) h.

(** Every wake-up from the condition variable was a notification. *)
Definition no_spurious (h : list xev) : Prop := forall c, ~ In (XSpurious c) h.

(** Somebody has asked the loop to stop. *)
Definition quit_asked (h : list xev) : Prop := In XQuit h \/ exists c, In (XCall c KDtor) h.

(** Call k of thread c can still return. *)
Definition can_return (c : nat) (k : xcall) (s : xstate) : Prop :=
  exists h s', xrun_to s h s' /\ In (XRet c k) h.
Definition can_return_by_notify (c : nat) (k : xcall) (s : xstate) : Prop :=
  exists h s', xrun_to s h s' /\ no_spurious h /\ In (XRet c k) h.
