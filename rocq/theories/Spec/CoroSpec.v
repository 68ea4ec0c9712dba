(** Readings of coroutine histories. *)
From Verif.Model Require Import Common Coro CoSync.

(** [e] lets coroutine [c] run (again). *)
Definition starts_co (c : co) (e : cev) : Prop := e = ESpawn c \/ e = EWake c.
(** [e] moves coroutine [c] between running, suspended and finished. *)
Definition moves_co (c : co) (e : cev) : Prop :=
  starts_co c e \/ e = ESuspend c \/ e = EExit c.

(** Mutex histories. *)
Definition blocked (h : list mev) : list cid := flat_map (fun e => match e with MEBlock c => [c] | _ => [] end) h.
Definition entered_w (h : list mev) : list cid := flat_map (fun e => match e with MEEnterW c => [c] | _ => [] end) h.
(** The coroutines inside the critical section after [h]: entered and not left. *)
Definition inside_step (l : list cid) (e : mev) : list cid :=
  match e with
  | MEEnter c | MEEnterW c | MEStray c => c :: l
  | MELeave c => List.remove Nat.eq_dec c l
  | _ => l
  end.
Definition inside (h : list mev) : list cid := fold_left inside_step h [].

(** A coroutine at this point of lock()/unlock() owns the mutex. *)
Definition own (x : mpc) : bool :=
  match x with MGot _ | MHold | MSpinU | MInU => true | _ => false end.

(** WaitGroup histories. *)
Local Open Scope Z_scope.
Fixpoint added (h : list wev) : Z :=
  match h with [] => 0 | WEAdd n :: r => n + added r | _ :: r => added r end.
Fixpoint dones (h : list wev) : Z :=
  match h with [] => 0 | WEDone :: r => 1 + dones r | _ :: r => dones r end.
