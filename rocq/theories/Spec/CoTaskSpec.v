(** Vocabulary for the properties of coroutine tasks: what a history of a process shows. *)
From Verif.Model Require Import Common CoTasks.

(** The tasks submitted in a history, in order. *)
Definition submitted (h : list ev) : list task := flat_map (fun e => match e with ESubmit t => [t] | _ => [] end) h.

(** The tasks started anywhere, and by loop [r], in order. *)
Definition started (h : list ev) : list task := flat_map (fun e => match e with EStart _ t => [t] | _ => [] end) h.
Definition started_on (r : nat) (h : list ev) : list task :=
  flat_map (fun e => match e with EStart q t => if Nat.eqb q r then [t] else [] | _ => [] end) h.

(** The tasks that left the queue of `co_go f`, in order; and those that loop [r] took. *)
Definition taken (h : list ev) : list task := flat_map (fun e => match e with ETake _ t => [t] | _ => [] end) h.
Definition taken_on (r : nat) (h : list ev) : list task :=
  flat_map (fun e => match e with ETake q t => if Nat.eqb q r then [t] else [] | _ => [] end) h.

Definition who_eqb (a b : who) : bool :=
  match a, b with InLoop x, InLoop y => Nat.eqb x y | Ext x, Ext y => Nat.eqb x y | _, _ => false end.
Definition dest_eqb (a b : dest) : bool :=
  match a, b with
  | Anywhere, Anywhere => true
  | OnLoop x, OnLoop y => Nat.eqb x y
  | Sched x, Sched y => Nat.eqb x y
  | _, _ => false
  end.

(** Of a list of tasks, those that thread [w] submitted in way [d]; those submitted in way [d]. *)
Definition from (w : who) (d : dest) (l : list task) : list task :=
  filter (fun t => who_eqb (by_ t) w && dest_eqb (to_ t) d) l.
Definition via (d : dest) (l : list task) : list task := filter (fun t => dest_eqb (to_ t) d) l.

(** [a] is the beginning of [b]. *)
Definition begins {A} (a b : list A) : Prop := exists rest, b = a ++ rest.

(** The loop [r] completes a round: a Run() of its runner ends, or its thread is through. *)
Definition round_end (r : nat) (e : ev) : Prop := e = ERunEnd r \/ e = EDone r.

Definition count_iter (r : nat) (h : list ev) : nat :=
  length (filter (fun e => match e with EIter q => Nat.eqb q r | _ => false end) h).
