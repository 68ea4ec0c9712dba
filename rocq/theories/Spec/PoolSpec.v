(** Histories of a client's connection pool and what a user reads off them. *)
From Verif.Model Require Import Common FdEvents ClientPool.
Open Scope Z_scope.

Inductive phist (req iv : Z) : list (pact * list pev) -> pool -> Prop :=
| ph_nil : phist req iv [] (pinit req iv)
| ph_snoc h s a s' l : phist req iv h s -> pstep s a = Some (Ok (s', l)) -> phist req iv (h ++ [(a, l)]) s'.
Definition pseen (h : list (pact * list pev)) : list pev := concat (map snd h).

(** How often attempt [a] was reported to the client (as connected or failed), and dropped by the connector's Stop. *)
Definition reports (a : nat) (l : list pev) : nat :=
  length (filter (fun e => match e with POk b | PFail b => Nat.eqb b a | _ => false end) l).
Definition cancels (a : nat) (l : list pev) : nat :=
  length (filter (fun e => match e with PCancel b => Nat.eqb b a | _ => false end) l).
Definition dialed (a : nat) (l : list pev) : nat :=
  length (filter (fun e => match e with PDialed b => Nat.eqb b a | _ => false end) l).

(** Dials under way: posted, delayed or in progress. *)
Definition dials (q : list ptask) : nat := length (filter (fun t => match t with TDial => true | _ => false end) q).
Definition attempts (s : pool) : Z := Z.of_nat (dials (p_q s) + p_delayed s + length (p_inprog s)).

(** Nothing is left to do for the loops. *)
Definition all_done (s : pool) : Prop := p_q s = [] /\ p_delayed s = O /\ p_inprog s = [] /\ p_detach s = [].

(** More of the history of a pool in state [s]. *)
Inductive pruns : pool -> list (pact * list pev) -> pool -> Prop :=
| pr_nil s : pruns s [] s
| pr_cons s a s1 l h s2 : pstep s a = Some (Ok (s1, l)) -> pruns s1 h s2 -> pruns s ((a, l) :: h) s2.

(** Failed attempts reported, and delayed redials scheduled. *)
Definition fails (l : list pev) : Z := Z.of_nat (length (filter (fun e => match e with PFail _ => true | _ => false end) l)).
Definition delays (l : list pev) : Z := Z.of_nat (length (filter (fun e => match e with PDelay _ => true | _ => false end) l)).

(** The kernel reports more about the socket than that it can be written. *)
Definition more_than_writable (e : Z) : bool := hasb e EPOLLIN || hasb e EPOLLRDHUP || hasb e EPOLLHUP || hasb e EPOLLERR.
(** The connection of this attempt exists: connect() succeeded at once, or the socket has a peer other than itself. *)
Definition established (act : pact) : Prop :=
  match act with
  | ATask d | ADelayed d => d = DAtOnce
  | AEvent _ _ peer self => peer = true /\ self = false
  | _ => False
  end.
