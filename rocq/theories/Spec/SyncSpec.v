(** Histories of threads using a SpinLock or a LazyInstance, and what a user reads off them. *)
From Verif.Model Require Import Common Sync.

(** One entry: thread, what it did, what was seen; oldest first. *)
Inductive shist : list (nat * sact * sev) -> sst -> Prop :=
| sh_nil : shist [] sinit
| sh_snoc h s t a s' e : shist h s -> sstep s t a = Some (s', e) -> shist (h ++ [(t, a, e)]) s'.

(** The threads that obtained the lock and have not released it. *)
Definition inside_step (l : list nat) (x : nat * sact * sev) : list nat :=
  match x with
  | (t, _, SGot) => t :: l
  | (t, _, SReleased) => remove Nat.eq_dec t l
  | _ => l
  end.
Definition inside (h : list (nat * sact * sev)) : list nat := fold_left inside_step h [].

(** Thread [t] has called lock() and it has not returned. *)
Definition waiting_step (t : nat) (b : bool) (x : nat * sact * sev) : bool :=
  match x with
  | (t', ALock, _) => if Nat.eqb t' t then true else b
  | (t', _, SGot) => if Nat.eqb t' t then false else b
  | _ => b
  end.
Definition waiting (h : list (nat * sact * sev)) (t : nat) : bool := fold_left (waiting_step t) h false.

Inductive lhist : list (nat * lact * lev) -> lst -> Prop :=
| lh_nil : lhist [] linit
| lh_snoc h s t a s' e : lhist h s -> lstep s t a = Some (s', e) -> lhist (h ++ [(t, a, e)]) s'.

(** How often the constructor was entered / completed / threw. *)
Definition count_ev (p : lev -> bool) (h : list (nat * lact * lev)) : nat := length (filter (fun x => p (snd x)) h).
Definition begins := count_ev (fun e => match e with LBegin => true | _ => false end).
Definition ends := count_ev (fun e => match e with LEnd => true | _ => false end).
Definition throws := count_ev (fun e => match e with LThrown => true | _ => false end).

(** Thread [t] has called get() and is still in it. *)
Definition calling_step (t : nat) (b : bool) (x : nat * lact * lev) : bool :=
  match x with
  | (t', LCall, _) => if Nat.eqb t' t then true else b
  | (t', _, LReturn) | (t', _, LThrown) => if Nat.eqb t' t then false else b
  | _ => b
  end.
Definition calling (h : list (nat * lact * lev)) (t : nat) : bool := fold_left (calling_step t) h false.
