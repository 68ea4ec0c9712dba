(** Histories of a RepeatingTimer and what a user reads off them. *)
From Verif.Model Require Import Common RepTimer.

(** Everything observed, oldest first. *)
Inductive rhist : list (ract * list rtev) -> rst -> Prop :=
| rh_nil : rhist [] rinit
| rh_snoc h s a s' l : rhist h s -> rstep s a = Some (Ok (s', l)) -> rhist (h ++ [(a, l)]) s'.
Definition seen (h : list (ract * list rtev)) : list rtev := concat (map snd h).

(** The task the timer was last started with, unless Stop() or the destructor returned since. *)
Definition active_step (a : option nat) (e : rtev) : option nat :=
  match e with EStart k => Some k | EStop | EDead => None | ERun _ => a end.
Definition active (l : list rtev) : option nat := fold_left active_step l None.

(** Every run of a task in [l] happens while the timer is started with that task. *)
Definition runs_ok (l : list rtev) : Prop :=
  forall l1 k l2, l = l1 ++ ERun k :: l2 -> active l1 = Some k.

(** A call is still in progress. *)
Definition in_call (s : rst) : bool :=
  match r_opc s with OCheck _ | OSleep _ | OBlocked _ => true | _ => match r_lpc s with RStuck => true | _ => false end end.

(** Steps of the two threads, without new calls, spurious wakeups or a stop of the loop. *)
Inductive goes : rst -> rst -> Prop :=
| go_refl s : goes s s
| go_step s a s1 l s2 : In a [AOwner; ATask; ALoop] -> rstep s a = Some (Ok (s1, l)) -> goes s1 s2 -> goes s s2.

(** Careful use: all calls from the same side (always outside the loop, or always inside it but not from the timer's own
    callback), Stop() only on a running timer, and the loop runs all the time. *)
Definition careful (inloop : bool) (s : rst) (a : ract) : Prop :=
  match a with
  | ACall b c => b = inloop /\ (c = CStop -> r_running s = true) /\ (inloop = true -> r_lpc s = RIdle)
  | AQuit => False
  | _ => True
  end.
Inductive chist (inloop : bool) : list (ract * list rtev) -> rst -> Prop :=
| ch_nil : chist inloop [] rinit
| ch_snoc h s a s' l : chist inloop h s -> careful inloop s a -> rstep s a = Some (Ok (s', l)) -> chist inloop (h ++ [(a, l)]) s'.
