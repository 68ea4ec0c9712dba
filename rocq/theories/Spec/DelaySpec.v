(** Vocabulary for delayed tasks. *)
From Verif.Model Require Import Common TimeWheel DelayTask.
From Verif.Spec Require Import TimerSpec.
Open Scope Z_scope.

(** What becomes of a task given to PostDelayTask at clock [p] with delay [ms] from another thread when
    the loop takes it from its queue at clock [r]: nothing of the delay is counted twice. *)
Definition remaining (p ms r : Z) : Z := p + ms - r.

(** The installed timers of a history. *)
Definition installed (rep : nat -> bool) (ms : nat -> Z) (t0 : Z) (h : list op) (i : nat) : Prop :=
  tb_armed (tab rep ms t0 h) i <> None.

(** [h] neither re-adds nor removes [i]. *)
Definition untouched (i : nat) (h : list op) : Prop := forallb (fun o => negb (rearms i o)) h = true.
