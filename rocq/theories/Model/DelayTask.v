(** Delayed tasks and the end of the timers: MessageLoop::PostDelayTask (message_loop.cc:260-271),
    TimerTaskHelper (timer_task_helper.cc) and EventPump::FinalizeTimeWheel (event_pump.cc:173-193),
    on top of the timing wheel of Model/TimeWheel.v. *)
From Verif.Model Require Import Common TimeWheel.
Open Scope Z_scope.

(** Conversion of a uint64_t to int64_t. *)
Definition i64 (x : Z) : Z := let y := u64 x in if y <? 2 ^ 63 then y else y - 2 ^ 64.

(** timer_task_helper.h:18-19 *)
Record helper := mkHelper { h_delay : Z; h_sched : Z }.

(** timer_task_helper.cc:6-15: built by the posting thread at clock [now] (message_loop.cc:264; [ms] is
    a uint32_t there). *)
Definition NewTimerTaskHelper (ms now : Z) : helper := mkHelper (u64 ms) (u64 now).

(** What the helper does when the loop runs it: run the task on the spot, or arm a one-shot timer. *)
Inductive helper_act := RunNow | ArmTimer (ms : Z).

(** timer_task_helper.cc:17-26 at clock [now]. *)
Definition helper_Run (h : helper) (now : Z) : helper_act :=
  let has_passed := u64 (u64 now - h_sched h) in
  let new_delay := i64 (h_delay h - has_passed) in
  if new_delay <=? 0 then RunNow else ArmTimer (u64 new_delay).

(** timer_task_helper.cc:24-26 and message_loop.cc:267-269: a new one-shot TimeoutEvent [i] with
    interval [ms] (timeout_event.cc:24-35; construction of the object appears as setting the interval
    of a timer never used before) is added at clock [now] (event_pump.cc:104-108 reads the clock
    again). *)
Definition arm_ops (i : nat) (ms now : Z) : list op := [OSetInterval i ms; OAdd i now].

(** timeout.c:599-630 timeouts_next with TIMEOUTS_ALL: the expired list, then wheel by wheel and slot
    by slot; LIST_FOREACH_SAFE has read the successor before the loop body unlinks the element, so the
    visited sequence is the contents on entry. *)
Definition zrange (n : nat) : list Z := map Z.of_nat (seq 0 n).
Definition all_timers (T : timeouts) : list nat :=
  expired T ++ flat_map (fun w => flat_map (fun s => wheel T w s) (zrange (Z.to_nat WHEEL_LEN))) (zrange (Z.to_nat WHEEL_NUM)).

(** event_pump.cc:173-193: [auto i]: DelAfterInvoke(); the result lists the events deleted (:186-188). *)
Definition FinalizeTimeWheel (auto : nat -> bool) (T : timeouts) : timeouts * list nat :=
  fold_left (fun '(T, dels) i => (timeouts_del T i, if auto i then dels ++ [i] else dels)) (all_timers T) (T, []).

(** event_pump.cc:131-133: is the event deleted after its handler ran? *)
Definition deleted_after_invoke (rep auto : nat -> bool) (i : nat) : bool := negb (rep i) && auto i.
