(** MessageLoop: life of the loop thread - Start, QuitLoop, SyncStop, WaitLoopEnd and the destructor
    (base/message_loop/message_loop.cc:110-123, 147-158, 178-213, 225-258; message_loop.h:106-178).

    Interleaving model: any number of client threads and the loop thread take atomic steps in any
    order under sequential consistency ([running_] is a plain bool read by several threads: the data
    race itself is outside the model).  A condition variable wakes exactly the threads that are
    blocked in it at the moment of notify_all; a wake-up without a notification (which the C++
    standard permits) is a step of its own, labelled [XSpurious].
    Simplifications: the tasks run inside one Pump call are any number of [XTask] steps (Model/MsgLoop.v
    has the queues); write(2) to the control pipe always succeeds; SyncStop, WaitLoopEnd and the
    destructor are not called on the loop thread (a CHECK forbids it, :111, :190, :207); no member is
    called once the destructor has been entered. *)
From Verif.Model Require Import Common.

(** Program points of the loop thread (ThreadMain, :225-258). *)
Inductive xloop : Type :=
| XNone       (* Start has not created the thread, :181 *)
| XCreated    (* before running_ = true, :226 *)
| XStarting   (* PrepareRun, InstallFdEvent, :227-237 *)
| XReady      (* before the first notify_all, :239 *)
| XTop        (* while (running_), :240 *)
| XPump       (* inside Pump / RunNestedTask, :242-244 *)
| XDrain      (* RunScheduledTask, RunNestedTask, RemoveFdEvent after the loop, :247-253 *)
| XEnding     (* before the last notify_all, :257 *)
| XDone.      (* the thread has returned *)

(** The API calls a client can be inside of. *)
Inductive xcall : Type :=
| KStart      (* Start, :178-187 *)
| KWait       (* SyncStop after its write, :194, or WaitLoopEnd, :201-213 *)
| KDtor.      (* ~MessageLoop, :110-123 *)

(** Where a client thread is. *)
Inductive xclient : Type :=
| CIdle                    (* outside *)
| COnce                    (* in call_once while another thread runs the once function, :186 *)
| CEntry (k : xcall)       (* before "if (!running_) return", :202 *)
| CLock (k : xcall)        (* about to own start_stop_lock_, :183, :210, or inside wait re-locking *)
| CCheck (k : xcall)       (* owns the lock, evaluates the predicate, :184, :211 *)
| CGap (k : xcall)         (* predicate was false; owns the lock; not yet blocked in the variable *)
| CBlocked (k : xcall)     (* blocked in cv_, lock released *)
| CJoin.                   (* destructor: before thread_ptr_->join(), :116-119 *)

Inductive xonce : Type := ONew | ORunning | ODone.   (* start_onece_, :178-187 *)

Record xstate := mkX {
  xrun : bool;             (* running_ *)
  xctl : nat;              (* quit bytes in the control pipe *)
  xpc : xloop;
  xst : nat -> xclient;
  xlock : option nat;      (* owner of start_stop_lock_ *)
  xonc : xonce;
  xalive : bool            (* the destructor has not been entered *)
}.

Inductive xev : Type :=
| XCall (c : nat) (k : xcall)    (* a call begins *)
| XRet (c : nat) (k : xcall)     (* a call returns; for KDtor: the object is gone *)
| XQuit                          (* a quit byte is written, :192, :198 *)
| XTask                          (* the loop thread runs a task *)
| XNotify                        (* cv_.notify_all *)
| XSpurious (c : nat)
| XTau.

(** message_loop.cc:81-108: after construction. *)
Definition xinit : xstate := mkX false 0 XNone (fun _ => CIdle) None ONew true.

Definition xset (f : nat -> xclient) (c : nat) (x : xclient) : nat -> xclient :=
  fun j => if Nat.eqb j c then x else f j.
Definition x_st s c x := mkX (xrun s) (xctl s) (xpc s) (xset (xst s) c x) (xlock s) (xonc s) (xalive s).
Definition x_pc s p := mkX (xrun s) (xctl s) p (xst s) (xlock s) (xonc s) (xalive s).
Definition x_run s b := mkX b (xctl s) (xpc s) (xst s) (xlock s) (xonc s) (xalive s).
Definition x_ctl s n := mkX (xrun s) n (xpc s) (xst s) (xlock s) (xonc s) (xalive s).
Definition x_lock s l := mkX (xrun s) (xctl s) (xpc s) (xst s) l (xonc s) (xalive s).
Definition x_once s o := mkX (xrun s) (xctl s) (xpc s) (xst s) (xlock s) o (xalive s).
Definition x_dead s := mkX (xrun s) (xctl s) (xpc s) (xst s) (xlock s) (xonc s) false.

(** cv_.notify_all(), :239 and :257, called without holding start_stop_lock_. *)
Definition x_notify s :=
  mkX (xrun s) (xctl s) (xpc s)
      (fun c => match xst s c with CBlocked k => CLock k | x => x end)
      (xlock s) (xonc s) (xalive s).

(** The predicates given to cv_.wait, :184 and :211. *)
Definition xpred (k : xcall) (s : xstate) : bool :=
  match k with KStart => xrun s | _ => negb (xrun s) end.

(** What a wait that has ended continues with: Start's once function ends (:185-186), SyncStop /
    WaitLoopEnd return (:213), the destructor goes on to join (:116). *)
Definition x_leave (s : xstate) (c : nat) (k : xcall) : xstate :=
  match k with
  | KStart => x_once (x_st s c CIdle) ODone
  | KWait => x_st s c CIdle
  | KDtor => x_st s c CJoin
  end.
Definition x_leave_ev (c : nat) (k : xcall) : xev :=
  match k with KDtor => XTau | _ => XRet c k end.

Inductive xstep : xstate -> xev -> xstate -> Prop :=
(* ---- clients ---- *)
(* :178-184 the first Start creates the thread *)
| x_start_first c s : xalive s = true -> xst s c = CIdle -> xonc s = ONew ->
    xstep s (XCall c KStart) (x_pc (x_once (x_st s c (CLock KStart)) ORunning) XCreated)
(* :186 another thread's Start: call_once waits for the once function to end *)
| x_start_other c s : xalive s = true -> xst s c = CIdle -> xonc s <> ONew ->
    xstep s (XCall c KStart) (x_st s c COnce)
| x_start_once_done c s : xst s c = COnce -> xonc s = ODone ->
    xstep s (XRet c KStart) (x_st s c CIdle)
(* :197-199 *)
| x_quit s : xalive s = true -> xstep s XQuit (x_ctl s (S (xctl s)))
(* :192 is [x_quit]; :194, :201 *)
| x_wait c s : xalive s = true -> xst s c = CIdle ->
    xstep s (XCall c KWait) (x_st s c (CEntry KWait))
(* :110-113, 192 *)
| x_dtor c s : xalive s = true -> xst s c = CIdle ->
    xstep s (XCall c KDtor) (x_dead (x_ctl (x_st s c (CEntry KDtor)) (S (xctl s))))
(* :202-204 *)
| x_entry_ret c k s : xst s c = CEntry k -> xrun s = false ->
    xstep s (x_leave_ev c k) (x_leave s c k)
| x_entry_go c k s : xst s c = CEntry k -> xrun s = true ->
    xstep s XTau (x_st s c (CLock k))
(* :183, :210 *)
| x_take c k s : xst s c = CLock k -> xlock s = None ->
    xstep s XTau (x_lock (x_st s c (CCheck k)) (Some c))
(* :184, :211 predicate true: wait returns, the lock is released at the end of the scope *)
| x_check_yes c k s : xst s c = CCheck k -> xpred k s = true ->
    xstep s (x_leave_ev c k) (x_lock (x_leave s c k) None)
| x_check_no c k s : xst s c = CCheck k -> xpred k s = false ->
    xstep s XTau (x_st s c (CGap k))
| x_block c k s : xst s c = CGap k ->
    xstep s XTau (x_lock (x_st s c (CBlocked k)) None)
| x_spurious c k s : xst s c = CBlocked k ->
    xstep s (XSpurious c) (x_st s c (CLock k))
(* :116-122; without a thread there is nothing to join *)
| x_join c s : xst s c = CJoin -> xpc s = XDone \/ xpc s = XNone ->
    xstep s (XRet c KDtor) (x_st s c CIdle)
(* ---- the loop thread ---- *)
| x_running s : xpc s = XCreated -> xstep s XTau (x_pc (x_run s true) XStarting)
| x_install s : xpc s = XStarting -> xstep s XTau (x_pc s XReady)
| x_announce s : xpc s = XReady -> xstep s XNotify (x_pc (x_notify s) XTop)
| x_top_go s : xpc s = XTop -> xrun s = true -> xstep s XTau (x_pc s XPump)
| x_top_stop s : xpc s = XTop -> xrun s = false -> xstep s XTau (x_pc s XDrain)
| x_pump_task s : xpc s = XPump -> xstep s XTask s
(* :147-154 HandleCtrlEvent *)
| x_pump_quit s : xpc s = XPump -> 0 < xctl s ->
    xstep s XTau (x_run (x_ctl s (xctl s - 1)) false)
| x_pump_done s : xpc s = XPump -> xstep s XTau (x_pc s XTop)
| x_drain_task s : xpc s = XDrain -> xstep s XTask s
| x_drain_done s : xpc s = XDrain -> xstep s XTau (x_pc s XEnding)
| x_end s : xpc s = XEnding -> xstep s XNotify (x_pc (x_notify s) XDone).

Inductive xrun_to : xstate -> list xev -> xstate -> Prop :=
| xr_nil s : xrun_to s [] s
| xr_cons s e s' h s'' : xstep s e s' -> xrun_to s' h s'' -> xrun_to s (e :: h) s''.
