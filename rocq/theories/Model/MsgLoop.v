(** MessageLoop: posting, waking, running and shutting down
    (base/message_loop/message_loop.cc, message_loop.h, event_pump.cc:70-80).

    Interleaving model: any number of posting threads and one loop thread take atomic steps in any
    order, under sequential consistency (the C++ orderings used are seq_cst on notify_flag_ and
    release/acquire inside the queue; weaker executions are outside the model).
    The third-party moodycamel::ConcurrentQueue is modelled by its documented contract: one FIFO
    stream per producing thread; a dequeue examines producer streams one after another and fails
    only if each examined stream was empty at the moment it was examined (streams that were empty
    when the scan started may be skipped). Allocation failure of enqueue is not modelled. *)
From Verif.Model Require Import Common.

Definition tid := nat.
Definition task := nat.

(** Where a posting thread is inside PostTask / WakeUpIfNeeded (message_loop.cc:273-283, 125-133). *)
Inductive poster : Type :=
| PoIdle                     (* not inside PostTask *)
| PoChecked (t : task)       (* passed CHECK(running_), line 274 *)
| PoEnqueued                 (* enqueue done, line 280; next: test_and_set, line 126 *)
| PoWrite                    (* flag was clear and is now set; next: write(eventfd), line 130 *)
| PoFailed.                  (* the write failed; next: notify_flag_.clear(), line 131 *)

(** What a dequeue loop (RunScheduledTask) returns to. *)
Inductive scank : Type :=
| SEvents (ce : bool)        (* HandleTaskEvent inside InvokeFiredEvent; [ce]: control event still to do *)
| SFinal.                    (* the call after the main loop, line 247 *)

(** What running user code returns to. *)
Inductive cont : Type :=
| CEvents (te ce : bool)     (* an fd/timer handler inside Pump *)
| CScan (k : scank)          (* a scheduled task: continue dequeuing, line 289 *)
| CNest (final : bool)       (* a nested task: continue with the next one, line 298 *)
| CAfter (final : bool).     (* delegate_runner_->Run(), line 304 *)

(** Program points of the loop thread (ThreadMain, lines 225-258). *)
Inductive looppc : Type :=
| PTop                       (* while (running_), line 240 *)
| PPoll                      (* blocked in epoll_wait *)
| PEvents (te ce : bool)     (* dispatching: task event / control event fired and not yet handled *)
| PRead (ce : bool)          (* HandleTaskEvent before read(eventfd), line 137 *)
| PClear (ce : bool)         (* after the read, before notify_flag_.clear(), line 142 *)
| PScan (rem : list tid) (k : scank)   (* inside try_dequeue: streams still to examine *)
| PBody (rem : list task) (k : cont)   (* user code still going to post [rem] to its own loop *)
| PNestStart (final : bool)  (* before the move of in_loop_tasks_, line 297 *)
| PNest (final : bool)       (* iterating over nest_tasks *)
| PExit.                     (* thread ended *)

Record lstate := mkLS {
  queue : tid -> list task;       (* scheduled_tasks_, one stream per producer *)
  pst : tid -> poster;
  flag : bool;                    (* notify_flag_ *)
  evfd : nat;                     (* eventfd counter *)
  inloop : list task;             (* in_loop_tasks_ *)
  nest : list task;               (* nest_tasks still to run *)
  running : bool;                 (* running_ *)
  ctl : nat;                      (* quit bytes in the control pipe *)
  pc : looppc;
  aborted : bool                  (* a CHECK terminated the process *)
}.

(** Observable events. *)
Inductive ev : Type :=
| EPost (p : tid) (t : task)   (* thread p's task accepted (enqueue, line 280) *)
| ERun (p : tid) (t : task)    (* task taken from p's stream starts, line 290 *)
| EPostIn (t : task)           (* posted from the loop thread, line 277 *)
| ERunIn (t : task)            (* nested task starts, line 299 *)
| EQuit                        (* QuitLoop / SyncStop called, lines 189-199 *)
| ETau.

(** Field updates. *)
Definition set1 {A} (f : nat -> A) (i : nat) (x : A) : nat -> A :=
  fun j => if Nat.eqb j i then x else f j.
Definition st_pst s p x := mkLS (queue s) (set1 (pst s) p x) (flag s) (evfd s) (inloop s) (nest s) (running s) (ctl s) (pc s) (aborted s).
Definition st_queue s p q := mkLS (set1 (queue s) p q) (pst s) (flag s) (evfd s) (inloop s) (nest s) (running s) (ctl s) (pc s) (aborted s).
Definition st_flag s f := mkLS (queue s) (pst s) f (evfd s) (inloop s) (nest s) (running s) (ctl s) (pc s) (aborted s).
Definition st_evfd s n := mkLS (queue s) (pst s) (flag s) n (inloop s) (nest s) (running s) (ctl s) (pc s) (aborted s).
Definition st_inloop s l := mkLS (queue s) (pst s) (flag s) (evfd s) l (nest s) (running s) (ctl s) (pc s) (aborted s).
Definition st_nest s l := mkLS (queue s) (pst s) (flag s) (evfd s) (inloop s) l (running s) (ctl s) (pc s) (aborted s).
Definition st_running s b := mkLS (queue s) (pst s) (flag s) (evfd s) (inloop s) (nest s) b (ctl s) (pc s) (aborted s).
Definition st_ctl s n := mkLS (queue s) (pst s) (flag s) (evfd s) (inloop s) (nest s) (running s) n (pc s) (aborted s).
Definition st_pc s x := mkLS (queue s) (pst s) (flag s) (evfd s) (inloop s) (nest s) (running s) (ctl s) x (aborted s).
Definition st_abort s := mkLS (queue s) (pst s) (flag s) (evfd s) (inloop s) (nest s) (running s) (ctl s) (pc s) true.

(** After Start() returned: running, nothing posted (message_loop.cc:81-108, 178-187, 226-240). *)
Definition linit : lstate :=
  mkLS (fun _ => []) (fun _ => PoIdle) false 0 [] [] true 0 PTop false.

(** Return from user code. *)
Inductive returns : cont -> looppc -> lstate -> Prop :=
| ret_events te ce s : returns (CEvents te ce) (PEvents te ce) s
| ret_scan k R s : (forall p, queue s p <> [] -> In p R) -> returns (CScan k) (PScan R k) s
| ret_nest f s : returns (CNest f) (PNest f) s
| ret_after_loop s : returns (CAfter false) PTop s
| ret_after_exit s : returns (CAfter true) PExit s.

Section Step.
(** [body t]: the tasks that running [t] posts to its own loop; [evmax]: the eventfd limit. *)
Variable body : task -> list task.
Variable evmax : nat.

Inductive lstep : lstate -> ev -> lstate -> Prop :=
(* ---- posting threads ---- *)
(* message_loop.cc:274 CHECK(running_) *)
| s_check p t s : pst s p = PoIdle -> running s = true ->
    lstep s ETau (st_pst s p (PoChecked t))
| s_check_fail p s : pst s p = PoIdle -> running s = false ->
    lstep s ETau (st_abort s)
(* :280 enqueue *)
| s_enqueue p t s : pst s p = PoChecked t ->
    lstep s (EPost p t) (st_pst (st_queue s p (queue s p ++ [t])) p PoEnqueued)
(* :126-128 test_and_set found it set: nothing to do *)
| s_tas_set p s : pst s p = PoEnqueued -> flag s = true ->
    lstep s ETau (st_pst s p PoIdle)
| s_tas_clear p s : pst s p = PoEnqueued -> flag s = false ->
    lstep s ETau (st_pst (st_flag s true) p PoWrite)
(* :130 write of 1 to the eventfd *)
| s_write p s : pst s p = PoWrite -> evfd s < evmax ->
    lstep s ETau (st_pst (st_evfd s (S (evfd s))) p PoIdle)
| s_write_fail p s : pst s p = PoWrite -> evmax <= evfd s ->
    lstep s ETau (st_pst s p PoFailed)
(* :131 *)
| s_fail_clear p s : pst s p = PoFailed ->
    lstep s ETau (st_pst (st_flag s false) p PoIdle)
(* :189-199 QuitLoop / SyncStop write the quit byte *)
| s_quit s : lstep s EQuit (st_ctl s (S (ctl s)))
(* ---- loop thread ---- *)
(* :240 *)
| s_top_run s : pc s = PTop -> running s = true -> lstep s ETau (st_pc s PPoll)
(* :240, 247 *)
| s_top_stop s R : pc s = PTop -> running s = false -> (forall p, queue s p <> [] -> In p R) ->
    lstep s ETau (st_pc s (PScan R SFinal))
(* event_pump.cc:75 epoll_wait returns: it can report only what is ready *)
| s_poll s te ce : pc s = PPoll -> (te = true -> 0 < evfd s) -> (ce = true -> 0 < ctl s) ->
    lstep s ETau (st_pc s (PEvents te ce))
(* event_pump.cc:77, 137-147: any other timer or fd handler *)
| s_handler s te ce b : pc s = PEvents te ce ->
    lstep s ETau (st_pc s (PBody b (CEvents te ce)))
| s_task_event s ce : pc s = PEvents true ce -> lstep s ETau (st_pc s (PRead ce))
(* :147-158 HandleCtrlEvent *)
| s_ctrl_event s te : pc s = PEvents te true ->
    lstep s ETau (st_pc (st_running (st_ctl s (ctl s - 1)) false) (PEvents te false))
| s_events_done s : pc s = PEvents false false -> lstep s ETau (st_pc s (PNestStart false))
(* :137 *)
| s_read s ce : pc s = PRead ce -> lstep s ETau (st_pc (st_evfd s 0) (PClear ce))
(* :142-144 *)
| s_clear s ce R : pc s = PClear ce -> (forall p, queue s p <> [] -> In p R) ->
    lstep s ETau (st_pc (st_flag s false) (PScan R (SEvents ce)))
(* :289 try_dequeue: stream p is empty, look at the others *)
| s_scan_empty s R k p : pc s = PScan R k -> In p R -> queue s p = [] ->
    lstep s ETau (st_pc s (PScan (List.remove Nat.eq_dec p R) k))
(* :289-290 task found: run it *)
| s_scan_run s R k p t q : pc s = PScan R k -> In p R -> queue s p = t :: q ->
    lstep s (ERun p t) (st_pc (st_queue s p q) (PBody (body t) (CScan k)))
(* :289 try_dequeue returned false *)
| s_scan_done_ev s ce : pc s = PScan [] (SEvents ce) -> lstep s ETau (st_pc s (PEvents false ce))
| s_scan_done_fin s : pc s = PScan [] SFinal -> lstep s ETau (st_pc s (PNestStart true))
(* user code calling PostTask on its own loop, :274-279 *)
| s_body_post s t r k : pc s = PBody (t :: r) k -> running s = true ->
    lstep s (EPostIn t) (st_pc (st_inloop s (inloop s ++ [t])) (PBody r k))
| s_body_abort s t r k : pc s = PBody (t :: r) k -> running s = false ->
    lstep s ETau (st_abort s)
| s_body_done s k x : pc s = PBody [] k -> returns k x s -> lstep s ETau (st_pc s x)
(* :297 *)
| s_nest_start s f : pc s = PNestStart f ->
    lstep s ETau (st_pc (st_nest (st_inloop s []) (inloop s)) (PNest f))
(* :298-300 *)
| s_nest_run s f t r : pc s = PNest f -> nest s = t :: r ->
    lstep s (ERunIn t) (st_pc (st_nest s r) (PBody (body t) (CNest f)))
(* :303-305 the delegate runner (coroutine scheduler) runs arbitrary code; without one, [b = []] *)
| s_nest_done s f b : pc s = PNest f -> nest s = [] ->
    lstep s ETau (st_pc s (PBody b (CAfter f))).

(** Executions; nothing happens after an abort. *)
Inductive lrun : lstate -> list ev -> lstate -> Prop :=
| run_nil s : lrun s [] s
| run_snoc s h s' e s'' : lrun s h s' -> aborted s' = false -> lstep s' e s'' -> lrun s (h ++ [e]) s''.
End Step.
