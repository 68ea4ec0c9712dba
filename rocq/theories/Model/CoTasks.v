(** How coroutine tasks get from `co_go` to a coroutine (base/coroutine/co_runner.h, co_runner.cc, with the loop of
    base/message_loop/message_loop.cc around it).

    Any number of loops, each with at most one runner; every loop thread and every other thread takes steps in any order.
    User code is arbitrary: a running task may finish, suspend, call Sched(), submit tasks, fire resumers.
    A concurrent queue (moodycamel) is a list of entries with their producers of which a consumer takes some entry that has
    no earlier entry of the same producer; it fails only when the queue is empty, and size_approx() is its length (on the real
    queue this is exact when no enqueue is in flight).
    Not modelled: the number of cached coroutines (max_reuse_co_), the sleeping time of the loop, tasks posted to the loop
    that are not made by co_go, weak pointers (a destroyed coroutine is one that is free). *)
From Verif.Model Require Import Common.

(** Which thread: the thread of loop [r], or a thread that runs no loop. *)
Inductive who : Type := InLoop (r : nat) | Ext (n : nat).

(** The ways to submit a task: `co_go f` (co_runner.h:64-67), `co_go loop << f` (:71-78), CoroRunner::ScheduleTask
    (co_runner.cc:441-447). *)
Inductive dest : Type := Anywhere | OnLoop (r : nat) | Sched (r : nat).

(** A task with the thread that submits it and the way it is submitted; [num] tells tasks apart. *)
Record task := mkTask { by_ : who; to_ : dest; num : nat }.

(** What sched_tasks_ and remote_sched_ hold (co_runner.h:127-130): tasks, and closures that call a resumer with its
    coroutine and resume id (co_runner.cc:216, 387). *)
Inductive item : Type := IUser (t : task) | IResume (c id : nat).

(** What co_go posts to a loop: the closure of co_runner.h:73-76, or &CoroRunner::instance (co_runner.cc:369). *)
Inductive pitem : Type := PGo (t : task) | PReg.

(** Where a coroutine is: not in use; in CoroMain before PopTask (co_runner.cc:171); after it, before Run() (:172); in the
    user's code; suspended in it (Yield, Sleep, Sched). *)
Inductive costate : Type := CoFree | CoPop | CoGot (i : item) | CoIn (t : task) | CoSusp (t : task).

(** Where a loop thread is: in pump_.Pump (message_loop.cc:242); in RunScheduledTask called from it (:141); in the first part
    of RunNestedTask with the closures still to run (:308-311); in the five parts of CoroRunnerImpl::Run
    (co_runner.cc:254-259, 262-268, 271-277, 280-286, 289-293); in the RunScheduledTask after the loop (message_loop.cc:247);
    at its end. *)
Inductive phase : Type :=
| Pump | Drain | Nest (l : list task) | Ready1 | FromRemote | FromSched | FromGlobal | Ready2 | Final | Done.

(** One loop and its runner. *)
Record runner := mkRun {
  inst : bool;                     (* delegate_runner_ is set, message_loop.cc:172-176, co_runner.cc:142-150 *)
  running : bool;                  (* running_, message_loop.cc:155 *)
  fin : bool;                      (* past the final RunScheduledTask, message_loop.cc:247-249 *)
  posted : list (who * pitem);     (* scheduled_tasks_ of the loop *)
  nest : list task;                (* in_loop_tasks_ of the loop *)
  sched : list item;               (* sched_tasks_, co_runner.h:130 *)
  remote : list (who * item);      (* remote_sched_, co_runner.h:127 *)
  batch : list item;               (* run_.tasks from task_idx on, co_runner.cc:90-92 *)
  maxdq : nat;                     (* run_.max_dequeue, co_runner.cc:94 *)
  glob : bool;                     (* run_.tsk_queue is &g_remote (and not &remote_sched_), co_runner.cc:95 *)
  ready : list nat;                (* ready_list_, co_runner.cc:335 *)
  cos : nat -> costate;
  rid : nat -> nat;                (* resume_id_, bstctx_impl.hpp:104 *)
  cur : option nat;                (* current_; None is main_ *)
  ph : phase
}.

(** The process: the queue g_remote (co_runner.cc:37), the loops, the tasks submitted so far, and whether backgroup() was
    called (co_runner.cc:31, 352-361; the background loop is number 0). *)
Record sys := mkSys { gq : list (who * task); rs : nat -> runner; used : list task; bg : bool }.

Inductive ev : Type :=
| ESubmit (t : task)             (* the call returns *)
| ETake (r : nat) (t : task)     (* a task leaves g_remote *)
| EStart (r : nat) (t : task)    (* loop r begins to run it *)
| EFinish (r : nat) (t : task)
| ESuspend (r c : nat)
| ESchedCall (r c : nat)         (* coroutine c calls Sched() and is suspended by it *)
| EWake (r c : nat)              (* a suspended coroutine continues *)
| EDrained (r : nat)             (* RunScheduledTask of loop r has found nothing more to run *)
| EIter (r : nat)                (* loop r begins RunNestedTask *)
| ERunBegin (r : nat) | ERunEnd (r : nat)   (* CoroRunnerImpl::Run of loop r *)
| EQuit (r : nat)                (* running_ becomes false *)
| EDone (r : nat)                (* the thread of loop r is through *)
| ETau.

Definition upd {A} (f : nat -> A) (i : nat) (x : A) : nat -> A := fun j => if Nat.eqb j i then x else f j.

(** Nothing created yet. *)
Definition run0 : runner := mkRun false true false [] [] [] [] [] 0 false [] (fun _ => CoFree) (fun _ => 0) None Pump.
Definition sys0 : sys := mkSys [] (fun _ => run0) [] false.

(** try_dequeue: some entry without an earlier one of the same producer. *)
Inductive deq {A} : list (who * A) -> who -> A -> list (who * A) -> Prop :=
| deq_intro a w x b : (forall y, ~ In (w, y) a) -> deq (a ++ (w, x) :: b) w x (a ++ b).

(** Record updates. *)
Definition set_ph (x : runner) (p : phase) : runner :=
  mkRun (inst x) (running x) (fin x) (posted x) (nest x) (sched x) (remote x) (batch x) (maxdq x) (glob x) (ready x) (cos x) (rid x) (cur x) p.
Definition set_sched (x : runner) (l : list item) : runner :=
  mkRun (inst x) (running x) (fin x) (posted x) (nest x) l (remote x) (batch x) (maxdq x) (glob x) (ready x) (cos x) (rid x) (cur x) (ph x).
Definition set_inst (x : runner) : runner :=
  mkRun true (running x) (fin x) (posted x) (nest x) (sched x) (remote x) (batch x) (maxdq x) (glob x) (ready x) (cos x) (rid x) (cur x) (ph x).
Definition set_fin (x : runner) : runner :=
  mkRun (inst x) (running x) true (posted x) (nest x) (sched x) (remote x) (batch x) (maxdq x) (glob x) (ready x) (cos x) (rid x) (cur x) (ph x).
Definition set_quit (x : runner) : runner :=
  mkRun (inst x) false (fin x) (posted x) (nest x) (sched x) (remote x) (batch x) (maxdq x) (glob x) (ready x) (cos x) (rid x) (cur x) (ph x).
Definition set_posted (x : runner) (l : list (who * pitem)) : runner :=
  mkRun (inst x) (running x) (fin x) l (nest x) (sched x) (remote x) (batch x) (maxdq x) (glob x) (ready x) (cos x) (rid x) (cur x) (ph x).
Definition set_nest (x : runner) (l : list task) : runner :=
  mkRun (inst x) (running x) (fin x) (posted x) l (sched x) (remote x) (batch x) (maxdq x) (glob x) (ready x) (cos x) (rid x) (cur x) (ph x).
Definition set_remote (x : runner) (l : list (who * item)) : runner :=
  mkRun (inst x) (running x) (fin x) (posted x) (nest x) (sched x) l (batch x) (maxdq x) (glob x) (ready x) (cos x) (rid x) (cur x) (ph x).
(** run_: Reset() and one of its loaders, co_runner.cc:43-50, 69-87. *)
Definition set_run (x : runner) (b : list item) (m : nat) (g : bool) : runner :=
  mkRun (inst x) (running x) (fin x) (posted x) (nest x) (sched x) (remote x) b m g (ready x) (cos x) (rid x) (cur x) (ph x).
Definition set_ready (x : runner) (l : list nat) : runner :=
  mkRun (inst x) (running x) (fin x) (posted x) (nest x) (sched x) (remote x) (batch x) (maxdq x) (glob x) l (cos x) (rid x) (cur x) (ph x).
Definition set_co (x : runner) (c : nat) (y : costate) (k : option nat) : runner :=
  mkRun (inst x) (running x) (fin x) (posted x) (nest x) (sched x) (remote x) (batch x) (maxdq x) (glob x) (ready x) (upd (cos x) c y) (rid x) k (ph x).
(** SwitchContext to a coroutine: resume_id_ grows, co_runner.cc:185-190, bstctx_impl.hpp:68-71. *)
Definition switch (x : runner) (c : nat) (y : costate) : runner :=
  mkRun (inst x) (running x) (fin x) (posted x) (nest x) (sched x) (remote x) (batch x) (maxdq x) (glob x) (ready x)
    (upd (cos x) c y) (upd (rid x) c (S (rid x c))) (Some c) (ph x).

(** do_resume, co_runner.cc:199-211: a coroutine that is in use, has this resume id and is not in a list goes to ready_list_
    (a free coroutine is in freelist_ or gc_list_, or destroyed). *)
Definition do_resume (x : runner) (c id : nat) : runner :=
  match cos x c with
  | CoFree => x
  | _ => if Nat.eqb (rid x c) id && negb (existsb (Nat.eqb c) (ready x)) then set_ready x (ready x ++ [c]) else x
  end.

(** OneRunContext::Remain, co_runner.cc:67. *)
Definition remain (x : runner) : nat := length (batch x) + maxdq x.

(** The closure of `co_go loop << f` runs on the loop: co_runner.h:73-76 (instance() makes the runner and installs it,
    co_runner.cc:142-150, 346-349). *)
Definition run_posted (x : runner) (p : pitem) : runner :=
  match p with PGo t => set_sched (set_inst x) (sched x ++ [IUser t]) | PReg => set_inst x end.

(** HasPeedingTask, co_runner.cc:310-312, with TaskCount, :454-457. *)
Definition has_pending (x : runner) (g : list (who * task)) : bool :=
  negb (Nat.eqb (length (sched x) + length g + length (remote x)) 0) || negb (match ready x with [] => true | _ => false end).

(** Where the loop thread goes after RunNestedTask, message_loop.cc:240-258. *)
Definition after_nested (x : runner) : phase :=
  if fin x then Done else if running x then Pump else Final.

(** One step of the thread of loop [r]; [g] is g_remote. *)
Inductive lstep (r : nat) : list (who * task) -> runner -> ev -> runner -> list (who * task) -> Prop :=
(* the task eventfd fires: HandleTaskEvent, message_loop.cc:134-145 (with [fin], phase Pump is the place before the last
   RunNestedTask, message_loop.cc:249) *)
| l_drain_begin g x : ph x = Pump -> fin x = false -> lstep r g x ETau (set_ph x Drain) g
(* RunScheduledTask, message_loop.cc:295-302, from the pump or after the loop *)
| l_drain g x w p q : ph x = Drain \/ ph x = Final -> deq (posted x) w p q ->
    lstep r g x ETau (run_posted (set_posted x q) p) g
| l_drain_end g x : ph x = Drain -> posted x = [] -> lstep r g x (EDrained r) (set_ph x Pump) g
| l_final_end g x : ph x = Final -> posted x = [] -> lstep r g x (EDrained r) (set_ph (set_fin x) Pump) g
(* HandleCtrlEvent reads kQuit, message_loop.cc:147-159 *)
| l_quit g x : ph x = Pump -> running x = true -> lstep r g x (EQuit r) (set_quit x) g
(* RunNestedTask takes in_loop_tasks_, message_loop.cc:305-311 *)
| l_nest_begin g x : ph x = Pump -> lstep r g x (EIter r) (set_ph (set_nest x []) (Nest (nest x))) g
| l_nest g x t l : ph x = Nest (t :: l) -> lstep r g x ETau (set_ph (run_posted x (PGo t)) (Nest l)) g
(* delegate_runner_->Run(), message_loop.cc:313-316 *)
| l_nest_run g x : ph x = Nest [] -> inst x = true -> lstep r g x (ERunBegin r) (set_ph x Ready1) g
| l_nest_skip g x : ph x = Nest [] -> inst x = false ->
    lstep r g x (if fin x then EDone r else ETau) (set_ph x (after_nested x)) g
(* Run: ready coroutines, co_runner.cc:255-259, 289-293 *)
| l_wake g x c l t : ph x = Ready1 \/ ph x = Ready2 -> cur x = None -> ready x = c :: l -> cos x c = CoSusp t ->
    lstep r g x (EWake r c) (switch (set_ready x l) c (CoIn t)) g
(* Run: the next part, co_runner.cc:262-263, 271-272, 280-281 *)
| l_ready1_end g x : ph x = Ready1 -> cur x = None -> ready x = [] ->
    lstep r g x ETau (set_ph (set_run x [] (length (remote x)) false) FromRemote) g
| l_remote_end g x : ph x = FromRemote -> cur x = None -> remain x = 0 ->
    lstep r g x ETau (set_ph (set_sched (set_run x (sched x) 0 false) []) FromSched) g
| l_sched_end g x : ph x = FromSched -> cur x = None -> remain x = 0 ->
    lstep r g x ETau (set_ph (set_run x [] (length g) true) FromGlobal) g
| l_global_end g x : ph x = FromGlobal -> cur x = None -> remain x = 0 -> lstep r g x ETau (set_ph x Ready2) g
| l_run_end g x : ph x = Ready2 -> cur x = None -> ready x = [] -> fin x = false ->
    lstep r g x (ERunEnd r) (set_ph x (after_nested x)) g
| l_run_end_done g x : ph x = Ready2 -> cur x = None -> ready x = [] -> fin x = true ->
    lstep r g x (EDone r) (set_ph x Done) g
(* SwitchContext(Spawn()), co_runner.cc:264-267, 273-276, 282-285, 314-324 *)
| l_spawn g x c : ph x = FromRemote \/ ph x = FromSched \/ ph x = FromGlobal -> cur x = None -> 0 < remain x ->
    cos x c = CoFree -> lstep r g x ETau (switch x c CoPop) g
(* PopTask, co_runner.cc:52-65 *)
| l_pop_batch g x c i b : cur x = Some c -> cos x c = CoPop -> batch x = i :: b ->
    lstep r g x ETau (set_co (set_run x b (maxdq x) (glob x)) c (CoGot i) (Some c)) g
| l_pop_remote g x c n w i q : cur x = Some c -> cos x c = CoPop -> batch x = [] -> maxdq x = S n -> glob x = false ->
    deq (remote x) w i q ->
    lstep r g x ETau (set_co (set_remote (set_run x [] n false) q) c (CoGot i) (Some c)) g
| l_pop_global g x c n w t q : cur x = Some c -> cos x c = CoPop -> batch x = [] -> maxdq x = S n -> glob x = true ->
    deq g w t q ->
    lstep r g x (ETake r t) (set_co (set_run x [] n true) c (CoGot (IUser t)) (Some c)) q
(* PopTask gives false; ExitCurrent and GC with its CHECK(!Attatched()), co_runner.cc:178-181, 227-235 *)
| l_pop_none g x c : cur x = Some c -> cos x c = CoPop -> batch x = [] ->
    maxdq x = 0 \/ (if glob x then g = [] else remote x = []) -> ~ In c (ready x) ->
    lstep r g x ETau (set_co (set_run x [] 0 (glob x)) c CoFree None) g
(* task->Run(), co_runner.cc:172 *)
| l_start g x c t : cur x = Some c -> cos x c = CoGot (IUser t) ->
    lstep r g x (EStart r t) (set_co x c (CoIn t) (Some c)) g
| l_resume g x c c' id : cur x = Some c -> cos x c = CoGot (IResume c' id) ->
    lstep r g x ETau (set_co (do_resume x c' id) c CoPop (Some c)) g
| l_finish g x c t : cur x = Some c -> cos x c = CoIn t -> lstep r g x (EFinish r t) (set_co x c CoPop (Some c)) g
(* Yield, Sleep, co_runner.cc:393-409 *)
| l_suspend g x c t : cur x = Some c -> cos x c = CoIn t -> lstep r g x (ESuspend r c) (set_co x c (CoSusp t) None) g
(* Sched with something pending, co_runner.cc:380-390 *)
| l_sched g x c t : cur x = Some c -> cos x c = CoIn t -> has_pending x g = true ->
    lstep r g x (ESchedCall r c) (set_co (set_sched x (sched x ++ [IResume c (rid x c)])) c (CoSusp t) None) g
(* anything on the loop's thread calls a resumer, co_runner.cc:212-213 *)
| l_fire g x c id : lstep r g x ETau (do_resume x c id) g.

Definition setr (s : sys) (r : nat) (x : runner) : sys := mkSys (gq s) (upd (rs s) r x) (used s) (bg s).

Inductive step : sys -> ev -> sys -> Prop :=
| s_local s r e x g : lstep r (gq s) (rs s r) e x g -> step s e (mkSys g (upd (rs s) r x) (used s) (bg s))
(* co_go f on a loop's thread: Publish, co_runner.h:64-67, 80-82, co_runner.cc:428-430 *)
| s_go s t r : by_ t = InLoop r -> to_ t = Anywhere -> ~ In t (used s) ->
    step s (ESubmit t) (mkSys (gq s ++ [(by_ t, t)]) (rs s) (t :: used s) (bg s))
(* co_go f on a thread without a loop: backgroup() starts loop 0 and registers a runner there, co_runner.h:81,
   co_runner.cc:352-370 *)
| s_go_ext s t n : by_ t = Ext n -> to_ t = Anywhere -> ~ In t (used s) ->
    step s (ESubmit t) (mkSys (gq s ++ [(by_ t, t)])
      (if bg s then rs s else upd (rs s) 0 (set_posted (rs s 0) (posted (rs s 0) ++ [(by_ t, PReg)]))) (t :: used s) true)
(* co_go loop << f: PostTask, co_runner.h:71-78, message_loop.cc:282-293 (its CHECK(running_) may have been passed before
   the loop was told to quit) *)
| s_goto_in s t r : by_ t = InLoop r -> to_ t = OnLoop r -> ~ In t (used s) ->
    step s (ESubmit t) (mkSys (gq s) (upd (rs s) r (set_nest (rs s r) (nest (rs s r) ++ [t]))) (t :: used s) (bg s))
| s_goto s t r : by_ t <> InLoop r -> to_ t = OnLoop r -> ~ In t (used s) ->
    step s (ESubmit t) (mkSys (gq s) (upd (rs s) r (set_posted (rs s r) (posted (rs s r) ++ [(by_ t, PGo t)]))) (t :: used s) (bg s))
(* ScheduleTask, co_runner.cc:441-447 *)
| s_schedule_in s t r : by_ t = InLoop r -> to_ t = Sched r -> inst (rs s r) = true -> ~ In t (used s) ->
    step s (ESubmit t) (mkSys (gq s) (upd (rs s) r (set_sched (rs s r) (sched (rs s r) ++ [IUser t]))) (t :: used s) (bg s))
| s_schedule s t r : by_ t <> InLoop r -> to_ t = Sched r -> inst (rs s r) = true -> ~ In t (used s) ->
    step s (ESubmit t) (mkSys (gq s) (upd (rs s) r (set_remote (rs s r) (remote (rs s r) ++ [(by_ t, IUser t)]))) (t :: used s) (bg s))
(* a resumer called on another thread, co_runner.cc:214-217 *)
| s_fire_remote s w r c id : w <> InLoop r ->
    step s ETau (mkSys (gq s) (upd (rs s) r (set_remote (rs s r) (remote (rs s r) ++ [(w, IResume c id)]))) (used s) (bg s)).

Inductive run : list ev -> sys -> Prop :=
| run_nil : run [] sys0
| run_snoc h s e s' : run h s -> step s e s' -> run (h ++ [e]) s'.
