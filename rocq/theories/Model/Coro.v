(** One coroutine runner (base/coroutine/co_runner.cc, bstctx_impl.hpp): creating, switching,
    suspending and resuming coroutines.

    The runner belongs to one loop thread; everything below except [k_call_remote] happens on that
    thread, one step at a time.  Context switching (fcontext) is modelled as a change of the current
    coroutine; resume_id_ is an unbounded counter (the C++ uint64_t wraps after 2^64 switches).
    User code is arbitrary: a running coroutine may take resumers, call any resumer, suspend or
    finish at any time. *)
From Verif.Model Require Import Common.

Definition co := nat.

Inductive costat : Type :=
| CNew      (* never created *)
| CRun      (* is current_ *)
| CSusp     (* switched away from, in Yield/Sleep/Sched, co_runner.cc:380-409 *)
| CFree     (* finished, linked into freelist_, :230-232 *)
| CGc       (* finished, linked into gc_list_, :234 *)
| CDead.    (* destroyed by FreeCoros, :238-244; weak_ptr::lock fails *)

Record rstate := mkR {
  rid : co -> nat;                (* resume_id_, bstctx_impl.hpp:104 *)
  stat : co -> costat;
  ready : list co;                (* ready_list_, co_runner.cc:335 *)
  cur : option co;                (* current_; None = main_ *)
  resumers : list (co * nat);     (* every closure made by MakeResumer, in creation order *)
  inbox : list nat;               (* remote_sched_: queued do_resume closures *)
  aborted : bool                  (* CHECK failed *)
}.

Definition upd {A} (f : nat -> A) (i : nat) (x : A) : nat -> A :=
  fun j => if Nat.eqb j i then x else f j.

Inductive cev : Type :=
| ESpawn (c : co)        (* c starts (or is reused) to run tasks *)
| ETake (c : co) (r : nat) (* c obtains resumer number r *)
| ECall (r : nat)        (* resumer r takes effect on the loop thread *)
| ERemote (r : nat)      (* resumer r is invoked on another thread *)
| ESuspend (c : co)
| EWake (c : co)         (* suspended coroutine c is switched to *)
| EExit (c : co)
| ETau.

Definition rinit : rstate := mkR (fun _ => 0) (fun _ => CNew) [] None [] [] false.

(** Node::Attatched, linked_list.h:50: linked into ready_list_, freelist_ or gc_list_. *)
Definition attached (s : rstate) (c : co) : bool :=
  existsb (Nat.eqb c) (ready s) || match stat s c with CFree | CGc => true | _ => false end.

(** do_resume, co_runner.cc:199-211. *)
Definition do_resume (s : rstate) (c : co) (id : nat) : rstate :=
  match stat s c with
  | CNew | CDead => s
  | _ => if Nat.eqb (rid s c) id && negb (attached s c)
         then mkR (rid s) (stat s) (ready s ++ [c]) (cur s) (resumers s) (inbox s) (aborted s)
         else s
  end.

(** SwitchContext(next) to a coroutine, co_runner.cc:185-190 with Coroutine::Resume,
    bstctx_impl.hpp:68-71. *)
Definition switch_to (s : rstate) (c : co) : rstate :=
  mkR (upd (rid s) c (S (rid s c))) (upd (stat s) c CRun) (ready s) (Some c) (resumers s) (inbox s) (aborted s).

Inductive kstep : rstate -> cev -> rstate -> Prop :=
(* Spawn, co_runner.cc:314-324, then SwitchContext, :266/275/284 *)
| k_spawn s c : cur s = None -> stat s c = CNew \/ stat s c = CFree ->
    kstep s (ESpawn c) (switch_to s c)
(* MakeResumer, :412-420 *)
| k_take s c : cur s = Some c ->
    kstep s (ETake c (length (resumers s)))
      (mkR (rid s) (stat s) (ready s) (cur s) (resumers s ++ [(c, rid s c)]) (inbox s) (aborted s))
(* Resume called on the loop thread, :212-213 *)
| k_call s r c id : nth_error (resumers s) r = Some (c, id) ->
    kstep s (ECall r) (do_resume s c id)
(* Resume called on another thread, :214-217 *)
| k_call_remote s r c id : nth_error (resumers s) r = Some (c, id) ->
    kstep s (ERemote r) (mkR (rid s) (stat s) (ready s) (cur s) (resumers s) (inbox s ++ [r]) (aborted s))
(* a coroutine pops the closure from remote_sched_ and runs it, :58-61, 168-176 *)
| k_inbox s a r b c id c0 : inbox s = a ++ r :: b -> cur s = Some c0 -> nth_error (resumers s) r = Some (c, id) ->
    kstep s (ECall r)
      (do_resume (mkR (rid s) (stat s) (ready s) (cur s) (resumers s) (a ++ b) (aborted s)) c id)
(* Yield / Sleep / Sched switch to main_, :389, 397, 408 *)
| k_suspend s c : cur s = Some c ->
    kstep s (ESuspend c) (mkR (rid s) (upd (stat s) c CSusp) (ready s) None (resumers s) (inbox s) (aborted s))
(* Run takes the first ready coroutine, :255-257, 289-291 *)
| k_wake s c r : cur s = None -> ready s = c :: r ->
    kstep s (EWake c)
      (switch_to (mkR (rid s) (stat s) r (cur s) (resumers s) (inbox s) (aborted s)) c)
(* ExitCurrent, :178-181, with GC, :227-235 *)
| k_exit s c x : cur s = Some c -> attached s c = false -> x = CFree \/ x = CGc ->
    kstep s (EExit c) (mkR (rid s) (upd (stat s) c x) (ready s) None (resumers s) (inbox s) (aborted s))
| k_exit_abort s c : cur s = Some c -> attached s c = true ->
    kstep s ETau (mkR (rid s) (stat s) (ready s) (cur s) (resumers s) (inbox s) true)
(* FreeCoros, :238-244 *)
| k_free s c : cur s = None -> stat s c = CGc ->
    kstep s ETau (mkR (rid s) (upd (stat s) c CDead) (ready s) (cur s) (resumers s) (inbox s) (aborted s)).

Inductive krun : list cev -> rstate -> Prop :=
| krun_nil : krun [] rinit
| krun_snoc h s e s' : krun h s -> aborted s = false -> kstep s e s' -> krun (h ++ [e]) s'.
