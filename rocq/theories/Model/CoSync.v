(** Coroutine mutex (base/coroutine/co_mutex.cc) on top of the spin lock
    (base/memory/spin_lock.cc), and WaitGroup (base/coroutine/wait_group.cc). *)
From Verif.Model Require Import Common.


Definition cid := nat.

(** Program points of a coroutine using one CoMutex; coroutines may live on different loops and
    threads, so their steps interleave freely (sequential consistency; the spin lock's
    acquire/release orders give exactly that for the data it protects). *)
Inductive mpc : Type :=
| MIdle
| MSpinL              (* lock(): in lock_.lock(), co_mutex.cc:14 *)
| MInL                (* lock(): spin lock held, line 15 *)
| MGot (t : bool)     (* locked_ set, before lock_.unlock(), line 17; t: inside try_lock, line 43 *)
| MQueued             (* resumer pushed, before lock_.unlock(), line 21 *)
| MYield              (* suspended, line 23 *)
| MHold               (* lock() returned *)
| MSpinU              (* unlock(): in lock_.lock(), line 27 *)
| MInU                (* unlock(): spin lock held, line 28 *)
| MFree               (* locked_ cleared, before lock_.unlock(), line 30 *)
| MPop (w : cid)      (* waiter w popped, before lock_.unlock(), line 36 *)
| MRes (w : cid)      (* before resumer(), line 38 *)
| MSpinT              (* try_lock(): acquiring the guard, line 42 *)
| MInT                (* try_lock(): spin lock held, line 43 *)
| MFail.              (* try_lock() is going to return false; the guard still holds the spin lock *)

Record mstate := mkM {
  spin : bool;                 (* d_atomic_bool, spin_lock.h *)
  mlocked : bool;              (* locked_ *)
  waiters : list cid;          (* waiters_: one resumer per blocked coroutine *)
  granted : cid -> bool;       (* the resumer of a blocked coroutine was invoked *)
  mp : cid -> mpc
}.

Inductive mev : Type :=
| MEBlock (c : cid)      (* c starts waiting *)
| MEEnter (c : cid)      (* c obtains the free mutex *)
| MEEnterW (c : cid)     (* c obtains the mutex after waiting *)
| MELeave (c : cid)      (* c calls unlock *)
| METryFail (c : cid)
| MEStray (c : cid)      (* c woken in lock() by a resumer other than the one lock() made *)
| METau.

Definition mset {A} (f : cid -> A) (c : cid) (x : A) : cid -> A := fun j => if Nat.eqb j c then x else f j.

Definition minit : mstate := mkM false false [] (fun _ => false) (fun _ => MIdle).

Definition at_pc s c x := mkM (spin s) (mlocked s) (waiters s) (granted s) (mset (mp s) c x).

Inductive mstep : mstate -> mev -> mstate -> Prop :=
(* lock(), co_mutex.cc:11-24 *)
| m_lock s c : mp s c = MIdle -> mstep s METau (at_pc s c MSpinL)
(* spin_lock.cc:14: exchange returned false *)
| m_spin_l s c : mp s c = MSpinL -> spin s = false ->
    mstep s METau (mkM true (mlocked s) (waiters s) (granted s) (mset (mp s) c MInL))
(* :15-16 *)
| m_take s c : mp s c = MInL -> mlocked s = false ->
    mstep s (MEEnter c) (mkM (spin s) true (waiters s) (granted s) (mset (mp s) c (MGot false)))
(* :17 spin_lock.cc:33 *)
| m_got s c t : mp s c = MGot t ->
    mstep s METau (mkM false (mlocked s) (waiters s) (granted s) (mset (mp s) c MHold))
(* :20 *)
| m_block s c : mp s c = MInL -> mlocked s = true ->
    mstep s (MEBlock c) (mkM (spin s) (mlocked s) (waiters s ++ [c]) (granted s) (mset (mp s) c MQueued))
(* :21-23 *)
| m_yield s c : mp s c = MQueued ->
    mstep s METau (mkM false (mlocked s) (waiters s) (granted s) (mset (mp s) c MYield))
(* the resumer made at line 20 resumes c, which returns from lock() *)
| m_wake s c : mp s c = MYield -> granted s c = true ->
    mstep s (MEEnterW c) (mkM (spin s) (mlocked s) (waiters s) (mset (granted s) c false) (mset (mp s) c MHold))
(* lock() does not re-check: any other resumer of the same suspension has the same effect *)
| m_stray s c : mp s c = MYield -> granted s c = false ->
    mstep s (MEStray c) (at_pc s c MHold)
(* unlock(), :26-39; called by the coroutine that holds the mutex *)
| m_unlock s c : mp s c = MHold -> mstep s (MELeave c) (at_pc s c MSpinU)
| m_spin_u s c : mp s c = MSpinU -> spin s = false ->
    mstep s METau (mkM true (mlocked s) (waiters s) (granted s) (mset (mp s) c MInU))
(* :28-29 *)
| m_release s c : mp s c = MInU -> waiters s = [] ->
    mstep s METau (mkM (spin s) false (waiters s) (granted s) (mset (mp s) c MFree))
(* :30 *)
| m_free s c : mp s c = MFree ->
    mstep s METau (mkM false (mlocked s) (waiters s) (granted s) (mset (mp s) c MIdle))
(* :34-35 *)
| m_pop s c w r : mp s c = MInU -> waiters s = w :: r ->
    mstep s METau (mkM (spin s) (mlocked s) r (granted s) (mset (mp s) c (MPop w)))
(* :36 *)
| m_pop_unl s c w : mp s c = MPop w ->
    mstep s METau (mkM false (mlocked s) (waiters s) (granted s) (mset (mp s) c (MRes w)))
(* :38 *)
| m_resume s c w : mp s c = MRes w ->
    mstep s METau (mkM (spin s) (mlocked s) (waiters s) (mset (granted s) w true) (mset (mp s) c MIdle))
(* try_lock(), :41-44 *)
| m_try s c : mp s c = MIdle -> mstep s METau (at_pc s c MSpinT)
| m_spin_t s c : mp s c = MSpinT -> spin s = false ->
    mstep s METau (mkM true (mlocked s) (waiters s) (granted s) (mset (mp s) c MInT))
| m_try_ok s c : mp s c = MInT -> mlocked s = false ->
    mstep s (MEEnter c) (mkM (spin s) true (waiters s) (granted s) (mset (mp s) c (MGot true)))
| m_try_no s c : mp s c = MInT -> mlocked s = true ->
    mstep s (METryFail c) (at_pc s c MFail)
| m_try_ret s c : mp s c = MFail ->
    mstep s METau (mkM false (mlocked s) (waiters s) (granted s) (mset (mp s) c MIdle)).

Inductive mrun : list mev -> mstate -> Prop :=
| mrun_nil : mrun [] minit
| mrun_snoc h s e s' : mrun h s -> mstep s e s' -> mrun (h ++ [e]) s'.

(** WaitGroup.  Add and Done run on any thread; Wait and the posted wakeups run on the loop thread. *)
Inductive wpc : Type :=
| WOut                 (* Wait not called yet *)
| WArming              (* counter read as non-zero, wait_group.cc:67; not yet suspended *)
| WBlocked             (* in CO_YIELD, line 83 *)
| WReady               (* resumer_ invoked, coroutine queued for resumption *)
| WDone (timeout : bool).  (* Wait returned kTimeout / kSuccess *)

Record wstate := mkW {
  wcount : Z;            (* wait_count_ *)
  wpost : nat;           (* wakeup_internal tasks posted to the loop and not yet run *)
  wtimer : bool;         (* timeout_ armed *)
  wres : bool;           (* result_status_ = kTimeout *)
  wp : wpc
}.
Definition winit : wstate := mkW 0 0 false false WOut.

Inductive wev : Type :=
| WEAdd (n : Z) | WEDone | WEWait | WEReturn (timeout : bool) | WETau.

Inductive wstep : wstate -> wev -> wstate -> Prop :=
(* Add, :46-49 *)
| w_add s n : (0 < n)%Z ->
    wstep s (WEAdd n) (mkW (wcount s + n) (wpost s) (wtimer s) (wres s) (wp s))
(* Done, :38-44 *)
| w_done s : wcount s <> 1%Z ->
    wstep s WEDone (mkW (wcount s - 1) (wpost s) (wtimer s) (wres s) (wp s))
| w_done_last s : wcount s = 1%Z ->
    wstep s WEDone (mkW 0 (S (wpost s)) (wtimer s) (wres s) (wp s))
(* Wait, :61-69; flag_ makes a second call abort, so it is called once *)
| w_wait_zero s : wp s = WOut -> wcount s = 0%Z ->
    wstep s (WEReturn false) (mkW (wcount s) (wpost s) (wtimer s) (wres s) (WDone false))
| w_wait s : wp s = WOut -> wcount s <> 0%Z ->
    wstep s WEWait (mkW (wcount s) (wpost s) (wtimer s) (wres s) WArming)
(* :71-83 *)
| w_block s t : wp s = WArming ->
    wstep s WETau (mkW (wcount s) (wpost s) t (wres s) WBlocked)
(* the posted wakeup_internal runs (the loop thread is not inside Wait), :56-59 *)
| w_wakeup s n : wpost s = S n -> wp s <> WArming ->
    wstep s WETau (mkW (wcount s) n (wtimer s) (wres s)
      (match wp s with WBlocked => WReady | x => x end))
(* OnTimeOut, :51-54; one-shot timer *)
| w_timeout s : wtimer s = true -> wp s = WBlocked \/ wp s = WReady ->
    wstep s WETau (mkW (wcount s) (wpost s) false true WReady)
(* the coroutine continues after CO_YIELD, :85-88 *)
| w_return s : wp s = WReady ->
    wstep s (WEReturn (wres s)) (mkW (wcount s) (wpost s) false (wres s) (WDone (wres s))).

Inductive wrun : list wev -> wstate -> Prop :=
| wrun_nil : wrun [] winit
| wrun_snoc h s e s' : wrun h s -> wstep s e s' -> wrun (h ++ [e]) s'.
