(** Thread synchronisation: SpinLock (base/memory/spin_lock.cc) and LazyInstance (base/memory/lazy_instance.{h,cc}).
    Any number of threads, named by natural numbers; one atomic access (or one constructor run) per step, in any
    interleaving. Sequential consistency is assumed: for the lock flag the acquire/release orders used give it; for
    LazyInstance it is what x86 and __sync_val_compare_and_swap provide for the single variable mState. *)
From Verif.Model Require Import Common.

Definition tset {A} (f : nat -> A) (t : nat) (x : A) : nat -> A := fun j => if Nat.eqb j t then x else f j.

(** ** SpinLock *)
Inductive spc := PIdle    (* outside *)
  | PExch                 (* lock(): before the exchange, spin_lock.cc:14 *)
  | PSpin                 (* before the first load, :17 *)
  | PYield                (* before the second load, :20 *)
  | PTry                  (* try_lock(): before the exchange, :29 *)
  | PHold.                (* lock() returned, or try_lock() returned true *)
Inductive sact := ALock | ATry | AUnlock | AStep.
Inductive sev := SGot | STryFail | SReleased | STau.
(** spin_lock.h:21 *)
Record sst := mkS { sflag : bool; spcs : nat -> spc }.
(** spin_lock.cc:8-10 *)
Definition sinit : sst := mkS false (fun _ => PIdle).
Definition s_at s t p := mkS (sflag s) (tset (spcs s) t p).

(** What thread [t] can do next; [None]: not in this state. unlock() is called only by the thread that holds the lock. *)
Definition sstep (s : sst) (t : nat) (a : sact) : option (sst * sev) :=
  match spcs s t, a with
  | PIdle, ALock => Some (s_at s t PExch, STau)
  | PIdle, ATry => Some (s_at s t PTry, STau)
  | PExch, AStep => (* :14 *)
      if sflag s then Some (s_at s t PSpin, STau) else Some (mkS true (tset (spcs s) t PHold), SGot)
  | PSpin, AStep => (* :16-19 *) Some (s_at s t (if sflag s then PYield else PExch), STau)
  | PYield, AStep => (* :20-22 *) Some (s_at s t (if sflag s then PSpin else PExch), STau)
  | PTry, AStep => (* :29 *)
      if sflag s then Some (s_at s t PIdle, STryFail) else Some (mkS true (tset (spcs s) t PHold), SGot)
  | PHold, AUnlock => (* :32-34 *) Some (mkS false (tset (spcs s) t PIdle), SReleased)
  | _, _ => None
  end.

(** ** LazyInstance *)
Inductive lpc := LIdle
  | LLoad      (* needConstruction(): before loadAcquire, lazy_instance.cc:71 *)
  | LCheck     (* before reading mState again, :72 *)
  | LCas       (* before the compare-and-swap, :74 *)
  | LSpin      (* before the load of the waiting loop, :79 *)
  | LCtor      (* in the constructor, lazy_instance.h:131 *)
  | LStore.    (* before doneConstructing's store, lazy_instance.cc:84 *)
Inductive lact := LCall | LStep | LThrow | LHas.
Inductive lev := LBegin | LEnd | LReturn | LThrown | LHasIs (b : bool) | LTau.
(** [lm]: mState, 0 INIT, 1 CONSTRUCTING, 2 DONE (lazy_instance.h:82-97) *)
Record lst := mkL { lm : nat; lpcs : nat -> lpc }.
(** LAZY_INSTANCE_INIT, lazy_instance.h:124-127 *)
Definition linit : lst := mkL 0 (fun _ => LIdle).
Definition l_at s t p := mkL (lm s) (tset (lpcs s) t p).

(** ptr()/get(), hasInstance(). [LThrow]: the constructor of T throws. The constructor does not use the instance itself. *)
Definition lstep (s : lst) (t : nat) (a : lact) : option (lst * lev) :=
  match lpcs s t, a with
  | LIdle, LCall => Some (l_at s t LLoad, LTau)
  | LIdle, LHas => (* lazy_instance.h:109, lazy_instance.cc:67-69 *) Some (s, LHasIs (negb (Nat.eqb (lm s) 0)))
  | LLoad, LStep => (* lazy_instance.cc:71: the value is not used *) Some (l_at s t LCheck, LTau)
  | LCheck, LStep => (* :72-73 *)
      if Nat.eqb (lm s) 2 then Some (l_at s t LIdle, LReturn) else Some (l_at s t LCas, LTau)
  | LCas, LStep => (* :74-76 *)
      if Nat.eqb (lm s) 0 then Some (mkL 1 (tset (lpcs s) t LCtor), LBegin) else Some (l_at s t LSpin, LTau)
  | LSpin, LStep => (* :77-81 *)
      if Nat.eqb (lm s) 2 then Some (l_at s t LIdle, LReturn) else Some (s, LTau)
  | LCtor, LStep => (* lazy_instance.h:131 *) Some (l_at s t LStore, LEnd)
  | LCtor, LThrow => Some (l_at s t LIdle, LThrown)
  | LStore, LStep => (* lazy_instance.h:132-134, lazy_instance.cc:83-85 *)
      Some (mkL 2 (tset (lpcs s) t LIdle), LReturn)
  | _, _ => None
  end.
