(** RepeatingTimer (base/message_loop/repeating_timer.{h,cc}) on one message loop, with the life time of its
    TimeoutEvent objects.

    Calls on the timer are made one at a time ("start and stop are not thread safe", repeating_timer.h:55), from the loop
    thread ([inloop = true]: from a task, or from the timer's own callback) or from another thread. TimeoutEvent objects are
    named by natural numbers, fresh for every Start. The timing wheel is abstracted to the set of attached events, any of
    which may expire at any time (when exactly: C17-C21); a repeating event stays attached when it expires. The loop
    runs posted tasks in order (C23). cv.wait checks its predicate, then blocks; it may wake spuriously, as C++ allows.
    Setting running_ is merged with the last step of the call (simplification: the callback does not read Running()). *)
From Verif.Model Require Import Common.

Definition fset {A} (f : nat -> A) (t : nat) (x : A) : nat -> A := fun j => if Nat.eqb j t then x else f j.

(** Posted tasks: AddTimeoutEvent(e) (repeating_timer.cc:61-64) and Stop()'s remover (:78-88). *)
Inductive rtask := TAdd (e : nat) | TRemove.
(** What follows the return of Stop(): nothing, the rest of Start(task k), the rest of the destructor. *)
Inductive rcont := KNone | KStart (k : nat) | KDead.
(** The thread that is in a call from outside the loop. *)
Inductive ropc := OIdle
  | OCheck (c : rcont)     (* in cv.wait, before evaluating the predicate, :92 *)
  | OSleep (c : rcont)     (* predicate was false, about to block *)
  | OBlocked (c : rcont)   (* blocked in the condition variable *)
  | ODead.                 (* the RepeatingTimer object has been destroyed *)
(** The loop thread. *)
Inductive rlpc := RIdle
  | RInvoke (e : nat)      (* in timeout_ev->Invoke(), event_pump.cc:129 *)
  | RNotify                (* in the remover, before cv.notify_all(), :83 *)
  | RStuck.                (* the loop thread itself waits in Stop() *)

Record rst := mkR {
  r_on : bool;             (* MessageLoop::running_ *)
  r_q : list rtask;
  r_ev : option nat;       (* timeout_event_ *)
  r_next : nat;
  r_freed : nat -> bool;
  r_att : nat -> bool;     (* IsAttached() *)
  r_user : nat;            (* user_task_ *)
  r_running : bool;        (* running_ *)
  r_removed : bool;        (* the local [removed] of the Stop() in progress, :77 *)
  r_opc : ropc;
  r_lpc : rlpc }.

(** repeating_timer.cc:27-31; user_task_ is empty (0, never run since no event is attached) *)
Definition rinit : rst := mkR true [] None 0 (fun _ => false) (fun _ => false) 0 false false OIdle RIdle.

(** Observable: user task [k] was started by Start / Stop() returned / destructor returned / user task [k] was run. *)
Inductive rtev := EStart (k : nat) | EStop | EDead | ERun (k : nat).

Definition with_opc s p := mkR (r_on s) (r_q s) (r_ev s) (r_next s) (r_freed s) (r_att s) (r_user s) (r_running s) (r_removed s) p (r_lpc s).
Definition with_lpc s p := mkR (r_on s) (r_q s) (r_ev s) (r_next s) (r_freed s) (r_att s) (r_user s) (r_running s) (r_removed s) (r_opc s) p.
Definition with_q s q := mkR (r_on s) q (r_ev s) (r_next s) (r_freed s) (r_att s) (r_user s) (r_running s) (r_removed s) (r_opc s) (r_lpc s).
Definition with_att s e b := mkR (r_on s) (r_q s) (r_ev s) (r_next s) (r_freed s) (fset (r_att s) e b) (r_user s) (r_running s) (r_removed s) (r_opc s) (r_lpc s).
Definition with_running s b := mkR (r_on s) (r_q s) (r_ev s) (r_next s) (r_freed s) (r_att s) (r_user s) b (r_removed s) (r_opc s) (r_lpc s).
Definition with_removed s b := mkR (r_on s) (r_q s) (r_ev s) (r_next s) (r_freed s) (r_att s) (r_user s) (r_running s) b (r_opc s) (r_lpc s).

(** RemoveTimeoutEvent, then timeout_event_.reset(): repeating_timer.cc:72-73, 80-81 ([e] = timeout_event_.get());
    the event is detached first, so ~TimeoutEvent's CHECK (timeout_event.cc:35-37) passes. *)
Definition drop_ev s e : rst :=
  mkR (r_on s) (r_q s) None (r_next s) (fset (r_freed s) e true) (fset (r_att s) e false) (r_user s) (r_running s) (r_removed s) (r_opc s) (r_lpc s).

(** repeating_timer.cc:48-65, after a Stop() if one was needed. *)
Definition start_fin (inloop : bool) (k : nat) (s : rst) : outcome (rst * list rtev) :=
  match r_ev s with
  | Some _ => CheckFail                                   (* :48 *)
  | None =>
    let e := r_next s in
    let s1 := mkR (r_on s) (r_q s) (Some e) (S e) (r_freed s) (r_att s) k true (r_removed s) (r_opc s) (r_lpc s) in
    if inloop then Ok (with_att s1 e true, [EStart k])        (* :57-59 *)
    else if r_on s then Ok (with_q s1 (r_q s ++ [TAdd e]), [EStart k])   (* :61-64 *)
    else CheckFail                                        (* PostTask: CHECK(running_), message_loop.cc:274 *)
  end.

(** The members are destroyed (repeating_timer.cc:37); timeout_event_ still set would run ~TimeoutEvent. *)
Definition dead_fin (s : rst) : outcome (rst * list rtev) :=
  match r_ev s with
  | Some e => if r_att s e then CheckFail
              else Ok (with_opc (drop_ev s e) ODead, [EDead])
  | None => Ok (with_opc s ODead, [EDead])
  end.

Definition after_stop (inloop : bool) (c : rcont) (s : rst) : outcome (rst * list rtev) :=
  match c with
  | KNone => Ok (s, [EStop])
  | KStart k => obind (start_fin inloop k s) (fun '(s, l) => Ok (s, EStop :: l))
  | KDead => obind (dead_fin s) (fun '(s, l) => Ok (s, EStop :: l))
  end.

(** Stop() in the loop thread, :71-75; without an event it posts to its own loop and waits there, :88-93. *)
Definition stop_in (c : rcont) (s : rst) : outcome (rst * list rtev) :=
  match r_ev s with
  | Some e => after_stop true c (with_running (drop_ev s e) false)
  | None => Ok (with_lpc s RStuck, [])
  end.
(** Stop() in another thread up to cv.wait, :77-92. *)
Definition stop_off (c : rcont) (s : rst) : outcome (rst * list rtev) :=
  if r_on s then Ok (with_opc (with_removed (with_q s (r_q s ++ [TRemove])) false) (OCheck c), [])
  else CheckFail.                                         (* message_loop.cc:274 *)
Definition do_stop (inloop : bool) (c : rcont) (s : rst) := if inloop then stop_in c s else stop_off c s.

Inductive rcall := CStart (k : nat) | CStop | CDestroy.
(** repeating_timer.cc:33-37, 43-46, 68 *)
Definition do_call (inloop : bool) (c : rcall) (s : rst) : outcome (rst * list rtev) :=
  match c with
  | CStart k => if r_running s then do_stop inloop (KStart k) s else start_fin inloop k s
  | CStop => do_stop inloop KNone s
  | CDestroy => if r_running s then do_stop inloop KDead s else dead_fin s
  end.

Inductive ract :=
| ACall (inloop : bool) (c : rcall)
| AOwner             (* the waiting caller goes on *)
| ASpurious          (* the waiting caller wakes for no reason *)
| ATask              (* the loop runs its next posted task *)
| AFire (e : nat)    (* the loop invokes an expired event *)
| ALoop              (* the loop goes on in the current handler or remover *)
| AQuit.             (* the loop stops, all tasks done *)

(** [None]: not possible in this state. [Some UB], [Some CheckFail]: the process is lost. *)
Definition rstep (s : rst) (a : ract) : option (outcome (rst * list rtev)) :=
  match a with
  | ACall inloop c =>
      match r_opc s with
      | OIdle => if inloop
          then match r_lpc s with
               | RIdle | RInvoke _ => if r_on s then Some (do_call true c s) else None
               | _ => None
               end
          else Some (do_call false c s)
      | _ => None
      end
  | AOwner =>
      match r_opc s with
      | OCheck c => if r_removed s
          then Some (after_stop false c (with_running (with_opc s OIdle) false))
          else Some (Ok (with_opc s (OSleep c), []))
      | OSleep c => Some (Ok (with_opc s (OBlocked c), []))
      | _ => None
      end
  | ASpurious => match r_opc s with OBlocked c => Some (Ok (with_opc s (OCheck c), [])) | _ => None end
  | ATask =>
      match r_on s, r_lpc s, r_q s with
      | true, RIdle, TAdd e :: q =>
          (* event_pump.cc:104-108: reads and links the event *)
          if r_freed s e then Some UB else Some (Ok (with_att (with_q s q) e true, []))
      | true, RIdle, TRemove :: q =>
          match r_ev s with
          | None => Some UB    (* timeouts_del(T, NULL) reads to->pending *)
          | Some e => Some (Ok (with_lpc (with_removed (drop_ev (with_q s q) e) true) RNotify, []))
          end
      | _, _, _ => None
      end
  | AFire e =>
      match r_on s, r_lpc s, r_att s e with
      | true, RIdle, true =>
          match r_opc s with
          | ODead => Some UB
          | _ => if r_freed s e then Some UB else Some (Ok (with_lpc s (RInvoke e), [ERun (r_user s)]))
          end
      | _, _, _ => None
      end
  | ALoop =>
      match r_lpc s with
      | RInvoke e => (* back in Closure::Run, TimeoutEvent::Invoke, then timeout_ev->IsRepeated(), event_pump.cc:131 *)
          if r_freed s e then Some UB else Some (Ok (with_lpc s RIdle, []))
      | RNotify => (* :83 *)
          match r_opc s with
          | ODead => Some UB
          | OBlocked c => Some (Ok (with_opc (with_lpc s RIdle) (OCheck c), []))
          | _ => Some (Ok (with_lpc s RIdle, []))
          end
      | _ => None
      end
  | AQuit =>
      match r_on s, r_lpc s, r_q s with
      | true, RIdle, [] => Some (Ok (mkR false [] (r_ev s) (r_next s) (r_freed s) (r_att s) (r_user s) (r_running s) (r_removed s) (r_opc s) (r_lpc s), []))
      | _, _, _ => None
      end
  end.
