(** base/coroutine/io_event.cc: waiting for a file descriptor inside a coroutine.

    The coroutine side is what co_runner.cc:198-219 does with a resumer: calling it puts the suspended coroutine into the ready list
    unless it is there already or was resumed since. Events are bit sets (event.h). *)
From Verif.Model Require Import Common.
Local Open Scope Z_scope.

Inductive result := RNone | ROk | RError | RTimeout.
(** Where the coroutine that owns the IOEvent is: running (or suspended in something else), suspended in Wait, or about to
    return from Wait. *)
Inductive where_ := Elsewhere | Suspended | Runnable.
(** io_event.h:58-61; [armed]: the timer on the stack of Wait is in the wheel; [got]: results returned by Wait so far. *)
Record io := Io { monitor : Z; res : result; resumer : bool; armed : bool; at_ : where_; got : list result }.
(** event.h:35-39; io_event.cc:21-31 initialize: an FdEvent without interest gets both. *)
Definition create (mon : Z) : io := Io (if mon =? 0 then 3 else mon) RNone false false Elsewhere [].
(** io_event.h:51-56. *)
Definition set_result (s : io) (r : result) : io := match res s with RNone => Io (monitor s) r (resumer s) (armed s) (at_ s) (got s) | _ => s end.
(** io_event.cc:63, 87 resumer_(): an empty std::function throws, which nobody catches. *)
Definition call_resumer (s : io) : outcome io :=
  if resumer s then Ok (Io (monitor s) (res s) (resumer s) (armed s) (match at_ s with Suspended => Runnable | w => w end) (got s)) else CheckFail.
(** io_event.cc:51-67 Wait up to the suspension. *)
Definition Wait (s : io) (t : Z) : io := Io (monitor s) RNone true (0 <? t) Suspended (got s).
(** io_event.cc:69-79 the rest of Wait. *)
Definition resume (s : io) : outcome io :=
  match res s with RNone => CheckFail | r => Ok (Io (monitor s) r false false Elsewhere (got s ++ [r])) end.
(** io_event.cc:81-88. *)
Definition HandleEvent (s : io) (ev : Z) : outcome io :=
  call_resumer (set_result s (if Z.land (monitor s) ev =? 0 then RError else ROk)).
(** What can happen: the coroutine calls Wait, the descriptor fires, the timer expires, the runner switches to the coroutine. *)
Inductive op := OWait (t : Z) | OFire (ev : Z) | OExpire | ORun.
Definition step (s : io) (o : op) : outcome io :=
  match o with
  | OWait t => match at_ s with Elsewhere => Ok (Wait s t) | _ => Ok s end
  | OFire ev => HandleEvent s ev
  | OExpire => if armed s then obind (call_resumer (set_result s RTimeout)) (fun s => Ok (Io (monitor s) (res s) (resumer s) false (at_ s) (got s))) else Ok s
  | ORun => match at_ s with Runnable => resume s | _ => Ok s end
  end.
Fixpoint run (s : io) (os : list op) : outcome io :=
  match os with [] => Ok s | o :: os => obind (step s o) (fun s => run s os) end.
