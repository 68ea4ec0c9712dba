(** base/message_loop/timer_task_queue.cc and timer_event.cc: the timer queue.

    Times are microseconds (timestamp.cc); comparisons of HandleExpiredTimer are in milliseconds. The binary heap
    (std::priority_queue) is a list from which an entry of least time is taken; among equal times the choice is free (the
    position is given by the step). One iteration of the loop of HandleExpiredTimer is one step, because the callback, called last,
    may add and cancel timers. The clock values are given by the steps. The asserts are active (no NDEBUG). *)
From Verif.Model Require Import Common.
Local Open Scope Z_scope.

(** timer_event.h:29-57; [tid] identifies the object. *)
Record timer := Timer { tid : nat; due : Z; once : bool; interval : Z }.
(** timer_task_queue.h:63-71; [fired]: the invocations so far (object, clock at the beginning of HandleExpiredTimer). *)
Record tq := Tq { heap : list (Z * nat); slots : list (option timer); free : list nat; fired : list (nat * Z) }.
Definition new_tq : tq := Tq [] [] [] [].
Fixpoint put {A} (l : list A) (i : nat) (x : A) : list A :=
  match l, i with [] , _ => [] | _ :: l, O => x :: l | y :: l, S i => y :: put l i x end.
Fixpoint drop_nth {A} (l : list A) (i : nat) : list A :=
  match l, i with [], _ => [] | _ :: l, O => l | y :: l, S i => y :: drop_nth l i end.
Definition ms (t : Z) : Z := t / 1000.

(** timer_task_queue.cc:27-47. *)
Definition AddTimerEvent (q : tq) (t : timer) : outcome (tq * nat) :=
  match free q with
  | [] => let id := length (slots q) in Ok (Tq ((due t, id) :: heap q) (slots q ++ [Some t]) [] (fired q), id)
  | id :: f => if Nat.ltb id (length (slots q)) then Ok (Tq ((due t, id) :: heap q) (put (slots q) id (Some t)) f (fired q), id) else CheckFail
  end.
(** timer_task_queue.cc:49-59. *)
Definition CancelTimerEvent (q : tq) (id : nat) : tq * bool :=
  if Nat.leb (length (slots q)) id then (q, false)
  else (Tq (heap q) (put (slots q) id None) (id :: free q) (fired q), true).
(** timer_task_queue.cc:61-82, 100-127: one iteration; the top of the heap is at position [k]; [now2]: the clock when the timer is rescheduled. *)
Definition is_top (h : list (Z * nat)) (t : Z) : bool := forallb (fun e => t <=? fst e) h.
Definition expire (q : tq) (k : nat) (now now2 : Z) : outcome tq :=
  match nth_error (heap q) k with
  | None => Ok q
  | Some (t, id) =>
      if is_top (heap q) t && (ms t <=? ms now) then
        let h := drop_nth (heap q) k in
        match nth_error (slots q) id with
        | None => CheckFail
        | Some None => Ok (Tq h (slots q) (free q) (fired q))
        | Some (Some tm) =>
            if once tm then Ok (Tq h (put (slots q) id None) (id :: free q) (fired q ++ [(tid tm, now)]))
            else
              let t' := now2 + 1000 * interval tm in
              if now2 <? t' then Ok (Tq ((t', id) :: h) (put (slots q) id (Some (Timer (tid tm) t' false (interval tm)))) (free q) (fired q ++ [(tid tm, now)]))
              else CheckFail
        end
      else Ok q
  end.
(** timer_task_queue.cc:84-98 CalculateNextTimerDuration. *)
Definition least (h : list (Z * nat)) (d : Z) : Z := fold_right (fun e m => Z.min (fst e) m) d h.
Definition next_wait (q : tq) (now : Z) : Z :=
  match heap q with
  | [] => 1000
  | e :: h => let d := ms (least h (fst e)) - ms now in if 0 <? d then d else 0
  end.
(** Histories. *)
Inductive op := OAdd (t : timer) | OCancel (id : nat) | OExpire (k : nat) (now now2 : Z).
Definition step (q : tq) (o : op) : outcome tq :=
  match o with
  | OAdd t => obind (AddTimerEvent q t) (fun r => Ok (fst r))
  | OCancel id => Ok (fst (CancelTimerEvent q id))
  | OExpire k now now2 => expire q k now now2
  end.
Fixpoint run (q : tq) (os : list op) : outcome tq :=
  match os with [] => Ok q | o :: os => obind (step q o) (fun q => run q os) end.
