(** Timing wheel (thirdparty/timeout/timeout.c, bitops.h) and the timer half of EventPump
    (base/message_loop/event_pump.cc, timeout_event.{h,cc}).

    Timers ([struct timeout] objects) are named by natural numbers, and a heap maps names to the
    fields of the object.  The intrusive doubly linked lists of sys/queue.h are modelled as Coq
    lists of names (head first): LIST_INSERT_HEAD is [cons], LIST_REMOVE takes the name out of the
    list the object is linked in.  [timeout_t] is uint64_t: sums are reduced modulo 2^64. *)
From Verif.Model Require Import Common.
Open Scope Z_scope.

(** timeout.c:108-119, default configuration (no override in thirdparty/CMakeLists.txt). *)
Definition WHEEL_BIT : Z := 6.
Definition WHEEL_NUM : Z := 4.
Definition WHEEL_LEN : Z := 64.
Definition WHEEL_MAX : Z := WHEEL_LEN - 1.
Definition WHEEL_MASK : Z := WHEEL_LEN - 1.
Definition TIMEOUT_MAX : Z := Z.shiftl 1 (WHEEL_BIT * WHEEL_NUM) - 1.

(** uint64_t arithmetic. *)
Definition u64 (x : Z) : Z := x mod 2 ^ 64.

(** bitops.h:15 [__builtin_ctzll]: index of the lowest set bit of a positive number. *)
Fixpoint ctz_pos (p : positive) : Z :=
  match p with
  | xO q => 1 + ctz_pos q
  | _ => 0
  end.

(** bitops.h:15: undefined for 0. *)
Definition ctz (n : Z) : outcome Z :=
  match n with
  | Zpos p => Ok (ctz_pos p)
  | _ => UB
  end.

(** timeout.c:126 [fls(n) = 64 - clz64(n)]; bitops.h:16: clz is undefined for 0. *)
Definition fls (n : Z) : outcome Z :=
  match n with
  | Zpos p => Ok (Z.log2 (Zpos p) + 1)
  | _ => UB
  end.

(** bitops.h:175-181 rotl64: (v << c) | (v >> (-c & 63)) on uint64_t. *)
Definition rotl (v c : Z) : Z :=
  let c := Z.land c 63 in
  Z.lor (u64 (Z.shiftl v c)) (Z.shiftr v (Z.land (- c) 63)).

(** bitops.h:183-189 rotr64. *)
Definition rotr (v c : Z) : Z :=
  let c := Z.land c 63 in
  Z.lor (Z.shiftr v c) (u64 (Z.shiftl v (Z.land (- c) 63))).

(** What [to->pending] points at: the expired list or &wheel[w][s]. *)
Inductive loc : Type := LExp | LSlot (w s : Z).

(** timeout.h:77-99 struct timeout (the fields the wheel uses). *)
Record timeout := mkTO {
  to_int : bool;       (* flags & TIMEOUT_INT *)
  to_abs : bool;       (* flags & TIMEOUT_ABS *)
  to_expires : Z;
  to_interval : Z;
  to_pending : option loc
}.

(** timeout.c:165-172 struct timeouts, together with the heap of timeout objects. *)
Record timeouts := mkTS {
  wheel : Z -> Z -> list nat;
  expired : list nat;
  pending : Z -> Z;
  curtime : Z;
  heap : nat -> timeout
}.

(** Field updates. *)
Definition upd_heap (h : nat -> timeout) (i : nat) (t : timeout) : nat -> timeout :=
  fun j => if Nat.eqb j i then t else h j.
Definition upd_wheel (f : Z -> Z -> list nat) (w s : Z) (l : list nat) : Z -> Z -> list nat :=
  fun w' s' => if (w' =? w) && (s' =? s) then l else f w' s'.
Definition upd_pend (f : Z -> Z) (w : Z) (v : Z) : Z -> Z :=
  fun w' => if w' =? w then v else f w'.
Definition set_pending (t : timeout) (p : option loc) : timeout :=
  mkTO (to_int t) (to_abs t) (to_expires t) (to_interval t) p.
Definition set_expires (t : timeout) (e : Z) : timeout :=
  mkTO (to_int t) (to_abs t) e (to_interval t) (to_pending t).
Definition set_interval (t : timeout) (v : Z) : timeout :=
  mkTO (to_int t) (to_abs t) (to_expires t) v (to_pending t).
Definition with_heap (T : timeouts) (h : nat -> timeout) : timeouts :=
  mkTS (wheel T) (expired T) (pending T) (curtime T) h.

(** timeout.c:174-199 timeouts_init/timeouts_open (the hertz field is never read by ltio). *)
Definition timeouts_open (h : nat -> timeout) : timeouts :=
  mkTS (fun _ _ => []) [] (fun _ => 0) 0 h.

(** LIST_REMOVE(to, le): unlink one element. *)
Definition list_remove (i : nat) (l : list nat) : list nat :=
  filter (fun j => negb (Nat.eqb j i)) l.

(** timeout.c:238-254 timeouts_del. *)
Definition timeouts_del (T : timeouts) (i : nat) : timeouts :=
  match to_pending (heap T i) with
  | None => T
  | Some LExp =>
      mkTS (wheel T) (list_remove i (expired T)) (pending T) (curtime T)
           (upd_heap (heap T) i (set_pending (heap T i) None))
  | Some (LSlot w s) =>
      let l := list_remove i (wheel T w s) in
      mkTS (upd_wheel (wheel T) w s l) (expired T)
           (match l with
            | [] => upd_pend (pending T) w (Z.land (pending T w) (Z.lnot (Z.shiftl 1 s)))
            | _ => pending T
            end)
           (curtime T)
           (upd_heap (heap T) i (set_pending (heap T i) None))
  end.

(** timeout.c:256-260 timeout_wheel (integer division of nonnegative ints). *)
Definition timeout_wheel (cur exp : Z) : outcome Z :=
  obind (fls (Z.min (Z.lxor cur exp) TIMEOUT_MAX)) (fun n => Ok ((n - 1) / WHEEL_BIT)).

(** timeout.c:262-265 timeout_slot. *)
Definition timeout_slot (w exp : Z) : Z :=
  Z.land WHEEL_MASK (Z.shiftr exp (w * WHEEL_BIT)).

(** timeout.c:301-311 timeouts_sched_future_nopending. *)
Definition timeouts_sched_future_nopending (T : timeouts) (i : nat) : outcome timeouts :=
  obind (timeout_wheel (curtime T) (to_expires (heap T i))) (fun w =>
  let s := timeout_slot w (to_expires (heap T i)) in
  Ok (mkTS (upd_wheel (wheel T) w s (i :: wheel T w s)) (expired T)
           (upd_pend (pending T) w (Z.lor (pending T w) (Z.shiftl 1 s)))
           (curtime T)
           (upd_heap (heap T) i (set_pending (heap T i) (Some (LSlot w s)))))).

(** timeout.c:287-295 timeouts_sched_nopending. *)
Definition timeouts_sched_nopending (T : timeouts) (i : nat) : outcome timeouts :=
  if curtime T <? to_expires (heap T i)
  then timeouts_sched_future_nopending T i
  else Ok (mkTS (wheel T) (i :: expired T) (pending T) (curtime T)
                (upd_heap (heap T) i (set_pending (heap T i) (Some LExp)))).

(** timeout.c:271-282 timeouts_sched. *)
Definition timeouts_sched (T : timeouts) (i : nat) (exp : Z) : outcome timeouts :=
  let T := timeouts_del T i in
  let T := with_heap T (upd_heap (heap T) i (set_expires (heap T i) exp)) in
  timeouts_sched_nopending T i.

(** timeout.c:314-329 timeouts_readd.  [n % 0] cannot happen: the only caller checks interval > 0. *)
Definition timeouts_readd (T : timeouts) (i : nat) : outcome timeouts :=
  let t := heap T i in
  let e := u64 (to_expires t + to_interval t) in
  let e := if e <=? curtime T
           then let n := curtime T - e in
                let r := n mod to_interval t in
                u64 (curtime T + (to_interval t - r))
           else e in
  timeouts_sched_future_nopending (with_heap T (upd_heap (heap T) i (set_expires t e))) i.

(** timeout.c:332-343 timeouts_add. *)
Definition timeouts_add (T : timeouts) (i : nat) (timeout : Z) : outcome timeouts :=
  let T := if to_int (heap T i)
           then with_heap T (upd_heap (heap T) i (set_interval (heap T i) (Z.max 1 timeout)))
           else T in
  if to_abs (heap T i)
  then timeouts_sched T i timeout
  else timeouts_sched T i (u64 (curtime T + timeout)).

(** timeout.c:369-379: the slots of wheel [w] passed when time moves from [cur] to [now]. *)
Definition update_mask (cur now w : Z) : Z :=
  let elapsed := u64 (now - cur) in
  if WHEEL_MAX <=? Z.shiftr elapsed (w * WHEEL_BIT)
  then 2 ^ 64 - 1
  else
    let oslot := Z.land WHEEL_MASK (Z.shiftr cur (w * WHEEL_BIT)) in
    let nslot := Z.land WHEEL_MASK (Z.shiftr now (w * WHEEL_BIT)) in
    let e := Z.land WHEEL_MASK (WHEEL_LEN + nslot - oslot) in
    rotl (Z.shiftl 1 e - 1) (oslot + 1).

(** timeout.c:381-387: the inner while loop, moving slots to [todo].  [fuel] bounds the recursion;
    running out of it means the C loop would not have ended (modelled as UB), and so does a write
    past the end of [todo] (an array of WHEEL_NUM * WHEEL_LEN lists). *)
Fixpoint update_slots (fuel : nat) (mask w : Z) (T : timeouts) (todo : list (list nat))
  : outcome (timeouts * list (list nat)) :=
  if Z.land mask (pending T w) =? 0 then Ok (T, todo)
  else
    match fuel with
    | O => UB
    | S fuel' =>
        obind (ctz (Z.land mask (pending T w))) (fun s =>
        if WHEEL_NUM * WHEEL_LEN <=? Z.of_nat (length todo) then UB
        else
          update_slots fuel' mask w
            (mkTS (upd_wheel (wheel T) w s []) (expired T)
                  (upd_pend (pending T) w (Z.land (pending T w) (Z.lnot (Z.shiftl 1 s))))
                  (curtime T) (heap T))
            (todo ++ [wheel T w s]))
    end.

(** timeout.c:354-391: the loop over the wheels [ws] (in the code 0,1,2,3). *)
Fixpoint update_wheels (ws : list Z) (now : Z) (T : timeouts) (todo : list (list nat))
  : outcome (timeouts * list (list nat)) :=
  match ws with
  | [] => Ok (T, todo)
  | w :: ws' =>
      let mask := update_mask (curtime T) now w in
      obind (update_slots 64 mask w T todo) (fun '(T, todo) =>
      if Z.land 1 mask =? 0 then Ok (T, todo)
      else update_wheels ws' now T todo)
  end.

(** timeout.c:395-404: reschedule one moved timer ([to->pending = NULL] first). *)
Definition resched (T : timeouts) (i : nat) : outcome timeouts :=
  timeouts_sched_nopending
    (with_heap T (upd_heap (heap T) i (set_pending (heap T i) None))) i.

Fixpoint resched_all (T : timeouts) (l : list nat) : outcome timeouts :=
  match l with
  | [] => Ok T
  | i :: l' => obind (resched T i) (fun T => resched_all T l')
  end.

(** timeout.c:345-405 timeouts_update. *)
Definition timeouts_update (T : timeouts) (now : Z) : outcome timeouts :=
  obind (update_wheels [0; 1; 2; 3] now T []) (fun '(T, todo) =>
  resched_all (mkTS (wheel T) (expired T) (pending T) now (heap T)) (concat todo)).

(** timeout.c:412-419 timeouts_pending. *)
Definition timeouts_pending (T : timeouts) : bool :=
  negb (Z.lor (Z.lor (Z.lor (pending T 0) (pending T 1)) (pending T 2)) (pending T 3) =? 0).

(** timeout.c:421-424 timeouts_expired. *)
Definition timeouts_expired (T : timeouts) : bool :=
  match expired T with [] => false | _ => true end.

(** timeout.c:446-468: the loop of timeouts_int. *)
Fixpoint int_wheels (ws : list Z) (T : timeouts) (relmask acc : Z) : outcome Z :=
  match ws with
  | [] => Ok acc
  | w :: ws' =>
      let relmask' := Z.lor (u64 (Z.shiftl relmask WHEEL_BIT)) WHEEL_MASK in
      if pending T w =? 0 then int_wheels ws' T relmask' acc
      else
        let s := Z.land WHEEL_MASK (Z.shiftr (curtime T) (w * WHEEL_BIT)) in
        obind (ctz (rotr (pending T w) s)) (fun c =>
        let plus := if Z.land (pending T w) (Z.shiftl 1 s) =? 0 then 0 else 1 in
        let t := u64 (Z.shiftl (c + plus) (w * WHEEL_BIT) - Z.land relmask (curtime T)) in
        int_wheels ws' T relmask' (Z.min t acc))
  end.

(** timeout.c:441-471 timeouts_int. *)
Definition timeouts_int (T : timeouts) : outcome Z :=
  int_wheels [0; 1; 2; 3] T 0 (2 ^ 64 - 1).

(** timeout.c:477-483 timeouts_timeout. *)
Definition timeouts_timeout (T : timeouts) : outcome Z :=
  if timeouts_expired T then Ok 0 else timeouts_int T.

(** timeout.c:485-503 timeouts_get. *)
Definition timeouts_get (T : timeouts) : outcome (option nat * timeouts) :=
  match expired T with
  | [] => Ok (None, T)
  | i :: l =>
      let T := mkTS (wheel T) l (pending T) (curtime T)
                    (upd_heap (heap T) i (set_pending (heap T i) None)) in
      if to_int (heap T i) && (0 <? to_interval (heap T i))
      then obind (timeouts_readd T i) (fun T => Ok (Some i, T))
      else Ok (Some i, T)
  end.

(** timeout_event.cc:30-33 TimeoutEvent constructor (timeout_init zeroes every other field). *)
Definition TimeoutEvent_new (ms : Z) (repeat : bool) : timeout :=
  mkTO repeat (negb repeat) 0 ms None.

(** timeout_event.h:49 IsRepeated. *)
Definition IsRepeated (t : timeout) : bool := to_int t.

(** timeout_event.cc:39-41 UpdateInterval (int64_t converted to uint64_t). *)
Definition UpdateInterval (T : timeouts) (i : nat) (ms : Z) : timeouts :=
  with_heap T (upd_heap (heap T) i (set_interval (heap T i) (u64 ms))).

(** event_pump.cc:44-47, 164-171 EventPump constructor: open the wheel and set its time. *)
Definition InitializeTimeWheel (h : nat -> timeout) (now : Z) : outcome timeouts :=
  timeouts_update (timeouts_open h) now.

(** event_pump.cc:104-108, 116-120 AddTimeoutEvent / add_timer_internal ([now] = time_ms()).
    The CHECK(IsInLoop()) is the caller's obligation and not modelled. *)
Definition AddTimeoutEvent (T : timeouts) (now : Z) (i : nat) : outcome timeouts :=
  let t := if IsRepeated (heap T i) then to_interval (heap T i)
           else u64 (now + to_interval (heap T i)) in
  timeouts_add T i t.

(** event_pump.cc:110-114 RemoveTimeoutEvent. *)
Definition RemoveTimeoutEvent (T : timeouts) (i : nat) : timeouts := timeouts_del T i.

(** event_pump.cc:149-162 NextTimeout. *)
Definition NextTimeout (T : timeouts) (now : Z) : outcome (Z * timeouts) :=
  obind (timeouts_update T now) (fun T =>
  if timeouts_expired T then Ok (0, T)
  else if timeouts_pending T
       then obind (timeouts_timeout T) (fun t => Ok (Z.min 50 t, T))
       else Ok (50, T)).

(** event_pump.cc:70-80 Pump: the wait handed to the multiplexer. *)
Definition PumpWait (T : timeouts) (now ms : Z) : outcome (Z * timeouts) :=
  obind (NextTimeout T now) (fun '(t, T) => Ok (Z.min ms t, T)).

(** The steps by which a loop thread acts on its timers.  A handler invoked by ProcessTimerEvent
    runs arbitrary user code, which can itself add, remove and re-time timers: it contributes such
    steps between two [OGet]s.  [OGet r] is one timeouts_get call that returned [r]; with
    [r = Some i] the pump then runs timer [i]'s handler (event_pump.cc:126-129). *)
Inductive op : Type :=
| OAdd (i : nat) (now : Z)
| ODel (i : nat)
| OSetInterval (i : nat) (ms : Z)
| OTick (now : Z)
| OGet (r : option nat).

(** event_pump.cc:104-135, 149-152; the deletion of one-shot auto-delete events after their
    handler ran (event_pump.cc:131-133) is memory management and not modelled. *)
Inductive step : timeouts -> op -> timeouts -> Prop :=
| step_add T i now T' : AddTimeoutEvent T now i = Ok T' -> step T (OAdd i now) T'
| step_del T i : step T (ODel i) (RemoveTimeoutEvent T i)
| step_set T i ms : step T (OSetInterval i ms) (UpdateInterval T i ms)
| step_tick T now T' : timeouts_update T now = Ok T' -> step T (OTick now) T'
| step_get T r T' : timeouts_get T = Ok (r, T') -> step T (OGet r) T'.

Inductive steps : timeouts -> list op -> timeouts -> Prop :=
| steps_nil T : steps T [] T
| steps_snoc T h T' o T'' : steps T h T' -> step T' o T'' -> steps T (h ++ [o]) T''.

(** event_pump.cc:122-135 ProcessTimerEvent at time [now]: a trace of steps starting with the
    update and ending with the timeouts_get that returned NULL; between two gets only handler steps
    (no update, since Pump and ProcessTimerEvent are not reentered from a handler). *)
Definition handler_op (o : op) : bool :=
  match o with OAdd _ _ | ODel _ | OSetInterval _ _ => true | _ => false end.
Inductive drain_trace : list op -> Prop :=
| dt_done : drain_trace [OGet None]
| dt_fire i hs l : forallb handler_op hs = true -> drain_trace l ->
    drain_trace (OGet (Some i) :: hs ++ l).
Definition process_trace (now : Z) (l : list op) : Prop :=
  exists d, l = OTick now :: d /\ drain_trace d.
