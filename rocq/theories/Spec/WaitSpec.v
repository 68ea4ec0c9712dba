(** Independent vocabulary for timer queues, waiting on descriptors, reference counts and cleanup objects. *)
From Verif.Model Require Import Common TimerQueue IoWait RefPtr.
Local Open Scope Z_scope.

(** * Timers *)
Definition added (os : list TimerQueue.op) : list timer := flat_map (fun o => match o with OAdd t => [t] | _ => [] end) os.
Definition fires (q : tq) (i : nat) : list Z := map snd (filter (fun e => Nat.eqb (fst e) i) (fired q)).
(** [ws]: the times at which a timer with this due time fired, oldest first, are acceptable (to the millisecond): not early; once
    if it is a one-shot; afterwards at least an interval apart. *)
Fixpoint on_time (d : Z) (one : bool) (p : Z) (ws : list Z) : Prop :=
  match ws with
  | [] => True
  | w :: ws => ms d <= ms w /\ if one then ws = [] else on_time (w + 1000 * p) one p ws
  end.
Definition cancels (o : TimerQueue.op) : bool := match o with OCancel _ => true | _ => false end.
(** The clock does not run backwards while a timer is handled. *)
Definition sane (o : TimerQueue.op) : Prop := match o with TimerQueue.OExpire _ now now2 => now <= now2 | _ => True end.
(** The timer registered under an identifier. *)
Definition owner (q : tq) (id : nat) : option timer := nth id (slots q) None.
(** Every cancellation names a registered timer. *)
Fixpoint careful (q : tq) (os : list TimerQueue.op) : Prop :=
  match os with
  | [] => True
  | o :: os => (match o with OCancel id => owner q id <> None | _ => True end) /\
      match TimerQueue.step q o with Ok q' => careful q' os | _ => True end
  end.

(** * Waiting *)
(** What the first notification in a list says; only descriptors fire and timers expire. *)
Definition verdict (mon : Z) (timed : bool) (os : list IoWait.op) : option result :=
  hd_error (flat_map (fun o => match o with
    | OFire ev => [if Z.land mon ev =? 0 then RError else ROk]
    | IoWait.OExpire => if timed then [RTimeout] else []
    | _ => [] end) os).
Definition notice (o : IoWait.op) : bool := match o with OFire _ | IoWait.OExpire => true | _ => false end.

(** * Reference counts *)
Definition one_if (b : bool) : nat := if b then 1 else 0.
Definition holds (o : nat) (p : option nat) : bool := match p with Some x => Nat.eqb x o | None => false end.
(** How many smart pointers, and how many references given away by release(), there are to an object. *)
Definition owners (o : nat) (m : mem) : nat := length (filter (holds o) (ptrs m)).
Definition leaked (o : nat) (m : mem) : nat := length (filter (Nat.eqb o) (raw m)).
Definition alive (m : mem) (o : nat) : Prop := exists c, nth_error (objs m) o = Some (Obj c 0).
Definition valid (m : mem) (p : option nat) : Prop := match p with None => True | Some o => alive m o end.
(** What the C++ rules ask of a program: pointer variables exist, only unconstructed ones (null here) are constructed, raw pointers
    are those of live objects. *)
Definition permitted (m : mem) (o : RefPtr.op) : Prop :=
  let var h := (h < length (ptrs m))%nat in
  match o with
  | ONew => True
  | OCtor h p => var h /\ ptr m h = None /\ valid m p
  | OCopy h g | OMove h g => var h /\ var g /\ ptr m h = None
  | OAssign h p => var h /\ valid m p
  | OAssignCopy h g | OAssignMove h g | OSwap h g => var h /\ var g
  | ODtor h | ORelease h => var h
  end.
Fixpoint legal (m : mem) (os : list RefPtr.op) : Prop :=
  match os with
  | [] => True
  | o :: os => permitted m o /\ match RefPtr.step m o with Ok m' => legal m' os | _ => True end
  end.
Definition start (n : nat) : mem := Mem [] (repeat None n) [].
