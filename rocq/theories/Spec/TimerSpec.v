(** What a user expects of timers, stated without wheels, slots or bitmaps: a table saying for each
    timer whether it is armed, with which deadline, and whether the clock has already been seen at
    or past that deadline ("due"). The table is computed from the history of operations alone. *)
From Verif.Model Require Import Common TimeWheel.
Open Scope Z_scope.

Record table := mkTab {
  tb_now : Z;                       (* last clock value given to the timers *)
  tb_ival : nat -> Z;               (* current interval of each timer *)
  tb_armed : nat -> option (Z * bool)  (* deadline, due? *)
}.

Definition set1 {A} (f : nat -> A) (i : nat) (x : A) : nat -> A :=
  fun j => if Nat.eqb j i then x else f j.

(** First instant strictly after [now] of the form d + k*v with k >= 1. *)
Definition next_period (d v now : Z) : Z := d + v * (Z.max 0 ((now - d) / v) + 1).

(** [rep i]: timer [i] is a repeating timer. *)
Definition tab_step (rep : nat -> bool) (S : table) (o : op) : table :=
  match o with
  | OAdd i now =>
      let d := if rep i then tb_now S + tb_ival S i else now + tb_ival S i in
      mkTab (tb_now S)
            (if rep i then set1 (tb_ival S) i (Z.max 1 (tb_ival S i)) else tb_ival S)
            (set1 (tb_armed S) i (Some (d, d <=? tb_now S)))
  | ODel i => mkTab (tb_now S) (tb_ival S) (set1 (tb_armed S) i None)
  | OSetInterval i ms => mkTab (tb_now S) (set1 (tb_ival S) i ms) (tb_armed S)
  | OTick now =>
      mkTab now (tb_ival S)
            (fun i => match tb_armed S i with
                      | Some (d, due) => Some (d, due || (d <=? now))
                      | None => None
                      end)
  | OGet None => S
  | OGet (Some i) =>
      mkTab (tb_now S) (tb_ival S)
            (set1 (tb_armed S) i
               (match tb_armed S i with
                | Some (d, _) =>
                    if rep i && (0 <? tb_ival S i)
                    then Some (next_period d (tb_ival S i) (tb_now S), false)
                    else None
                | None => None
                end))
  end.

(** Table after history [h] of a pump created at time [t0] with timers of intervals [ms]. *)
Definition tab0 (ms : nat -> Z) (t0 : Z) : table := mkTab t0 ms (fun _ => None).
Definition tab (rep : nat -> bool) (ms : nat -> Z) (t0 : Z) (h : list op) : table :=
  fold_left (tab_step rep) h (tab0 ms t0).

(** Sane magnitudes: no 64-bit overflow of time + interval (2^62 ms is 146 million years). *)
Definition TB : Z := 2 ^ 62.
Definition op_ok (o : op) : Prop :=
  match o with
  | OAdd _ now => 0 <= now < TB
  | OSetInterval _ ms => 0 <= ms < TB
  | OTick now => 0 <= now < TB
  | _ => True
  end.

(** The clock never goes back (CLOCK_MONOTONIC): every tick of [h] is at or after the previous one. *)
Fixpoint ticks_from (t : Z) (h : list op) : Prop :=
  match h with
  | [] => True
  | OTick now :: h' => t <= now /\ ticks_from now h'
  | _ :: h' => ticks_from t h'
  end.

(** The timer object [i] as constructed. *)
Definition new_timers (rep : nat -> bool) (ms : nat -> Z) (i : nat) : timeout :=
  TimeoutEvent_new (ms i) (rep i).

(** A run of the real code: construct the pump at [t0], then the steps [h]. *)
Definition pump_run (rep : nat -> bool) (ms : nat -> Z) (t0 : Z) (h : list op) (T : timeouts) : Prop :=
  exists T0, InitializeTimeWheel (new_timers rep ms) t0 = Ok T0 /\ steps T0 h T.
Definition run_ok (ms : nat -> Z) (t0 : Z) (h : list op) : Prop :=
  (forall i, 0 <= ms i < TB) /\ 0 <= t0 < TB /\ Forall op_ok h.

(** Vocabulary for stating properties of histories. *)
Definition fires (i : nat) (h : list op) : nat :=
  count_occ Bool.bool_dec
    (map (fun o => match o with OGet (Some j) => Nat.eqb j i | _ => false end) h) true.

(** [o] (re-)arms or cancels timer [i]. *)
Definition rearms (i : nat) (o : op) : bool :=
  match o with OAdd j _ => Nat.eqb j i | ODel j => Nat.eqb j i | _ => false end.
Definition reinterval (i : nat) (o : op) : bool :=
  match o with OSetInterval j _ => Nat.eqb j i | _ => false end.

(** Last clock value handed to the timers. *)
Fixpoint clock (t0 : Z) (h : list op) : Z :=
  match h with
  | [] => t0
  | OTick now :: h' => clock now h'
  | _ :: h' => clock t0 h'
  end.

(** Every clock value seen. *)
Definition clocks (t0 : Z) (h : list op) : list Z :=
  t0 :: flat_map (fun o => match o with OTick now => [now] | _ => [] end) h.

(** Interval timer [i] has after [h] when only user calls set it (adding a repeating timer rounds 0 up to 1). *)
Definition interval_of (rep : nat -> bool) (ms : nat -> Z) (t0 : Z) (h : list op) (i : nat) : Z :=
  tb_ival (tab rep ms t0 h) i.
