(** What the user of a server observes about stopping and closing. *)
From Coq Require Import List Arith.
From Verif.Model Require Import Common IOService.
Import ListNotations.

(** how often the stop callback ran *)
Fixpoint stops (es : list ioev) : nat :=
  match es with [] => 0 | OStopped :: es' => S (stops es') | _ :: es' => stops es' end.

(** how often OnConnectionClose was called for connection [c] *)
Fixpoint conn_closes (c : nat) (es : list ioev) : nat :=
  match es with
  | [] => 0
  | OConnClose x :: es' => (if Nat.eqb x c then 1 else 0) + conn_closes c es'
  | _ :: es' => conn_closes c es'
  end.

(** the connections that arrived *)
Fixpoint arrivals (os : list ioop) : list nat :=
  match os with [] => [] | IAccept c :: os' => c :: arrivals os' | _ :: os' => arrivals os' end.

Definition rejected (c : nat) (es : list ioev) : Prop := In (ORejected c) es.

(** all tasks the stop started have run *)
Definition drained (s : iosvc) : Prop :=
  io_stopping s = true /\ io_stop_tasks s = [] /\ io_removals s = [].
