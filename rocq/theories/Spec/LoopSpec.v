(** Projections of an execution's observable events. *)
From Verif.Model Require Import Common MsgLoop.

Definition posts (p : tid) (h : list ev) : list task :=
  flat_map (fun e => match e with EPost q t => if Nat.eqb q p then [t] else [] | _ => [] end) h.
Definition runs (p : tid) (h : list ev) : list task :=
  flat_map (fun e => match e with ERun q t => if Nat.eqb q p then [t] else [] | _ => [] end) h.
Definition posts_in (h : list ev) : list task :=
  flat_map (fun e => match e with EPostIn t => [t] | _ => [] end) h.
Definition runs_in (h : list ev) : list task :=
  flat_map (fun e => match e with ERunIn t => [t] | _ => [] end) h.
