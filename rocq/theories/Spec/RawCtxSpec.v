(** Vocabulary for the properties of raw request contexts. *)
From Verif.Model Require Import Common RawCtx.

(** The answers sent, in order: thread and message. *)
Definition sent (l : list act) : list (nat * nat) := flat_map (fun a => match a with Send t r _ => [(t, r)] | Close => [] end) l.

(** The calls that went through while the connection was there, in order. *)
Fixpoint given (h : list ev) : list (nat * nat) :=
  match h with
  | [] => []
  | Act t r _ :: h => (t, r) :: given h
  | Gone :: _ => []
  | _ :: h => given h
  end.

Definition others (l : list (nat * nat)) : list (nat * nat) := filter (fun x => negb (Nat.eqb (fst x) 0)) l.

(** No call begins while another that found the flag unset has not returned. *)
Definition one_at_a_time (h : list ev) : Prop := forall a t r b t' r' seen c,
  h = a ++ Enter t r false :: b ++ Enter t' r' seen :: c -> exists ok, In (Act t r ok) b.
