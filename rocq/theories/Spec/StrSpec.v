(** What string helpers are expected to do, in terms of concatenation only. *)
From Verif.Model Require Import Common.
Open Scope Z_scope.

(** [ts] with [d] between neighbours. *)
Fixpoint join (d : list Z) (ts : list (list Z)) : list Z :=
  match ts with
  | [] => []
  | [t] => t
  | t :: ts' => t ++ d ++ join d ts'
  end.

(** [ts] are the fields of [s] separated by the byte [d]. *)
Definition fields_of (d : Z) (s : list Z) (ts : list (list Z)) : Prop :=
  ts <> [] /\ Forall (fun t => ~ In d t) ts /\ join [d] ts = s.

(** [p] occurs in [s]. *)
Definition occurs (p s : list Z) : Prop := exists a b, s = a ++ p ++ b.

(** Equal up to the case of the letters A-Z. *)
Definition ci (x y : Z) : Prop :=
  x = y \/ (65 <= x <= 90 /\ y = x + 32) \/ (65 <= y <= 90 /\ x = y + 32).
Definition ci_equal (a b : list Z) : Prop := Forall2 ci a b.

(** [s] is a decimal numeral of value [n]. *)
Definition digit (c : Z) : Prop := 48 <= c <= 57.
Definition numeral (s : list Z) (n : Z) : Prop :=
  s <> [] /\ Forall digit s /\ n = fold_left (fun a c => 10 * a + (c - 48)) s 0.

Definition space (c : Z) : Prop := c = 32 \/ 9 <= c <= 13.
