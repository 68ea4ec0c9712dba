(** Specification of CRLF-terminated lines. *)
From Verif.Model Require Import Common.

Definition crlf : list Z := [13; 10]%Z.

(** The byte pair CR LF occurs in [l]. *)
Fixpoint has_crlf (l : list Z) : bool :=
  match l with
  | a :: t => match t with b :: _ => ((a =? 13) && (b =? 10))%Z | [] => false end || has_crlf t
  | [] => false
  end.

(** [body] is a line: its terminator is the first CR LF of [body ++ crlf]. *)
Definition is_line (body : list Z) : Prop := has_crlf (body ++ [13%Z]) = false.

(** [frames lines rest s]: [s] is the given lines, each with its terminator, followed by [rest]. *)
Definition frames (lines : list (list Z)) (rest : list Z) : list Z :=
  concat (map (fun l => l ++ crlf) lines) ++ rest.

(** Number of CR LF pairs in [l]. *)
Fixpoint count_crlf (l : list Z) : nat :=
  match l with
  | a :: t => (match t with b :: _ => if ((a =? 13) && (b =? 10))%Z then 1 else 0 | [] => 0 end) + count_crlf t
  | [] => 0
  end.
