(** What a counting sketch is asked about: true totals of a history of increases. *)
From Coq Require Import List Arith ZArith.
From Verif.Model Require Import CountMin.
Import ListNotations.
Local Open Scope Z_scope.

Section S.
Context {D : Type} (deq : forall a b : D, {a = b} + {a <> b}).

(** how much [key] was increased by *)
Fixpoint total (key : D) (h : list (D * Z)) : Z :=
  match h with
  | [] => 0
  | (k, n) :: h' => (if deq k key then n else 0) + total key h'
  end.
(** how much anything was increased by *)
Fixpoint grand_total (h : list (D * Z)) : Z :=
  match h with [] => 0 | (_, n) :: h' => n + grand_total h' end.
(** the number of different keys *)
Definition distinct_keys (h : list (D * Z)) : nat := length (nodup deq (map fst h)).
End S.

(** The sum of the increases of all keys that share cell (r, c) of a sketch with rows of [w] cells. *)
Fixpoint weight {D : Type} (hash : D -> nat -> Z * Z) (w : nat) (h : list (D * Z)) (r c : nat) : Z :=
  match h with
  | [] => 0
  | (k, n) :: h' => (if (c =? column hash w k r)%nat then n else 0) + weight hash w h' r c
  end.
