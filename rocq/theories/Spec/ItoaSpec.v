(** What an integer looks like as text. *)
From Coq Require Import List ZArith Bool.
Import ListNotations.
Local Open Scope Z_scope.
(** The value of digits, the most significant first. *)
Definition value (base : Z) (ds : list Z) : Z := fold_left (fun a d => a * base + d) ds 0.
(** '0'..'9', 'a'..'f'. *)
Definition glyph (d : Z) : Z := if d <? 10 then 48 + d else 97 + (d - 10).
(** The text of [i]: in base 10 a minus sign and the absolute value, in other bases the 64-bit pattern; at least [padding] digits and
    at least one, and no leading zero beyond those. *)
Definition text_of (i base : Z) (padding : nat) (t : list Z) : Prop :=
  exists ds, Forall (fun d => 0 <= d < base) ds /\
    value base ds = (if base =? 10 then Z.abs i else i mod 2 ^ 64) /\
    (1 <= length ds)%nat /\ (padding <= length ds)%nat /\
    ((Nat.max 1 padding < length ds)%nat -> hd 0 ds <> 0) /\
    t = (if (base =? 10) && (i <? 0) then [45] else []) ++ map glyph ds.
