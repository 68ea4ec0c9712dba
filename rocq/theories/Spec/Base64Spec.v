(** RFC 4648 base64, stated on whole numbers. *)
From Verif.Model Require Import Common Bytes.
Open Scope Z_scope.

(** Sextet denoted by a character of the standard alphabet. *)
Definition sextet (c : Z) : option Z :=
  if (65 <=? c) && (c <=? 90) then Some (c - 65)          (* A-Z *)
  else if (97 <=? c) && (c <=? 122) then Some (c - 97 + 26) (* a-z *)
  else if (48 <=? c) && (c <=? 57) then Some (c - 48 + 52)  (* 0-9 *)
  else if c =? 43 then Some 62 else if c =? 47 then Some 63 else None.

(** Sextets of the longest prefix made of alphabet characters. *)
Fixpoint sextets (l : list Z) : list Z :=
  match l with
  | [] => []
  | c :: l => match sextet c with Some v => v :: sextets l | None => [] end
  end.

(** The number whose base 64 digits are [q] (most significant first). *)
Fixpoint value64 (acc : Z) (q : list Z) : Z :=
  match q with [] => acc | v :: q => value64 (64 * acc + v) q end.

(** k sextets are 6k bits: the octets are the first 8*(6k/8) of them. *)
Definition octets (q : list Z) : list Z :=
  be_encode (6 * length q / 8) (value64 0 q / 2 ^ (Z.of_nat (6 * length q mod 8))).
