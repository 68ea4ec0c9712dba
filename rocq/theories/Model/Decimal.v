(** Decimal text: printing of unsigned numbers (sprintf "%u", std::to_string) and C strtol. *)
From Verif.Model Require Import Common.
Open Scope Z_scope.

(** Decimal digits of [n] >= 0, most significant first ([fuel] = maximal number of digits; 20 cover 64 bits). *)
Fixpoint udec_fuel (fuel : nat) (n : Z) : list Z :=
  match fuel with
  | O => []
  | S f => if n <? 10 then [48 + n] else udec_fuel f (n / 10) ++ [48 + n mod 10]
  end.
(** sprintf("%u"/"%lu")/std::to_string of an unsigned value (thirdparty/resp/resp/encoder.hpp:273,
    net_io/codec/redis/redis_request.cc:63,115,141,181). *)
Definition udec (n : Z) : list Z := udec_fuel 20 n.
(** Decimal text of a signed value. *)
Definition sdec (n : Z) : list Z := if n <? 0 then 45 :: udec (- n) else udec n.

Definition isdigit (c : Z) : bool := (48 <=? c) && (c <=? 57).

(** Digits of a strtol subject sequence, accumulated most significant first. *)
Fixpoint strtol_digits (acc : Z) (l : list Z) : Z :=
  match l with
  | c :: l' => if isdigit c then strtol_digits (acc * 10 + (c - 48)) l' else acc
  | [] => acc
  end.
(** strtol(s, 0, 10) on a buffer with no leading white space and no '+', terminated by a non digit:
    optional '-', digits, saturating at LONG_MIN/LONG_MAX (C standard; thirdparty/resp/resp/decoder.hpp:317,466,550). *)
Definition strtol (l : list Z) : Z :=
  match l with
  | c :: l' => if c =? 45 then Z.max (- 2 ^ 63) (- strtol_digits 0 l') else Z.min (2 ^ 63 - 1) (strtol_digits 0 l)
  | [] => 0
  end.
