(** IP addresses as bit strings and numbers. *)
From Verif.Model Require Import Common Decimal.
Open Scope Z_scope.

Definition ip4 (a : list Z) : Prop := length a = 4%nat /\ Forall is_byte a.
Definition ip6 (a : list Z) : Prop := length a = 16%nat /\ Forall is_byte a.
Definition ip (a : list Z) : Prop := ip4 a \/ ip6 a.

(** Bit [i] of an address, bit 0 being the most significant one. *)
Definition abit (a : list Z) (i : nat) : bool := Z.testbit (nth (i / 8) a 0) (7 - Z.of_nat (i mod 8)).
Definition same_bits (n : nat) (a b : list Z) : Prop := forall i, (i < n)%nat -> abit a i = abit b i.

(** ::ffff:a.b.c.d *)
Definition mapped (a : list Z) : list Z := repeat 0 10 ++ [255; 255] ++ a.

(** [a] lies in the block [p]/[n]; across families the IPv4 side stands for its mapped address. *)
Definition in_block (a p : list Z) (n : nat) : Prop :=
  (length a = length p /\ same_bits n a p) \/
  (ip4 a /\ ip6 p /\ same_bits n (mapped a) p) \/
  (ip6 a /\ ip4 p /\ same_bits (96 + n) a (mapped p)).

(** The address as a number. *)
Definition num (a : list Z) : Z := fold_left (fun v b => 256 * v + b) a 0.

(** [a] and [base] agree in the [n] leading bits of 32. *)
Definition in_cidr4 (a : list Z) (base : list Z) (n : Z) : Prop := num a / 2 ^ (32 - n) = num base / 2 ^ (32 - n).
(** The IPv4 ranges reserved by IANA that the library refuses to call public. *)
Definition reserved4 (a : list Z) : Prop :=
  in_cidr4 a [0; 0; 0; 0] 8 \/ in_cidr4 a [10; 0; 0; 0] 8 \/ in_cidr4 a [100; 64; 0; 0] 10 \/
  in_cidr4 a [127; 0; 0; 0] 8 \/ in_cidr4 a [169; 254; 0; 0] 16 \/ in_cidr4 a [172; 16; 0; 0] 12 \/
  in_cidr4 a [192; 0; 2; 0] 24 \/ in_cidr4 a [192; 88; 99; 0] 24 \/ in_cidr4 a [192; 168; 0; 0] 16 \/
  in_cidr4 a [198; 18; 0; 0] 15 \/ in_cidr4 a [198; 51; 100; 0] 24 \/ in_cidr4 a [203; 0; 113; 0] 24 \/
  224 * 2 ^ 24 <= num a.

(** The dotted decimal form. *)
Definition dotted (a b c d : Z) : list Z := udec a ++ [46] ++ udec b ++ [46] ++ udec c ++ [46] ++ udec d.
