(** base/utils/base64/base64.hpp *)
From Coq Require Import String Ascii.
From Verif.Model Require Import Common.
Open Scope Z_scope.

(** base64.hpp:15-21 get_alphabet *)
Definition alphabet : list Z :=
  map (fun c => Z.of_nat (nat_of_ascii c))
      (list_ascii_of_string "ABCDEFGHIJKLMNOPQRSTUVWXYZabcdefghijklmnopqrstuvwxyz0123456789+/"%string).
(** base64.hpp:23-44 get_inverse, entries 0-255 *)
Definition inverse : list Z :=
  [-1; -1; -1; -1; -1; -1; -1; -1; -1; -1; -1; -1; -1; -1; -1; -1;
   -1; -1; -1; -1; -1; -1; -1; -1; -1; -1; -1; -1; -1; -1; -1; -1;
   -1; -1; -1; -1; -1; -1; -1; -1; -1; -1; -1; 62; -1; -1; -1; 63;
   52; 53; 54; 55; 56; 57; 58; 59; 60; 61; -1; -1; -1; -1; -1; -1;
   -1; 0; 1; 2; 3; 4; 5; 6; 7; 8; 9; 10; 11; 12; 13; 14;
   15; 16; 17; 18; 19; 20; 21; 22; 23; 24; 25; -1; -1; -1; -1; -1;
   -1; 26; 27; 28; 29; 30; 31; 32; 33; 34; 35; 36; 37; 38; 39; 40;
   41; 42; 43; 44; 45; 46; 47; 48; 49; 50; 51; -1; -1; -1; -1; -1;
   -1; -1; -1; -1; -1; -1; -1; -1; -1; -1; -1; -1; -1; -1; -1; -1;
   -1; -1; -1; -1; -1; -1; -1; -1; -1; -1; -1; -1; -1; -1; -1; -1;
   -1; -1; -1; -1; -1; -1; -1; -1; -1; -1; -1; -1; -1; -1; -1; -1;
   -1; -1; -1; -1; -1; -1; -1; -1; -1; -1; -1; -1; -1; -1; -1; -1;
   -1; -1; -1; -1; -1; -1; -1; -1; -1; -1; -1; -1; -1; -1; -1; -1;
   -1; -1; -1; -1; -1; -1; -1; -1; -1; -1; -1; -1; -1; -1; -1; -1;
   -1; -1; -1; -1; -1; -1; -1; -1; -1; -1; -1; -1; -1; -1; -1; -1;
   -1; -1; -1; -1; -1; -1; -1; -1; -1; -1; -1; -1; -1; -1; -1; -1].
Definition tab (i : Z) : Z := nth (Z.to_nat i) alphabet 0.
Definition inv_tab (c : Z) : Z := nth (Z.to_nat c) inverse (-1).

(** base64.hpp:47-49 *)
Definition encoded_size (n : nat) : nat := (4 * ((n + 2) / 3))%nat.
(** base64.hpp:52-55 *)
Definition decoded_size (n : nat) : nat := (n / 4 * 3)%nat.

(** base64.hpp:69-103 encode: the characters written to dest. (char is masked to 8 bits, so its signedness is
    irrelevant; the loop over len/3 groups and the switch on len%3 are one recursion over the input.) *)
Fixpoint encode (l : list Z) : list Z :=
  match l with
  | a :: b :: c :: l =>
      tab (Z.shiftr (Z.land a 0xfc) 2)
      :: tab (Z.shiftl (Z.land a 0x03) 4 + Z.shiftr (Z.land b 0xf0) 4)
      :: tab (Z.shiftr (Z.land c 0xc0) 6 + Z.shiftl (Z.land b 0x0f) 2)
      :: tab (Z.land c 0x3f)
      :: encode l
  | [a; b] =>
      [tab (Z.shiftr (Z.land a 0xfc) 2);
       tab (Z.shiftl (Z.land a 0x03) 4 + Z.shiftr (Z.land b 0xf0) 4);
       tab (Z.shiftl (Z.land b 0x0f) 2); 61]
  | [a] => [tab (Z.shiftr (Z.land a 0xfc) 2); tab (Z.shiftl (Z.land a 0x03) 4); 61; 61]
  | [] => []
  end.

(** unsigned char conversion of c3[j] *)
Definition u8 (x : Z) : Z := x mod 256.
(** base64.hpp:136-138 and 148-150; cells of c4 not yet assigned are 0 here: they only reach cells of c3 that are
    not output. *)
Definition c3 (c4 : list Z) : list Z :=
  let g i := nth i c4 0 in
  [u8 (Z.shiftl (g 0%nat) 2 + Z.shiftr (Z.land (g 1%nat) 0x30) 4);
   u8 (Z.shiftl (Z.land (g 1%nat) 0xf) 4 + Z.shiftr (Z.land (g 2%nat) 0x3c) 2);
   u8 (Z.shiftl (Z.land (g 2%nat) 0x3) 6 + g 3%nat)].

(** base64.hpp:116-158 decode: the bytes written to dest ([c4] holds the i collected sextets). *)
Fixpoint decode_loop (c4 : list Z) (l : list Z) : list Z :=
  match l with
  | [] => firstn (length c4 - 1) (c3 c4)
  | ch :: l =>
    if ch =? 61 then firstn (length c4 - 1) (c3 c4)
    else let v := inv_tab ch in
         if v =? -1 then firstn (length c4 - 1) (c3 c4)
         else let c4 := c4 ++ [v] in
              if Nat.eqb (length c4) 4 then c3 c4 ++ decode_loop [] l
              else decode_loop c4 l
  end.

(** base64.hpp:162-173: the destination has encoded_size(len) characters; writing more is undefined behaviour *)
Definition base64_encode (s : list Z) : outcome (list Z) :=
  let out := encode s in
  if Nat.leb (length out) (encoded_size (length s)) then Ok out else UB.
(** base64.hpp:175-182 *)
Definition base64_decode (s : list Z) : outcome (list Z) :=
  let out := decode_loop [] s in
  if Nat.leb (length out) (decoded_size (length s)) then Ok out else UB.
