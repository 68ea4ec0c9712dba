(** base/utils/ns_convertor.cc: itoa_r, an integer as text in a caller's buffer. intptr_t is 64 bits wide. *)
From Verif.Model Require Import Common.
Local Open Scope Z_scope.

(** buf[i] = b; outside the caller's memory it is undefined behaviour. *)
Definition poke (m : list Z) (i : nat) (b : Z) : outcome (list Z) :=
  match mem_write m i [b] with Some m => Ok m | None => UB end.
(** "0123456789abcdef"[d] (74). *)
Definition digit_char (d : Z) : Z := nth (Z.to_nat d) [48;49;50;51;52;53;54;55;56;57;97;98;99;100;101;102] 0.

(** 66-79: [ptr] and [n] as in the code. The result is the memory and ptr after the loop, None where the code returns NULL.
    The loop ends after [sz] rounds at the latest because ++n > sz is checked in each. *)
Fixpoint digits_loop (fuel : nat) (m : list Z) (sz : nat) (base : Z) (ptr n : nat) (j : Z) (padding : nat) : outcome (list Z * option nat) :=
  match fuel with
  | O => UB
  | S fuel =>
      let n := S n in
      if (sz <? n)%nat then obind (poke m 0 0) (fun m => Ok (m, None))
      else obind (poke m ptr (digit_char (j mod base))) (fun m =>
        let j := j / base in
        let padding := Nat.pred padding in
        if (0 <? j) || (0 <? padding)%nat then digits_loop fuel m sz base (S ptr) n j padding
        else Ok (m, Some (S ptr)))
  end.
(** 88-92. *)
Fixpoint reverse_loop (fuel : nat) (m : list Z) (ptr start : nat) : outcome (list Z) :=
  match fuel with
  | O => Ok m
  | S fuel =>
      let ptr := Nat.pred ptr in
      if (start <? ptr)%nat then
        let ch := nth ptr m 0 in
        obind (poke m ptr (nth start m 0)) (fun m => obind (poke m start ch) (fun m => reverse_loop fuel m ptr (S start)))
      else Ok m
  end.
(** 35-94: [m] is the memory at buf; the result is the memory and whether buf is returned (NULL otherwise). *)
Definition itoa_r (i : Z) (m : list Z) (sz : nat) (base : Z) (padding : nat) : outcome (list Z * bool) :=
  if (sz <? 1)%nat then Ok (m, false)
  else if (base <? 2) || (16 <? base) then obind (poke m 0 0) (fun m => Ok (m, false))
  else
    let neg := (i <? 0) && (base =? 10) in
    let j := if neg then - (i + 1) + 1 else i mod 2 ^ 64 in
    if neg && (sz <? 2)%nat then obind (poke m 0 0) (fun m => Ok (m, false))
    else obind (if neg then poke m 0 45 else Ok m) (fun m =>
      let start := if neg then 1%nat else 0%nat in
      obind (digits_loop (S sz) m sz base start (S start) j padding) (fun r =>
        match r with
        | (m, None) => Ok (m, false)
        | (m, Some ptr) => obind (poke m ptr 0) (fun m => obind (reverse_loop (S sz) m ptr start) (fun m => Ok (m, true)))
        end)).
