(** components/count_min_sketch/count_min_sketch.{h,cc}.

    [hash key i]: the two 64 bit halves of MurmurHash3 with the seed made from
    the depth [i] (count_min_sketch.cc:46,74); a parameter.  Cells are
    [uint8_t] (count_min_sketch.h:12). *)
From Coq Require Import List Arith ZArith Bool.
From Verif.Model Require Import Common.
Import ListNotations.
Local Open Scope Z_scope.

Section C.
Context {D : Type} (hash : D -> nat -> Z * Z).

(** count_min_sketch.h:38-42 *)
Record sketch := mksk { sk_width : nat; sk_rows : list (list Z); sk_distinct : Z }.

(** count_min_sketch.cc:18-29, with the two sizes computed from the doubles as parameters *)
Definition sketch_new (width depth : nat) : sketch := mksk width (repeat (repeat 0 width) depth) 0.

(** The column of row [r]: rows come in pairs sharing one hash, count_min_sketch.cc:45-59, 73-79. *)
Definition column (width : nat) (key : D) (r : nat) : nat :=
  let h := hash key (r - r mod 2)%nat in
  Z.to_nat ((if (r mod 2 =? 0)%nat then fst h else snd h) mod Z.of_nat width).

Fixpoint upd_nth {A} (n : nat) (f : A -> A) (l : list A) : list A :=
  match l, n with
  | [], _ => []
  | x :: l', O => f x :: l'
  | x :: l', S n' => x :: upd_nth n' f l'
  end.

(** __sync_fetch_and_add on a uint8_t: the cell becomes (old + count) mod 256 *)
Definition add8 (count : Z) (x : Z) : Z := (x + count) mod 256.

(** one atomic addition to row [r] and its answer "was it zero?" *)
Definition cell (rows : list (list Z)) (r c : nat) : Z := nth c (nth r rows []) 0.
Definition add_cell (rows : list (list Z)) (r c : nat) (count : Z) : list (list Z) :=
  upd_nth r (upd_nth c (add8 count)) rows.

(** count_min_sketch.cc:42-63: rows [r, r + n) in order, collecting [brand_new] *)
Fixpoint inc_rows (n r width : nat) (key : D) (count : Z) (rows : list (list Z)) (brand_new : bool) : list (list Z) * bool :=
  match n with
  | O => (rows, brand_new)
  | S n' =>
      let c := column width key r in
      inc_rows n' (S r) width key count (add_cell rows r c count) (brand_new || (cell rows r c =? 0))
  end.
Definition increase (s : sketch) (key : D) (count : Z) : outcome sketch :=
  if (sk_width s =? 0)%nat && negb (length (sk_rows s) =? 0)%nat then UB      (* % 0 *)
  else
    let (rows, fresh) := inc_rows (length (sk_rows s)) 0 (sk_width s) key count (sk_rows s) false in
    Ok (mksk (sk_width s) rows (if fresh then sk_distinct s + 1 else sk_distinct s)).

(** count_min_sketch.cc:69-81 *)
Fixpoint est_rows (n r width : nat) (key : D) (rows : list (list Z)) (result : Z) : Z :=
  match n with
  | O => result
  | S n' => est_rows n' (S r) width key rows (Z.min (cell rows r (column width key r)) result)
  end.
Definition estimate (s : sketch) (key : D) : outcome Z :=
  if (sk_width s =? 0)%nat && negb (length (sk_rows s) =? 0)%nat then UB
  else Ok (est_rows (length (sk_rows s)) 0 (sk_width s) key (sk_rows s) (2 ^ 64 - 1)).

Fixpoint inc_all (s : sketch) (h : list (D * Z)) : outcome sketch :=
  match h with
  | [] => Ok s
  | (key, n) :: h' => obind (increase s key n) (fun s' => inc_all s' h')
  end.

(** The atomic additions of one Increase, in program order; threads may interleave them. *)
Definition adds (width depth : nat) (key : D) (count : Z) : list (nat * nat * Z) :=
  map (fun r => (r, column width key r, count)) (seq 0 depth).
Definition do_adds (rows : list (list Z)) (l : list (nat * nat * Z)) : list (list Z) :=
  fold_left (fun rs a => add_cell rs (fst (fst a)) (snd (fst a)) (snd a)) l rows.
End C.
