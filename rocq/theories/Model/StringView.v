(** base/string/string_view.hpp: nonstd::string_view, in use as the project is built as C++14 (base/string/string_view.h makes it std::string_view and
    base::StringPiece). Sizes are nats (no object has 2^64 - 1 bytes); npos as a result is None; an exception is None too ([at], [copy], [substr]).
    Bytes are 0..255, as char_traits<char>::lt compares them. *)
From Verif.Model Require Import Common.
Local Open Scope nat_scope.

(** string_view.hpp:880-882: a pointer into memory [v_buf] and a size. *)
Record view := View { v_buf : list Z; v_off : nat; v_len : nat }.
Definition valid (v : view) : Prop := v_off v + v_len v <= length (v_buf v).
(** The bytes the view shows. *)
Definition text (v : view) : list Z := slice (v_buf v) (v_off v) (v_len v).
(** 892-896: of a std::string; 421-424 with 484-493 of a C string at [off] (None: no NUL byte follows). *)
Definition of_string (s : list Z) : view := View s 0 (length s).
Fixpoint cstr_length (l : list Z) : option nat := match l with [] => None | c :: l => if (c =? 0)%Z then Some 0 else option_map S (cstr_length l) end.
Definition of_cstr (mem : list Z) (off : nat) : outcome view := match cstr_length (skipn off mem) with Some n => Ok (View mem off n) | None => UB end.
(** &c, 1 *)
Definition of_char (c : Z) : view := View [c] 0 1.
(** 911-915 *)
Definition to_string (v : view) : list Z := text v.

(** 870-877 with 533-536 operator[]: the assertion stays (GCC 5 and later). *)
Definition data_at (v : view) (pos : nat) : outcome Z :=
  if pos <? v_len v then match nth_error (v_buf v) (v_off v + pos) with Some c => Ok c | None => UB end else CheckFail.
(** 538-549 *)
Definition at_pos (v : view) (pos : nat) : outcome (option Z) := if v_len v <=? pos then Ok None else obind (data_at v pos) (fun c => Ok (Some c)).
(** 551-552; size() - 1 of an empty view is 2^64 - 1. *)
Definition front (v : view) : outcome Z := data_at v 0.
Definition back (v : view) : outcome Z := match v_len v with O => CheckFail | S n => data_at v n end.
(** 558-569 *)
Definition remove_prefix (v : view) (n : nat) : outcome view := if n <=? v_len v then Ok (View (v_buf v) (v_off v + n) (v_len v - n)) else CheckFail.
Definition remove_suffix (v : view) (n : nat) : outcome view := if n <=? v_len v then Ok (View (v_buf v) (v_off v) (v_len v - n)) else CheckFail.
(** 580-595: the bytes copied. *)
Definition copy (v : view) (n pos : nat) : option (list Z) := if v_len v <? pos then None else Some (slice (v_buf v) (v_off v + pos) (Nat.min n (v_len v - pos))).
(** 597-608 *)
Definition substr (v : view) (pos n : nat) : option view := if v_len v <? pos then None else Some (View (v_buf v) (v_off v + pos) (Nat.min n (v_len v - pos))).

(** Traits::compare: memcmp of [n] bytes. *)
Fixpoint memcmp (n : nat) (a b : list Z) : Z :=
  match n, a, b with S n, x :: a, y :: b => if (x <? y)%Z then -1 else if (y <? x)%Z then 1 else memcmp n a b | _, _, _ => 0 end%Z.
(** 612-620 *)
Definition compare (v w : view) : Z :=
  let r := memcmp (Nat.min (v_len v) (v_len w)) (text v) (text w) in
  if negb (r =? 0)%Z then r else if v_len v =? v_len w then 0%Z else if v_len v <? v_len w then (-1)%Z else 1%Z.
(** 945-985, 1001-1082: the operators; 1005 and 1013 are two forms of ==, 1019 and 1025 of !=. *)
Definition op_eq (v w : view) : bool := (compare v w =? 0)%Z.
Definition op_eq2 (v w : view) : bool := (v_len v =? v_len w) && (compare v w =? 0)%Z.
Definition op_ne (v w : view) : bool := negb (compare v w =? 0)%Z.
Definition op_ne2 (v w : view) : bool := negb (v_len v =? v_len w) || negb (compare v w =? 0)%Z.
Definition op_lt (v w : view) : bool := (compare v w <? 0)%Z.
Definition op_le (v w : view) : bool := (compare v w <=? 0)%Z.
Definition op_gt (v w : view) : bool := (0 <? compare v w)%Z.
Definition op_ge (v w : view) : bool := (0 <=? compare v w)%Z.

(** 651-654, 668-671: noexcept, so that an exception of substr ends the process; npos is beyond every size. *)
Definition starts_with (v w : view) : outcome bool :=
  if v_len w <=? v_len v then match substr v 0 (v_len w) with Some s => Ok (compare s w =? 0)%Z | None => CheckFail end else Ok false.
Definition ends_with (v w : view) : outcome bool :=
  if v_len w <=? v_len v then match substr v (v_len v - v_len w) (v_len v) with Some s => Ok (compare s w =? 0)%Z | None => CheckFail end else Ok false.

(** std::search, std::find_end, std::find_if of the standard library: the index, or the length where there is none. *)
Fixpoint prefixb (n h : list Z) : bool := match n, h with [], _ => true | x :: n, y :: h => (x =? y)%Z && prefixb n h | _, [] => false end.
Fixpoint std_search (h n : list Z) : nat := if prefixb n h then 0 else match h with [] => 0 | _ :: h => S (std_search h n) end.
Fixpoint std_find_end (h n : list Z) : nat :=
  match h with
  | [] => 0
  | _ :: t => let r := std_find_end t n in if r <? length t then S r else if prefixb n h then 0 else length h
  end.
Fixpoint std_find_if (f : Z -> bool) (h : list Z) : nat := match h with [] => 0 | x :: h => if f x then 0 else S (std_find_if f h) end.
Definition member (s : list Z) (x : Z) : bool := existsb (Z.eqb x) s.
(** 861-864, 866-869 to_pos, for a view of [len] bytes. *)
Definition to_pos (len i : nat) : option nat := if i =? len then None else Some i.
Definition to_pos_back (from r : nat) : option nat := if r =? from then None else Some (from - r - 1).   (* [r] steps back from [from] *)

(** 685-691 *)
Definition find (v w : view) (pos : nat) : option nat := if v_len v <=? pos then None else to_pos (v_len v) (pos + std_search (skipn pos (text v)) (text w)).
(** 710-726 *)
Definition rfind (v w : view) (pos : nat) : option nat :=
  if v_len v <? v_len w then None
  else if v_len w =? 0 then Some (Nat.min (v_len v) pos)
  else let last := Nat.min (v_len v - v_len w) pos + v_len w in
       let r := std_find_end (firstn last (text v)) (text w) in if r =? last then None else Some r.
(** 745-750 *)
Definition find_first_of (v w : view) (pos : nat) : option nat :=
  if v_len v <=? pos then None else to_pos (v_len v) (pos + std_find_if (member (text w)) (skipn pos (text v))).
(** 769-776; a position beyond the end is taken as the last one. *)
Definition find_last_of (v w : view) (pos : nat) : option nat :=
  if v_len v =? 0 then None
  else let pos := if v_len v <=? pos then v_len v - 1 else pos in to_pos_back (pos + 1) (std_find_if (member (text w)) (rev (firstn (pos + 1) (text v)))).
(** 849-859 *)
Definition not_in_view (w : view) (c : Z) : bool := match find_first_of w (of_char c) 0 with None => true | Some _ => false end.
(** 795-800 *)
Definition find_first_not_of (v w : view) (pos : nat) : option nat :=
  if v_len v <=? pos then None else to_pos (v_len v) (pos + std_find_if (not_in_view w) (skipn pos (text v))).
(** 819-826 *)
Definition find_last_not_of (v w : view) (pos : nat) : option nat :=
  if v_len v =? 0 then None
  else let pos := if v_len v <=? pos then v_len v - 1 else pos in to_pos_back (pos + 1) (std_find_if (not_in_view w) (rev (firstn (pos + 1) (text v)))).
