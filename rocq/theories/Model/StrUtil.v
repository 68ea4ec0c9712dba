(** base/utils/string/str_utils.{h,cc}: StrUtil. Strings are byte lists; [None] as the result of a
    function that can throw stands for std::out_of_range. *)
From Verif.Model Require Import Common Decimal.
Open Scope Z_scope.

(** Byte-wise equality of two ranges (std::string::compare(...) == 0, std::equal of equally long ranges). *)
Fixpoint beq (a b : list Z) : bool :=
  match a, b with
  | [], [] => true
  | x :: a', y :: b' => (x =? y) && beq a' b'
  | _, _ => false
  end.

(** Does [s] begin with [p]? *)
Fixpoint prefixb (p s : list Z) : bool :=
  match p, s with
  | [], _ => true
  | x :: p', y :: s' => (x =? y) && prefixb p' s'
  | _, _ => false
  end.

(** First index >= [k] at which [pat] occurs, [s] being the text from index [k] on (the scan of
    std::string::find, which also tests the position one past the last character). *)
Fixpoint find_at (pat s : list Z) (k : nat) : option nat :=
  if prefixb pat s then Some k
  else match s with [] => None | _ :: s' => find_at pat s' (S k) end.

(** std::string::find(pat, pos): npos is [None]; pos > size() finds nothing. *)
Definition sfind (pat s : list Z) (pos : nat) : option nat :=
  if (pos <=? length s)%nat then find_at pat (skipn pos s) pos else None.

(** std::string::rfind(pat): last index at which [pat] occurs. *)
Fixpoint rfind_at (pat s : list Z) (k : nat) : option nat :=
  match s with
  | [] => if prefixb pat s then Some k else None
  | _ :: s' => match rfind_at pat s' (S k) with
               | Some i => Some i
               | None => if prefixb pat s then Some k else None
               end
  end.
Definition srfind (pat s : list Z) : option nat := rfind_at pat s 0.

(** std::string::substr(pos, n): throws when pos > size(). [n = None] is npos. *)
Definition ssubstr (s : list Z) (pos : nat) (n : option nat) : option (list Z) :=
  if (pos <=? length s)%nat
  then Some (match n with Some k => firstn k (skipn pos s) | None => skipn pos s end)
  else None.

(** str_utils.cc:138-159: the while loop; [fuel] bounds its iterations ([previous] grows in each one,
    str_utils.cc:150). After the loop [current] is npos, so [current > previous] always holds (:153). *)
Fixpoint split_loop (fuel : nat) (text delims : list Z) (ignore_empty : bool) (previous : nat)
    (tokens : list (list Z)) : option (list (list Z)) :=
  match sfind delims text previous with
  | Some current =>
      match fuel with
      | O => None
      | S f =>
          match ssubstr text previous (Some (current - previous)%nat) with
          | Some t =>
              let tokens' := if (previous <? current)%nat then tokens ++ [t]
                             else if negb ignore_empty then tokens ++ [t] else tokens in
              split_loop f text delims ignore_empty (S current) tokens'
          | None => None
          end
      end
  | None =>
      match ssubstr text previous None with
      | Some t => Some (tokens ++ [t])
      | None => None
      end
  end.
Definition Split (text delims : list Z) (ignore_empty : bool) : option (list (list Z)) :=
  split_loop (S (length text)) text delims ignore_empty 0 [].

(** std::getline(ss, token, delim) on the remaining characters [s] of the stream: [None] when nothing
    is left (eofbit and failbit); otherwise the characters up to the delimiter, which is consumed. *)
Fixpoint until_delim (s : list Z) (d : Z) : list Z * list Z :=
  match s with
  | [] => ([], [])
  | c :: s' => if c =? d then ([], s') else let (t, r) := until_delim s' d in (c :: t, r)
  end.
(** str_utils.cc:127-136 (each getline that succeeds consumes a character, so [length s] rounds do). *)
Fixpoint split_lines (fuel : nat) (s : list Z) (d : Z) : list (list Z) :=
  match fuel, s with
  | S f, _ :: _ => let (t, r) := until_delim s d in t :: split_lines f r d
  | _, _ => []
  end.
Definition SplitChar (s : list Z) (delim : Z) : list (list Z) := split_lines (length s) s delim.

(** str_utils.cc:79-87 and 89-97; the string and whether it was changed. *)
Definition sreplace (s : list Z) (pos n : nat) (t : list Z) : list Z := firstn pos s ++ t ++ skipn (pos + n) s.
Definition Replace (s from to : list Z) : bool * list Z :=
  match sfind from s 0 with
  | None => (false, s)
  | Some p => (true, sreplace s p (length from) to)
  end.
Definition ReplaceLast (s from to : list Z) : bool * list Z :=
  match srfind from s with
  | None => (false, s)
  | Some p => (true, sreplace s p (length from) to)
  end.

(** str_utils.cc:99-102: std::search returns the end iterator when nothing is found, and the position
    otherwise; an empty needle is found at begin(). *)
Definition Contains (input test : list Z) : bool :=
  match sfind test input 0 with
  | None => false
  | Some p => negb (p =? length input)%nat
  end.

(** str_utils.cc:104-112 *)
Definition StartsWith (s p : list Z) : bool :=
  (length p <=? length s)%nat && beq (firstn (length p) s) p.
Definition EndsWith (s p : list Z) : bool :=
  (length p <=? length s)%nat && beq (firstn (length p) (skipn (length s - length p) s)) p.

(** str_utils.cc:114-125: find_first_not_of / find_last_not_of and erase. *)
Definition isin (chars : list Z) (c : Z) : bool := existsb (Z.eqb c) chars.
Fixpoint TrimLeft (s chars : list Z) : list Z :=
  match s with
  | [] => []
  | c :: s' => if isin chars c then TrimLeft s' chars else s
  end.
Fixpoint find_last_not_of (s chars : list Z) : option nat :=
  match s with
  | [] => None
  | c :: s' => match find_last_not_of s' chars with
               | Some i => Some (S i)
               | None => if isin chars c then None else Some 0%nat
               end
  end.
(** npos + 1 is 0: everything is erased (str_utils.cc:120). *)
Definition TrimRight (s chars : list Z) : list Z :=
  match find_last_not_of s chars with Some i => firstn (S i) s | None => [] end.
Definition Trim (s chars : list Z) : list Z := TrimLeft (TrimRight s chars) chars.

(** toupper in the "C" locale. *)
Definition toupper (c : Z) : Z := if (97 <=? c) && (c <=? 122) then c - 32 else c.

(** str_utils.cc:73-77: the three-iterator std::equal walks [str1] to its end; when [str2] is shorter
    and agrees so far, it dereferences [str2.end()]. *)
Fixpoint IgnoreCaseEquals (str1 str2 : list Z) : outcome bool :=
  match str1, str2 with
  | [], _ => Ok true
  | a :: s1, b :: s2 => if toupper a =? toupper b then IgnoreCaseEquals s1 s2 else Ok false
  | _ :: _, [] => UB
  end.

(** isspace in the "C" locale. *)
Definition isspace (c : Z) : bool := (c =? 32) || ((9 <=? c) && (c <=? 13)).
Fixpoint skip_ws (s : list Z) : list Z :=
  match s with [] => [] | c :: s' => if isspace c then skip_ws s' else s end.

(** Longest prefix of digits and what follows. *)
Fixpoint digits (s : list Z) : list Z * list Z :=
  match s with
  | [] => ([], [])
  | c :: s' => if isdigit c then let (d, r) := digits s' in (c :: d, r) else ([], s)
  end.
Definition sign_of (s : list Z) : bool * list Z :=
  match s with
  | c :: s' => if c =? 45 then (true, s') else if c =? 43 then (false, s') else (false, s)
  | [] => (false, [])
  end.

(** Result of [iss >> out] on a fresh istringstream: the value stored (if any), failbit, eofbit. *)
Record extraction := mkEx { ex_val : option Z; ex_fail : bool; ex_eof : bool }.

(** operator>> for an unsigned type of [bits] bits (num_get in the "C" locale): white space is skipped,
    nothing is stored if that reaches the end; then sign and decimal digits; no digits store 0 and fail;
    overflow stores the maximum and fails; '-' negates modulo 2^bits; eofbit is set when the scan ran
    into the end of the string. *)
Definition extract_uint (bits : Z) (s : list Z) : extraction :=
  let s1 := skip_ws s in
  match s1 with
  | [] => mkEx None true true
  | _ =>
      let (neg, s2) := sign_of s1 in
      let (d, r) := digits s2 in
      let eof := match r with [] => true | _ => false end in
      match d with
      | [] => mkEx (Some 0) true eof
      | _ =>
          let v := strtol_digits 0 d in
          if v <? 2 ^ bits then mkEx (Some (if neg then (- v) mod 2 ^ bits else v)) false eof
          else mkEx (Some (2 ^ bits - 1)) true eof
      end
  end.

(** str_utils.h:114-119 for an unsigned type of [bits] bits: the returned flag and the value of [out]
    afterwards ([old] before). *)
Definition ParseTo (bits : Z) (s : list Z) (old : Z) : bool * Z :=
  let e := extract_uint bits s in
  (negb (ex_fail e) && negb (ex_eof e), match ex_val e with Some v => v | None => old end).

(** str_utils.h:121-126: [None]: the returned variable was never written (indeterminate value). *)
Definition Parse (bits : Z) (s : list Z) : option Z := ex_val (extract_uint bits s).

(** std::stoi / std::stoll (str_utils.cc:28, 42) on the C string [s]: white space, sign, digits;
    no digits throw invalid_argument, a value outside [-2^(bits-1), 2^(bits-1)) throws out_of_range;
    what follows the digits is ignored. *)
Definition ToInt (bits : Z) (s : list Z) : option Z :=
  let (neg, s2) := sign_of (skip_ws s) in
  let (d, _) := digits s2 in
  match d with
  | [] => None
  | _ =>
      let v := strtol_digits 0 d in
      let n := if neg then - v else v in
      if (- 2 ^ (bits - 1) <=? n) && (n <? 2 ^ (bits - 1)) then Some n else None
  end.
