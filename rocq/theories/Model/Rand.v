(** base/utils/rand_util.cc and rand_util_posix.cc: random numbers from /dev/urandom. *)
From Verif.Model Require Import Common.
From Coq Require Import QArith.
Local Open Scope Z_scope.

(** What one read(2) of the device does. *)
Inductive rd := RGot (b : list Z) | REof | RIntr | RError.
(** rand_util_posix.cc:76-86 ReadFromFD with HANDLE_EINTR 22-29 (release build): [got] is the buffer's prefix filled so far.
    None: the script of reads is used up, the call still blocks. A read that returns more than asked for does not exist. *)
Fixpoint read_from_fd (reads : list rd) (got : list Z) (bytes : nat) : option (bool * list Z) :=
  if (length got <? bytes)%nat then
    match reads with
    | [] => None
    | RIntr :: reads => read_from_fd reads got bytes
    | RGot (x :: b) :: reads => read_from_fd reads (got ++ firstn (bytes - length got) (x :: b)) bytes
    | _ :: _ => Some ((length got =? bytes)%nat, got)
    end
  else Some ((length got =? bytes)%nat, got).
(** 88-93 RandBytes: the bytes written, or the CHECK. *)
Definition rand_bytes (reads : list rd) (n : nat) : option (outcome (list Z)) :=
  match read_from_fd reads [] n with
  | None => None
  | Some (true, b) => Some (Ok b)
  | Some (false, _) => Some CheckFail
  end.

Definition max64 : Z := 2 ^ 64 - 1.
(** rand_util.cc:58-73: [draws] are the values RandUint64 returns, in order. None: all of them were rejected. The division by a
    range of 0 is undefined (the DCHECK is for debug builds). *)
Fixpoint first_accepted (limit : Z) (draws : list Z) : option Z :=
  match draws with
  | [] => None
  | v :: draws => if limit <? v then first_accepted limit draws else Some v
  end.
Definition rand_generator (range : Z) (draws : list Z) : outcome (option Z) :=
  if range =? 0 then UB
  else
    let limit := ((max64 / range) * range - 1) mod 2 ^ 64 in
    Ok (match first_accepted limit draws with None => None | Some v => Some (v mod range) end).
(** A 64-bit value as int64_t; a value as int. *)
Definition as_int64 (v : Z) : Z := if v <? 2 ^ 63 then v else v - 2 ^ 64.
Definition as_int (v : Z) : Z := let w := v mod 2 ^ 32 in if w <? 2 ^ 31 then w else w - 2 ^ 32.
(** 25-36: static_cast<uint64_t>(max) - min + 1 is computed in 64 bits, without sign. *)
Definition rand_int (min max : Z) (draws : list Z) : outcome (option Z) :=
  obind (rand_generator ((max mod 2 ^ 64 - min mod 2 ^ 64 + 1) mod 2 ^ 64) draws) (fun r =>
    Ok (match r with None => None | Some v => Some (as_int (min + as_int64 v)) end)).
(** 42-56: a double with a 53-bit mantissa holds the value exactly. *)
Definition bits_to_unit (bits : Z) : Q := Qmake (Z.land bits (Z.shiftl 1 53 - 1)) (Z.to_pos (2 ^ 53)).
(** 38-40. *)
Definition rand_double (draw : Z) : Q := bits_to_unit draw.
