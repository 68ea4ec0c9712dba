(** base/numerics (the int64 operations that base/time uses) and base/time:
    [TimeDelta], [TimeBase], [Time] (without the floating point conversions).

    A [TimeDelta] or [Time] object is its only field, an [int64_t] number of
    microseconds, represented as a [Z]; [TimeDelta::Max()]/[Min()] (and the same
    for [Time]) are the largest and smallest int64 and stand for the infinities.
    A signed computation whose mathematical value does not fit is [UB]. *)
From Verif Require Import Model.Common.
Local Open Scope Z_scope.

(** std::numeric_limits<int64_t>::max()/min(), time_delta.h:345-353. *)
Definition i64max : Z := 9223372036854775807.
Definition i64min : Z := -9223372036854775808.
(** std::numeric_limits<int>::max()/min(), time_delta.cc:30-31. *)
Definition i32max : Z := 2147483647.
Definition i32min : Z := -2147483648.

Definition in64b (z : Z) : bool := (i64min <=? z) && (z <=? i64max).
(** A signed 64-bit operation of the language: undefined when the result does not fit. *)
Definition ck64 (z : Z) : outcome Z := if in64b z then Ok z else UB.

(** ** base/numerics *)
(** static_cast<uint64_t>(x), static_cast<int64_t>(x). *)
Definition to_u64 (x : Z) : Z := x mod 18446744073709551616.
Definition to_i64 (x : Z) : Z :=
  let u := to_u64 x in if u <=? i64max then u else u - 18446744073709551616.

(** safe_math_clang_gcc_impl.h:68-105: the GCC/Clang builtins compute in unlimited
    precision and report whether the result fits ([None]: overflow). *)
Definition add_builtin (x y : Z) : option Z := if in64b (x + y) then Some (x + y) else None.
Definition sub_builtin (x y : Z) : option Z := if in64b (x - y) then Some (x - y) else None.
Definition mul_builtin (x y : Z) : option Z := if in64b (x * y) then Some (x * y) else None.

(** checked_math_impl.h:23-41 CheckedAddImpl<int64_t>: the portable code. *)
Definition add_portable (x y : Z) : option Z :=
  let ux := to_u64 x in
  let uy := to_u64 y in
  let ur := to_u64 (ux + uy) in
  if to_i64 (Z.land (Z.lxor ur ux) (Z.lxor ur uy)) <? 0 then None else Some (to_i64 ur).
(** checked_math_impl.h:87-105 CheckedSubImpl<int64_t>. *)
Definition sub_portable (x y : Z) : option Z :=
  let ux := to_u64 x in
  let uy := to_u64 y in
  let ur := to_u64 (ux - uy) in
  if to_i64 (Z.land (Z.lxor ur ux) (Z.lxor ux uy)) <? 0 then None else Some (to_i64 ur).
(** safe_conversions_impl.h:79-86 SafeUnsignedAbs<int64_t>. *)
Definition safe_unsigned_abs (x : Z) : Z := if x <? 0 then to_u64 (0 - to_u64 x) else to_u64 x.
(** checked_math_impl.h:151-173 CheckedMulImpl<int64_t>. *)
Definition mul_portable (x y : Z) : option Z :=
  let ux := safe_unsigned_abs x in
  let uy := safe_unsigned_abs y in
  let ur := to_u64 (ux * uy) in
  let neg := Z.lxor x y <? 0 in
  let nb := if neg then 1 else 0 in
  if (nb <? uy) && ((i64max + nb) / uy <? ux) then None
  else Some (to_i64 (if neg then to_u64 (0 - ur) else ur)).
(** checked_math_impl.h:216-251 CheckedDivOp<int64_t, int64_t>. *)
Definition checked_div (x y : Z) : option Z :=
  if y =? 0 then None
  else if (x =? i64min) && (y =? -1) then None
  else Some (Z.quot x y).

(** clamped_math_impl.h:72-145 ClampedAddOp/ClampedSubOp/ClampedMulOp<int64_t, int64_t>;
    CommonMaxOrMin(neg) is the minimum when [neg]. *)
Definition clamp_add (x y : Z) : Z :=
  match add_builtin x y with Some r => r | None => if y <? 0 then i64min else i64max end.
Definition clamp_sub (x y : Z) : Z :=
  match sub_builtin x y with Some r => r | None => if negb (y <? 0) then i64min else i64max end.
Definition clamp_mul (x y : Z) : Z :=
  match mul_builtin x y with
  | Some r => r
  | None => if xorb (x <? 0) (y <? 0) then i64min else i64max
  end.
(** safe_conversions.h saturated_cast<int>(int64_t), as used at time_delta.h:321-331. *)
Definition saturated_int (x : Z) : Z :=
  if i32max <? x then i32max else if x <? i32min then i32min else x.

(** ** TimeDelta *)
(** time_delta.h:110-113 is_max/is_min/is_inf. *)
Definition is_inf (d : Z) : bool := (d =? i64min) || (d =? i64max).

(** time_delta.h:265-272 operator+. *)
Definition td_add (a b : Z) : outcome Z :=
  if negb (is_inf b) then Ok (clamp_add a b)
  else if negb (is_inf a) || (a =? b) then Ok b else CheckFail.
(** time_delta.h:274-281 operator-. *)
Definition td_sub (a b : Z) : outcome Z :=
  if negb (is_inf b) then Ok (clamp_sub a b)
  else if a =? b then CheckFail
  else Ok (if b <? 0 then i64max else i64min).
(** time_delta.h:154-158 unary minus. *)
Definition td_neg (d : Z) : outcome Z :=
  if negb (is_inf d) then ck64 (- d) else Ok (if d <? 0 then i64max else i64min).
(** time_delta.h:96-105 magnitude (the shift is arithmetic). *)
Definition td_magnitude (d : Z) : outcome Z :=
  if d =? i64min then Ok i64max
  else let mask := Z.shiftr d 63 in
       obind (ck64 (d + mask)) (fun s => Ok (Z.lxor s mask)).
(** time_delta.h:161-168 operator*(T) for an integer type of at most 64 bits, signed. *)
Definition td_mul (d a : Z) : Z :=
  match mul_builtin d a with
  | Some r => r
  | None => if Bool.eqb (d <? 0) (a <? 0) then i64max else i64min
  end.
(** time_delta.h:169-176 operator/(T), same types. *)
Definition td_div (d a : Z) : Z :=
  match checked_div d a with
  | Some r => r
  | None => if Bool.eqb (d <? 0) (a <? 0) then i64max else i64min
  end.
(** A raw [/] or [%] of the language: undefined for a zero divisor and for min/-1. *)
Definition quot64 (x y : Z) : outcome Z :=
  if y =? 0 then UB else ck64 (Z.quot x y).
Definition rem64 (x y : Z) : outcome Z :=
  if y =? 0 then UB else if in64b (Z.quot x y) then Ok (Z.rem x y) else UB.
(** time_delta.h:199-209 IntDiv. *)
Definition td_intdiv (d a : Z) : outcome Z :=
  if negb (is_inf d) && negb (a =? 0) then quot64 d a
  else if (d =? 0) && (a =? 0) then CheckFail
  else if is_inf d && is_inf a then CheckFail
  else Ok (if Bool.eqb (d <? 0) (a <? 0) then i64max else i64min).
(** time_delta.h:211-215 operator%. *)
Definition td_mod (d a : Z) : outcome Z :=
  if is_inf d || (a =? 0) || is_inf a then Ok d else rem64 d a.

(** time_delta.h:288-311 FromSeconds, FromMilliseconds, FromMicroseconds, FromNanoseconds. *)
Definition from_seconds (s : Z) : Z := clamp_mul s 1000000.
Definition from_milliseconds (ms : Z) : Z := clamp_mul ms 1000.
Definition from_microseconds (us : Z) : Z := us.
Definition from_nanoseconds (ns : Z) : Z := Z.quot ns 1000.
(** time_delta.h:318-330 InHours, InMinutes. *)
Definition in_hours (d : Z) : Z := saturated_int (Z.quot d 3600000000).
Definition in_minutes (d : Z) : Z := saturated_int (Z.quot d 60000000).
(** time_delta.h:337-343 InSeconds, InNanoseconds. *)
Definition in_seconds (d : Z) : Z := if is_inf d then d else Z.quot d 1000000.
Definition in_nanoseconds (d : Z) : Z := clamp_mul d 1000.
(** time_delta.cc:27-32 InDays; static_cast<int> of an int64 keeps the low 32 bits (it is
    only reached with values that fit). *)
Definition to_i32 (x : Z) : Z :=
  let u := x mod 4294967296 in if u <=? i32max then u else u - 4294967296.
Definition in_days (d : Z) : Z :=
  if negb (is_inf d) then to_i32 (Z.quot d 86400000000) else if d <? 0 then i32min else i32max.
(** time_delta.cc:34-42 InDaysFloored. *)
Definition in_days_floored (d : Z) : outcome Z :=
  if negb (is_inf d) then
    let r := to_i32 (Z.quot d 86400000000) in
    obind (ck64 (r * 86400000000)) (fun p =>
      Ok (if d <? p then r - 1 else r))
  else Ok (if d <? 0 then i32min else i32max).
(** time_delta.cc:51-56 InMilliseconds. *)
Definition in_milliseconds (d : Z) : Z :=
  if negb (is_inf d) then Z.quot d 1000 else if d <? 0 then i64min else i64max.
(** time_delta.cc:58-66 InMillisecondsRoundedUp. *)
Definition in_milliseconds_up (d : Z) : outcome Z :=
  if negb (is_inf d) then
    let r := Z.quot d 1000 in
    obind (ck64 (r * 1000)) (fun p => if p <? d then ck64 (r + 1) else Ok r)
  else Ok d.

(** time_delta.cc:10-13 FromTimeSpec; a timespec is (tv_sec, tv_nsec). *)
Definition from_timespec (sec nsec : Z) : outcome Z :=
  obind (ck64 (sec * 1000000)) (fun a => ck64 (a + Z.quot nsec 1000)).
(** time_delta.cc:15-25 ToTimeSpec. *)
Definition to_timespec (d : Z) : outcome (Z * Z) :=
  if 1000000 <=? d then
    let s := in_seconds d in
    obind (ck64 (s * 1000000)) (fun p =>
    obind (ck64 (d - p)) (fun us =>
    obind (ck64 (us * 1000)) (fun ns => Ok (s, ns))))
  else obind (ck64 (d * 1000)) (fun ns => Ok (0, ns)).

(** time_delta.cc:75-83 CeilToMultiple. *)
Definition td_ceil (d i : Z) : outcome Z :=
  if is_inf d || (i =? 0) then Ok d
  else
    obind (td_mod d i) (fun r =>
    if d <? 0 then td_sub d r
    else if r =? 0 then Ok d
    else obind (td_sub d r) (fun b => obind (td_magnitude i) (fun m => td_add b m))).
(** time_delta.cc:85-94 FloorToMultiple. *)
Definition td_floor (d i : Z) : outcome Z :=
  if is_inf d || (i =? 0) then Ok d
  else
    obind (td_mod d i) (fun r =>
    if d <? 0 then
      if r =? 0 then Ok d
      else obind (td_sub d r) (fun b => obind (td_magnitude i) (fun m => td_sub b m))
    else td_sub d r).
(** time_delta.cc:96-104 RoundToMultiple. *)
Definition td_round (d i : Z) : outcome Z :=
  if is_inf d || (i =? 0) then Ok d
  else if is_inf i then Ok 0
  else
    obind (td_magnitude i) (fun m =>
    let half := td_div m 2 in
    if d <? 0 then obind (td_sub d half) (fun x => td_ceil x i)
    else obind (td_add d half) (fun x => td_floor x i)).

(** ** TimeBase and Time *)
(** time_base.h:70-73 difference of two times: raw int64 subtraction. *)
Definition t_diff (a b : Z) : outcome Z := ck64 (a - b).
(** time_base.h:75-83 shifting a time by a delta. *)
Definition t_add (t d : Z) : outcome Z := td_add t d.
Definition t_sub (t d : Z) : outcome Z := td_sub t d.

(** time.h:24-25 kTimeTToMicrosecondsOffset; time.cc:46-48 UnixEpoch. *)
Definition unix_epoch : Z := 11644473600000000.
(** time.cc:61-67 FromTimeT. *)
Definition from_time_t (tt : Z) : outcome Z :=
  if tt =? 0 then Ok 0
  else if tt =? i64max then Ok i64max
  else t_add unix_epoch (from_seconds tt).
(** time.cc:69-77 ToTimeT. *)
Definition to_time_t (t : Z) : outcome Z :=
  if t =? 0 then Ok 0
  else if negb (is_inf t) && (t <? i64max - unix_epoch)
  then obind (t_diff t unix_epoch) (fun d => Ok (in_seconds d))
  else Ok (if t <? 0 then i64min else i64max).
(** time.cc:103-119 FromTimeVal. *)
Definition from_timeval (sec usec : Z) : outcome Z :=
  if negb (0 <? usec) then CheckFail
  else if negb (usec <? 1000000) then CheckFail
  else if (usec =? 0) && (sec =? 0) then Ok 0
  else if (usec =? 999999) && (sec =? i64max) then Ok i64max
  else obind (ck64 (sec * 1000000)) (fun a =>
       obind (ck64 (a + usec)) (fun b => ck64 (b + unix_epoch))).
(** time.cc:121-138 ToTimeVal. *)
Definition to_timeval (t : Z) : outcome (Z * Z) :=
  if t =? 0 then Ok (0, 0)
  else if t =? i64max then Ok (i64max, 999999)
  else obind (ck64 (t - unix_epoch)) (fun us => Ok (Z.quot us 1000000, Z.rem us 1000000)).
(** time.cc:349-358 FromMillisecondsSinceUnixEpoch: CheckedNumeric multiplication and
    addition; ([false], Time(0)) on overflow. *)
Definition from_ms_epoch (ms : Z) : bool * Z :=
  match mul_builtin ms 1000 with
  | Some p => match add_builtin p unix_epoch with Some r => (true, r) | None => (false, 0) end
  | None => (false, 0)
  end.
(** time.cc:360-376 ToRoundedDownMillisecondsSinceUnixEpoch. *)
Definition to_ms_epoch (t : Z) : outcome Z :=
  let millis := Z.quot t 1000 in
  let sub := Z.rem t 1000 in
  obind (ck64 (millis - 11644473600000)) (fun a => ck64 (a - (if sub <? 0 then 1 else 0))).

(** ** Calendar conversions
    The C library's broken-down time; tm_wday/tm_yday/tm_isdst are ignored by timegm. *)
Record tm := { tm_year : Z; tm_mon : Z; tm_mday : Z; tm_hour : Z; tm_min : Z; tm_sec : Z }.
(** time.h:64-84 Exploded (day_of_week does not take part in the conversion back). *)
Record exploded := { e_year : Z; e_month : Z; e_mday : Z; e_hour : Z; e_min : Z; e_sec : Z; e_ms : Z }.

(** time.cc:161-189 Explode(is_local = false); [gmtime] is the C library's gmtime_r. *)
Definition explode (gmtime : Z -> tm) (t : Z) : outcome exploded :=
  obind (to_ms_epoch t) (fun ms =>
  let s := Z.quot ms 1000 in
  let m := Z.rem ms 1000 in
  let s' := if m <? 0 then s - 1 else s in
  let m' := if m <? 0 then m + 1000 else m in
  let g := gmtime s' in
  obind (ck64 s') (fun _ =>
  Ok {| e_year := tm_year g + 1900; e_month := tm_mon g + 1; e_mday := tm_mday g;
        e_hour := tm_hour g; e_min := tm_min g; e_sec := tm_sec g; e_ms := m' |})).

(** time.cc:341-346 ExplodedMostlyEquals. *)
Definition mostly_equals (a b : exploded) : bool :=
  (e_year a =? e_year b) && (e_month a =? e_month b) && (e_mday a =? e_mday b) &&
  (e_hour a =? e_hour b) && (e_min a =? e_min b) && (e_sec a =? e_sec b) && (e_ms a =? e_ms b).

(** CheckedNumeric<int> month = m; month--: invalid only at INT_MIN (time.cc:193-200). *)
Definition in32b (z : Z) : bool := (i32min <=? z) && (z <=? i32max).

(** time.cc:192-317 FromExploded(is_local = false): [timegm] is the C library's function, which
    ignores tm_isdst, so the three calls at :229-239 return the same value.  Result: success flag
    and the stored time. *)
Definition from_exploded (gmtime : Z -> tm) (timegm : tm -> Z) (e : exploded) : outcome (bool * Z) :=
  if negb (in32b (e_month e - 1)) || negb (in32b (e_year e - 1900)) then Ok (false, 0)
  else
    let seconds := timegm {| tm_year := e_year e - 1900; tm_mon := e_month e - 1; tm_mday := e_mday e;
                             tm_hour := e_hour e; tm_min := e_min e; tm_sec := e_sec e |} in
    let millis :=
      if (seconds =? -1) && ((e_year e <? 1969) || (1970 <? e_year e))
      then Some (if e_year e <? 1969 then i32min * 1000 else i32max * 1000 + 999)
      else match mul_builtin seconds 1000 with
           | Some p => add_builtin p (e_ms e)
           | None => None
           end in
    match millis with
    | None => Ok (false, 0)
    | Some ms =>
        let (ok, t) := from_ms_epoch ms in
        if negb ok then Ok (false, 0)
        else obind (explode gmtime t) (fun e' =>
             if mostly_equals e' e then Ok (true, t) else Ok (false, 0))
    end.

(** time.cc:140-160 Midnight(is_local = false). *)
Definition midnight (gmtime : Z -> tm) (timegm : tm -> Z) (t : Z) : outcome Z :=
  obind (explode gmtime t) (fun e =>
  let e0 := {| e_year := e_year e; e_month := e_month e; e_mday := e_mday e;
               e_hour := 0; e_min := 0; e_sec := 0; e_ms := 0 |} in
  obind (from_exploded gmtime timegm e0) (fun r =>
  if fst r then Ok (snd r) else CheckFail)).

(** ** time_utils.cc and timestamp.cc *)
(** time_utils.cc:49-56 ms_to_timeval(uint32_t). *)
Definition ms_to_timeval (ms : Z) : Z * Z := (ms / 1000, (ms mod 1000) * 1000).
(** time_ticks.cc:10-24 ConvertTimespecToMicros on a 64-bit system; ValueOrDie aborts. *)
Definition timespec_to_micros (sec nsec : Z) : outcome Z :=
  match mul_builtin sec 1000000 with
  | None => CheckFail
  | Some p => match add_builtin p (Z.quot nsec 1000) with Some r => Ok r | None => CheckFail end
  end.
