(** Specification vocabulary for base/time: 64-bit saturation, multiples and the
    proleptic Gregorian calendar.  Nothing here refers to the model. *)
From Coq Require Import ZArith Bool List.
Import ListNotations.
Local Open Scope Z_scope.

Definition int64 (z : Z) : Prop := - 2 ^ 63 <= z <= 2 ^ 63 - 1.
(** The value a saturating 64-bit operation must deliver for the exact result [z]. *)
Definition saturate (z : Z) : Z := Z.max (- 2 ^ 63) (Z.min z (2 ^ 63 - 1)).
(** The two infinities and the finite values of a delta or time. *)
Definition plus_inf : Z := 2 ^ 63 - 1.
Definition minus_inf : Z := - 2 ^ 63.
Definition finite (z : Z) : Prop := minus_inf < z < plus_inf.

(** [m] is the greatest multiple of [i] that does not exceed [d]. *)
Definition floor_multiple (d i m : Z) : Prop :=
  (exists k, m = k * i) /\ m <= d /\ forall k, k * i <= d -> k * i <= m.
(** [m] is the smallest multiple of [i] that is not below [d]. *)
Definition ceil_multiple (d i m : Z) : Prop :=
  (exists k, m = k * i) /\ d <= m /\ forall k, d <= k * i -> m <= k * i.
(** [m] is a multiple of [i] nearest to [d], the one further from zero in case of a tie. *)
Definition nearest_multiple (d i m : Z) : Prop :=
  (exists k, m = k * i) /\
  (forall k, Z.abs (d - m) <= Z.abs (d - k * i)) /\
  (forall k, Z.abs (d - k * i) = Z.abs (d - m) -> Z.abs (k * i) <= Z.abs m).

(** ** Gregorian calendar; months are numbered 1..12 *)
Definition leap (y : Z) : bool :=
  ((y mod 4 =? 0) && negb (y mod 100 =? 0)) || (y mod 400 =? 0).
Definition year_len (y : Z) : Z := if leap y then 366 else 365.
Definition month_len (y m : Z) : Z :=
  if m =? 2 then (if leap y then 29 else 28)
  else if (m =? 4) || (m =? 6) || (m =? 9) || (m =? 11) then 30 else 31.
(** Days from 1 January 1970 to 1 January of year [y]. *)
Definition year_start (y : Z) : Z :=
  365 * (y - 1970) + ((y - 1) / 4 - (y - 1) / 100 + (y - 1) / 400 - 477).
(** Days from 1 January of year [y] to the first of month [m]. *)
Definition month_start (y m : Z) : Z :=
  fold_right Z.add 0 (map (fun k => month_len y (Z.of_nat k)) (seq 1 (Z.to_nat (m - 1)))).
Definition valid_date (y m d : Z) : Prop := 1 <= m <= 12 /\ 1 <= d <= month_len y m.
(** Day number of a date, counted from 1 January 1970. *)
Definition day_number (y m d : Z) : Z := year_start y + month_start y m + (d - 1).
Definition valid_clock (h mi s : Z) : Prop := 0 <= h < 24 /\ 0 <= mi < 60 /\ 0 <= s < 60.
(** Seconds from the Unix epoch to the given UTC instant. *)
Definition utc_seconds (y m d h mi s : Z) : Z :=
  day_number y m d * 86400 + h * 3600 + mi * 60 + s.

(** ** The C library's calendar (ISO C, POSIX: Gregorian, no leap seconds), used as an assumption:
    [gmtime] delivers the calendar reading of every second count within [lim] of the epoch,
    [timegm] the second count of every valid reading.  A reading is
    (year, month 1..12, day, hour, minute, second). *)
Definition reading : Type := Z * Z * Z * Z * Z * Z.
Definition valid_reading (r : reading) : Prop :=
  let '(y, m, d, h, mi, s) := r in valid_date y m d /\ valid_clock h mi s.
Definition seconds_of (r : reading) : Z :=
  let '(y, m, d, h, mi, s) := r in utc_seconds y m d h mi s.
Definition calendar (lim : Z) (gmtime : Z -> reading) (timegm : reading -> Z) : Prop :=
  (forall s, - lim <= s <= lim -> valid_reading (gmtime s) /\ seconds_of (gmtime s) = s) /\
  (forall r, valid_reading r -> timegm r = seconds_of r).
