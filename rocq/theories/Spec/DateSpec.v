(** Specification vocabulary for date strings: text of numbers and the calendar meaning of fields that
    may exceed their range.  Nothing here refers to the model. *)
From Coq Require Import ZArith List String Ascii.
From Verif Require Import Spec.TimeSpec.
Import ListNotations.
Local Open Scope Z_scope.

(** The bytes of a literal. *)
Definition text (s : string) : list Z := map (fun a => Z.of_nat (nat_of_ascii a)) (list_ascii_of_string s).
(** Two, four and six decimal digits, with leading zeros. *)
Definition digit (n : Z) : Z := 48 + n mod 10.
Definition dec2 (n : Z) : list Z := [digit (n / 10); digit n].
Definition dec4 (n : Z) : list Z := [digit (n / 1000); digit (n / 100); digit (n / 10); digit n].
Definition dec6 (n : Z) : list Z :=
  [digit (n / 100000); digit (n / 10000); digit (n / 1000); digit (n / 100); digit (n / 10); digit n].

Definition weekday_name (w : Z) : list Z :=
  nth (Z.to_nat w) (map text ["Sun"; "Mon"; "Tue"; "Wed"; "Thu"; "Fri"; "Sat"]%string) [].
Definition month_name (m : Z) : list Z :=
  nth (Z.to_nat (m - 1))
    (map text ["Jan"; "Feb"; "Mar"; "Apr"; "May"; "Jun"; "Jul"; "Aug"; "Sep"; "Oct"; "Nov"; "Dec"]%string) [].
(** "Tue, 15 Nov 1994 12:45:26 GMT" (RFC 1123) with the given zone text. *)
Definition rfc1123 (w y m d h mi s : Z) (zone : list Z) : list Z :=
  weekday_name w ++ text ", " ++ dec2 d ++ text " " ++ month_name m ++ text " " ++ dec4 y ++ text " " ++
  dec2 h ++ text ":" ++ dec2 mi ++ text ":" ++ dec2 s ++ text " " ++ zone.
(** "1995-06-17T23:11:25.342156Z" (ISO 8601). *)
Definition iso8601 (y m d h mi s us : Z) : list Z :=
  dec4 y ++ text "-" ++ dec2 m ++ text "-" ++ dec2 d ++ text "T" ++
  dec2 h ++ text ":" ++ dec2 mi ++ text ":" ++ dec2 s ++ text "." ++ dec6 us ++ text "Z".

(** The same with any number of digits behind the dot; [ds] are the digits' values. *)
Definition iso8601_digits (y m d h mi s : Z) (ds : list Z) : list Z :=
  dec4 y ++ text "-" ++ dec2 m ++ text "-" ++ dec2 d ++ text "T" ++
  dec2 h ++ text ":" ++ dec2 mi ++ text ":" ++ dec2 s ++ text "." ++ map (Z.add 48) ds ++ text "Z".
(** Whole microseconds of a fraction with these digits: tenths, hundredths, ... *)
Fixpoint micros_from (weight : Z) (ds : list Z) : Z :=
  match ds with [] => 0 | d :: r => d * weight + micros_from (weight / 10) r end.
Definition micros (ds : list Z) : Z := micros_from 100000 ds.

(** Day number when month (counted from 1) and day may lie outside their ranges: they carry over. *)
Definition lenient_day (y m d : Z) : Z :=
  day_number (y + (m - 1) / 12) ((m - 1) mod 12 + 1) 1 + (d - 1).
Definition lenient_seconds (y m d h mi s : Z) : Z :=
  lenient_day y m d * 86400 + h * 3600 + mi * 60 + s.
