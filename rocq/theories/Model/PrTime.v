(** base/time/nspr/prtime.{h,cc}: PR_ParseTimeString, PR_NormalizeTime, PR_ImplodeTime, and
    Time::FromString / FromUTCString (base/time/time.cc:321-338) on top of them.

    A C string is the list of its (non-NUL) bytes; a [const char*] into it is the suffix from that
    position, the empty suffix being the terminating NUL.  [pk s k] is the read [s[k]]: the NUL itself
    may be read, anything behind it is [UB]; [adv] is [s++], which must not step over the NUL.
    [char] is signed in the code; all comparisons there are against ASCII constants and give the same
    answer for bytes >= 128 read as unsigned, as here.  [int] is 32 bits: [ck32] is [UB] on overflow. *)
From Verif Require Import Model.Common Model.TimeDelta.
Local Open Scope Z_scope.

Definition cstr : Type := list Z.
Definition pk (s : cstr) (k : nat) : outcome Z :=
  if (k <=? length s)%nat then Ok (nth k s 0) else UB.
Definition adv (s : cstr) : outcome cstr := match s with [] => UB | _ :: t => Ok t end.
Definition ck32 (z : Z) : outcome Z := if (i32min <=? z) && (z <=? i32max) then Ok z else UB.
(** Conversion to PRInt16, PRInt8 (prtime.h:57-58): wraps. *)
Definition wrap16 (z : Z) : Z := (z + 32768) mod 65536 - 32768.
Definition wrap8 (z : Z) : Z := (z + 128) mod 256 - 128.

(** ** Calendar arithmetic *)
(** prtime.h:144-161 PRExplodedTime. *)
Record ptm := mkP { p_usec : Z; p_sec : Z; p_min : Z; p_hour : Z; p_mday : Z; p_month : Z; p_year : Z;
  p_wday : Z; p_yday : Z; p_gmt : Z; p_dst : Z }.

(** prtime.cc:95-97 COUNT_LEAPS, COUNT_DAYS, DAYS_BETWEEN_YEARS ([/] truncates). *)
Definition count_leaps (y : Z) : Z := Z.quot (y - 1) 4 - Z.quot (y - 1) 100 + Z.quot (y - 1) 400.
Definition count_days (y : Z) : Z := (y - 1) * 365 + count_leaps y.
Definition days_between_years (a b : Z) : Z := count_days b - count_days a.
(** prtime.cc:185-190 IsLeapYear. *)
Definition is_leap (y : Z) : bool :=
  ((Z.rem y 4 =? 0) && negb (Z.rem y 100 =? 0)) || (Z.rem y 400 =? 0).
(** prtime.cc:115-117 lastDayOfMonth, 123-125 nDays. *)
Definition last_day_tab (leap : bool) : list Z :=
  if leap then [-1; 30; 59; 90; 120; 151; 181; 212; 243; 273; 304; 334; 365]
  else [-1; 30; 58; 89; 119; 150; 180; 211; 242; 272; 303; 333; 364].
Definition ndays_tab (leap : bool) : list Z :=
  if leap then [31; 29; 31; 30; 31; 30; 31; 31; 30; 31; 30; 31]
  else [31; 28; 31; 30; 31; 30; 31; 31; 30; 31; 30; 31].
(** Array access. *)
Definition at_ix (l : list Z) (i : Z) : outcome Z :=
  if (0 <=? i) && (i <? Z.of_nat (length l)) then Ok (nth (Z.to_nat i) l 0) else UB.
Definition ndays (y m : Z) : outcome Z := at_ix (ndays_tab (is_leap y)) m.

(** prtime.cc:270-306: one carry step "if (x < 0 || x >= n) { up += x / n; x %= n; if (x < 0) { x += n; up--; } }". *)
Definition carry (x n up : Z) : outcome (Z * Z) :=
  if (x <? 0) || (n <=? x) then
    obind (ck32 (up + Z.quot x n)) (fun up1 =>
      let x1 := Z.rem x n in
      if x1 <? 0 then obind (ck32 (up1 - 1)) (fun up2 => Ok (x1 + n, up2)) else Ok (x1, up1))
  else Ok (x, up).
(** prtime.cc:319-329: the previous month until mday is positive (do ... while). *)
Fixpoint mday_up (fuel : nat) (mday month year : Z) : outcome (Z * Z * Z) :=
  match fuel with
  | O => UB
  | S f =>
    let month1 := month - 1 in
    let '(month2, year2) := if month1 <? 0 then (11, wrap16 (year - 1)) else (month1, year) in
    obind (ndays year2 month2) (fun n =>
    let mday2 := mday + n in
    if mday2 <? 1 then mday_up f mday2 month2 year2 else Ok (mday2, month2, year2))
  end.
(** prtime.cc:330-342: the next month while mday is beyond the month's length. *)
Fixpoint mday_down (fuel : nat) (mday month year : Z) : outcome (Z * Z * Z) :=
  match fuel with
  | O => UB
  | S f =>
    obind (ndays year month) (fun n =>
    if n <? mday then
      let month1 := month + 1 in
      let '(month2, year2) := if 11 <? month1 then (0, wrap16 (year + 1)) else (month1, year) in
      mday_down f (mday - n) month2 year2
    else Ok (mday, month, year))
  end.
(** prtime.cc:259-360 PR_NormalizeTime with PR_GMTParameters (374-377: both offsets 0, so that the
    final ApplySecOffset (197-257) adds 0 to a normalised time and changes nothing). *)
Definition normalize (t : ptm) : outcome ptm :=
  obind (ck32 (p_gmt t + p_dst t)) (fun off =>
  obind (ck32 (p_sec t - off)) (fun sec0 =>
  obind (carry (p_usec t) 1000000 sec0) (fun '(usec1, sec1) =>
  obind (carry sec1 60 (p_min t)) (fun '(sec2, min1) =>
  obind (carry min1 60 (p_hour t)) (fun '(min2, hour1) =>
  obind (carry hour1 24 (p_mday t)) (fun '(hour2, mday1) =>
  let '(month1, year1) :=
    if (p_month t <? 0) || (12 <=? p_month t) then
      let y1 := wrap16 (p_year t + wrap16 (Z.quot (p_month t) 12)) in
      let m1 := Z.rem (p_month t) 12 in
      if m1 <? 0 then (m1 + 12, wrap16 (y1 - 1)) else (m1, y1)
    else (p_month t, p_year t) in
  obind (if mday1 <? 1 then mday_up (Z.to_nat (1 - mday1)) mday1 month1 year1
         else mday_down (Z.to_nat mday1) mday1 month1 year1) (fun '(mday2, month2, year2) =>
  obind (at_ix (last_day_tab (is_leap year2)) month2) (fun l =>
  let yday := wrap16 (mday2 + l) in
  let numDays := days_between_years 1970 year2 + yday in
  let w := Z.rem (numDays + 4) 7 in
  let wday := if w <? 0 then w + 7 else w in
  Ok (mkP usec1 sec2 min2 hour2 mday2 month2 year2 wday yday 0 0))))))))).
(** prtime.cc:137-172 PR_ImplodeTime. *)
Definition implode (t : ptm) : outcome Z :=
  obind (normalize t) (fun c =>
  obind (ck32 (days_between_years 1970 (p_year c))) (fun numDays =>
  obind (ck32 (p_yday c * 86400 + p_hour c * 3600 + p_min c * 60 + p_sec c)) (fun numSecs =>
  obind (ck64 (numSecs + numDays * 86400 - p_gmt c - p_dst c)) (fun s64 =>
  obind (ck64 (s64 * 1000000)) (fun us => ck64 (us + p_usec c)))))).

(** ** The parser *)
(** prtime.cc:401-440: the zone tokens. *)
Inductive zone := PST | PDT | MST | MDT | CST | CDT | EST | EDT | AST | NST | GMT | BST | MET | EET | JST.
(** prtime.cc:477-495: the parser's variables; [None] is TT_UNKNOWN.  The month is stored as
    (month token - TT_JAN), which is -1 for the token in front of TT_JAN that lines 898, 918 and 925 produce
    for a month number 0; the weekday token is never used (tm_wday is recomputed) but it is tracked. *)
Record pst := mkS { s_dotw : option Z; s_month : option Z; s_zone : option zone; s_zoff : Z;
  s_date : Z; s_year : Z; s_hour : Z; s_min : Z; s_sec : Z; s_usec : Z }.
Definition pst0 : pst := mkS None None None (-1) (-1) (-1) (-1) (-1) (-1) (-1).

Definition set_dotw (st : pst) (d : Z) : pst :=
  mkS (Some d) (s_month st) (s_zone st) (s_zoff st) (s_date st) (s_year st) (s_hour st) (s_min st) (s_sec st) (s_usec st).
Definition set_month (st : pst) (m : Z) : pst :=
  mkS (s_dotw st) (Some m) (s_zone st) (s_zoff st) (s_date st) (s_year st) (s_hour st) (s_min st) (s_sec st) (s_usec st).
Definition set_zone (st : pst) (z : zone) : pst :=
  mkS (s_dotw st) (s_month st) (Some z) (s_zoff st) (s_date st) (s_year st) (s_hour st) (s_min st) (s_sec st) (s_usec st).
Definition set_zoff (st : pst) (o : Z) : pst :=
  mkS (s_dotw st) (s_month st) (s_zone st) o (s_date st) (s_year st) (s_hour st) (s_min st) (s_sec st) (s_usec st).
Definition set_date (st : pst) (d : Z) : pst :=
  mkS (s_dotw st) (s_month st) (s_zone st) (s_zoff st) d (s_year st) (s_hour st) (s_min st) (s_sec st) (s_usec st).
Definition set_year (st : pst) (y : Z) : pst :=
  mkS (s_dotw st) (s_month st) (s_zone st) (s_zoff st) (s_date st) y (s_hour st) (s_min st) (s_sec st) (s_usec st).
Definition set_clock (st : pst) (h mi s u : Z) : pst :=
  mkS (s_dotw st) (s_month st) (s_zone st) (s_zoff st) (s_date st) (s_year st) h mi s u.

Definition is_digit (c : Z) : bool := (48 <=? c) && (c <=? 57).
Definition is_upper (c : Z) : bool := (65 <=? c) && (c <=? 90).
Definition is_lower (c : Z) : bool := (97 <=? c) && (c <=? 122).
(** isalpha in the C locale. *)
Definition is_alpha (c : Z) : bool := is_upper c || is_lower c.
(** [c] is the lower-case letter [l] or its capital. *)
Definition ci (c l : Z) : bool := (c =? l) || (c =? l - 32).

(** prtime.cc:504-659: for each first letter the alternatives in the order of the code; an alternative
    names the variable it sets (and which must still be unknown), the second and third letter, and the value. *)
Inductive slot := SDotw (d : Z) | SMonth (m : Z) | SZone (z : zone).
Definition alternatives (l : Z) : list (slot * Z * Z) :=
  if l =? 97 (* a *) then [(SMonth 3, 112, 114); (SZone AST, 115, 116); (SMonth 7, 117, 103)]
  else if l =? 98 (* b *) then [(SZone BST, 115, 116)]
  else if l =? 99 (* c *) then [(SZone CDT, 100, 116); (SZone CST, 115, 116)]
  else if l =? 100 (* d *) then [(SMonth 11, 101, 99)]
  else if l =? 101 (* e *) then [(SZone EDT, 100, 116); (SZone EET, 101, 116); (SZone EST, 115, 116)]
  else if l =? 102 (* f *) then [(SMonth 1, 101, 98); (SDotw 5, 114, 105)]
  else if l =? 103 (* g *) then [(SZone GMT, 109, 116)]
  else if l =? 106 (* j *) then [(SMonth 0, 97, 110); (SZone JST, 115, 116); (SMonth 6, 117, 108); (SMonth 5, 117, 110)]
  else if l =? 109 (* m *) then [(SMonth 2, 97, 114); (SMonth 4, 97, 121); (SZone MDT, 100, 116); (SZone MET, 101, 116);
                                 (SDotw 1, 111, 110); (SZone MST, 115, 116)]
  else if l =? 110 (* n *) then [(SMonth 10, 111, 118); (SZone NST, 115, 116)]
  else if l =? 111 (* o *) then [(SMonth 9, 99, 116)]
  else if l =? 112 (* p *) then [(SZone PDT, 100, 116); (SZone PST, 115, 116)]
  else if l =? 115 (* s *) then [(SDotw 6, 97, 116); (SMonth 8, 101, 112); (SDotw 0, 117, 110)]
  else if l =? 116 (* t *) then [(SDotw 4, 104, 117); (SDotw 2, 117, 101)]
  else if l =? 119 (* w *) then [(SDotw 3, 101, 100)]
  else [].
Definition slot_free (st : pst) (x : slot) : bool :=
  match x with
  | SDotw _ => match s_dotw st with None => true | Some _ => false end
  | SMonth _ => match s_month st with None => true | Some _ => false end
  | SZone _ => match s_zone st with None => true | Some _ => false end
  end.
Definition slot_set (st : pst) (x : slot) : pst :=
  match x with SDotw d => set_dotw st d | SMonth m => set_month st m | SZone z => set_zone st z end.
(** "<slot> == TT_UNKNOWN && (rest[1] == ..) && (rest[2] == ..)": the reads are short-circuited. *)
Definition alt_matches (st : pst) (s : cstr) (a : slot * Z * Z) : outcome bool :=
  let '(x, l1, l2) := a in
  if slot_free st x then
    obind (pk s 1) (fun c1 => if ci c1 l1 then obind (pk s 2) (fun c2 => Ok (ci c2 l2)) else Ok false)
  else Ok false.
Fixpoint try_alts (st : pst) (s : cstr) (l : list (slot * Z * Z)) : outcome pst :=
  match l with
  | [] => Ok st
  | a :: r => obind (alt_matches st s a) (fun b => if b then Ok (slot_set st (fst (fst a))) else try_alts st s r)
  end.
(** prtime.cc:646-653 case 'u': "UT" not followed by a letter. *)
Definition case_u (st : pst) (s : cstr) : outcome pst :=
  if slot_free st (SZone GMT) then
    obind (pk s 1) (fun c1 =>
      if ci c1 116 then obind (pk s 2) (fun c2 => if negb (is_upper c2) && negb (is_lower c2) then Ok (set_zone st GMT) else Ok st)
      else Ok st)
  else Ok st.

(** "while ( *end >= '0' && *end <= '9') end++": the digits and what follows. *)
Fixpoint span_digits (s : cstr) : cstr * cstr :=
  match s with
  | c :: t => if is_digit c then let '(d, r) := span_digits t in (c :: d, r) else ([], s)
  | [] => ([], [])
  end.
Definition dec_value (ds : list Z) : Z := fold_left (fun a c => a * 10 + (c - 48)) ds 0.

(** prtime.cc:661-701 cases '+' and '-' ([s] starts at the sign). *)
Definition case_sign (st : pst) (s : cstr) (c : Z) : outcome (pst * cstr) :=
  obind (adv s) (fun r =>
  if negb (s_zoff st =? -1) then Ok (st, r)
  else if match s_zone st with None => false | Some GMT => false | Some _ => true end then Ok (st, r)
  else
    let sign := if c =? 43 then 1 else -1 in
    let '(ds, e) := span_digits r in
    match ds with
    | [] => Ok (st, r)
    | [a; b; c'; d] => Ok (set_zone (set_zoff st ((((a - 48) * 10 + (b - 48)) * 60 + ((c' - 48) * 10 + (d - 48))) * sign)) GMT, r)
    | [a; b] => Ok (set_zone (set_zoff st (((a - 48) * 10 + (b - 48)) * 60 * sign)) GMT, r)
    | [a] => Ok (set_zone (set_zoff st ((a - 48) * 60 * sign)) GMT, r)
    | _ => Ok (st, r)
    end).

Definition is_blank (c : Z) : bool := (c =? 32) || (c =? 9).
Fixpoint skip_blanks (s : cstr) : cstr :=
  match s with c :: t => if is_blank c then skip_blanks t else s | [] => [] end.

(** prtime.cc:793-808: the AM/PM suffix; [s] is the first non-blank behind the time. *)
Definition am_pm (hour : Z) (s : cstr) : outcome Z :=
  obind (pk s 0) (fun c0 =>
  obind (if ci c0 112 then obind (pk s 1) (fun c1 => Ok (ci c1 109)) else Ok false) (fun pm =>
  if pm then Ok (if hour =? 12 then 12 else hour + 12)
  else if hour =? 12 then
    obind (if ci c0 97 then obind (pk s 1) (fun c1 => Ok (ci c1 109)) else Ok false) (fun am =>
    Ok (if am then 0 else hour))
  else Ok hour)).

(** prtime.cc:723-816: "[0-9]+:" ([s] = rest, [ds] its digits, [e] = end, which is at the colon). *)
Definition case_clock (st : pst) (s : cstr) (ds : list Z) (e : cstr) : outcome (pst * cstr) :=
  if (0 <=? s_hour st) && (0 <=? s_min st) then Ok (st, s)
  else if (2 <? length ds)%nat then Ok (st, s)
  else
    let hour := dec_value ds in
    obind (adv e) (fun r1 =>
    let '(ds2, e2) := span_digits r1 in
    if (length ds2 =? 0)%nat then Ok (st, r1)
    else if (2 <? length ds2)%nat then Ok (st, r1)
    else
      let min := dec_value ds2 in
      obind (pk e2 0) (fun c2 =>
      obind (if c2 =? 58 then adv e2 else Ok e2) (fun r3 =>
      let '(ds3, e3) := span_digits r3 in
      if (2 <? length ds3)%nat then Ok (st, r3)
      else
        let sec := if (length ds3 =? 0)%nat then -1 else dec_value ds3 in
        obind (pk e3 0) (fun c3 =>
        obind (if c3 =? 46 then
                 obind (adv e3) (fun r4 =>
                 let '(ds4, e4) := span_digits r4 in
                 Ok (dec_value (firstn 6 ds4) * 10 ^ Z.of_nat (6 - length ds4), e4))
               else Ok (-1, e3)) (fun '(usec, e4) =>
        obind (pk e4 0) (fun c4 =>
        if c4 =? 90 then
          Ok (set_clock (set_zone st GMT) hour min sec usec, e4)
        else
          obind (if hour <=? 12 then am_pm hour (skip_blanks e4) else Ok hour) (fun hour' =>
          Ok (set_clock st hour' min sec usec, e4)))))))).

(** "*s++ - '0'" guarded by a digit test. *)
Definition dig (s : cstr) : outcome (option (Z * cstr)) :=
  obind (pk s 0) (fun c => if is_digit c then obind (adv s) (fun r => Ok (Some (c - 48, r))) else Ok None).
Definition slash (s : cstr) : outcome (option cstr) :=
  obind (pk s 0) (fun c => if (c =? 47) || (c =? 45) then obind (adv s) (fun r => Ok (Some r)) else Ok None).
(** prtime.cc:831-842: first number, 1, 2 or 4 digits; [None]: break. *)
Definition num1 (s : cstr) : outcome (option (Z * cstr)) :=
  obind (dig s) (fun o => match o with
  | None => Ok None
  | Some (a, s1) => obind (dig s1) (fun o => match o with
    | None => Ok (Some (a, s1))
    | Some (b, s2) => obind (dig s2) (fun o => match o with
      | None => Ok (Some (a * 10 + b, s2))
      | Some (c, s3) => obind (dig s3) (fun o => match o with
        | None => Ok None
        | Some (d, s4) => Ok (Some (((a * 10 + b) * 10 + c) * 10 + d, s4))
        end) end) end) end).
(** prtime.cc:848-852: second number, 1 or 2 digits. *)
Definition num2 (s : cstr) : outcome (option (Z * cstr)) :=
  obind (dig s) (fun o => match o with
  | None => Ok None
  | Some (a, s1) => obind (dig s1) (fun o => match o with
    | None => Ok (Some (a, s1))
    | Some (b, s2) => Ok (Some (a * 10 + b, s2))
    end) end).
(** prtime.cc:858-872: third number, 1, 2, 4 or 5 digits. *)
Definition num3 (s : cstr) : outcome (option (Z * cstr)) :=
  obind (num1 s) (fun o => match o with
  | None => Ok None
  | Some (v, s1) =>
    if (length s - length s1 =? 4)%nat then
      obind (dig s1) (fun o => match o with None => Ok (Some (v, s1)) | Some (e, s5) => Ok (Some (v * 10 + e, s5)) end)
    else Ok (Some (v, s1))
  end).
(** prtime.cc:893-897, 910-913: two-digit years. *)
Definition two_digit_year (n : Z) : Z := if n <? 70 then n + 2000 else if n <? 100 then n + 1900 else n.
(** prtime.cc:817-928: numeric dates ([s] = rest). *)
Definition case_date (st : pst) (s : cstr) : outcome (pst * cstr) :=
  match s_month st with
  | Some _ => Ok (st, s)
  | None =>
    obind (num1 s) (fun o => match o with None => Ok (st, s) | Some (n1, s1) =>
    obind (slash s1) (fun o => match o with None => Ok (st, s) | Some s2 =>
    obind (num2 s2) (fun o => match o with None => Ok (st, s) | Some (n2, s3) =>
    obind (slash s3) (fun o => match o with None => Ok (st, s) | Some s4 =>
    obind (num3 s4) (fun o => match o with None => Ok (st, s) | Some (n3, s5) =>
    obind (pk s5 0) (fun c =>
    obind (if c =? 84 then obind (pk s5 1) (fun c1 => Ok (is_digit c1)) else Ok false) (fun iso =>
    if negb iso && (is_digit c || is_upper c || is_lower c) then Ok (st, s)
    else if (31 <? n1) || (n1 =? 0) then
      if 12 <? n2 then Ok (st, s)
      else if 31 <? n3 then Ok (st, s)
      else Ok (set_date (set_month (set_year st (two_digit_year n1)) (n2 - 1)) n3, s5)
    else if (12 <? n1) && (12 <? n2) then Ok (st, s5)
    else if 12 <? n1 then Ok (set_year (set_month (set_date st n1) (n2 - 1)) (two_digit_year n3), s5)
    else Ok (set_year (set_date (set_month st (n1 - 1)) n2) (two_digit_year n3), s5)))
    end) end) end) end) end)
  end.
(** prtime.cc:703-970 cases '0' .. '9'. *)
Definition case_digit (st : pst) (s : cstr) : outcome (pst * cstr) :=
  let '(ds, e) := span_digits s in
  obind (pk e 0) (fun c =>
  if c =? 58 then case_clock st s ds e
  else obind (if (c =? 47) || (c =? 45) then obind (pk e 1) (fun c1 => Ok (is_digit c1)) else Ok false) (fun dt =>
  if dt then case_date st s
  else if is_upper c || is_lower c then Ok (st, s)
  else if (length ds =? 5)%nat || (length ds =? 4)%nat then
    Ok (if s_year st <? 0 then set_year st (dec_value ds) else st, s)
  else if (length ds =? 2)%nat then
    let n := dec_value ds in
    if (s_date st <? 0) && (n <? 32) then Ok (set_date st n, s)
    else if s_year st <? 0 then Ok (set_year st (if n <? 70 then 2000 + n else if n <? 100 then 1900 + n else n), s)
    else Ok (st, s)
  else if (length ds =? 1)%nat then Ok (if s_date st <? 0 then set_date st (dec_value ds) else st, s)
  else Ok (st, s))).

(** prtime.cc:504-971: the switch. *)
Definition lower (c : Z) : Z := if is_upper c then c + 32 else c.
Definition token (st : pst) (s : cstr) : outcome (pst * cstr) :=
  obind (pk s 0) (fun c =>
  if is_digit c then case_digit st s
  else if (c =? 43) || (c =? 45) then case_sign st s c
  else if ci c 117 then obind (case_u st s) (fun st' => Ok (st', s))
  else obind (try_alts st s (alternatives (lower c))) (fun st' => Ok (st', s))).

(** prtime.cc:973-981: skip to the end of the token. *)
Definition iso_t (s : cstr) : bool :=
  match s with c :: t => (c =? 84) && is_digit (nth 0 t 0) | [] => false end.
Definition is_delim (c : Z) : bool :=
  existsb (Z.eqb c) [32; 9; 44; 59; 45; 43; 47; 40; 41; 91; 93].
Fixpoint skip_token (s : cstr) : cstr :=
  match s with
  | c :: t => if is_delim c || iso_t s then s else skip_token t
  | [] => []
  end.
(** prtime.cc:983-997: SKIP_MORE; the [goto] re-enters the same loop.  [rest[-1]] is the byte in front
    of the current suffix of the whole string [str]. *)
Definition is_sep (c : Z) : bool := existsb (Z.eqb c) [32; 9; 44; 59; 47; 40; 41; 91; 93].
Definition before (str s : cstr) : option Z :=
  if (length s <? length str)%nat then nth_error str (length str - length s - 1) else None.
Fixpoint skip_more (str : cstr) (year : Z) (s : cstr) : cstr :=
  match s with
  | c :: t =>
    if is_sep c then skip_more str year t
    else if (c =? 45) &&
      ((match before str s with Some b => is_alpha b | None => false end && (year <? 0)) || negb (is_digit (nth 0 t 0)))
    then skip_more str year t
    else s
  | [] => []
  end.
(** prtime.cc:999-1001. *)
Definition skip_t (s : cstr) : cstr := if iso_t s then skipn 1 s else s.
(** prtime.cc:499-1002: the loop; [None]: more than 1001 tokens. *)
Fixpoint tokens (fuel : nat) (str : cstr) (st : pst) (s : cstr) : outcome (option pst) :=
  match s with
  | [] => Ok (Some st)
  | _ =>
    match fuel with
    | O => Ok None
    | S f =>
      obind (token st s) (fun '(st', s') => tokens f str st' (skip_t (skip_more str (s_year st') (skip_token s'))))
    end
  end.

(** prtime.cc:1004-1060: (zone_offset, dst_offset) in minutes. *)
Definition zone_minutes (z : zone) : Z * Z :=
  match z with
  | PST => (-8 * 60, 0) | PDT => (-8 * 60, 60) | MST => (-7 * 60, 0) | MDT => (-7 * 60, 60)
  | CST => (-6 * 60, 0) | CDT => (-6 * 60, 60) | EST => (-5 * 60, 0) | EDT => (-5 * 60, 60)
  | AST => (-4 * 60, 0) | NST => (-3 * 60 - 30, 0) | GMT => (0, 0) | BST => (0, 60)
  | MET => (60, 0) | EET => (120, 0) | JST => (540, 0)
  end.
Definition or0 (z : Z) : Z := if z =? -1 then 0 else z.
(** The C library's local time: [l_mktime] takes (year, month 0..11, day, hour, minute, second) and gives
    the time_t, -1 when it cannot; [l_off] is localTime.tm_min + 60 * tm_hour + 1440 * (tm_mday - 2) of
    localtime_r(86400), prtime.cc:1170-1173. *)
Record local_zone := { l_mktime : Z -> Z -> Z -> Z -> Z -> Z -> Z; l_off : Z }.
(** prtime.cc:1004-1181: after the loop.  [None] is PR_FAILURE. *)
Definition finish (lz : local_zone) (gmt_default : bool) (st : pst) : outcome (option Z) :=
  let '(zoff, dst) :=
    match s_zone st with
    | Some z => if s_zoff st =? -1 then zone_minutes z else (s_zoff st, 0)
    | None => (s_zoff st, 0)
    end in
  match s_month st with
  | None => Ok None
  | Some month =>
    if (s_date st =? -1) || (s_year st =? -1) || (32767 <? s_year st) then Ok None
    else
      obind (normalize (mkP (or0 (s_usec st)) (or0 (s_sec st)) (or0 (s_min st)) (or0 (s_hour st)) (s_date st) month
                            (wrap16 (s_year st)) (match s_dotw st with Some d => wrap8 d | None => 0 end) 0 0 0)) (fun r =>
      let zoff1 := match s_zone st with None => if gmt_default then 0 else zoff | Some _ => zoff end in
      let with_offset (o : Z) : outcome (option Z) :=
        obind (ck32 (o * 60)) (fun g =>
        obind (implode (mkP (p_usec r) (p_sec r) (p_min r) (p_hour r) (p_mday r) (p_month r) (p_year r)
                            (p_wday r) (p_yday r) g (dst * 60))) (fun t => Ok (Some t))) in
      if zoff1 =? -1 then
        if (-1 <? p_month r) && (0 <? p_mday r) && (-1 <? p_hour r) && (-1 <? p_min r) && (-1 <? p_sec r) then
          let secs := l_mktime lz (p_year r) (p_month r) (p_mday r) (p_hour r) (p_min r) (p_sec r) in
          if (1970 <=? p_year r) && negb (secs =? -1) then
            obind (ck64 (secs * 1000000)) (fun us => obind (ck64 (us + p_usec r)) (fun t => Ok (Some t)))
          else with_offset (l_off lz)
        else CheckFail
      else with_offset zoff1)
  end.
(** prtime.cc:474-1181 PR_ParseTimeString on a non-null string. *)
Definition parse_time (lz : local_zone) (gmt_default : bool) (str : cstr) : outcome (option Z) :=
  obind (tokens 1001 str pst0 str) (fun o => match o with None => Ok None | Some st => finish lz gmt_default st end).

(** base/time/time.cc:321-338 Time::FromStringInternal; time.h:156-163 FromString ([is_local]), FromUTCString.
    [None] is the return value false. *)
Definition from_string (lz : local_zone) (is_local : bool) (str : cstr) : outcome (option Z) :=
  match str with
  | [] => Ok None
  | _ => obind (parse_time lz (negb is_local) str) (fun o => match o with
         | None => Ok None
         | Some us => obind (td_add unix_epoch us) (fun t => Ok (Some t))
         end)
  end.
