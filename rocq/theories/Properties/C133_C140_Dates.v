(** C133-C140: date strings (Time::FromString, Time::FromUTCString) and their calendar arithmetic. *)
From Coq Require Import String.
From Verif Require Import Model.Common Model.TimeDelta Model.PrTime Spec.TimeSpec Spec.DateSpec.
From Verif Require Import Proofs.Tac Proofs.TimeProofs Proofs.TimeProofs2 Proofs.Calendar Proofs.PrTimeProofs Proofs.PrTimeProofs2 Proofs.PrTimeProofs3
  Proofs.PrTimeProofs4 Proofs.PrTimeProofs5.
Local Open Scope Z_scope.
Local Open Scope list_scope.

Definition some_zone : local_zone := {| l_mktime := fun _ _ _ _ _ _ => -1; l_off := 480 |}.

(** ** C133: every string is handled: no read outside it, no overflow, no failed check *)
Theorem C133_every_string : forall lz is_local str,
  (forall y m d h mi s, Z.abs (l_mktime lz y m d h mi s) <= 2000000000000) -> Z.abs (l_off lz) <= 100000 ->
  exists o, from_string lz is_local str = Ok o.
Proof.
  intros lz l str A B. unfold from_string. destruct str as [|c t]; [eauto|].
  destruct (parse_total lz (negb l) (c :: t) (conj A B)) as (o & -> & Bo). cbn [obind]. destruct o as [us|]; [|eauto].
  specialize (Bo us eq_refl). rewrite td_add_fin by (unfold unix_epoch; nums; lia). cbn [obind]. eauto.
Qed.
(** Parsing as UTC does not depend on the local zone, whatever the string. *)
Theorem C133_utc_ignores_local_zone : forall lz lz' str, from_string lz false str = from_string lz' false str.
Proof.
  intros lz lz' str. unfold from_string. destruct str as [|c t]; [reflexivity|].
  assert (parse_time lz true (c :: t) = parse_time lz' true (c :: t)) as E; [|cbn [negb]; now rewrite E].
  unfold parse_time. destruct (tokens 1001 (c :: t) pst0 (c :: t)) as [[st|]| |]; cbn [obind]; try reflexivity.
  unfold finish. destruct (s_zone st) as [z|]; [destruct (Z.eqb_spec (s_zoff st) (-1)); [destruct z|]|]; cbn [zone_minutes];
    (destruct (s_month st); [|reflexivity]);
    (destruct ((s_date st =? -1) || (s_year st =? -1) || (32767 <? s_year st)); [reflexivity|]);
    match goal with |- obind ?x _ = obind ?x _ => destruct x as [r| |]; cbn [obind]; try reflexivity end.
  rewrite (proj2 (Z.eqb_neq (s_zoff st) (-1))) by assumption. reflexivity.
Qed.
Example C133_nonvacuous :
  from_string some_zone false (text "Tue, 15 Nov 1994 12:45:26 GMT") = Ok (Some 12429377126000000) /\
  from_string some_zone false (text "a+5-:1/2T3[)") = Ok None /\
  from_string some_zone true (text "15 Nov 1994") = Ok (Some (12429331200000000 - 480 * 60000000)).
Proof. vm_compute. repeat split. Qed.

(** ** C134: RFC 1123 dates *)
Theorem C134_rfc1123 : forall lz is_local w y m d h mi s,
  0 <= w <= 6 -> 1 <= y <= 9999 -> valid_date y m d -> valid_clock h mi s ->
  from_string lz is_local (rfc1123 w y m d h mi s (text "GMT")) =
    Ok (Some (11644473600000000 + utc_seconds y m d h mi s * 1000000)).
Proof.
  intros lz l w y m d h mi s W Y V C. pose proof (valid_range _ _ _ _ _ _ V C) as R.
  destruct (year_range y 1 10000 ltac:(lia) ltac:(lia)) as [Y1 Y2].
  change (year_start 1) with (-719162) in *. change (year_start 10000) with 2932897 in *.
  destruct V as [V1 V2]. pose proof (month_len_pos y m) as ML. destruct C as (C1 & C2 & C3).
  assert (P : parse_time lz (negb l) (rfc1123 w y m d h mi s (text "GMT")) = Ok (Some (utc_seconds y m d h mi s * 1000000))).
  { unfold parse_time. change (text "GMT") with (zone_name GMT). rewrite (rfc_named w y m d h mi s GMT) by (unfold rfc_ok; lia). cbn [obind].
    rewrite (finish_exact lz (negb l) _ (m - 1) 0 0); cbn [s_month s_date s_year s_zone s_zoff s_hour s_min s_sec s_usec];
      unfold or0; rewrite ?(proj2 (Z.eqb_neq h (-1))), ?(proj2 (Z.eqb_neq mi (-1))), ?(proj2 (Z.eqb_neq s (-1))) by lia;
      replace (m - 1 + 1) with m by lia; rewrite ?(lenient_valid y m) by exact V1.
    - do 2 f_equal. change (-1 =? -1) with true. cbv iota. lia.
    - unfold ok_st. cbn [s_month s_date s_year s_zone s_zoff s_hour s_min s_sec s_usec]. split; [intros k [= <-]; lia|lia].
    - reflexivity.
    - lia.
    - lia.
    - left. split; reflexivity.
    - change (year_start 32768) with 11248738. change (year_start 1) with (-719162). lia.
    - change (year_start 32768) with 11248738. change (year_start 1) with (-719162). lia. }
  apply from_string_parse; [|exact P|lia].
  unfold rfc1123. destruct (weekday_name_cons w W) as (c & t & ->). discriminate.
Qed.
(** The weekday is not checked: any of the seven gives the same time.  Formatting and parsing is injective. *)
Theorem C134_injective : forall lz l w y m d h mi s w' y' m' d' h' mi' s',
  0 <= w <= 6 -> 1 <= y <= 9999 -> valid_date y m d -> valid_clock h mi s ->
  0 <= w' <= 6 -> 1 <= y' <= 9999 -> valid_date y' m' d' -> valid_clock h' mi' s' ->
  (from_string lz l (rfc1123 w y m d h mi s (text "GMT")) = from_string lz l (rfc1123 w' y' m' d' h' mi' s' (text "GMT")) <->
   (y, m, d, h, mi, s) = (y', m', d', h', mi', s')).
Proof.
  intros lz l w y m d h mi s w' y' m' d' h' mi' s' W Y V C W' Y' V' C'.
  rewrite !C134_rfc1123 by assumption. split.
  - intros E. apply seconds_of_inj; [split; assumption|split; assumption|]. cbn [seconds_of].
    assert (G : forall a b : Z, Ok (Some a) = Ok (Some b) -> a = b) by congruence. apply G in E. lia.
  - intros [= <- <- <- <- <- <-]. reflexivity.
Qed.
Example C134_nonvacuous : rfc1123 2 1994 11 15 12 45 26 (text "GMT") = text "Tue, 15 Nov 1994 12:45:26 GMT" /\
  valid_date 1994 11 15 /\ valid_clock 12 45 26.
Proof. vm_compute. repeat split; congruence. Qed.

(** ** C135: out-of-range days, hours, minutes and seconds carry over into the next unit *)
Theorem C135_carry_over : forall lz is_local w y m d h mi s,
  0 <= w <= 6 -> 2 <= y <= 9999 -> 1 <= m <= 12 -> 0 <= d <= 31 -> 0 <= h <= 99 -> 0 <= mi <= 99 -> 0 <= s <= 99 ->
  from_string lz is_local (rfc1123 w y m d h mi s (text "GMT")) =
    Ok (Some (11644473600000000 +
       ((day_number y m 1 + (d - 1)) * 86400 + h * 3600 + mi * 60 + s) * 1000000)).
Proof.
  intros lz l w y m d h mi s W Y M D H Mi S.
  assert (DR : year_start y <= day_number y m 1 < year_start (y + 1)).
  { apply day_in_year. pose proof (month_len_pos y m). split; lia. }
  destruct (year_range y 2 10000 ltac:(lia) ltac:(lia)) as [Y1 Y2].
  change (year_start 2) with (-718797) in *. change (year_start 10000) with 2932897 in *.
  assert (LE : lenient_seconds y m d h mi s = (day_number y m 1 + (d - 1)) * 86400 + h * 3600 + mi * 60 + s).
  { rewrite lenient_valid by exact M. unfold utc_seconds, day_number. lia. }
  assert (P : parse_time lz (negb l) (rfc1123 w y m d h mi s (text "GMT")) =
    Ok (Some (((day_number y m 1 + (d - 1)) * 86400 + h * 3600 + mi * 60 + s) * 1000000))).
  { unfold parse_time. change (text "GMT") with (zone_name GMT). rewrite (rfc_named w y m d h mi s GMT) by (unfold rfc_ok; lia). cbn [obind].
    rewrite (finish_exact lz (negb l) _ (m - 1) 0 0); cbn [s_month s_date s_year s_zone s_zoff s_hour s_min s_sec s_usec];
      unfold or0; rewrite ?(proj2 (Z.eqb_neq h (-1))), ?(proj2 (Z.eqb_neq mi (-1))), ?(proj2 (Z.eqb_neq s (-1))) by lia;
      replace (m - 1 + 1) with m by lia; rewrite ?LE.
    - do 2 f_equal. change (-1 =? -1) with true. cbv iota. lia.
    - unfold ok_st. cbn [s_month s_date s_year s_zone s_zoff s_hour s_min s_sec s_usec]. split; [intros k [= <-]; lia|lia].
    - reflexivity.
    - lia.
    - lia.
    - left. split; reflexivity.
    - change (year_start 32768) with 11248738. change (year_start 1) with (-719162). lia.
    - change (year_start 32768) with 11248738. change (year_start 1) with (-719162). lia. }
  apply from_string_parse; [|exact P|lia].
  unfold rfc1123. destruct (weekday_name_cons w W) as (c & t & ->). discriminate.
Qed.
(** The documented case: 29 February of a common year is read as 1 March. *)
Theorem C135_feb_29 : forall lz l w y h mi s, 0 <= w <= 6 -> 2 <= y <= 9999 -> leap y = false -> valid_clock h mi s ->
  from_string lz l (rfc1123 w y 2 29 h mi s (text "GMT")) = from_string lz l (rfc1123 w y 3 1 h mi s (text "GMT")).
Proof.
  intros lz l w y h mi s W Y L (C1 & C2 & C3). rewrite !C135_carry_over by lia. do 2 f_equal.
  assert (month_len y 2 = 28) as M2 by (unfold month_len; rewrite L; reflexivity).
  pose proof (month_start_next y 2 ltac:(lia)) as N. change (2 + 1) with 3 in N. unfold day_number. lia.
Qed.
Example C135_nonvacuous : leap 1995 = false /\ leap 1900 = false /\
  from_string some_zone false (text "Tue, 00 Mar 2000 24:00:60 GMT") = from_string some_zone false (text "Tue, 01 Mar 2000 00:01:00 GMT").
Proof. vm_compute. repeat split. Qed.

(** ** C136: named time zones *)
Definition zone_table : list (string * Z) :=
  [("GMT", 0); ("PST", -8 * 60); ("PDT", -7 * 60); ("MST", -7 * 60); ("MDT", -6 * 60); ("CST", -6 * 60); ("CDT", -5 * 60);
   ("EST", -5 * 60); ("EDT", -4 * 60); ("AST", -4 * 60); ("NST", -210); ("BST", 60); ("MET", 60); ("EET", 120); ("JST", 540)]%string.
Theorem C136_named_zone : forall lz is_local w y m d h mi s name minutes,
  In (name, minutes) zone_table ->
  0 <= w <= 6 -> 2 <= y <= 9998 -> valid_date y m d -> valid_clock h mi s ->
  from_string lz is_local (rfc1123 w y m d h mi s (text name)) =
    Ok (Some (11644473600000000 + (utc_seconds y m d h mi s - minutes * 60) * 1000000)).
Proof.
  intros lz l w y m d h mi s name minutes I W Y V C. pose proof (valid_range _ _ _ _ _ _ V C) as R.
  destruct (year_range y 2 10000 ltac:(lia) ltac:(lia)) as [Y1 Y2].
  change (year_start 2) with (-718797) in *. change (year_start 10000) with 2932897 in *.
  destruct V as [V1 V2]. pose proof (month_len_pos y m) as ML. destruct C as (C1 & C2 & C3).
  assert (exists z zo ds, text name = zone_name z /\ zone_minutes z = (zo, ds) /\ zo + ds = minutes /\ Z.abs zo <= 600 /\ 0 <= ds <= 60)
    as (z & zo & ds & En & Ez & Em & Bz & Bd).
  { unfold zone_table in I. cbn [In] in I.
    repeat (destruct I as [[= <- <-]|I]; [|]); [..|destruct I].
    all: first [exists GMT; do 2 eexists; split; [reflexivity|]; split; [reflexivity|]; lia
      |exists PST; do 2 eexists; split; [reflexivity|]; split; [reflexivity|]; lia
      |exists PDT; do 2 eexists; split; [reflexivity|]; split; [reflexivity|]; lia
      |exists MST; do 2 eexists; split; [reflexivity|]; split; [reflexivity|]; lia
      |exists MDT; do 2 eexists; split; [reflexivity|]; split; [reflexivity|]; lia
      |exists CST; do 2 eexists; split; [reflexivity|]; split; [reflexivity|]; lia
      |exists CDT; do 2 eexists; split; [reflexivity|]; split; [reflexivity|]; lia
      |exists EST; do 2 eexists; split; [reflexivity|]; split; [reflexivity|]; lia
      |exists EDT; do 2 eexists; split; [reflexivity|]; split; [reflexivity|]; lia
      |exists AST; do 2 eexists; split; [reflexivity|]; split; [reflexivity|]; lia
      |exists NST; do 2 eexists; split; [reflexivity|]; split; [reflexivity|]; lia
      |exists BST; do 2 eexists; split; [reflexivity|]; split; [reflexivity|]; lia
      |exists MET; do 2 eexists; split; [reflexivity|]; split; [reflexivity|]; lia
      |exists EET; do 2 eexists; split; [reflexivity|]; split; [reflexivity|]; lia
      |exists JST; do 2 eexists; split; [reflexivity|]; split; [reflexivity|]; lia]. }
  rewrite En.
  assert (P : parse_time lz (negb l) (rfc1123 w y m d h mi s (zone_name z)) = Ok (Some ((utc_seconds y m d h mi s - minutes * 60) * 1000000))).
  { unfold parse_time. rewrite (rfc_named w y m d h mi s z) by (unfold rfc_ok; lia). cbn [obind].
    rewrite (finish_exact lz (negb l) _ (m - 1) zo ds); cbn [s_month s_date s_year s_zone s_zoff s_hour s_min s_sec s_usec];
      unfold or0; rewrite ?(proj2 (Z.eqb_neq h (-1))), ?(proj2 (Z.eqb_neq mi (-1))), ?(proj2 (Z.eqb_neq s (-1))) by lia;
      replace (m - 1 + 1) with m by lia; rewrite ?(lenient_valid y m) by exact V1.
    - do 2 f_equal. change (-1 =? -1) with true. cbv iota. lia.
    - unfold ok_st. cbn [s_month s_date s_year s_zone s_zoff s_hour s_min s_sec s_usec]. split; [intros k [= <-]; lia|lia].
    - reflexivity.
    - lia.
    - lia.
    - left. split; [reflexivity|]. now rewrite Ez.
    - change (year_start 32768) with 11248738. change (year_start 1) with (-719162). lia.
    - change (year_start 32768) with 11248738. change (year_start 1) with (-719162). lia. }
  apply from_string_parse; [|exact P|lia].
  unfold rfc1123. destruct (weekday_name_cons w W) as (c & t & ->). discriminate.
Qed.
(** No zone, or "UTC" (which the parser does not know): FromUTCString reads the time as UTC. *)
Theorem C136_no_zone : forall lz w y m d h mi s z, z = [] \/ z = text "UTC" ->
  0 <= w <= 6 -> 1 <= y <= 9999 -> valid_date y m d -> valid_clock h mi s ->
  from_string lz false (rfc1123 w y m d h mi s z) = Ok (Some (11644473600000000 + utc_seconds y m d h mi s * 1000000)).
Proof.
  intros lz w y m d h mi s z Hz W Y V C. pose proof (valid_range _ _ _ _ _ _ V C) as R.
  destruct (year_range y 1 10000 ltac:(lia) ltac:(lia)) as [Y1 Y2].
  change (year_start 1) with (-719162) in *. change (year_start 10000) with 2932897 in *.
  destruct V as [V1 V2]. pose proof (month_len_pos y m) as ML. destruct C as (C1 & C2 & C3).
  assert (P : parse_time lz true (rfc1123 w y m d h mi s z) = Ok (Some (utc_seconds y m d h mi s * 1000000))).
  { unfold parse_time.
    assert (tokens 1001 (rfc1123 w y m d h mi s z) pst0 (rfc1123 w y m d h mi s z) =
            Ok (Some (mkS (Some w) (Some (m - 1)) None (-1) d y h mi s (-1)))) as ->.
    { destruct Hz as [-> | ->]; [apply rfc_nozone|apply rfc_utc]; unfold rfc_ok; lia. }
    cbn [obind].
    rewrite (finish_exact lz true _ (m - 1) 0 0); cbn [s_month s_date s_year s_zone s_zoff s_hour s_min s_sec s_usec];
      unfold or0; rewrite ?(proj2 (Z.eqb_neq h (-1))), ?(proj2 (Z.eqb_neq mi (-1))), ?(proj2 (Z.eqb_neq s (-1))) by lia;
      replace (m - 1 + 1) with m by lia; rewrite ?(lenient_valid y m) by exact V1.
    - do 2 f_equal. change (-1 =? -1) with true. cbv iota. lia.
    - unfold ok_st. cbn [s_month s_date s_year s_zone s_zoff s_hour s_min s_sec s_usec]. split; [intros k [= <-]; lia|lia].
    - reflexivity.
    - lia.
    - lia.
    - auto.
    - change (year_start 32768) with 11248738. change (year_start 1) with (-719162). lia.
    - change (year_start 32768) with 11248738. change (year_start 1) with (-719162). lia. }
  apply from_string_parse; [|exact P|lia].
  unfold rfc1123. destruct (weekday_name_cons w W) as (c & t & ->). discriminate.
Qed.
Example C136_nonvacuous :
  from_string some_zone true (text "Tue, 15 Nov 1994 12:45:26 EDT") = from_string some_zone true (text "Tue, 15 Nov 1994 16:45:26 GMT").
Proof. vm_compute. reflexivity. Qed.

(** ** C137: numeric time zones *)
Definition offset_text (plus : bool) (hh mm : Z) : list Z := (if plus then 43 else 45) :: dec2 hh ++ dec2 mm.
Definition offset_minutes (plus : bool) (hh mm : Z) : Z := if plus then hh * 60 + mm else - (hh * 60 + mm).
Definition C137_statement : Prop := forall lz is_local w y m d h mi s plus hh mm,
  0 <= hh < 24 -> 0 <= mm < 60 -> 0 <= w <= 6 -> 2 <= y <= 9998 -> valid_date y m d -> valid_clock h mi s ->
  from_string lz is_local (rfc1123 w y m d h mi s (offset_text plus hh mm)) =
    Ok (Some (11644473600000000 + (utc_seconds y m d h mi s - offset_minutes plus hh mm * 60) * 1000000)).
(** "-0001" is taken for the parser's own "no offset seen" mark. *)
Theorem C137_statement_refuted : ~ C137_statement.
Proof.
  intros S. specialize (S some_zone false 2 1994 11 15 12 45 26 false 0 1).
  assert (V : valid_date 1994 11 15) by (vm_compute; repeat split; congruence).
  specialize (S ltac:(lia) ltac:(lia) ltac:(lia) ltac:(lia) V ltac:(unfold valid_clock; lia)).
  vm_compute in S. discriminate S.
Qed.
Theorem C137_offset_partial : forall lz is_local w y m d h mi s plus hh mm,
  offset_minutes plus hh mm <> -1 ->
  0 <= hh < 100 -> 0 <= mm < 100 -> 0 <= w <= 6 -> 2 <= y <= 9998 -> valid_date y m d -> valid_clock h mi s ->
  from_string lz is_local (rfc1123 w y m d h mi s (offset_text plus hh mm)) =
    Ok (Some (11644473600000000 + (utc_seconds y m d h mi s - offset_minutes plus hh mm * 60) * 1000000)).
Proof.
  intros lz l w y m d h mi s plus hh mm N Hh Hm W Y V C. pose proof (valid_range _ _ _ _ _ _ V C) as R.
  destruct (year_range y 2 10000 ltac:(lia) ltac:(lia)) as [Y1 Y2].
  change (year_start 2) with (-718797) in *. change (year_start 10000) with 2932897 in *.
  destruct V as [V1 V2]. pose proof (month_len_pos y m) as ML. destruct C as (C1 & C2 & C3).
  unfold offset_minutes in *.
  assert (P : parse_time lz (negb l) (rfc1123 w y m d h mi s (offset_text plus hh mm)) =
     Ok (Some ((utc_seconds y m d h mi s - (if plus then hh * 60 + mm else - (hh * 60 + mm)) * 60) * 1000000))).
  { unfold parse_time, offset_text. rewrite (rfc_offset w y m d h mi s hh mm plus) by (unfold rfc_ok; lia). cbn [obind].
    rewrite (finish_exact lz (negb l) _ (m - 1) (if plus then hh * 60 + mm else - (hh * 60 + mm)) 0);
      cbn [s_month s_date s_year s_zone s_zoff s_hour s_min s_sec s_usec];
      unfold or0; rewrite ?(proj2 (Z.eqb_neq h (-1))), ?(proj2 (Z.eqb_neq mi (-1))), ?(proj2 (Z.eqb_neq s (-1))) by lia;
      replace (m - 1 + 1) with m by lia; rewrite ?(lenient_valid y m) by exact V1.
    - do 2 f_equal. change (-1 =? -1) with true. cbv iota. lia.
    - unfold ok_st. cbn [s_month s_date s_year s_zone s_zoff s_hour s_min s_sec s_usec]. split; [intros k [= <-]; lia|destruct plus; lia].
    - reflexivity.
    - lia.
    - lia.
    - right. destruct plus; lia.
    - change (year_start 32768) with 11248738. change (year_start 1) with (-719162). lia.
    - change (year_start 32768) with 11248738. change (year_start 1) with (-719162). destruct plus; lia. }
  apply from_string_parse; [|exact P|destruct plus; lia].
  unfold rfc1123. destruct (weekday_name_cons w W) as (c & t & ->). discriminate.
Qed.
Theorem C137_minus_one_minute_partial : forall lz is_local w y m d h mi s,
  0 <= w <= 6 -> 2 <= y <= 9998 -> valid_date y m d -> valid_clock h mi s ->
  from_string lz is_local (rfc1123 w y m d h mi s (text "-0001")) = from_string lz is_local (rfc1123 w y m d h mi s (text "+0000")).
Proof.
  intros lz l w y m d h mi s W Y V C.
  assert (NE : forall z, rfc1123 w y m d h mi s z <> []).
  { intros z. unfold rfc1123. destruct (weekday_name_cons w W) as (c & t & ->). discriminate. }
  assert (EQ : forall a b, a <> [] -> b <> [] -> parse_time lz (negb l) a = parse_time lz (negb l) b -> from_string lz l a = from_string lz l b).
  { intros a b Na Nb E. unfold from_string. destruct a; [contradiction|]. destruct b; [contradiction|]. now rewrite E. }
  apply EQ; try apply NE. unfold parse_time.
  destruct V as [V1 V2]. pose proof (month_len_pos y m) as ML. destruct C as (C1 & C2 & C3).
  pose proof (rfc_offset w y m d h mi s 0 1 false ltac:(unfold rfc_ok; lia) ltac:(lia) ltac:(lia)) as A.
  pose proof (rfc_offset w y m d h mi s 0 0 true ltac:(unfold rfc_ok; lia) ltac:(lia) ltac:(lia)) as B.
  cbv zeta in A, B. change ((if false then 43 else 45) :: dec2 0 ++ dec2 1) with (text "-0001") in A.
  change ((if true then 43 else 45) :: dec2 0 ++ dec2 0) with (text "+0000") in B.
  rewrite A, B. reflexivity.
Qed.
(** One or two digits are hours. *)
Theorem C137_hours_partial : forall lz is_local w y m d h mi s (plus : bool) ds,
  Forall (fun d => 0 <= d <= 9) ds -> (1 <= Datatypes.length ds <= 2)%nat -> 0 <= w <= 6 -> 2 <= y <= 9998 -> valid_date y m d -> valid_clock h mi s ->
  from_string lz is_local (rfc1123 w y m d h mi s ((if plus then 43 else 45) :: map (Z.add 48) ds)) =
    Ok (Some (11644473600000000 + (utc_seconds y m d h mi s - (if plus then 1 else -1) * fold_left (fun a d => a * 10 + d) ds 0 * 3600) * 1000000)).
Proof.
  intros lz l w y m d h mi s plus ds F L W Y V C. pose proof (valid_range _ _ _ _ _ _ V C) as R.
  destruct (year_range y 2 10000 ltac:(lia) ltac:(lia)) as [Y1 Y2].
  change (year_start 2) with (-718797) in *. change (year_start 10000) with 2932897 in *.
  destruct V as [V1 V2]. pose proof (month_len_pos y m) as ML. destruct C as (C1 & C2 & C3).
  pose proof (rfc_hours w y m d h mi s ds plus ltac:(unfold rfc_ok; lia) F L) as T. cbv zeta in T.
  assert (HB : 0 <= fold_left (fun a d => a * 10 + d) ds 0 <= 99).
  { destruct ds as [|a [|b [|c ds]]]; cbn [Datatypes.length] in L; try lia; repeat match goal with H : Forall _ (_ :: _) |- _ => inversion H; subst; clear H end; cbn [fold_left]; lia. }
  set (hh := fold_left (fun a d => a * 10 + d) ds 0) in *.
  assert (P : parse_time lz (negb l) (rfc1123 w y m d h mi s ((if plus then 43 else 45) :: map (Z.add 48) ds)) =
     Ok (Some ((utc_seconds y m d h mi s - (if plus then 1 else -1) * hh * 3600) * 1000000))).
  { unfold parse_time. rewrite T. cbn [obind].
    rewrite (finish_exact lz (negb l) _ (m - 1) (hh * 60 * (if plus then 1 else -1)) 0);
      cbn [s_month s_date s_year s_zone s_zoff s_hour s_min s_sec s_usec];
      unfold or0; rewrite ?(proj2 (Z.eqb_neq h (-1))), ?(proj2 (Z.eqb_neq mi (-1))), ?(proj2 (Z.eqb_neq s (-1))) by lia;
      replace (m - 1 + 1) with m by lia; rewrite ?(lenient_valid y m) by exact V1.
    - do 2 f_equal. change (-1 =? -1) with true. cbv iota. lia.
    - unfold ok_st. cbn [s_month s_date s_year s_zone s_zoff s_hour s_min s_sec s_usec]. split; [intros k [= <-]; lia|destruct plus; lia].
    - reflexivity.
    - lia.
    - lia.
    - right. destruct plus; lia.
    - change (year_start 32768) with 11248738. change (year_start 1) with (-719162). lia.
    - change (year_start 32768) with 11248738. change (year_start 1) with (-719162). destruct plus; lia. }
  apply from_string_parse; [|exact P|destruct plus; lia].
  unfold rfc1123. destruct (weekday_name_cons w W) as (c & t & ->). discriminate.
Qed.
Example C137_nonvacuous : offset_text false 5 30 = text "-0530" /\
  from_string some_zone true (text "Tue, 15 Nov 1994 12:45:26 -0530") = from_string some_zone true (text "Tue, 15 Nov 1994 18:15:26 GMT").
Proof. vm_compute. split; reflexivity. Qed.

(** ** C138: ISO 8601 dates with microseconds *)
Theorem C138_iso8601 : forall lz is_local y m d h mi s us,
  100 <= y <= 9999 -> valid_date y m d -> valid_clock h mi s -> 0 <= us < 1000000 ->
  from_string lz is_local (iso8601 y m d h mi s us) =
    Ok (Some (11644473600000000 + (utc_seconds y m d h mi s * 1000000 + us))).
Proof.
  intros lz l y m d h mi s us Y V C U. pose proof (valid_range _ _ _ _ _ _ V C) as R.
  destruct (year_range y 1 10000 ltac:(lia) ltac:(lia)) as [Y1 Y2].
  change (year_start 1) with (-719162) in *. change (year_start 10000) with 2932897 in *.
  destruct V as [V1 V2]. pose proof (month_len_pos y m) as ML. destruct C as (C1 & C2 & C3).
  assert (P : parse_time lz (negb l) (iso8601 y m d h mi s us) = Ok (Some (utc_seconds y m d h mi s * 1000000 + us))).
  { unfold parse_time. rewrite (iso_tokens y m d h mi s us) by lia. cbn [obind].
    rewrite (finish_exact lz (negb l) _ (m - 1) 0 0); cbn [s_month s_date s_year s_zone s_zoff s_hour s_min s_sec s_usec];
      unfold or0; rewrite ?(proj2 (Z.eqb_neq h (-1))), ?(proj2 (Z.eqb_neq mi (-1))), ?(proj2 (Z.eqb_neq s (-1))), ?(proj2 (Z.eqb_neq us (-1))) by lia;
      replace (m - 1 + 1) with m by lia; rewrite ?(lenient_valid y m) by exact V1.
    - do 2 f_equal. lia.
    - unfold ok_st. cbn [s_month s_date s_year s_zone s_zoff s_hour s_min s_sec s_usec]. split; [intros k [= <-]; lia|lia].
    - reflexivity.
    - lia.
    - lia.
    - left. split; reflexivity.
    - change (year_start 32768) with 11248738. change (year_start 1) with (-719162). lia.
    - change (year_start 32768) with 11248738. change (year_start 1) with (-719162). lia. }
  apply from_string_parse; [|exact P|lia]. discriminate.
Qed.
(** The same with any number of digits behind the dot; those after the sixth are dropped. *)
Theorem C138_any_fraction : forall lz is_local y m d h mi s ds,
  100 <= y <= 9999 -> valid_date y m d -> valid_clock h mi s -> Forall (fun d => 0 <= d <= 9) ds ->
  from_string lz is_local (iso8601_digits y m d h mi s ds) =
    Ok (Some (11644473600000000 + (utc_seconds y m d h mi s * 1000000 + micros ds))).
Proof.
  intros lz l y m d h mi s ds Y V C F. pose proof (valid_range _ _ _ _ _ _ V C) as R. pose proof (micros_range ds F) as U.
  destruct (year_range y 1 10000 ltac:(lia) ltac:(lia)) as [Y1 Y2].
  change (year_start 1) with (-719162) in *. change (year_start 10000) with 2932897 in *.
  destruct V as [V1 V2]. pose proof (month_len_pos y m) as ML. destruct C as (C1 & C2 & C3).
  assert (P : parse_time lz (negb l) (iso8601_digits y m d h mi s ds) = Ok (Some (utc_seconds y m d h mi s * 1000000 + micros ds))).
  { unfold parse_time. rewrite (iso_digits_tokens y m d h mi s ds) by (lia || assumption). cbn [obind].
    rewrite (finish_exact lz (negb l) _ (m - 1) 0 0); cbn [s_month s_date s_year s_zone s_zoff s_hour s_min s_sec s_usec];
      unfold or0; rewrite ?(proj2 (Z.eqb_neq h (-1))), ?(proj2 (Z.eqb_neq mi (-1))), ?(proj2 (Z.eqb_neq s (-1))), ?(proj2 (Z.eqb_neq (micros ds) (-1))) by lia;
      replace (m - 1 + 1) with m by lia; rewrite ?(lenient_valid y m) by exact V1.
    - do 2 f_equal. lia.
    - unfold ok_st. cbn [s_month s_date s_year s_zone s_zoff s_hour s_min s_sec s_usec]. split; [intros k [= <-]; lia|lia].
    - reflexivity.
    - lia.
    - lia.
    - left. split; reflexivity.
    - change (year_start 32768) with 11248738. change (year_start 1) with (-719162). lia.
    - change (year_start 32768) with 11248738. change (year_start 1) with (-719162). lia. }
  apply from_string_parse; [|exact P|lia]. discriminate.
Qed.
Example C138_any_fraction_nonvacuous : iso8601_digits 1995 6 17 23 11 25 [3; 4; 2] = text "1995-06-17T23:11:25.342Z" /\ micros [3; 4; 2] = 342000.
Proof. vm_compute. split; reflexivity. Qed.
(** Below year 100 the digits are taken for a two-digit year or a month. *)
Theorem C138_small_years_differ : exists y m d, 1 <= y < 100 /\ valid_date y m d /\
  from_string some_zone false (iso8601 y m d 0 0 0 0) <> Ok (Some (11644473600000000 + utc_seconds y m d 0 0 0 * 1000000)).
Proof. exists 95, 6, 17. split; [lia|]. split; [vm_compute; repeat split; congruence|]. vm_compute. discriminate. Qed.
Example C138_nonvacuous : iso8601 1995 6 17 23 11 25 342156 = text "1995-06-17T23:11:25.342156Z" /\ valid_date 1995 6 17.
Proof. vm_compute. repeat split; congruence. Qed.

(** ** C139: normalising and imploding calendar fields (PR_NormalizeTime, PR_ImplodeTime) *)
Definition fields_moderate (t : ptm) : Prop :=
  Forall (fun x => Z.abs x <= 100000000) [p_usec t; p_sec t; p_min t; p_hour t; p_mday t; p_gmt t; p_dst t] /\ -32768 <= p_year t <= 32767.
(** Microseconds since 1970 that the fields denote, carrying over anything out of range. *)
Definition fields_usec (t : ptm) : Z :=
  (lenient_seconds (p_year t) (p_month t + 1) (p_mday t) (p_hour t) (p_min t) (p_sec t) - p_gmt t - p_dst t) * 1000000 + p_usec t.
Theorem C139_implode : forall t, fields_moderate t -> -32768 <= p_year t + p_month t / 12 <= 32767 ->
  day_number 1 1 1 * 86400000000 <= fields_usec t < day_number 32768 1 1 * 86400000000 ->
  implode t = Ok (fields_usec t).
Proof.
  intros t [F Y] Ry R. repeat match goal with H : Forall _ (_ :: _) |- _ => inversion H; subst; clear H end.
  apply implode_exact; [unfold moderate; lia|exact Ry|].
  unfold fields_usec in R. fold (p_secs t) in R. change (day_number 1 1 1) with (year_start 1) in R.
  change (day_number 32768 1 1) with (year_start 32768) in R. change (year_start 1) with (-719162) in *.
  change (year_start 32768) with 11248738 in *. zqr. lia.
Qed.
Theorem C139_normalize : forall t, fields_moderate t -> -32768 <= p_year t + p_month t / 12 <= 32767 ->
  day_number 1 1 1 * 86400000000 <= fields_usec t < day_number 32768 1 1 * 86400000000 ->
  exists r, normalize t = Ok r /\
    valid_date (p_year r) (p_month r + 1) (p_mday r) /\ valid_clock (p_hour r) (p_min r) (p_sec r) /\ 0 <= p_usec r < 1000000 /\
    p_gmt r = 0 /\ p_dst r = 0 /\ fields_usec r = fields_usec t /\
    (* days since 1 January, and the weekday: 1 January 1970 was a Thursday *)
    p_yday r = day_number (p_year r) (p_month r + 1) (p_mday r) - day_number (p_year r) 1 1 /\
    p_wday r = (day_number (p_year r) (p_month r + 1) (p_mday r) + 4) mod 7.
Proof.
  intros t [F Y] Ry R. repeat match goal with H : Forall _ (_ :: _) |- _ => inversion H; subst; clear H end.
  assert (Mo : moderate t) by (unfold moderate; lia).
  assert (R' : year_start 1 * 86400 <= p_secs t + p_usec t / 1000000 < year_start 32768 * 86400).
  { unfold fields_usec in R. fold (p_secs t) in R. change (day_number 1 1 1) with (year_start 1) in R.
    change (day_number 32768 1 1) with (year_start 32768) in R. change (year_start 1) with (-719162) in *.
    change (year_start 32768) with 11248738 in *. zqr. lia. }
  destruct (normalize_exact t Mo Ry R') as (r & E & V & C & U & G & D & Yr & S & Yd & Wd).
  exists r. split; [exact E|]. split; [exact V|]. split; [exact C|]. split; [exact U|]. split; [exact G|]. split; [exact D|].
  split; [|split; [|exact Wd]].
  - unfold fields_usec at 1. rewrite G, D. rewrite lenient_valid by apply V.
    unfold fields_usec. fold (p_secs t). lia.
  - rewrite Yd. unfold day_number. rewrite month_start_1. lia.
Qed.
(** Normalising a normalised time changes nothing. *)
Theorem C139_idempotent : forall t r, fields_moderate t -> -32768 <= p_year t + p_month t / 12 <= 32767 ->
  day_number 1 1 1 * 86400000000 <= fields_usec t < day_number 32768 1 1 * 86400000000 ->
  normalize t = Ok r -> exists r', normalize r = Ok r' /\ implode r = implode t /\
    (p_year r', p_month r', p_mday r', p_hour r', p_min r', p_sec r') = (p_year r, p_month r, p_mday r, p_hour r, p_min r, p_sec r) /\
    p_usec r' = p_usec r.
Proof.
  intros t r F Ry R E. destruct (C139_normalize t F Ry R) as (r0 & E0 & V & C & U & G & D & FU & Yd & Wd).
  rewrite E in E0. injection E0 as <-.
  assert (1 <= p_year r <= 32767) as Yr.
  { pose proof (valid_range _ _ _ _ _ _ V C) as VR. unfold fields_usec in FU at 1. rewrite G, D, lenient_valid in FU by apply V.
    change (day_number 1 1 1) with (year_start 1) in R. change (day_number 32768 1 1) with (year_start 32768) in R.
    split; apply year_start_lt; try change (32767 + 1) with 32768; lia. }
  assert (Fr : fields_moderate r).
  { destruct V as [V1 V2], C as (C1 & C2 & C3). pose proof (month_len_pos (p_year r) (p_month r + 1)).
    split; [|lia]. repeat constructor; lia. }
  assert (Ryr : -32768 <= p_year r + p_month r / 12 <= 32767) by (rewrite Z.div_small by (destruct V; lia); lia).
  assert (Rr : day_number 1 1 1 * 86400000000 <= fields_usec r < day_number 32768 1 1 * 86400000000) by (rewrite FU; exact R).
  destruct (C139_normalize r Fr Ryr Rr) as (r' & E' & V' & C' & U' & G' & D' & FU' & _).
  exists r'. split; [exact E'|]. split; [rewrite !C139_implode by assumption; now rewrite FU|].
  assert (K : utc_seconds (p_year r') (p_month r' + 1) (p_mday r') (p_hour r') (p_min r') (p_sec r') =
              utc_seconds (p_year r) (p_month r + 1) (p_mday r) (p_hour r) (p_min r) (p_sec r) /\ p_usec r' = p_usec r).
  { unfold fields_usec in FU'. rewrite G, D, G', D', !lenient_valid in FU' by (apply V || apply V'). lia. }
  destruct K as [K1 K2]. split; [|exact K2].
  pose proof (seconds_of_inj (p_year r', p_month r' + 1, p_mday r', p_hour r', p_min r', p_sec r')
    (p_year r, p_month r + 1, p_mday r, p_hour r, p_min r, p_sec r) (conj V' C') (conj V C) K1) as Q.
  injection Q as -> Q -> -> -> ->. replace (p_month r') with (p_month r) by lia. reflexivity.
Qed.
Example C139_nonvacuous :
  normalize (mkP (-1) (-5) 61 50 0 (-14) 2001 0 0 3600 0) =
    Ok (mkP 999999 54 0 2 2 10 1999 2 305 0 0) /\ implode (mkP 0 0 0 0 1 0 1970 0 0 0 0) = Ok 0.
Proof. vm_compute. split; reflexivity. Qed.

(** ** C140: different dates are different times *)
Definition C140_statement : Prop := forall lz y m d y' m' d',
  0 <= y <= 9999 -> 0 <= y' <= 9999 -> valid_date y m d -> valid_date y' m' d' ->
  from_string lz false (rfc1123 0 y m d 0 0 0 (text "GMT")) = from_string lz false (rfc1123 0 y' m' d' 0 0 0 (text "GMT")) ->
  (y, m, d) = (y', m', d').
(** 31 December of year 0 is given the same time as 1 January of year 1. *)
Theorem C140_statement_refuted : ~ C140_statement.
Proof.
  intros S. specialize (S some_zone 0 12 31 1 1 1 ltac:(lia) ltac:(lia)).
  assert (V : valid_date 0 12 31) by (vm_compute; repeat split; congruence).
  assert (V' : valid_date 1 1 1) by (vm_compute; repeat split; congruence).
  specialize (S V V' ltac:(vm_compute; reflexivity)). discriminate S.
Qed.
Theorem C140_from_year_one_partial : forall lz y m d y' m' d',
  1 <= y <= 9999 -> 1 <= y' <= 9999 -> valid_date y m d -> valid_date y' m' d' ->
  from_string lz false (rfc1123 0 y m d 0 0 0 (text "GMT")) = from_string lz false (rfc1123 0 y' m' d' 0 0 0 (text "GMT")) ->
  (y, m, d) = (y', m', d').
Proof.
  intros lz y m d y' m' d' Y Y' V V' E. assert (C : valid_clock 0 0 0) by (unfold valid_clock; lia).
  apply C134_injective in E; try assumption; try lia. now injection E as -> -> ->.
Qed.

Print Assumptions C133_every_string.
Print Assumptions C133_utc_ignores_local_zone.
Print Assumptions C134_rfc1123.
Print Assumptions C134_injective.
Print Assumptions C135_carry_over.
Print Assumptions C135_feb_29.
Print Assumptions C136_named_zone.
Print Assumptions C136_no_zone.
Print Assumptions C137_statement_refuted.
Print Assumptions C137_offset_partial.
Print Assumptions C137_hours_partial.
Print Assumptions C138_any_fraction.
Print Assumptions C137_minus_one_minute_partial.
Print Assumptions C138_iso8601.
Print Assumptions C138_small_years_differ.
Print Assumptions C139_implode.
Print Assumptions C139_normalize.
Print Assumptions C139_idempotent.
Print Assumptions C140_statement_refuted.
Print Assumptions C140_from_year_one_partial.
