(** Whole date texts. *)
From Coq Require Import String.
From Verif Require Import Model.Common Model.TimeDelta Model.PrTime Spec.TimeSpec Spec.DateSpec Proofs.Tac Proofs.TimeProofs Proofs.TimeProofs2 Proofs.Calendar
  Proofs.PrTimeProofs Proofs.PrTimeProofs2 Proofs.PrTimeProofs3 Proofs.PrTimeProofs4.
Local Open Scope Z_scope.
Local Open Scope list_scope.

Lemma rfc_named w y m d h mi s z : rfc_ok w y m d h mi s ->
  let str := rfc1123 w y m d h mi s (zone_name z) in
  tokens 1001 str pst0 str = Ok (Some (mkS (Some w) (Some (m - 1)) (Some z) (-1) d y h mi s (-1))).
Proof.
  intros R str. change 1001%nat with (4 + 997)%nat. subst str. set (str := rfc1123 w y m d h mi s (zone_name z)) at 1.
  rewrite rfc_prefix by exact R. destruct R as (W & Y & M & D & H & Mi & S).
  rewrite tokens_step' with (st' := mkS (Some w) (Some (m - 1)) None (-1) d y h mi s (-1)) (s' := zone_name z) (f := 996%nat);
    [|discriminate|].
  - rewrite tokens_step' with (st' := mkS (Some w) (Some (m - 1)) (Some z) (-1) d y h mi s (-1)) (s' := []) (f := 995%nat);
      [reflexivity|apply zone_name_cons|]. now rewrite rnd_zone.
  - rewrite rnd_clock; try assumption; try reflexivity; [apply zone_name_ampm|apply zone_name_starts].
Qed.
Lemma rfc_offset w y m d h mi s hh mm (plus : bool) : rfc_ok w y m d h mi s -> 0 <= hh < 100 -> 0 <= mm < 100 ->
  let str := rfc1123 w y m d h mi s ((if plus then 43 else 45) :: dec2 hh ++ dec2 mm) in
  tokens 1001 str pst0 str =
    Ok (Some (mkS (Some w) (Some (m - 1)) (Some GMT) ((hh * 60 + mm) * (if plus then 1 else -1)) d y h mi s (-1))).
Proof.
  intros R Hh Hm str. change 1001%nat with (4 + 997)%nat. subst str.
  set (str := rfc1123 w y m d h mi s ((if plus then 43 else 45) :: dec2 hh ++ dec2 mm)) at 1.
  rewrite rfc_prefix by exact R. destruct R as (W & Y & M & D & H & Mi & S).
  rewrite tokens_step' with (st' := mkS (Some w) (Some (m - 1)) None (-1) d y h mi s (-1))
    (s' := (if plus then 43 else 45) :: dec2 hh ++ dec2 mm) (f := 996%nat); [|discriminate|].
  - rewrite tokens_step' with (st' := mkS (Some w) (Some (m - 1)) (Some GMT) ((hh * 60 + mm) * (if plus then 1 else -1)) d y h mi s (-1))
      (s' := []) (f := 995%nat); [reflexivity|discriminate|]. now rewrite rnd_offset.
  - rewrite rnd_clock; try assumption; try reflexivity.
    + apply no_ampm_first; destruct plus; reflexivity.
    + cbn [s_year]. destruct plus; cbn [skip_more].
      * reflexivity.
      * change (is_sep 45) with false. cbn [Z.eqb Pos.eqb andb]. rewrite (proj2 (Z.ltb_ge y 0)) by lia. rewrite andb_false_r. cbn [orb].
        change (nth 0 (dec2 hh ++ dec2 mm) 0) with (digit (hh / 10)). rewrite digit_is. reflexivity.
Qed.
(** No zone: the text ends with a blank, nothing or a zone the parser does not know. *)
Lemma rfc_utc w y m d h mi s : rfc_ok w y m d h mi s ->
  let str := rfc1123 w y m d h mi s (text "UTC") in
  tokens 1001 str pst0 str = Ok (Some (mkS (Some w) (Some (m - 1)) None (-1) d y h mi s (-1))).
Proof.
  intros R str. change 1001%nat with (4 + 997)%nat. subst str. set (str := rfc1123 w y m d h mi s (text "UTC")) at 1.
  rewrite rfc_prefix by exact R. destruct R as (W & Y & M & D & H & Mi & S).
  rewrite tokens_step' with (st' := mkS (Some w) (Some (m - 1)) None (-1) d y h mi s (-1)) (s' := text "UTC") (f := 996%nat);
    [|discriminate|].
  - rewrite tokens_step' with (st' := mkS (Some w) (Some (m - 1)) None (-1) d y h mi s (-1)) (s' := []) (f := 995%nat);
      [reflexivity|discriminate|]. reflexivity.
  - rewrite rnd_clock; try assumption; try reflexivity. apply no_ampm_first; reflexivity.
Qed.
Lemma rfc_nozone w y m d h mi s : rfc_ok w y m d h mi s ->
  let str := rfc1123 w y m d h mi s [] in
  tokens 1001 str pst0 str = Ok (Some (mkS (Some w) (Some (m - 1)) None (-1) d y h mi s (-1))).
Proof.
  intros R str. change 1001%nat with (4 + 997)%nat. subst str. set (str := rfc1123 w y m d h mi s []) at 1.
  rewrite rfc_prefix by exact R. destruct R as (W & Y & M & D & H & Mi & S).
  rewrite tokens_step' with (st' := mkS (Some w) (Some (m - 1)) None (-1) d y h mi s (-1)) (s' := []) (f := 996%nat);
    [reflexivity|discriminate|].
  rewrite rnd_clock; try assumption; try reflexivity. apply no_ampm_first; reflexivity.
Qed.

(** ** ISO 8601 *)
Lemma dig_yes c t : is_digit c = true -> dig (c :: t) = Ok (Some (c - 48, t)).
Proof. intros H. unfold dig. rewrite pk0. cbn [nth obind]. rewrite H. reflexivity. Qed.
Lemma dig_no s : is_digit (nth 0 s 0) = false -> dig s = Ok None.
Proof. intros H. unfold dig. rewrite pk0. cbn [obind]. rewrite H. reflexivity. Qed.
Lemma num1_dec4 n r : 0 <= n < 10000 -> is_digit (nth 0 r 0) = false -> num1 (dec4 n ++ r) = Ok (Some (n, r)).
Proof.
  intros H N. unfold num1, dec4. cbn [app].
  rewrite dig_yes by apply digit_is. cbn [obind]. rewrite dig_yes by apply digit_is. cbn [obind].
  rewrite dig_yes by apply digit_is. cbn [obind]. rewrite dig_yes by apply digit_is. cbn [obind].
  do 3 f_equal. pose proof (dec4_value n H) as V. unfold dec_value, dec4 in V. cbn [fold_left] in V. lia.
Qed.
Lemma num1_dec2 n r : 0 <= n < 100 -> is_digit (nth 0 r 0) = false -> num1 (dec2 n ++ r) = Ok (Some (n, r)).
Proof.
  intros H N. unfold num1, dec2. cbn [app].
  rewrite dig_yes by apply digit_is. cbn [obind]. rewrite dig_yes by apply digit_is. cbn [obind].
  rewrite dig_no by exact N. cbn [obind]. do 3 f_equal. unfold digit. zqr. lia.
Qed.
Lemma num2_dec2 n r : 0 <= n < 100 -> num2 (dec2 n ++ r) = Ok (Some (n, r)).
Proof.
  intros H. unfold num2, dec2. cbn [app].
  rewrite dig_yes by apply digit_is. cbn [obind]. rewrite dig_yes by apply digit_is. cbn [obind].
  do 3 f_equal. unfold digit. zqr. lia.
Qed.
Lemma num3_dec2 n r : 0 <= n < 100 -> is_digit (nth 0 r 0) = false -> num3 (dec2 n ++ r) = Ok (Some (n, r)).
Proof.
  intros H N. unfold num3. rewrite num1_dec2 by assumption. cbn [obind].
  assert ((Datatypes.length (dec2 n ++ r) - Datatypes.length r =? 4)%nat = false) as ->; [|reflexivity].
  apply Nat.eqb_neq. rewrite app_length, length_dec2. lia.
Qed.
Lemma rnd_iso_date str y m d t : 100 <= y < 10000 -> 0 <= m <= 12 -> 0 <= d <= 31 -> is_digit (nth 0 t 0) = true ->
  rnd str pst0 (dec4 y ++ text "-" ++ dec2 m ++ text "-" ++ dec2 d ++ text "T" ++ t) =
    Ok (mkS None (Some (m - 1)) None (-1) d y (-1) (-1) (-1) (-1), t).
Proof.
  intros Y M D T. eapply rnd_intro with (s' := text "T" ++ t) (s'' := text "T" ++ t).
  - unfold token. rewrite pk0. cbn [obind].
    change (nth 0 (dec4 y ++ text "-" ++ dec2 m ++ text "-" ++ dec2 d ++ text "T" ++ t) 0) with (digit (y / 1000)). rewrite digit_is.
    unfold case_digit. rewrite span_app by (apply dec4_digits || reflexivity). rewrite pk0. cbn [obind].
    change (nth 0 (text "-" ++ dec2 m ++ text "-" ++ dec2 d ++ text "T" ++ t) 0) with 45. cbn [Z.eqb Pos.eqb orb].
    change (pk (text "-" ++ dec2 m ++ text "-" ++ dec2 d ++ text "T" ++ t) 1) with (Ok (digit (m / 10)) : outcome Z).
    cbn [obind]. rewrite digit_is. unfold case_date. cbn [s_month pst0].
    rewrite num1_dec4 by (lia || reflexivity). cbn [obind].
    change (slash (text "-" ++ dec2 m ++ text "-" ++ dec2 d ++ text "T" ++ t)) with (Ok (Some (dec2 m ++ text "-" ++ dec2 d ++ text "T" ++ t)) : outcome (option cstr)).
    cbn [obind]. rewrite num2_dec2 by lia. cbn [obind].
    change (slash (text "-" ++ dec2 d ++ text "T" ++ t)) with (Ok (Some (dec2 d ++ text "T" ++ t)) : outcome (option cstr)).
    cbn [obind]. rewrite num3_dec2 by (lia || reflexivity). cbn [obind].
    rewrite pk0. cbn [obind]. change (text "T" ++ t) with (84 :: t). cbn [nth Z.eqb Pos.eqb]. rewrite pk1. cbn [obind]. rewrite T.
    cbn [negb andb].
    destruct (Z.ltb_spec 31 y); [|lia]. cbn [orb]. destruct (Z.ltb_spec 12 m); [lia|]. destruct (Z.ltb_spec 31 d); [lia|].
    unfold two_digit_year. destruct (Z.ltb_spec y 70); [lia|]. destruct (Z.ltb_spec y 100); [lia|]. reflexivity.
  - change (text "T" ++ t) with (84 :: t). cbn [skip_token]. unfold iso_t. rewrite T. reflexivity.
  - change (text "T" ++ t) with (84 :: t). cbn [skip_more]. change (is_sep 84) with false. cbn [Z.eqb Pos.eqb andb].
    unfold skip_t, iso_t. rewrite T. reflexivity.
Qed.
Lemma rnd_iso_clock str st h mi s us : 0 <= h < 100 -> 0 <= mi < 100 -> 0 <= s < 100 -> 0 <= us < 1000000 -> s_hour st = -1 ->
  rnd str st (dec2 h ++ text ":" ++ dec2 mi ++ text ":" ++ dec2 s ++ text "." ++ dec6 us ++ text "Z") =
    Ok (set_clock (set_zone st GMT) h mi s us, []).
Proof.
  intros H M S U Hh. eapply rnd_intro with (s' := text "Z") (s'' := []); [|reflexivity|reflexivity].
  unfold token. rewrite pk0. cbn [obind].
  set (e := text "." ++ dec6 us ++ text "Z").
  change (nth 0 (dec2 h ++ text ":" ++ dec2 mi ++ text ":" ++ dec2 s ++ e) 0) with (digit (h / 10)). rewrite digit_is.
  unfold case_digit. rewrite span_app by (apply dec2_digits || reflexivity). rewrite pk0. cbn [obind].
  change (nth 0 (text ":" ++ dec2 mi ++ text ":" ++ dec2 s ++ e) 0) with 58. cbn [Z.eqb Pos.eqb].
  unfold case_clock. rewrite Hh. cbn [Z.leb Z.compare andb]. rewrite length_dec2. cbn [Nat.ltb Nat.leb].
  change (text ":" ++ dec2 mi ++ text ":" ++ dec2 s ++ e) with (58 :: (dec2 mi ++ text ":" ++ dec2 s ++ e)). cbn [adv obind].
  rewrite span_app by (apply dec2_digits || reflexivity). rewrite length_dec2. cbn [Nat.ltb Nat.leb Nat.eqb].
  rewrite pk0. cbn [obind]. change (text ":" ++ dec2 s ++ e) with (58 :: (dec2 s ++ e)). cbn [nth Z.eqb Pos.eqb adv obind].
  rewrite span_app by (apply dec2_digits || reflexivity). rewrite length_dec2. cbn [Nat.ltb Nat.leb Nat.eqb].
  rewrite pk0. cbn [obind]. subst e. change (text "." ++ dec6 us ++ text "Z") with (46 :: (dec6 us ++ text "Z")). cbn [nth Z.eqb Pos.eqb adv obind].
  rewrite span_app by (apply dec6_digits || reflexivity). rewrite length_dec6.
  change (firstn 6 (dec6 us)) with (dec6 us). change (10 ^ Z.of_nat (6 - 6)) with 1. cbn [obind].
  rewrite pk0. cbn [obind]. change (nth 0 (text "Z") 0 =? 90) with true. cbv iota. rewrite !dec2_value, dec6_value, Z.mul_1_r by lia. reflexivity.
Qed.
Lemma iso_tokens y m d h mi s us : 100 <= y < 10000 -> 0 <= m <= 12 -> 0 <= d <= 31 ->
  0 <= h < 100 -> 0 <= mi < 100 -> 0 <= s < 100 -> 0 <= us < 1000000 ->
  let str := iso8601 y m d h mi s us in
  tokens 1001 str pst0 str = Ok (Some (mkS None (Some (m - 1)) (Some GMT) (-1) d y h mi s us)).
Proof.
  intros Y M D H Mi S U str. subst str. set (str := iso8601 y m d h mi s us) at 1. unfold iso8601.
  rewrite tokens_step' with (f := 1000%nat) (st' := mkS None (Some (m - 1)) None (-1) d y (-1) (-1) (-1) (-1))
    (s' := dec2 h ++ text ":" ++ dec2 mi ++ text ":" ++ dec2 s ++ text "." ++ dec6 us ++ text "Z"); [|discriminate|].
  - rewrite tokens_step' with (f := 999%nat) (st' := mkS None (Some (m - 1)) (Some GMT) (-1) d y h mi s us) (s' := []); [reflexivity|discriminate|].
    now rewrite rnd_iso_clock.
  - apply rnd_iso_date; try assumption. apply digit_is.
Qed.

(** ** Ranges *)
Lemma lenient_valid y m d h mi s : 1 <= m <= 12 -> lenient_seconds y m d h mi s = utc_seconds y m d h mi s.
Proof.
  intros M. unfold lenient_seconds, lenient_day, utc_seconds. rewrite (Z.div_small (m - 1)), (Z.mod_small (m - 1)) by lia.
  rewrite Z.add_0_r. replace (m - 1 + 1) with m by lia. unfold day_number. lia.
Qed.
Lemma valid_range y m d h mi s : valid_date y m d -> valid_clock h mi s ->
  year_start y * 86400 <= utc_seconds y m d h mi s < year_start (y + 1) * 86400.
Proof. intros V (A & B & C). pose proof (day_in_year _ _ _ V). unfold utc_seconds. lia. Qed.
Lemma year_range y y1 y2 : y1 <= y -> y < y2 -> year_start y1 <= year_start y /\ year_start (y + 1) <= year_start y2.
Proof. intros A B. pose proof (year_start_mono y1 y A). pose proof (year_start_mono (y + 1) y2 ltac:(lia)). lia. Qed.
Lemma from_string_parse lz l str us : str <> [] -> parse_time lz (negb l) str = Ok (Some us) -> Z.abs us <= 2100000000000000000 ->
  from_string lz l str = Ok (Some (11644473600000000 + us)).
Proof.
  intros N P B. unfold from_string. destruct str as [|c t]; [contradiction|]. rewrite P. cbn [obind].
  rewrite td_add_fin; [|unfold unix_epoch; nums; lia|nums; lia].
  rewrite saturate_id by (unfold unix_epoch; nums; lia). reflexivity.
Qed.

(** ** Offsets of whole hours, fractions of any length *)
Lemma rnd_hours str st ds (plus : bool) : Forall (fun d => 0 <= d <= 9) ds -> (1 <= Datatypes.length ds <= 2)%nat -> s_zone st = None -> s_zoff st = -1 ->
  rnd str st ((if plus then 43 else 45) :: map (Z.add 48) ds) =
    Ok (set_zone (set_zoff st (fold_left (fun a d => a * 10 + d) ds 0 * 60 * (if plus then 1 else -1))) GMT, []).
Proof.
  intros F L D Z0.
  assert (FD : Forall (fun c => is_digit c = true) (map (Z.add 48) ds)).
  { apply Forall_map. eapply Forall_impl; [|exact F]. intros a A. cbv beta in *. unfold is_digit. rewrite (proj2 (Z.leb_le 48 (48 + a))), (proj2 (Z.leb_le (48 + a) 57)) by lia. reflexivity. }
  eapply rnd_intro with (s' := map (Z.add 48) ds) (s'' := []).
  - unfold token. rewrite pk0. cbn [obind nth].
    assert (is_digit (if plus then 43 else 45) = false) as -> by (destruct plus; reflexivity).
    assert (((if plus then 43 else 45) =? 43) || ((if plus then 43 else 45) =? 45) = true) as -> by (destruct plus; reflexivity).
    unfold case_sign. cbn [adv obind]. rewrite Z0, D. cbn [Z.eqb Pos.eqb negb].
    rewrite <- (app_nil_r (map (Z.add 48) ds)) at 1. rewrite span_app; [|exact FD|reflexivity].
    destruct ds as [|a [|b [|c ds]]]; cbn [Datatypes.length] in L; try lia; cbn [map fold_left].
    + replace (48 + a - 48) with (0 * 10 + a) by lia. destruct plus; reflexivity.
    + replace (48 + a - 48) with (0 * 10 + a) by lia. replace (48 + b - 48) with b by lia. destruct plus; reflexivity.
  - rewrite <- (app_nil_r (map (Z.add 48) ds)). rewrite skip_token_digits by exact FD. reflexivity.
  - reflexivity.
Qed.
Lemma rfc_hours w y m d h mi s ds (plus : bool) : rfc_ok w y m d h mi s -> Forall (fun d => 0 <= d <= 9) ds -> (1 <= Datatypes.length ds <= 2)%nat ->
  let str := rfc1123 w y m d h mi s ((if plus then 43 else 45) :: map (Z.add 48) ds) in
  tokens 1001 str pst0 str =
    Ok (Some (mkS (Some w) (Some (m - 1)) (Some GMT) (fold_left (fun a d => a * 10 + d) ds 0 * 60 * (if plus then 1 else -1)) d y h mi s (-1))).
Proof.
  intros R F L str. change 1001%nat with (4 + 997)%nat. subst str.
  set (str := rfc1123 w y m d h mi s ((if plus then 43 else 45) :: map (Z.add 48) ds)) at 1.
  rewrite rfc_prefix by exact R. destruct R as (W & Y & M & D & H & Mi & S).
  rewrite tokens_step' with (st' := mkS (Some w) (Some (m - 1)) None (-1) d y h mi s (-1))
    (s' := (if plus then 43 else 45) :: map (Z.add 48) ds) (f := 996%nat); [|discriminate|].
  - rewrite tokens_step' with (st' := mkS (Some w) (Some (m - 1)) (Some GMT) (fold_left (fun a d => a * 10 + d) ds 0 * 60 * (if plus then 1 else -1)) d y h mi s (-1))
      (s' := []) (f := 995%nat); [reflexivity|discriminate|]. now rewrite rnd_hours.
  - rewrite rnd_clock; try assumption; try reflexivity.
    + apply no_ampm_first; destruct plus; reflexivity.
    + cbn [s_year]. destruct plus; cbn [skip_more].
      * reflexivity.
      * change (is_sep 45) with false. cbn [Z.eqb Pos.eqb andb]. rewrite (proj2 (Z.ltb_ge y 0)) by lia. rewrite andb_false_r. cbn [orb].
        destruct ds as [|a ds]; [cbn in L; lia|]. cbn [map nth].
        inversion F; subst. unfold is_digit. rewrite (proj2 (Z.leb_le 48 (48 + a))), (proj2 (Z.leb_le (48 + a) 57)) by lia. reflexivity.
Qed.

Lemma micros_zero ds : micros_from 0 ds = 0.
Proof. induction ds as [|a ds IH]; cbn [micros_from]; [reflexivity|]. rewrite Z.div_0_l by lia. lia. Qed.
Lemma frac_value ds : Forall (fun d => 0 <= d <= 9) ds ->
  dec_value (firstn 6 (map (Z.add 48) ds)) * 10 ^ Z.of_nat (6 - Datatypes.length (map (Z.add 48) ds)) = micros ds.
Proof.
  intros _. rewrite map_length. unfold micros.
  destruct ds as [|a [|b [|c [|d [|e [|f ds]]]]]]; unfold micros_from; fold micros_from;
    change (100000 / 10) with 10000; change (10000 / 10) with 1000; change (1000 / 10) with 100; change (100 / 10) with 10; change (10 / 10) with 1; change (1 / 10) with 0;
    rewrite ?micros_zero; cbn [Datatypes.length Nat.sub map firstn]; unfold dec_value; cbn [fold_left].
  - reflexivity.
  - change (10 ^ Z.of_nat 5) with 100000. lia.
  - change (10 ^ Z.of_nat 4) with 10000. lia.
  - change (10 ^ Z.of_nat 3) with 1000. lia.
  - change (10 ^ Z.of_nat 2) with 100. lia.
  - change (10 ^ Z.of_nat 1) with 10. lia.
  - change (10 ^ Z.of_nat 0) with 1. lia.
Qed.
Lemma micros_range ds : Forall (fun d => 0 <= d <= 9) ds -> 0 <= micros ds < 1000000.
Proof.
  intros F. unfold micros.
  destruct ds as [|a [|b [|c [|d [|e [|f ds]]]]]]; unfold micros_from; fold micros_from;
    change (100000 / 10) with 10000; change (10000 / 10) with 1000; change (1000 / 10) with 100; change (100 / 10) with 10; change (10 / 10) with 1; change (1 / 10) with 0;
    rewrite ?micros_zero; repeat match goal with H : Forall _ (_ :: _) |- _ => inversion H; subst; clear H end; lia.
Qed.
Lemma rnd_iso_clock_digits str st h mi s ds : 0 <= h < 100 -> 0 <= mi < 100 -> 0 <= s < 100 -> Forall (fun d => 0 <= d <= 9) ds -> s_hour st = -1 ->
  rnd str st (dec2 h ++ text ":" ++ dec2 mi ++ text ":" ++ dec2 s ++ text "." ++ map (Z.add 48) ds ++ text "Z") =
    Ok (set_clock (set_zone st GMT) h mi s (micros ds), []).
Proof.
  intros H M S U Hh. eapply rnd_intro with (s' := text "Z") (s'' := []); [|reflexivity|reflexivity].
  assert (FD : Forall (fun c => is_digit c = true) (map (Z.add 48) ds)).
  { apply Forall_map. eapply Forall_impl; [|exact U]. intros a A. cbv beta in *. unfold is_digit. rewrite (proj2 (Z.leb_le 48 (48 + a))), (proj2 (Z.leb_le (48 + a) 57)) by lia. reflexivity. }
  unfold token. rewrite pk0. cbn [obind].
  set (e := text "." ++ map (Z.add 48) ds ++ text "Z").
  change (nth 0 (dec2 h ++ text ":" ++ dec2 mi ++ text ":" ++ dec2 s ++ e) 0) with (digit (h / 10)). rewrite digit_is.
  unfold case_digit. rewrite span_app by (apply dec2_digits || reflexivity). rewrite pk0. cbn [obind].
  change (nth 0 (text ":" ++ dec2 mi ++ text ":" ++ dec2 s ++ e) 0) with 58. cbn [Z.eqb Pos.eqb].
  unfold case_clock. rewrite Hh. cbn [Z.leb Z.compare andb]. rewrite length_dec2. cbn [Nat.ltb Nat.leb].
  change (text ":" ++ dec2 mi ++ text ":" ++ dec2 s ++ e) with (58 :: (dec2 mi ++ text ":" ++ dec2 s ++ e)). cbn [adv obind].
  rewrite span_app by (apply dec2_digits || reflexivity). rewrite length_dec2. cbn [Nat.ltb Nat.leb Nat.eqb].
  rewrite pk0. cbn [obind]. change (text ":" ++ dec2 s ++ e) with (58 :: (dec2 s ++ e)). cbn [nth Z.eqb Pos.eqb adv obind].
  rewrite span_app by (apply dec2_digits || reflexivity). rewrite length_dec2. cbn [Nat.ltb Nat.leb Nat.eqb].
  rewrite pk0. cbn [obind]. subst e. change (text "." ++ map (Z.add 48) ds ++ text "Z") with (46 :: (map (Z.add 48) ds ++ text "Z")). cbn [nth Z.eqb Pos.eqb adv obind].
  rewrite span_app by (exact FD || reflexivity). cbv beta iota. rewrite (frac_value ds U). cbn [obind].
  rewrite pk0. cbn [obind]. change (nth 0 (text "Z") 0 =? 90) with true. cbv iota. rewrite !dec2_value by lia. reflexivity.
Qed.
Lemma iso_digits_tokens y m d h mi s ds : 100 <= y < 10000 -> 0 <= m <= 12 -> 0 <= d <= 31 ->
  0 <= h < 100 -> 0 <= mi < 100 -> 0 <= s < 100 -> Forall (fun d => 0 <= d <= 9) ds ->
  let str := iso8601_digits y m d h mi s ds in
  tokens 1001 str pst0 str = Ok (Some (mkS None (Some (m - 1)) (Some GMT) (-1) d y h mi s (micros ds))).
Proof.
  intros Y M D H Mi S U str. subst str. set (str := iso8601_digits y m d h mi s ds) at 1. unfold iso8601_digits.
  rewrite tokens_step' with (f := 1000%nat) (st' := mkS None (Some (m - 1)) None (-1) d y (-1) (-1) (-1) (-1))
    (s' := dec2 h ++ text ":" ++ dec2 mi ++ text ":" ++ dec2 s ++ text "." ++ map (Z.add 48) ds ++ text "Z"); [|discriminate|].
  - rewrite tokens_step' with (f := 999%nat) (st' := mkS None (Some (m - 1)) (Some GMT) (-1) d y h mi s (micros ds)) (s' := []); [reflexivity|discriminate|].
    now rewrite rnd_iso_clock_digits.
  - apply rnd_iso_date; try assumption. apply digit_is.
Qed.
