(** Date texts, token by token. *)
From Coq Require Import String.
From Verif Require Import Model.Common Model.TimeDelta Model.PrTime Spec.TimeSpec Spec.DateSpec Proofs.Tac Proofs.TimeProofs Proofs.Calendar
  Proofs.PrTimeProofs Proofs.PrTimeProofs2 Proofs.PrTimeProofs3.
Local Open Scope Z_scope.
Local Open Scope list_scope.

Lemma rnd_intro str st s st' s' s'' r : token st s = Ok (st', s') -> skip_token s' = s'' ->
  skip_t (skip_more str (s_year st') s'') = r -> rnd str st s = Ok (st', r).
Proof. intros A B C. unfold rnd. rewrite A. cbn [obind]. rewrite B, C. reflexivity. Qed.

Lemma rnd_weekday str st w r : 0 <= w <= 6 -> s_dotw st = None -> starts r ->
  rnd str st (weekday_name w ++ text ", " ++ r) = Ok (set_dotw st w, r).
Proof.
  intros W D S. assert (In w [0;1;2;3;4;5;6]) as I by (cbn; lia).
  eapply rnd_intro with (s' := weekday_name w ++ text ", " ++ r) (s'' := text ", " ++ r).
  - destruct st as [dw mo zo zf da ye ho mi se us]. cbn [s_dotw] in D. subst dw. cbn [In] in I.
    repeat (destruct I as [<-|I]; [|]); [..|destruct I]; destruct mo, zo; reflexivity.
  - cbn [In] in I. repeat (destruct I as [<-|I]; [|]); [..|destruct I]; reflexivity.
  - change (text ", " ++ r) with (44 :: 32 :: r). cbn [skip_more]. change (is_sep 44) with true. change (is_sep 32) with true. apply S.
Qed.
Lemma rnd_month str st m r : 1 <= m <= 12 -> s_month st = None -> starts r ->
  rnd str st (month_name m ++ text " " ++ r) = Ok (set_month st (m - 1), r).
Proof.
  intros W D S. apply month_cases in W.
  eapply rnd_intro with (s' := month_name m ++ text " " ++ r) (s'' := text " " ++ r).
  - destruct st as [dw mo zo zf da ye ho mi se us]. cbn [s_month] in D. subst mo. cbn [In] in W.
    repeat (destruct W as [<-|W]; [|]); [..|destruct W]; destruct dw, zo; reflexivity.
  - cbn [In] in W. repeat (destruct W as [<-|W]; [|]); [..|destruct W]; reflexivity.
  - change (text " " ++ r) with (32 :: r). cbn [skip_more]. change (is_sep 32) with true. apply S.
Qed.
(** A two-digit number followed by a blank. *)
Lemma rnd_day str st d r : 0 <= d < 32 -> s_date st = -1 -> starts r ->
  rnd str st (dec2 d ++ text " " ++ r) = Ok (set_date st d, r).
Proof.
  intros W D S.
  eapply rnd_intro with (s' := dec2 d ++ text " " ++ r) (s'' := text " " ++ r).
  - unfold token. rewrite pk0. cbn [obind]. change (nth 0 (dec2 d ++ text " " ++ r) 0) with (digit (d / 10)). rewrite digit_is.
    unfold case_digit. rewrite span_app by (apply dec2_digits || reflexivity). rewrite pk0. cbn [obind].
    change (nth 0 (text " " ++ r) 0) with 32. cbn [Z.eqb Pos.eqb orb obind]. change (is_upper 32 || is_lower 32) with false.
    change (Datatypes.length (dec2 d)) with 2%nat. cbn [Nat.eqb orb]. cbv zeta. rewrite dec2_value by lia. rewrite D.
    destruct (Z.ltb_spec d 32); [|lia]. reflexivity.
  - rewrite skip_token_digits by apply dec2_digits. reflexivity.
  - change (text " " ++ r) with (32 :: r). cbn [skip_more]. change (is_sep 32) with true. apply S.
Qed.
Lemma rnd_year str st y r : 0 <= y < 10000 -> s_year st = -1 -> starts r ->
  rnd str st (dec4 y ++ text " " ++ r) = Ok (set_year st y, r).
Proof.
  intros W D S.
  eapply rnd_intro with (s' := dec4 y ++ text " " ++ r) (s'' := text " " ++ r).
  - unfold token. rewrite pk0. cbn [obind]. change (nth 0 (dec4 y ++ text " " ++ r) 0) with (digit (y / 1000)). rewrite digit_is.
    unfold case_digit. rewrite span_app by (apply dec4_digits || reflexivity). rewrite pk0. cbn [obind].
    change (nth 0 (text " " ++ r) 0) with 32. cbn [Z.eqb Pos.eqb orb obind]. change (is_upper 32 || is_lower 32) with false.
    change (Datatypes.length (dec4 y)) with 4%nat. cbn [Nat.eqb orb]. rewrite D. cbn [Z.ltb Z.compare]. rewrite dec4_value by lia. reflexivity.
  - rewrite skip_token_digits by apply dec4_digits. reflexivity.
  - change (text " " ++ r) with (32 :: r). cbn [skip_more]. change (is_sep 32) with true. apply S.
Qed.
(** The byte behind the time of day: not a continuation of it. *)
Definition no_ampm (r : cstr) : Prop := (forall h, am_pm h r = Ok h) /\ is_blank (nth 0 r 0) = false.
Lemma skip_blanks_stop r : is_blank (nth 0 r 0) = false -> skip_blanks r = r.
Proof. destruct r as [|c r]; [reflexivity|]. cbn [nth skip_blanks]. now intros ->. Qed.
Lemma no_ampm_first r : ci (nth 0 r 0) 112 = false -> ci (nth 0 r 0) 97 = false -> is_blank (nth 0 r 0) = false -> no_ampm r.
Proof. intros A B C. split; [|exact C]. intros h. unfold am_pm. rewrite pk0. cbn [obind]. rewrite A. cbn [obind]. rewrite B. cbn [obind]. destruct (h =? 12); reflexivity. Qed.
Lemma length_dec2 n : Datatypes.length (dec2 n) = 2%nat. Proof. reflexivity. Qed.
Lemma length_dec6 n : Datatypes.length (dec6 n) = 6%nat. Proof. reflexivity. Qed.

Lemma clock_secs st h mi s e : 0 <= h < 100 -> 0 <= mi < 100 -> 0 <= s < 100 -> s_hour st = -1 ->
  is_digit (nth 0 e 0) = false -> nth 0 e 0 <> 46 -> nth 0 e 0 <> 90 -> no_ampm (skip_blanks e) ->
  token st (dec2 h ++ text ":" ++ dec2 mi ++ text ":" ++ dec2 s ++ e) = Ok (set_clock st h mi s (-1), e).
Proof.
  intros H M S Hh N1 N2 N3 AP. unfold token. rewrite pk0. cbn [obind].
  change (nth 0 (dec2 h ++ text ":" ++ dec2 mi ++ text ":" ++ dec2 s ++ e) 0) with (digit (h / 10)). rewrite digit_is.
  unfold case_digit. rewrite span_app by (apply dec2_digits || reflexivity). rewrite pk0. cbn [obind].
  change (nth 0 (text ":" ++ dec2 mi ++ text ":" ++ dec2 s ++ e) 0) with 58. cbn [Z.eqb Pos.eqb].
  unfold case_clock. rewrite Hh. cbn [Z.leb Z.compare andb]. rewrite length_dec2. cbn [Nat.ltb Nat.leb].
  change (text ":" ++ dec2 mi ++ text ":" ++ dec2 s ++ e) with (58 :: (dec2 mi ++ text ":" ++ dec2 s ++ e)). cbn [adv obind].
  rewrite span_app by (apply dec2_digits || reflexivity). rewrite length_dec2. cbn [Nat.ltb Nat.leb Nat.eqb].
  rewrite pk0. cbn [obind]. change (text ":" ++ dec2 s ++ e) with (58 :: (dec2 s ++ e)). cbn [nth Z.eqb Pos.eqb adv obind].
  rewrite span_app by (apply dec2_digits || exact N1). rewrite length_dec2. cbn [Nat.ltb Nat.leb Nat.eqb].
  rewrite pk0. cbn [obind]. rewrite (proj2 (Z.eqb_neq _ 46)) by exact N2. cbn [obind]. rewrite pk0. cbn [obind].
  rewrite (proj2 (Z.eqb_neq _ 90)) by exact N3. rewrite !dec2_value by lia.
  destruct (h <=? 12); [rewrite (proj1 AP)|]; reflexivity.
Qed.
Lemma skip_token_sep c r : is_delim c = true -> skip_token (c :: r) = c :: r.
Proof. intros H. cbn [skip_token]. rewrite H. reflexivity. Qed.
(** Time of day followed by blank and a token. *)
Lemma rnd_clock str st h mi s r : 0 <= h < 100 -> 0 <= mi < 100 -> 0 <= s < 100 -> s_hour st = -1 -> no_ampm r ->
  skip_t (skip_more str (s_year st) r) = r ->
  rnd str st (dec2 h ++ text ":" ++ dec2 mi ++ text ":" ++ dec2 s ++ text " " ++ r) = Ok (set_clock st h mi s (-1), r).
Proof.
  intros H M S Hh AP St. eapply rnd_intro with (s' := text " " ++ r) (s'' := text " " ++ r).
  - apply clock_secs; try assumption; try reflexivity; try (cbn; lia).
    change (text " " ++ r) with (32 :: r). cbn [skip_blanks]. change (is_blank 32) with true.
    rewrite skip_blanks_stop by apply AP. exact AP.
  - reflexivity.
  - change (text " " ++ r) with (32 :: r). cbn [skip_more]. change (is_sep 32) with true. exact St.
Qed.
(** Time of day at the end of the text. *)
Lemma rnd_clock_end str st h mi s : 0 <= h < 100 -> 0 <= mi < 100 -> 0 <= s < 100 -> s_hour st = -1 ->
  rnd str st (dec2 h ++ text ":" ++ dec2 mi ++ text ":" ++ dec2 s ++ []) = Ok (set_clock st h mi s (-1), []).
Proof.
  intros H M S Hh. eapply rnd_intro with (s' := []) (s'' := []).
  - apply clock_secs; try assumption; try reflexivity; try (cbn; lia). apply no_ampm_first; reflexivity.
  - reflexivity.
  - reflexivity.
Qed.

(** Zones. *)
Definition zone_name (z : zone) : list Z := match z with
  | PST => text "PST" | PDT => text "PDT" | MST => text "MST" | MDT => text "MDT" | CST => text "CST" | CDT => text "CDT"
  | EST => text "EST" | EDT => text "EDT" | AST => text "AST" | NST => text "NST" | GMT => text "GMT" | BST => text "BST"
  | MET => text "MET" | EET => text "EET" | JST => text "JST" end.
Lemma rnd_zone str st z : s_zone st = None -> rnd str st (zone_name z) = Ok (set_zone st z, []).
Proof.
  intros D. eapply rnd_intro with (s' := zone_name z) (s'' := []).
  - destruct st as [dw mo zo zf da ye ho mi se us]. cbn [s_zone] in D. subst zo. destruct z, dw, mo; reflexivity.
  - destruct z; reflexivity.
  - reflexivity.
Qed.
Lemma rnd_offset str st hh mm (plus : bool) : 0 <= hh < 100 -> 0 <= mm < 100 -> s_zone st = None -> s_zoff st = -1 ->
  rnd str st ((if plus then 43 else 45) :: dec2 hh ++ dec2 mm) =
    Ok (set_zone (set_zoff st ((hh * 60 + mm) * (if plus then 1 else -1))) GMT, []).
Proof.
  intros H M D Z0. eapply rnd_intro with (s' := dec2 hh ++ dec2 mm) (s'' := []).
  - unfold token. rewrite pk0. cbn [obind nth].
    assert (is_digit (if plus then 43 else 45) = false) as -> by (destruct plus; reflexivity).
    assert (((if plus then 43 else 45) =? 43) || ((if plus then 43 else 45) =? 45) = true) as -> by (destruct plus; reflexivity).
    unfold case_sign. cbn [adv obind]. rewrite Z0, D. cbn [Z.eqb Pos.eqb negb].
    rewrite <- (app_nil_r (dec2 hh ++ dec2 mm)) at 1. rewrite span_app; [|apply Forall_app; split; apply dec2_digits|reflexivity].
    unfold dec2 at 1 2. cbn [app].
    assert (E1 : (digit (hh / 10) - 48) * 10 + (digit hh - 48) = hh) by (unfold digit; zqr; lia).
    assert (E2 : (digit (mm / 10) - 48) * 10 + (digit mm - 48) = mm) by (unfold digit; zqr; lia).
    rewrite E1, E2. destruct plus; reflexivity.
  - rewrite <- (app_nil_r (dec2 hh ++ dec2 mm)). rewrite skip_token_digits by (apply Forall_app; split; apply dec2_digits). reflexivity.
  - reflexivity.
Qed.

(** ** RFC 1123 *)
Definition rfc_state (w y m d h mi s : Z) : pst := mkS (Some w) (Some (m - 1)) None (-1) d y h mi s (-1).
Definition rfc_ok (w y m d h mi s : Z) : Prop :=
  0 <= w <= 6 /\ 0 <= y < 10000 /\ 1 <= m <= 12 /\ 0 <= d < 32 /\ 0 <= h < 100 /\ 0 <= mi < 100 /\ 0 <= s < 100.
Lemma dec2_app n r : dec2 n ++ r = digit (n / 10) :: digit n :: r.
Proof. reflexivity. Qed.
Lemma starts_dec2 n r : starts (dec2 n ++ r).
Proof. apply starts_digit, digit_is. Qed.
Lemma starts_dec4 n r : starts (dec4 n ++ r).
Proof. apply starts_digit, digit_is. Qed.
Lemma starts_month m r : 1 <= m <= 12 -> starts (month_name m ++ r).
Proof.
  intros W. apply month_cases in W. cbn [In] in W.
  repeat (destruct W as [<-|W]; [|]); [..|destruct W]; apply starts_letter; reflexivity || discriminate.
Qed.
Lemma month_name_cons m : 1 <= m <= 12 -> exists c t, month_name m = c :: t.
Proof.
  intros W. apply month_cases in W. cbn [In] in W.
  repeat (destruct W as [<-|W]; [|]); [..|destruct W]; do 2 eexists; reflexivity.
Qed.
Lemma weekday_name_cons w : 0 <= w <= 6 -> exists c t, weekday_name w = c :: t.
Proof.
  intros W. assert (In w [0;1;2;3;4;5;6]) as I by (cbn; lia). cbn [In] in I.
  repeat (destruct I as [<-|I]; [|]); [..|destruct I]; do 2 eexists; reflexivity.
Qed.
Lemma tokens_step' f str st s st' s' : s <> [] -> rnd str st s = Ok (st', s') -> tokens (S f) str st s = tokens f str st' s'.
Proof. destruct s as [|c t]; [contradiction|]. intros _. apply tokens_step. Qed.

Lemma rfc_prefix f str w y m d h mi s zone : rfc_ok w y m d h mi s ->
  tokens (4 + f) str pst0 (rfc1123 w y m d h mi s zone) =
  tokens f str (mkS (Some w) (Some (m - 1)) None (-1) d y (-1) (-1) (-1) (-1))
    (dec2 h ++ text ":" ++ dec2 mi ++ text ":" ++ dec2 s ++ text " " ++ zone).
Proof.
  intros (W & Y & M & D & H & Mi & S). unfold rfc1123. cbn [Nat.add].
  set (r4 := dec2 h ++ text ":" ++ dec2 mi ++ text ":" ++ dec2 s ++ text " " ++ zone).
  set (r3 := dec4 y ++ text " " ++ r4). set (r2 := month_name m ++ text " " ++ r3). set (r1 := dec2 d ++ text " " ++ r2).
  rewrite tokens_step' with (st' := set_dotw pst0 w) (s' := r1);
    [| |apply rnd_weekday; [exact W|reflexivity|apply starts_dec2]].
  2: { destruct (weekday_name_cons w W) as (c & t & ->). discriminate. }
  rewrite tokens_step' with (st' := set_date (set_dotw pst0 w) d) (s' := r2);
    [|discriminate|apply rnd_day; [exact D|reflexivity|apply starts_month; exact M]].
  rewrite tokens_step' with (st' := set_month (set_date (set_dotw pst0 w) d) (m - 1)) (s' := r3);
    [| |apply rnd_month; [exact M|reflexivity|apply starts_dec4]].
  2: { destruct (month_name_cons m M) as (c & t & E). subst r2. rewrite E. discriminate. }
  rewrite tokens_step' with (st' := set_year (set_month (set_date (set_dotw pst0 w) d) (m - 1)) y) (s' := r4);
    [|discriminate|apply rnd_year; [exact Y|reflexivity|apply starts_dec2]].
  reflexivity.
Qed.
(** With a named zone. *)
Lemma zone_name_starts z : starts (zone_name z).
Proof. destruct z; apply starts_letter; reflexivity || discriminate. Qed.
Lemma zone_name_ampm z : no_ampm (zone_name z).
Proof. destruct z; (split; [|reflexivity]); intros h; unfold am_pm; cbn; destruct (h =? 12); reflexivity. Qed.
Lemma zone_name_cons z : zone_name z <> [].
Proof. destruct z; discriminate. Qed.
