(** The date parser on well-formed texts, and its totality. *)
From Verif Require Import Model.Common Model.TimeDelta Model.PrTime Spec.TimeSpec Spec.DateSpec Proofs.Tac Proofs.TimeProofs Proofs.Calendar Proofs.PrTimeProofs Proofs.PrTimeProofs2.
Local Open Scope Z_scope.

(** ** After the loop *)
Definition st_ptm (st : pst) (month : Z) : ptm :=
  mkP (or0 (s_usec st)) (or0 (s_sec st)) (or0 (s_min st)) (or0 (s_hour st)) (s_date st) month (s_year st)
      (match s_dotw st with Some d => wrap8 d | None => 0 end) 0 0 0.
Lemma or0_bound z b : -1 <= z <= b -> 0 <= b -> 0 <= or0 z <= b.
Proof. intros H B. unfold or0. destruct (Z.eqb_spec z (-1)); lia. Qed.
Definition local_sane (lz : local_zone) : Prop :=
  (forall y m d h mi s, Z.abs (l_mktime lz y m d h mi s) <= 2000000000000) /\ Z.abs (l_off lz) <= 100000.

Lemma zone_minutes_bound z : Z.abs (fst (zone_minutes z)) <= 540 /\ 0 <= snd (zone_minutes z) <= 60.
Proof. destruct z; cbn; lia. Qed.
Theorem finish_total lz g st : local_sane lz -> ok_st st ->
  exists o, finish lz g st = Ok o /\ forall t, o = Some t -> Z.abs t <= 2100000000000000000.
Proof.
  intros [L1 L2] K. unfold finish.
  set (zd := match s_zone st with Some z => if s_zoff st =? -1 then zone_minutes z else (s_zoff st, 0) | None => (s_zoff st, 0) end).
  assert (exists zoff dst, zd = (zoff, dst) /\ Z.abs zoff <= 6039 /\ 0 <= dst <= 60) as (zoff & dst & -> & Bz & Bd).
  { subst zd. unfold ok_st in K. destruct (s_zone st) as [z|]; [|do 2 eexists; split; [reflexivity|lia]].
    destruct (s_zoff st =? -1); [|do 2 eexists; split; [reflexivity|lia]].
    pose proof (zone_minutes_bound z). destruct (zone_minutes z) as [a b]. cbn [fst snd] in *. do 2 eexists. split; [reflexivity|lia]. }
  destruct (s_month st) as [month|] eqn:Em; [|eexists; split; [reflexivity|discriminate]].
  destruct ((s_date st =? -1) || (s_year st =? -1) || (32767 <? s_year st)) eqn:C; [eexists; split; [reflexivity|discriminate]|].
  apply orb_false_iff in C. destruct C as [C C3]. apply orb_false_iff in C. destruct C as [C1 C2].
  apply Z.eqb_neq in C1, C2. apply Z.ltb_ge in C3.
  destruct K as (Km & Kz & Kd & Ky & Kh & Kmi & Ks & Ku). specialize (Km month Em).
  pose proof (or0_bound _ _ Kh ltac:(lia)). pose proof (or0_bound _ _ Kmi ltac:(lia)).
  pose proof (or0_bound _ _ Ks ltac:(lia)). pose proof (or0_bound _ _ Ku ltac:(lia)).
  rewrite wrap16_id by lia.
  destruct (normalize_total (st_ptm st month)) as (r & Er & R1 & R2 & R3 & R4 & R5 & R6 & R7 & R8 & _).
  { unfold moderate, st_ptm. cbn [p_usec p_sec p_min p_hour p_mday p_gmt p_dst p_year]. lia. }
  unfold st_ptm in Er. rewrite Er. cbn [obind].
  set (zoff1 := match s_zone st with Some _ => zoff | None => if g then 0 else zoff end).
  assert (B1 : Z.abs zoff1 <= 6039) by (subst zoff1; destruct (s_zone st), g; lia).
  assert (W : forall o, Z.abs o <= 100000 -> exists q, obind (ck32 (o * 60)) (fun gm =>
     obind (implode (mkP (p_usec r) (p_sec r) (p_min r) (p_hour r) (p_mday r) (p_month r) (p_year r) (p_wday r) (p_yday r) gm (dst * 60)))
           (fun t => Ok (Some t))) = Ok q /\ forall t, q = Some t -> Z.abs t <= 2100000000000000000).
  { intros o Bo. rewrite ck32_ok by lia. cbn [obind].
    destruct (implode_total (mkP (p_usec r) (p_sec r) (p_min r) (p_hour r) (p_mday r) (p_month r) (p_year r) (p_wday r) (p_yday r) (o * 60) (dst * 60)))
      as (z & -> & Bz').
    { unfold moderate. cbn [p_usec p_sec p_min p_hour p_mday p_gmt p_dst p_year]. lia. }
    cbn [obind]. eexists. split; [reflexivity|]. intros t [= <-]. lia. }
  destruct (Z.eqb_spec zoff1 (-1)); [|apply W; lia].
  rewrite !(proj2 (Z.ltb_lt _ _)) by lia. cbn [andb].
  set (secs := l_mktime lz (p_year r) (p_month r) (p_mday r) (p_hour r) (p_min r) (p_sec r)).
  assert (Bs : Z.abs secs <= 2000000000000) by apply L1.
  destruct ((1970 <=? p_year r) && negb (secs =? -1)); [|apply W; lia].
  rewrite ck64_ok' by lia. cbn [obind]. rewrite ck64_ok' by lia. cbn [obind].
  eexists. split; [reflexivity|]. intros t [= <-]. lia.
Qed.
Theorem parse_total lz g str : local_sane lz -> exists o, parse_time lz g str = Ok o /\ forall t, o = Some t -> Z.abs t <= 2100000000000000000.
Proof.
  intros L. unfold parse_time. destruct (tokens_ok 1001 str pst0 str ok_st0) as (o & -> & K). cbn [obind].
  destruct o as [st|]; [apply finish_total; auto|]. eexists. split; [reflexivity|discriminate].
Qed.

(** The value of a complete reading: [off] minutes east, [dst] minutes of summer time. *)
Theorem finish_exact lz g st month zoff dst : ok_st st -> s_month st = Some month -> s_date st <> -1 -> 0 <= s_year st <= 32767 ->
  match s_zone st with
  | Some z => (s_zoff st = -1 /\ (zoff, dst) = zone_minutes z) \/ (s_zoff st <> -1 /\ zoff = s_zoff st /\ dst = 0)
  | None => g = true /\ zoff = 0 /\ dst = 0
  end ->
  let secs := lenient_seconds (s_year st) (month + 1) (s_date st) (or0 (s_hour st)) (or0 (s_min st)) (or0 (s_sec st)) in
  year_start 1 * 86400 <= secs < year_start 32768 * 86400 ->
  year_start 1 * 86400 <= secs - zoff * 60 - dst * 60 < year_start 32768 * 86400 ->
  finish lz g st = Ok (Some ((secs - zoff * 60 - dst * 60) * 1000000 + or0 (s_usec st))).
Proof.
  intros K Em Nd Ny Hz secs R1 R2. unfold finish.
  assert (BZ : Z.abs zoff <= 6039 /\ 0 <= dst <= 60 /\ zoff <> -1).
  { unfold ok_st in K. destruct (s_zone st) as [z|]; [|lia]. destruct Hz as [[_ E] | (E & -> & ->)]; [|lia].
    pose proof (zone_minutes_bound z). rewrite <- E in *. cbn [fst snd] in *. destruct z; cbn in E; inv E; lia. }
  assert (EZ : (match s_zone st with Some z => if s_zoff st =? -1 then zone_minutes z else (s_zoff st, 0) | None => (s_zoff st, 0) end)
     = match s_zone st with Some _ => (zoff, dst) | None => (s_zoff st, dst) end).
  { destruct (s_zone st) as [z|]; [|destruct Hz as (_ & _ & ->); reflexivity].
    destruct Hz as [[E1 E2] | (E1 & -> & ->)].
    - rewrite E1. cbn [Z.eqb]. now rewrite E2.
    - destruct (Z.eqb_spec (s_zoff st) (-1)); [contradiction|reflexivity]. }
  rewrite EZ, Em.
  destruct (Z.eqb_spec (s_date st) (-1)); [contradiction|]. destruct (Z.eqb_spec (s_year st) (-1)); [lia|].
  destruct (Z.ltb_spec 32767 (s_year st)); [lia|]. cbn [orb].
  destruct K as (Km & Kz & Kd & Ky & Kh & Kmi & Ks & Ku). specialize (Km month Em).
  pose proof (or0_bound _ _ Kh ltac:(lia)). pose proof (or0_bound _ _ Kmi ltac:(lia)).
  pose proof (or0_bound _ _ Ks ltac:(lia)). pose proof (or0_bound _ _ Ku ltac:(lia)).
  rewrite wrap16_id by lia.
  assert (MB : -1 <= month / 12 <= 0) by (zqr; lia).
  assert (U0 : or0 (s_usec st) / 1000000 = 0) by (apply Z.div_small; lia).
  destruct (normalize_exact (st_ptm st month)) as (r & Er & V & C & U & _ & _ & Y & S & _).
  { unfold moderate, st_ptm. cbn [p_usec p_sec p_min p_hour p_mday p_gmt p_dst p_year]. lia. }
  { unfold st_ptm. cbn [p_year p_month]. lia. }
  { unfold p_secs, st_ptm. cbn [p_usec p_sec p_min p_hour p_mday p_gmt p_dst p_year p_month]. rewrite U0. fold secs. lia. }
  unfold p_secs, st_ptm in S. cbn [p_usec p_sec p_min p_hour p_mday p_gmt p_dst p_year p_month] in S. fold secs in S.
  unfold st_ptm in Er.
  assert (SE : utc_seconds (p_year r) (p_month r + 1) (p_mday r) (p_hour r) (p_min r) (p_sec r) = secs /\ p_usec r = or0 (s_usec st)) by lia.
  destruct SE as [SE UE].
  destruct V as [V1 V2]. pose proof (month_len_pos (p_year r) (p_month r + 1)) as ML. unfold valid_clock in C.
  assert (LE : lenient_seconds (p_year r) (p_month r + 1) (p_mday r) (p_hour r) (p_min r) (p_sec r) = secs).
  { rewrite <- SE. unfold lenient_seconds, lenient_day, utc_seconds.
    replace (p_month r + 1 - 1) with (p_month r) by lia. rewrite (Z.div_small (p_month r)), (Z.mod_small (p_month r)) by lia.
    rewrite Z.add_0_r. unfold day_number. lia. }
  set (zz := match s_zone st with Some _ => (zoff, dst) | None => (s_zoff st, dst) end).
  assert (exists zf, zz = (zf, dst) /\ (match s_zone st with Some _ => zf | None => if g then 0 else zf end) = zoff) as (zf & Ezz & Ezf).
  { subst zz. destruct (s_zone st); [eexists; split; reflexivity|]. destruct Hz as (-> & -> & _). eexists; split; reflexivity. }
  rewrite Ezz. rewrite Er. cbn [obind]. rewrite Ezf. destruct (Z.eqb_spec zoff (-1)); [lia|].
  rewrite ck32_ok by lia. cbn [obind].
  rewrite implode_exact; [cbn [obind]| | |].
  - unfold p_secs. cbn [p_usec p_sec p_min p_hour p_mday p_gmt p_dst p_year p_month]. rewrite LE, UE. reflexivity.
  - unfold moderate. cbn [p_usec p_sec p_min p_hour p_mday p_gmt p_dst p_year]. lia.
  - cbn [p_year p_month]. rewrite Z.div_small by lia. lia.
  - unfold p_secs. cbn [p_usec p_sec p_min p_hour p_mday p_gmt p_dst p_year p_month]. rewrite LE, UE, U0. lia.
Qed.

(** ** One round of the loop *)
Definition rnd (str : cstr) (st : pst) (s : cstr) : outcome (pst * cstr) :=
  obind (token st s) (fun '(st', s') => Ok (st', skip_t (skip_more str (s_year st') (skip_token s')))).
Lemma tokens_step f str st c t st' s' : rnd str st (c :: t) = Ok (st', s') -> tokens (S f) str st (c :: t) = tokens f str st' s'.
Proof.
  unfold rnd. cbn [tokens]. destruct (token st (c :: t)) as [[a b]| |]; cbn [obind]; try discriminate.
  intros [= <- <-]. reflexivity.
Qed.

(** A position where a token starts. *)
Definition starts (s : cstr) : Prop := forall str year, skip_t (skip_more str year s) = s.
Lemma digit_is n : is_digit (digit n) = true.
Proof. apply is_digit_range. unfold digit. pose proof (Z.mod_pos_bound n 10). lia. Qed.
Lemma digit_neq c k : is_digit c = true -> is_digit k = false -> (c =? k) = false.
Proof. intros A B. destruct (Z.eqb_spec c k) as [->|]; [congruence|reflexivity]. Qed.
Lemma digit_sep c : is_digit c = true -> is_sep c = false.
Proof. intros H. unfold is_sep. cbn [existsb]. now rewrite !(digit_neq c) by (exact H || reflexivity). Qed.
Lemma digit_delim c : is_digit c = true -> is_delim c = false.
Proof. intros H. unfold is_delim. cbn [existsb]. now rewrite !(digit_neq c) by (exact H || reflexivity). Qed.
Lemma digit_iso c t : is_digit c = true -> iso_t (c :: t) = false.
Proof. intros H. unfold iso_t. now rewrite (digit_neq c) by (exact H || reflexivity). Qed.
Lemma starts_digit c t : is_digit c = true -> starts (c :: t).
Proof.
  intros H str y. cbn [skip_more]. rewrite (digit_sep c H), (digit_neq c 45) by (exact H || reflexivity). cbn [andb].
  unfold skip_t. now rewrite digit_iso.
Qed.
Lemma starts_nil : starts [].
Proof. intros str y. reflexivity. Qed.
Lemma starts_letter c t : is_alpha c = true -> c <> 84 -> starts (c :: t).
Proof.
  intros H N str y. assert (R : 65 <= c <= 90 \/ 97 <= c <= 122).
  { unfold is_alpha, is_upper, is_lower in H. apply orb_true_iff in H. rewrite !andb_true_iff, !Z.leb_le in H. lia. }
  cbn [skip_more]. assert (is_sep c = false) as ->.
  { unfold is_sep. cbn [existsb]. rewrite !(proj2 (Z.eqb_neq c _)) by lia. reflexivity. }
  rewrite (proj2 (Z.eqb_neq c 45)) by lia. cbn [andb]. unfold skip_t, iso_t. rewrite (proj2 (Z.eqb_neq c 84)) by exact N. reflexivity.
Qed.
Lemma starts_sep c t : is_sep c = true -> starts t -> forall str y, skip_t (skip_more str y (c :: t)) = t.
Proof. intros H S str y. cbn [skip_more]. rewrite H. apply S. Qed.

Lemma skip_token_digits d r : Forall (fun c => is_digit c = true) d -> skip_token (d ++ r) = skip_token r.
Proof.
  induction d as [|c d IH]; intros F; [reflexivity|]. inversion F as [|? ? D F']; subst. cbn [app skip_token].
  rewrite (digit_delim c D), (digit_iso c _ D). cbn [orb]. now apply IH.
Qed.
Lemma span_app d r : Forall (fun c => is_digit c = true) d -> is_digit (nth 0 r 0) = false -> span_digits (d ++ r) = (d, r).
Proof.
  intros F N. induction F as [|c d D F IH]; cbn [app span_digits].
  - destruct r as [|c r]; [reflexivity|]. cbn [nth] in N. cbn [span_digits]. now rewrite N.
  - rewrite D, IH. reflexivity.
Qed.
Lemma dec2_digits n : Forall (fun c => is_digit c = true) (dec2 n).
Proof. repeat constructor; apply digit_is. Qed.
Lemma dec4_digits n : Forall (fun c => is_digit c = true) (dec4 n).
Proof. repeat constructor; apply digit_is. Qed.
Lemma dec6_digits n : Forall (fun c => is_digit c = true) (dec6 n).
Proof. repeat constructor; apply digit_is. Qed.
Lemma dec2_value n : 0 <= n < 100 -> dec_value (dec2 n) = n.
Proof. intros H. unfold dec_value, dec2, digit. cbn [fold_left]. zqr. lia. Qed.
Lemma dec4_value n : 0 <= n < 10000 -> dec_value (dec4 n) = n.
Proof.
  intros H. unfold dec_value, dec4, digit. cbn [fold_left].
  replace (n / 1000) with (n / 100 / 10) by (rewrite Z.div_div by lia; reflexivity).
  replace (n / 100) with (n / 10 / 10) by (rewrite Z.div_div by lia; reflexivity). zqr. lia.
Qed.
Lemma dec6_value n : 0 <= n < 1000000 -> dec_value (dec6 n) = n.
Proof.
  intros H. unfold dec_value, dec6, digit. cbn [fold_left].
  replace (n / 100000) with (n / 10000 / 10) by (rewrite Z.div_div by lia; reflexivity).
  replace (n / 10000) with (n / 1000 / 10) by (rewrite Z.div_div by lia; reflexivity).
  replace (n / 1000) with (n / 100 / 10) by (rewrite Z.div_div by lia; reflexivity).
  replace (n / 100) with (n / 10 / 10) by (rewrite Z.div_div by lia; reflexivity). zqr. lia.
Qed.
