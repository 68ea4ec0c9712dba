(** Calendar arithmetic of prtime.cc. *)
From Verif Require Import Model.Common Model.TimeDelta Model.PrTime Spec.TimeSpec Spec.DateSpec Proofs.Tac Proofs.Calendar.
Local Open Scope Z_scope.
Ltac zqr := Z.to_euclidean_division_equations.

Lemma rem_mod_0 y n : 0 < n -> (Z.rem y n =? 0) = (y mod n =? 0).
Proof.
  intros P. destruct (Z.eqb_spec (Z.rem y n) 0) as [E|E], (Z.eqb_spec (y mod n) 0) as [F|F]; try reflexivity; exfalso.
  - apply F. apply Z.rem_divide in E; [|lia]. apply Z.mod_divide; [lia|exact E].
  - apply E. apply Z.mod_divide in F; [|lia]. apply Z.rem_divide; [lia|exact F].
Qed.
Lemma is_leap_ok y : is_leap y = leap y.
Proof. unfold is_leap, leap. now rewrite !rem_mod_0 by lia. Qed.
Lemma month_cases0 m : 0 <= m <= 11 -> In m [0;1;2;3;4;5;6;7;8;9;10;11].
Proof. intros H. cbn. lia. Qed.
Ltac months0 H := apply month_cases0 in H; cbn [In] in H;
  repeat (destruct H as [<-|H]; [|]); [..|destruct H].
Lemma ndays_ok y m : 0 <= m <= 11 -> ndays y m = Ok (month_len y (m + 1)).
Proof. intros H. unfold ndays. rewrite is_leap_ok. unfold month_len. months0 H; destruct (leap y); reflexivity. Qed.
Lemma last_day_ok y m : 0 <= m <= 11 -> at_ix (last_day_tab (is_leap y)) m = Ok (month_start y (m + 1) - 1).
Proof. intros H. rewrite is_leap_ok. unfold month_start, month_len. months0 H; destruct (leap y); reflexivity. Qed.
Lemma days_between_ok y : 1 <= y -> days_between_years 1970 y = year_start y.
Proof.
  intros H. unfold days_between_years, count_days, count_leaps, year_start.
  rewrite !(Z.quot_div_nonneg (y - 1)) by lia. change (Z.quot (1970 - 1) 4) with 492. change (Z.quot (1970 - 1) 100) with 19.
  change (Z.quot (1970 - 1) 400) with 4. lia.
Qed.
Lemma days_between_bound y : -32768 <= y <= 32767 -> - 20000000 <= days_between_years 1970 y <= 20000000.
Proof.
  intros H. unfold days_between_years, count_days, count_leaps.
  change (Z.quot (1970 - 1) 4) with 492. change (Z.quot (1970 - 1) 100) with 19. change (Z.quot (1970 - 1) 400) with 4.
  zqr. lia.
Qed.

Lemma ck32_ok z : - 2147483648 <= z <= 2147483647 -> ck32 z = Ok z.
Proof. intros H. unfold ck32, i32min, i32max. rewrite (proj2 (Z.leb_le _ _)), (proj2 (Z.leb_le _ _)) by lia. reflexivity. Qed.
Lemma wrap16_id z : -32768 <= z <= 32767 -> wrap16 z = z.
Proof. intros H. unfold wrap16. rewrite Z.mod_small; lia. Qed.
Lemma wrap16_range z : -32768 <= wrap16 z <= 32767.
Proof. unfold wrap16. pose proof (Z.mod_pos_bound (z + 32768) 65536). lia. Qed.
Lemma wrap16_add a b : wrap16 (a + wrap16 b) = wrap16 (a + b).
Proof.
  unfold wrap16. f_equal. replace (a + ((b + 32768) mod 65536 - 32768) + 32768) with (a + (b + 32768) mod 65536) by lia.
  rewrite Z.add_mod_idemp_r by lia. f_equal. lia.
Qed.
Lemma wrap16_pred a : wrap16 (wrap16 a - 1) = wrap16 (a - 1).
Proof. rewrite Z.add_comm with (n := wrap16 a) (m := -1) || idtac. change (wrap16 a - 1) with (wrap16 a + -1). rewrite Z.add_comm, wrap16_add. f_equal. lia. Qed.

Lemma carry_ok x n up : 0 < n -> Z.abs x <= 2000000000 -> Z.abs up + Z.abs x <= 2147483646 ->
  carry x n up = Ok (x mod n, up + x / n).
Proof.
  intros P Bx Bu. unfold carry.
  assert (Q : Z.abs (Z.quot x n) <= Z.abs x).
  { pose proof (Z.quot_rem x n ltac:(lia)). pose proof (Z.rem_bound_abs x n ltac:(lia)). pose proof (Z.rem_sign_mul x n ltac:(lia)). nia. }
  destruct (Z.ltb_spec x 0) as [N|N]; cbn [orb].
  - rewrite ck32_ok by lia. cbn [obind]. destruct (Z.ltb_spec (Z.rem x n) 0) as [R|R].
    + rewrite ck32_ok by lia. cbn [obind]. f_equal.
      assert (x / n = Z.quot x n - 1 /\ x mod n = Z.rem x n + n) as [-> ->].
      { pose proof (Z.quot_rem x n ltac:(lia)). pose proof (Z.rem_bound_abs x n ltac:(lia)).
        split; [symmetry; apply Z.div_unique with (Z.rem x n + n); lia|symmetry; apply Z.mod_unique with (Z.quot x n - 1); lia]. }
      f_equal; lia.
    + assert (Z.rem x n = 0) as E0. { pose proof (Z.rem_nonpos x n ltac:(lia) ltac:(lia)). lia. }
      f_equal. pose proof (Z.quot_rem x n ltac:(lia)).
      assert (x / n = Z.quot x n /\ x mod n = 0) as [-> ->].
      { split; [symmetry; apply Z.div_unique with 0; lia|symmetry; apply Z.mod_unique with (Z.quot x n); lia]. }
      now rewrite E0.
  - destruct (Z.leb_spec n x) as [L|L].
    + rewrite ck32_ok by lia. cbn [obind]. rewrite Z.rem_mod_nonneg, Z.quot_div_nonneg by lia.
      destruct (Z.ltb_spec (x mod n) 0); [pose proof (Z.mod_pos_bound x n); lia|reflexivity].
    + rewrite Z.mod_small, Z.div_small by lia. f_equal. f_equal. lia.
Qed.

(** The month carry. *)
Definition month_carry (m y : Z) : Z * Z :=
  if (m <? 0) || (12 <=? m) then
    let y1 := wrap16 (y + wrap16 (Z.quot m 12)) in
    let m1 := Z.rem m 12 in
    if m1 <? 0 then (m1 + 12, wrap16 (y1 - 1)) else (m1, y1)
  else (m, y).
Lemma month_carry_ok m y : -32768 <= y <= 32767 -> month_carry m y = (m mod 12, wrap16 (y + m / 12)).
Proof.
  intros Hy. unfold month_carry. rewrite wrap16_add, wrap16_pred.
  destruct (Z.ltb_spec m 0); cbn [orb]; [|destruct (Z.leb_spec 12 m)].
  - destruct (Z.ltb_spec (Z.rem m 12) 0); f_equal; [zqr; lia|f_equal; zqr; lia|zqr; lia|f_equal; zqr; lia].
  - destruct (Z.ltb_spec (Z.rem m 12) 0); f_equal; [zqr; lia|f_equal; zqr; lia|zqr; lia|f_equal; zqr; lia].
  - rewrite Z.mod_small, Z.div_small by lia. f_equal. rewrite Z.add_0_r. symmetry. now apply wrap16_id.
Qed.

Definition first_of (y m : Z) : Z := day_number y (m + 1) 1.
Lemma first_of_next y m : 0 <= m <= 10 -> first_of y (m + 1) = first_of y m + month_len y (m + 1).
Proof. intros H. unfold first_of, day_number. rewrite month_start_next by lia. lia. Qed.
Lemma first_of_next_year y : first_of (y + 1) 0 = first_of y 11 + month_len y 12.
Proof.
  unfold first_of, day_number. rewrite year_start_next. change (0 + 1) with 1. change (11 + 1) with 12.
  rewrite month_start_1, <- (month_start_13 y). change 13 with (12 + 1) at 1. rewrite month_start_next by lia. lia.
Qed.
Lemma first_of_year y m : 0 <= m <= 11 -> year_start y <= first_of y m < year_start (y + 1).
Proof. intros H. apply day_in_year. split; [lia|]. pose proof (month_len_pos y (m + 1)). lia. Qed.

Lemma year_start_lt y y' : year_start y < year_start (y' + 1) -> y <= y'.
Proof. intros H. destruct (Z.le_gt_cases y y'); [assumption|]. pose proof (year_start_mono (y' + 1) y ltac:(lia)). lia. Qed.

Lemma mday_up_ok f : forall mday m y, (Z.to_nat (1 - mday) <= f)%nat -> mday < 1 -> 0 <= m <= 11 -> y <= 32767 ->
  year_start 1 <= first_of y m + mday - 1 ->
  exists d m' y', mday_up f mday m y = Ok (d, m', y') /\ 0 <= m' <= 11 /\ 1 <= y' <= 32767 /\
    valid_date y' (m' + 1) d /\ first_of y' m' + d - 1 = first_of y m + mday - 1.
Proof.
  induction f as [|f IH]; intros mday m y F L M Y D; [lia|].
  pose proof (first_of_year y m M) as FY.
  assert (1 <= y) as Y1 by (apply year_start_lt; lia).
  cbn [mday_up].
  set (p := if m - 1 <? 0 then (11, wrap16 (y - 1)) else (m - 1, y)).
  assert (exists m2 y2, p = (m2, y2) /\ 0 <= m2 <= 11 /\ y2 <= 32767 /\ first_of y2 m2 + month_len y2 (m2 + 1) = first_of y m) as
    (m2 & y2 & -> & M2 & Y2 & E2).
  { subst p. destruct (Z.ltb_spec (m - 1) 0).
    - exists 11, (y - 1). rewrite wrap16_id by lia. replace m with 0 by lia.
      pose proof (first_of_next_year (y - 1)) as N. replace (y - 1 + 1) with y in N by lia. change (11 + 1) with 12. repeat split; lia.
    - exists (m - 1), y. pose proof (first_of_next y (m - 1) ltac:(lia)) as N. replace (m - 1 + 1) with m in * by lia. repeat split; lia. }
  rewrite ndays_ok by exact M2. cbn [obind]. pose proof (month_len_pos y2 (m2 + 1)) as LP.
  destruct (Z.ltb_spec (mday + month_len y2 (m2 + 1)) 1).
  - destruct (IH (mday + month_len y2 (m2 + 1)) m2 y2) as (d & m' & y' & E & A & B & V & S); try assumption; try lia.
    exists d, m', y'. repeat split; try assumption; try apply V; lia.
  - exists (mday + month_len y2 (m2 + 1)), m2, y2. split; [reflexivity|].
    assert (1 <= y2) by (pose proof (first_of_year y2 m2 M2); pose proof (first_of_year y2 m2 M2);
      apply year_start_lt; assert (day_number y2 (m2 + 1) (mday + month_len y2 (m2 + 1)) < year_start (y2 + 1));
      [apply day_in_year; split; lia|unfold first_of, day_number in *; lia]).
    repeat split; try lia.
Qed.
Lemma mday_down_ok f : forall mday m y, (Z.to_nat mday <= f)%nat -> 1 <= mday -> 0 <= m <= 11 -> -32768 <= y ->
  first_of y m + mday - 1 < year_start 32768 ->
  exists d m' y', mday_down f mday m y = Ok (d, m', y') /\ 0 <= m' <= 11 /\ y <= y' <= 32767 /\
    valid_date y' (m' + 1) d /\ first_of y' m' + d - 1 = first_of y m + mday - 1.
Proof.
  induction f as [|f IH]; intros mday m y F L M Y D; [lia|].
  pose proof (first_of_year y m M) as FY.
  assert (y <= 32767) as Y1 by (apply year_start_lt; change (32767 + 1) with 32768; lia).
  cbn [mday_down]. rewrite ndays_ok by exact M. cbn [obind]. pose proof (month_len_pos y (m + 1)) as LP.
  destruct (Z.ltb_spec (month_len y (m + 1)) mday).
  - set (p := if 11 <? m + 1 then (0, wrap16 (y + 1)) else (m + 1, y)).
    assert (exists m2 y2, p = (m2, y2) /\ 0 <= m2 <= 11 /\ y <= y2 /\ first_of y2 m2 = first_of y m + month_len y (m + 1)) as
      (m2 & y2 & -> & M2 & Y2 & E2).
    { subst p. destruct (Z.ltb_spec 11 (m + 1)).
      - exists 0, (y + 1). replace m with 11 in * by lia. change (11 + 1) with 12 in *.
        pose proof (first_of_next_year y) as N.
        assert (y + 1 <= 32767).
        { apply year_start_lt. change (32767 + 1) with 32768. pose proof (first_of_year (y + 1) 0 ltac:(lia)). lia. }
        rewrite wrap16_id by lia. repeat split; lia.
      - exists (m + 1), y. pose proof (first_of_next y m ltac:(lia)). repeat split; lia. }
    destruct (IH (mday - month_len y (m + 1)) m2 y2) as (d & m' & y' & E & A & B & V & S); try assumption; try lia.
    exists d, m', y'. repeat split; try assumption; try apply V; lia.
  - exists mday, m, y. repeat split; try reflexivity; lia.
Qed.
(** Without range assumptions the loops still end inside a month. *)
Lemma mday_up_total f : forall mday m y, (Z.to_nat (1 - mday) <= f)%nat -> mday < 1 -> 0 <= m <= 11 -> -32768 <= y <= 32767 ->
  exists d m' y', mday_up f mday m y = Ok (d, m', y') /\ 1 <= d <= 31 /\ 0 <= m' <= 11 /\ -32768 <= y' <= 32767.
Proof.
  induction f as [|f IH]; intros mday m y F L M Y; [lia|]. cbn [mday_up].
  set (p := if m - 1 <? 0 then (11, wrap16 (y - 1)) else (m - 1, y)).
  assert (exists m2 y2, p = (m2, y2) /\ 0 <= m2 <= 11 /\ -32768 <= y2 <= 32767) as (m2 & y2 & -> & M2 & Y2).
  { subst p. destruct (Z.ltb_spec (m - 1) 0); [exists 11, (wrap16 (y - 1))|exists (m - 1), y]; repeat split; try lia; apply wrap16_range. }
  rewrite ndays_ok by exact M2. cbn [obind]. pose proof (month_len_pos y2 (m2 + 1)) as LP.
  destruct (Z.ltb_spec (mday + month_len y2 (m2 + 1)) 1); [apply IH; lia|].
  do 3 eexists. split; [reflexivity|]. lia.
Qed.
Lemma mday_down_total f : forall mday m y, (Z.to_nat mday <= f)%nat -> 1 <= mday -> 0 <= m <= 11 -> -32768 <= y <= 32767 ->
  exists d m' y', mday_down f mday m y = Ok (d, m', y') /\ 1 <= d <= 31 /\ 0 <= m' <= 11 /\ -32768 <= y' <= 32767.
Proof.
  induction f as [|f IH]; intros mday m y F L M Y; [lia|]. cbn [mday_down].
  rewrite ndays_ok by exact M. cbn [obind]. pose proof (month_len_pos y (m + 1)) as LP.
  destruct (Z.ltb_spec (month_len y (m + 1)) mday).
  - set (p := if 11 <? m + 1 then (0, wrap16 (y + 1)) else (m + 1, y)).
    assert (exists m2 y2, p = (m2, y2) /\ 0 <= m2 <= 11 /\ -32768 <= y2 <= 32767) as (m2 & y2 & -> & M2 & Y2).
    { subst p. destruct (Z.ltb_spec 11 (m + 1)); [exists 0, (wrap16 (y + 1))|exists (m + 1), y]; repeat split; try lia; apply wrap16_range. }
    apply IH; lia.
  - do 3 eexists. split; [reflexivity|]. lia.
Qed.

(** Moderate fields: no [int] overflow is possible. *)
Definition moderate (t : ptm) : Prop :=
  Z.abs (p_usec t) <= 100000000 /\ Z.abs (p_sec t) <= 100000000 /\ Z.abs (p_min t) <= 100000000 /\
  Z.abs (p_hour t) <= 100000000 /\ Z.abs (p_mday t) <= 100000000 /\ Z.abs (p_gmt t) <= 100000000 /\ Z.abs (p_dst t) <= 100000000 /\
  -32768 <= p_year t <= 32767.
(** Seconds denoted by the fields, before any normalisation. *)
Definition p_secs (t : ptm) : Z :=
  lenient_seconds (p_year t) (p_month t + 1) (p_mday t) (p_hour t) (p_min t) (p_sec t) - p_gmt t - p_dst t.

Lemma normalize_unfold t : moderate t ->
  let sec0 := p_sec t - (p_gmt t + p_dst t) in
  let sec1 := sec0 + p_usec t / 1000000 in
  let min1 := p_min t + sec1 / 60 in
  let hour1 := p_hour t + min1 / 60 in
  let mday1 := p_mday t + hour1 / 24 in
  normalize t =
  obind (if mday1 <? 1 then mday_up (Z.to_nat (1 - mday1)) mday1 (p_month t mod 12) (wrap16 (p_year t + p_month t / 12))
         else mday_down (Z.to_nat mday1) mday1 (p_month t mod 12) (wrap16 (p_year t + p_month t / 12))) (fun '(mday2, month2, year2) =>
  obind (at_ix (last_day_tab (is_leap year2)) month2) (fun l =>
  let yday := wrap16 (mday2 + l) in
  let numDays := days_between_years 1970 year2 + yday in
  let w := Z.rem (numDays + 4) 7 in
  let wday := if w <? 0 then w + 7 else w in
  Ok (mkP (p_usec t mod 1000000) (sec1 mod 60) (min1 mod 60) (hour1 mod 24) mday2 month2 year2 wday yday 0 0))).
Proof.
  intros (B1 & B2 & B3 & B4 & B5 & B6 & B7 & B8) sec0 sec1 min1 hour1 mday1. unfold normalize.
  rewrite ck32_ok by lia. cbn [obind]. rewrite ck32_ok by lia. cbn [obind].
  assert (Z.abs (p_usec t / 1000000) <= 101) by (zqr; lia).
  assert (Z.abs sec1 <= 400000000) by (subst sec1 sec0; lia).
  assert (Z.abs min1 <= 200000000) by (subst min1; zqr; lia).
  assert (Z.abs hour1 <= 200000000) by (subst hour1; zqr; lia).
  rewrite carry_ok by lia. cbn [obind]. fold sec0. fold sec1.
  rewrite carry_ok by lia. cbn [obind]. fold min1.
  rewrite carry_ok by lia. cbn [obind]. fold hour1.
  rewrite carry_ok by lia. cbn [obind]. fold mday1.
  fold (month_carry (p_month t) (p_year t)). rewrite month_carry_ok by exact B8. reflexivity.
Qed.

Theorem normalize_exact t : moderate t -> -32768 <= p_year t + p_month t / 12 <= 32767 ->
  year_start 1 * 86400 <= p_secs t + p_usec t / 1000000 < year_start 32768 * 86400 ->
  exists r, normalize t = Ok r /\ valid_date (p_year r) (p_month r + 1) (p_mday r) /\
    valid_clock (p_hour r) (p_min r) (p_sec r) /\ 0 <= p_usec r < 1000000 /\ p_gmt r = 0 /\ p_dst r = 0 /\
    1 <= p_year r <= 32767 /\
    utc_seconds (p_year r) (p_month r + 1) (p_mday r) (p_hour r) (p_min r) (p_sec r) * 1000000 + p_usec r
      = p_secs t * 1000000 + p_usec t /\
    p_yday r = day_number (p_year r) (p_month r + 1) (p_mday r) - year_start (p_year r) /\
    p_wday r = (day_number (p_year r) (p_month r + 1) (p_mday r) + 4) mod 7.
Proof.
  intros Mo Ry R. rewrite normalize_unfold by exact Mo. cbv zeta.
  set (sec1 := p_sec t - (p_gmt t + p_dst t) + p_usec t / 1000000). set (min1 := p_min t + sec1 / 60).
  set (hour1 := p_hour t + min1 / 60). set (mday1 := p_mday t + hour1 / 24).
  rewrite (wrap16_id _ Ry). set (m1 := p_month t mod 12). set (y1 := p_year t + p_month t / 12) in *.
  assert (M1 : 0 <= m1 <= 11) by (subst m1; pose proof (Z.mod_pos_bound (p_month t) 12); lia).
  set (D := first_of y1 m1 + mday1 - 1).
  assert (ES : p_secs t + p_usec t / 1000000 = D * 86400 + (hour1 mod 24) * 3600 + (min1 mod 60) * 60 + sec1 mod 60).
  { unfold p_secs, lenient_seconds, lenient_day. replace (p_month t + 1 - 1) with (p_month t) by lia. fold m1 y1. fold (first_of y1 m1).
    pose proof (Z.div_mod hour1 24 ltac:(lia)). pose proof (Z.div_mod min1 60 ltac:(lia)). pose proof (Z.div_mod sec1 60 ltac:(lia)).
    subst D mday1. lia. }
  pose proof (Z.mod_pos_bound hour1 24 ltac:(lia)) as BH. pose proof (Z.mod_pos_bound min1 60 ltac:(lia)) as BM.
  pose proof (Z.mod_pos_bound sec1 60 ltac:(lia)) as BS.
  assert (RD : year_start 1 <= D < year_start 32768) by lia.
  assert (exists d m' y', (if mday1 <? 1 then mday_up (Z.to_nat (1 - mday1)) mday1 m1 y1 else mday_down (Z.to_nat mday1) mday1 m1 y1)
            = Ok (d, m', y') /\ 0 <= m' <= 11 /\ 1 <= y' <= 32767 /\ valid_date y' (m' + 1) d /\ first_of y' m' + d - 1 = D)
    as (d & m' & y' & -> & M' & Y' & V & S).
  { destruct (Z.ltb_spec mday1 1).
    - apply mday_up_ok; lia.
    - destruct (mday_down_ok (Z.to_nat mday1) mday1 m1 y1) as (d & m' & y' & E & A & B & V & S); try lia.
      exists d, m', y'. repeat split; try assumption; try apply V; try lia.
      pose proof (day_in_year _ _ _ V) as DI. apply year_start_lt. unfold first_of, day_number in *. lia. }
  cbn [obind]. rewrite last_day_ok by exact M'. cbn [obind].
  assert (YB : 0 <= d + (month_start y' (m' + 1) - 1) <= 365).
  { pose proof (day_in_year _ _ _ V) as DI. rewrite year_start_next in DI. pose proof (year_len_pos y'). unfold day_number in DI. lia. }
  rewrite wrap16_id by lia. rewrite days_between_ok by lia.
  assert (ED : first_of y' m' + d - 1 = day_number y' (m' + 1) d) by (unfold first_of, day_number; lia).
  eexists. split; [reflexivity|]. cbn [p_year p_month p_mday p_hour p_min p_sec p_usec p_gmt p_dst p_yday p_wday].
  split; [exact V|]. split; [unfold valid_clock; lia|]. split; [apply Z.mod_pos_bound; lia|].
  split; [reflexivity|]. split; [reflexivity|]. split; [exact Y'|]. split; [|split].
  - unfold utc_seconds. rewrite <- ED, S. pose proof (Z.div_mod (p_usec t) 1000000 ltac:(lia)). lia.
  - unfold day_number. lia.
  - unfold day_number. replace (year_start y' + (d + (month_start y' (m' + 1) - 1)) + 4)
      with (year_start y' + month_start y' (m' + 1) + (d - 1) + 4) by lia.
    set (N := year_start y' + month_start y' (m' + 1) + (d - 1) + 4).
    destruct (Z.ltb_spec (Z.rem N 7) 0); zqr; lia.
Qed.

Theorem normalize_total t : moderate t -> exists r, normalize t = Ok r /\
  0 <= p_usec r < 1000000 /\ 0 <= p_sec r < 60 /\ 0 <= p_min r < 60 /\ 0 <= p_hour r < 24 /\
  1 <= p_mday r <= 31 /\ 0 <= p_month r <= 11 /\ -32768 <= p_year r <= 32767 /\ 0 <= p_yday r <= 365 /\ p_gmt r = 0 /\ p_dst r = 0.
Proof.
  intros Mo. rewrite normalize_unfold by exact Mo. cbv zeta.
  set (sec1 := p_sec t - (p_gmt t + p_dst t) + p_usec t / 1000000). set (min1 := p_min t + sec1 / 60).
  set (hour1 := p_hour t + min1 / 60). set (mday1 := p_mday t + hour1 / 24).
  set (m1 := p_month t mod 12). set (y1 := wrap16 (p_year t + p_month t / 12)) in *.
  assert (M1 : 0 <= m1 <= 11) by (subst m1; pose proof (Z.mod_pos_bound (p_month t) 12); lia).
  assert (Y1 : -32768 <= y1 <= 32767) by apply wrap16_range.
  assert (exists d m' y', (if mday1 <? 1 then mday_up (Z.to_nat (1 - mday1)) mday1 m1 y1 else mday_down (Z.to_nat mday1) mday1 m1 y1)
            = Ok (d, m', y') /\ 1 <= d <= 31 /\ 0 <= m' <= 11 /\ -32768 <= y' <= 32767)
    as (d & m' & y' & -> & D' & M' & Y').
  { destruct (Z.ltb_spec mday1 1); [apply mday_up_total|apply mday_down_total]; lia. }
  cbn [obind]. rewrite last_day_ok by exact M'. cbn [obind].
  assert (MS : 0 <= month_start y' (m' + 1) <= 335) by (unfold month_start, month_len; clear - M'; months0 M'; destruct (leap y'); vm_compute; split; congruence).
  rewrite wrap16_id by lia.
  eexists. split; [reflexivity|]. cbn [p_year p_month p_mday p_hour p_min p_sec p_usec p_gmt p_dst p_yday p_wday].
  pose proof (Z.mod_pos_bound hour1 24 ltac:(lia)). pose proof (Z.mod_pos_bound min1 60 ltac:(lia)).
  pose proof (Z.mod_pos_bound sec1 60 ltac:(lia)). pose proof (Z.mod_pos_bound (p_usec t) 1000000 ltac:(lia)). lia.
Qed.
Lemma ck64_ok' z : - 9000000000000000000 <= z <= 9000000000000000000 -> ck64 z = Ok z.
Proof. intros H. unfold ck64, in64b, i64min, i64max. rewrite (proj2 (Z.leb_le _ _)), (proj2 (Z.leb_le _ _)) by lia. reflexivity. Qed.

Theorem implode_exact t : moderate t -> -32768 <= p_year t + p_month t / 12 <= 32767 ->
  year_start 1 * 86400 <= p_secs t + p_usec t / 1000000 < year_start 32768 * 86400 ->
  implode t = Ok (p_secs t * 1000000 + p_usec t).
Proof.
  intros Mo Ry R. destruct (normalize_exact t Mo Ry R) as (r & E & V & C & U & G & Ds & Y & S & Yd & _).
  unfold implode. rewrite E. cbn [obind]. rewrite days_between_ok by lia.
  pose proof (days_between_bound (p_year r) ltac:(lia)) as DB. rewrite days_between_ok in DB by lia.
  pose proof (day_in_year _ _ _ V) as DI. rewrite year_start_next in DI. pose proof (year_len_pos (p_year r)).
  unfold valid_clock in C. rewrite G, Ds.
  rewrite ck32_ok by lia. cbn [obind]. rewrite ck32_ok by lia. cbn [obind].
  rewrite ck64_ok' by lia. cbn [obind]. rewrite ck64_ok' by lia. cbn [obind]. rewrite ck64_ok' by lia.
  f_equal. rewrite <- S. unfold utc_seconds. lia.
Qed.
Theorem implode_total t : moderate t -> exists z, implode t = Ok z /\ Z.abs z <= 2000000000000000000.
Proof.
  intros Mo. destruct (normalize_total t Mo) as (r & E & B1 & B2 & B3 & B4 & B5 & B6 & B7 & B8 & G & Ds).
  unfold implode. rewrite E. cbn [obind]. pose proof (days_between_bound (p_year r) B7) as DB.
  rewrite G, Ds. rewrite ck32_ok by lia. cbn [obind]. rewrite ck32_ok by lia. cbn [obind].
  rewrite ck64_ok' by lia. cbn [obind]. rewrite ck64_ok' by lia. cbn [obind]. rewrite ck64_ok' by lia.
  eexists. split; [reflexivity|]. lia.
Qed.
