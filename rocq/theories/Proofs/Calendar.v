(** The Gregorian calendar of Spec/TimeSpec.v: every day number is exactly one valid date. *)
From Coq Require Import ZArith Bool List Lia.
Import ListNotations.
From Verif Require Import Spec.TimeSpec.
Local Open Scope Z_scope.

Ltac zq := Z.to_euclidean_division_equations.

Lemma year_start_next y : year_start (y + 1) = year_start y + year_len y.
Proof.
  unfold year_start, year_len, leap.
  replace (y + 1 - 1) with y by lia. replace (y + 1 - 1970) with (y - 1970 + 1) by lia.
  assert (H4 : y / 4 = (y - 1) / 4 + (if y mod 4 =? 0 then 1 else 0)) by
    (destruct (Z.eqb_spec (y mod 4) 0); zq; lia).
  assert (H100 : y / 100 = (y - 1) / 100 + (if y mod 100 =? 0 then 1 else 0)) by
    (destruct (Z.eqb_spec (y mod 100) 0); zq; lia).
  assert (H400 : y / 400 = (y - 1) / 400 + (if y mod 400 =? 0 then 1 else 0)) by
    (destruct (Z.eqb_spec (y mod 400) 0); zq; lia).
  rewrite H4, H100, H400.
  destruct (Z.eqb_spec (y mod 4) 0), (Z.eqb_spec (y mod 100) 0), (Z.eqb_spec (y mod 400) 0);
    cbn [andb orb negb]; try lia; exfalso; zq; lia.
Qed.
Lemma year_len_pos y : 365 <= year_len y <= 366.
Proof. unfold year_len. destruct (leap y); lia. Qed.
Lemma year_start_mono_nat y (n : nat) : year_start y + 365 * Z.of_nat n <= year_start (y + Z.of_nat n).
Proof.
  induction n as [|n IH]; [replace (y + Z.of_nat 0) with y by lia; lia|].
  replace (y + Z.of_nat (S n)) with (y + Z.of_nat n + 1) by lia. rewrite year_start_next.
  pose proof (year_len_pos (y + Z.of_nat n)). lia.
Qed.
Lemma year_start_mono y y' : y <= y' -> year_start y + 365 * (y' - y) <= year_start y'.
Proof.
  intros H. pose proof (year_start_mono_nat y (Z.to_nat (y' - y))) as M.
  rewrite Z2Nat.id in M by lia. replace (y + (y' - y)) with y' in M by lia. exact M.
Qed.

Lemma month_cases m : 1 <= m <= 12 -> In m [1;2;3;4;5;6;7;8;9;10;11;12].
Proof. intros H. cbn. lia. Qed.
Ltac months H := apply month_cases in H; cbn [In] in H;
  repeat (destruct H as [<-|H]; [|]); [..|destruct H].

Lemma month_start_next y m : 1 <= m <= 12 -> month_start y (m + 1) = month_start y m + month_len y m.
Proof. intros H. months H; unfold month_start, month_len; destruct (leap y); reflexivity. Qed.
Lemma month_start_1 y : month_start y 1 = 0.
Proof. reflexivity. Qed.
Lemma month_start_13 y : month_start y 13 = year_len y.
Proof. unfold month_start, year_len, month_len. destruct (leap y); reflexivity. Qed.
Lemma month_len_pos y m : 28 <= month_len y m <= 31.
Proof.
  unfold month_len. destruct (m =? 2), (leap y), ((m =? 4) || (m =? 6) || (m =? 9) || (m =? 11)); lia.
Qed.
Lemma month_start_mono y m m' : 1 <= m -> m < m' -> m' <= 13 -> month_start y m + month_len y m <= month_start y m'.
Proof.
  intros A B C. rewrite <- month_start_next by lia.
  assert (G : forall n : nat, m + 1 + Z.of_nat n <= 13 -> month_start y (m + 1) <= month_start y (m + 1 + Z.of_nat n)).
  { induction n as [|n IH]; intros L; [replace (m + 1 + Z.of_nat 0) with (m + 1) by lia; lia|].
    replace (m + 1 + Z.of_nat (S n)) with (m + 1 + Z.of_nat n + 1) by lia.
    rewrite (month_start_next y (m + 1 + Z.of_nat n)) by lia. pose proof (month_len_pos y (m + 1 + Z.of_nat n)). specialize (IH ltac:(lia)). lia. }
  specialize (G (Z.to_nat (m' - m - 1)) ltac:(lia)).
  replace (m + 1 + Z.of_nat (Z.to_nat (m' - m - 1))) with m' in G by lia. exact G.
Qed.

Lemma day_in_year y m d : valid_date y m d -> year_start y <= day_number y m d < year_start (y + 1).
Proof.
  intros [Hm Hd]. unfold day_number. rewrite year_start_next, <- month_start_13.
  assert (month_start y m + month_len y m <= month_start y 13) by (apply month_start_mono; lia).
  assert (0 <= month_start y m).
  { destruct (Z.eq_dec m 1) as [->|]; [rewrite month_start_1; lia|].
    pose proof (month_start_mono y 1 m ltac:(lia) ltac:(lia) ltac:(lia)). pose proof (month_len_pos y 1).
    rewrite month_start_1 in *. lia. }
  lia.
Qed.

Lemma day_number_inj y m d y' m' d' : valid_date y m d -> valid_date y' m' d' ->
  day_number y m d = day_number y' m' d' -> y = y' /\ m = m' /\ d = d'.
Proof.
  intros V V' E. pose proof (day_in_year _ _ _ V) as R. pose proof (day_in_year _ _ _ V') as R'.
  assert (y = y').
  { destruct (Z.lt_trichotomy y y') as [L|[|L]]; [|assumption|].
    - pose proof (year_start_mono (y + 1) y' ltac:(lia)). lia.
    - pose proof (year_start_mono (y' + 1) y ltac:(lia)). lia. }
  subst y'. destruct V as [Hm Hd], V' as [Hm' Hd']. unfold day_number in E.
  assert (m = m').
  { destruct (Z.lt_trichotomy m m') as [L|[|L]]; [|assumption|].
    - pose proof (month_start_mono y m m' ltac:(lia) ltac:(lia) ltac:(lia)). lia.
    - pose proof (month_start_mono y m' m ltac:(lia) ltac:(lia) ltac:(lia)). lia. }
  subst m'. split; [reflexivity|]. split; [reflexivity|]. lia.
Qed.

Lemma seconds_of_inj r r' : valid_reading r -> valid_reading r' -> seconds_of r = seconds_of r' -> r = r'.
Proof.
  destruct r as [[[[[y m] d] h] mi] s], r' as [[[[[y' m'] d'] h'] mi'] s'].
  intros [V (C1 & C2 & C3)] [V' (C1' & C2' & C3')] E. cbn [seconds_of] in E. unfold utc_seconds in E.
  assert (day_number y m d = day_number y' m' d') as ED by lia.
  destruct (day_number_inj _ _ _ _ _ _ V V' ED) as (-> & -> & ->).
  assert (h = h') by lia. subst. assert (mi = mi') by lia. subst. assert (s = s') by lia. now subst.
Qed.

(** ** A calendar exists: the conversion computed *)
Definition guess (n : Z) : Z := 1970 + (n * 400) / 146097.
Definition year_of (n : Z) : Z :=
  let g := guess n in
  if n <? year_start g then g - 1 else if year_start (g + 1) <=? n then g + 1 else g.
Fixpoint month_search (k : nat) (y r : Z) : Z :=
  match k with
  | O => 1
  | S k' => let m := Z.of_nat (S k) in if month_start y m <=? r then m else month_search k' y r
  end.
Definition date_of (n : Z) : Z * Z * Z :=
  let y := year_of n in
  let r := n - year_start y in
  let m := month_search 11 y r in
  (y, m, r - month_start y m + 1).
Definition gmtime_spec (s : Z) : reading :=
  let n := s / 86400 in
  let r := s mod 86400 in
  let '(y, m, d) := date_of n in
  (y, m, d, r / 3600, r mod 3600 / 60, r mod 60).

Lemma guess_close n : year_start (guess n - 1) <= n < year_start (guess n + 2).
Proof.
  unfold guess, year_start. set (q := (n * 400) / 146097).
  pose proof (Z.div_mod (n * 400) 146097 ltac:(lia)) as D. fold q in D.
  pose proof (Z.mod_pos_bound (n * 400) 146097 ltac:(lia)) as R.
  set (r := (n * 400) mod 146097) in *. clearbody q r. zq. lia.
Qed.
Lemma year_of_ok n : year_start (year_of n) <= n < year_start (year_of n + 1).
Proof.
  pose proof (guess_close n) as G. unfold year_of. set (g := guess n) in *.
  destruct (Z.ltb_spec n (year_start g)); [replace (g - 1 + 1) with g by lia; lia|].
  destruct (Z.leb_spec (year_start (g + 1)) n); [replace (g + 1 + 1) with (g + 2) by lia; lia|lia].
Qed.
Lemma month_search_ok k y r : 0 <= r -> (k <= 11)%nat -> r < month_start y (Z.of_nat k + 2) ->
  let m := month_search k y r in 1 <= m <= 12 /\ month_start y m <= r < month_start y (m + 1).
Proof.
  intros P. induction k as [|k IH]; intros L U; cbn [month_search].
  - cbn zeta. split; [lia|]. split; [rewrite month_start_1; lia|]. exact U.
  - destruct (Z.leb_spec (month_start y (Z.of_nat (S (S k)))) r).
    + cbn zeta. split; [lia|]. split; [assumption|].
      replace (Z.of_nat (S (S k)) + 1) with (Z.of_nat (S k) + 2) by lia. exact U.
    + apply IH; [lia|]. replace (Z.of_nat k + 2) with (Z.of_nat (S (S k))) by lia. assumption.
Qed.
Lemma date_of_ok n : let '(y, m, d) := date_of n in valid_date y m d /\ day_number y m d = n.
Proof.
  unfold date_of. pose proof (year_of_ok n) as Y. set (y := year_of n) in *.
  set (r := n - year_start y). assert (P : 0 <= r) by (subst r; lia).
  rewrite year_start_next, <- month_start_13 in Y.
  assert (U : r < month_start y (Z.of_nat 11 + 2)).
  { change (Z.of_nat 11 + 2) with 13. subst r. lia. }
  pose proof (month_search_ok 11 y r P ltac:(lia) U) as M.
  cbn zeta in M. set (m := month_search 11 y r) in *. destruct M as [M1 M2].
  rewrite month_start_next in M2 by exact M1.
  split; [split; [exact M1|lia]|]. unfold day_number. subst r. lia.
Qed.
Lemma calendar_exists lim : calendar lim gmtime_spec seconds_of.
Proof.
  split; [|reflexivity]. intros s _. unfold gmtime_spec. pose proof (date_of_ok (s / 86400)) as D.
  destruct (date_of (s / 86400)) as [[y m] d]. destruct D as [V E].
  cbn [valid_reading seconds_of]. unfold utc_seconds, valid_clock. rewrite E.
  repeat split; try apply V; zq; lia.
Qed.
