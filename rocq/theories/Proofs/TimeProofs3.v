(** Proofs about Time: time_t, timeval, milliseconds and calendar conversions. *)
From Verif Require Import Model.Common Model.TimeDelta Spec.TimeSpec Proofs.Tac Proofs.TimeProofs Proofs.TimeProofs2 Proofs.Calendar.
Local Open Scope Z_scope.

Ltac epoch := unfold unix_epoch in *.

Lemma from_seconds_sat s : from_seconds s = saturate (s * 1000000).
Proof. apply clamp_mul_sat. Qed.

(** ** time_t *)
Lemma from_time_t_ok tt : int64 tt -> tt <> 0 -> finite (tt * 1000000) ->
  from_time_t tt = Ok (saturate (unix_epoch + tt * 1000000)).
Proof.
  intros H N F. unfold from_time_t. destruct (Z.eqb_spec tt 0); [contradiction|].
  destruct (Z.eqb_spec tt i64max) as [->|]; [exfalso; nums; lia|].
  rewrite from_seconds_sat, saturate_id by (auto using finite_int64).
  apply td_add_fin; [epoch; nums; lia|exact F].
Qed.
Lemma to_time_t_ok t : t <> 0 -> int64 (t - unix_epoch) -> t - unix_epoch <> minus_inf ->
  t < i64max - unix_epoch -> to_time_t t = Ok (Z.quot (t - unix_epoch) 1000000).
Proof.
  intros N H Nm L. unfold to_time_t. destruct (Z.eqb_spec t 0); [contradiction|].
  rewrite (finite_not_inf t) by (epoch; nums; lia). cbn [negb andb].
  destruct (Z.ltb_spec t (i64max - unix_epoch)); [|lia].
  unfold t_diff. rewrite ck64_ok by exact H. cbn [obind]. unfold in_seconds.
  rewrite finite_not_inf; [reflexivity|]. epoch. nums. lia.
Qed.

(** ** timeval *)
Lemma to_timeval_ok t : int64 t -> t <> 0 -> t <> plus_inf -> int64 (t - unix_epoch) ->
  to_timeval t = Ok (Z.quot (t - unix_epoch) 1000000, Z.rem (t - unix_epoch) 1000000).
Proof.
  intros Ht N M H. unfold to_timeval. destruct (Z.eqb_spec t 0); [contradiction|].
  destruct (Z.eqb_spec t i64max) as [->|]; [contradiction M; reflexivity|].
  now rewrite ck64_ok by exact H.
Qed.
Lemma from_timeval_ok sec usec : 0 < usec < 1000000 -> int64 (sec * 1000000) ->
  int64 (sec * 1000000 + usec) -> int64 (sec * 1000000 + usec + unix_epoch) ->
  from_timeval sec usec = Ok (sec * 1000000 + usec + unix_epoch).
Proof.
  intros U H1 H2 H3. unfold from_timeval. destruct (Z.ltb_spec 0 usec); [|lia].
  destruct (Z.ltb_spec usec 1000000); [|lia]. destruct (Z.eqb_spec usec 0); [lia|]. cbn [negb andb].
  destruct ((usec =? 999999) && (sec =? i64max)) eqn:E.
  - apply andb_true_iff in E. destruct E as [_ E]. apply Z.eqb_eq in E. subst. exfalso. nums. lia.
  - rewrite ck64_ok by exact H1. cbn [obind]. rewrite ck64_ok by exact H2. cbn [obind]. now apply ck64_ok.
Qed.

(** ** Milliseconds since the Unix epoch *)
Lemma to_ms_epoch_ok t : int64 t -> to_ms_epoch t = Ok ((t - unix_epoch) / 1000).
Proof.
  intros H. unfold to_ms_epoch.
  assert (E : Z.quot t 1000 - 11644473600000 - (if Z.rem t 1000 <? 0 then 1 else 0) = (t - unix_epoch) / 1000).
  { unfold unix_epoch. replace (t - 11644473600000000) with (t + (- 11644473600000) * 1000) by lia.
    rewrite Z.div_add by lia. destruct (Z.ltb_spec (Z.rem t 1000) 0); zq; nums; lia. }
  rewrite ck64_ok.
  - cbn [obind]. rewrite ck64_ok; [now rewrite E|].
    rewrite E. epoch. nums. split; [apply Z.div_le_lower_bound; lia|apply Z.div_le_upper_bound; lia].
  - pose proof (quot_bound t 1000 ltac:(lia)). pose proof (quot_bound2 t 1000 ltac:(lia)). nums. lia.
Qed.
Lemma from_ms_epoch_ok ms : from_ms_epoch ms =
  if in64b (ms * 1000) && in64b (ms * 1000 + unix_epoch) then (true, ms * 1000 + unix_epoch) else (false, 0).
Proof.
  unfold from_ms_epoch, mul_builtin. destruct (in64b (ms * 1000)) eqn:E; [|reflexivity].
  cbn [andb]. unfold add_builtin. destruct (in64b (ms * 1000 + unix_epoch)); reflexivity.
Qed.

Section Calendar.
Variable gmtime : Z -> tm.
Variable timegm : tm -> Z.
Definition reading_of (g : tm) : reading :=
  (tm_year g + 1900, tm_mon g + 1, tm_mday g, tm_hour g, tm_min g, tm_sec g).
Definition tm_of (r : reading) : tm :=
  let '(y, m, d, h, mi, s) := r in
  {| tm_year := y - 1900; tm_mon := m - 1; tm_mday := d; tm_hour := h; tm_min := mi; tm_sec := s |}.
Definition e_reading (e : exploded) : reading := (e_year e, e_month e, e_mday e, e_hour e, e_min e, e_sec e).
(** No [Time] is further from the epoch than this many seconds. *)
Definition lim : Z := 10000000000000.
Hypothesis cal : calendar lim (fun s => reading_of (gmtime s)) (fun r => timegm (tm_of r)).

Lemma ms_range t : int64 t -> - lim * 1000 <= (t - unix_epoch) / 1000 < lim * 1000.
Proof.
  intros H. unfold lim. epoch. split.
  - apply Z.div_le_lower_bound; [lia|]. nums. lia.
  - apply Z.div_lt_upper_bound; [lia|]. nums. lia.
Qed.

Lemma explode_ok t : int64 t -> exists e, explode gmtime t = Ok e /\
  valid_reading (e_reading e) /\ 0 <= e_ms e < 1000 /\
  seconds_of (e_reading e) * 1000 + e_ms e = (t - unix_epoch) / 1000.
Proof.
  intros H. unfold explode. rewrite to_ms_epoch_ok by exact H. cbn [obind].
  set (ms := (t - unix_epoch) / 1000).
  pose proof (ms_range t H) as R. fold ms in R.
  assert (E : (if Z.rem ms 1000 <? 0 then Z.quot ms 1000 - 1 else Z.quot ms 1000) = ms / 1000 /\
              (if Z.rem ms 1000 <? 0 then Z.rem ms 1000 + 1000 else Z.rem ms 1000) = ms mod 1000).
  { destruct (Z.ltb_spec (Z.rem ms 1000) 0); clearbody ms; split; zq; lia. }
  destruct E as [-> ->].
  assert (S : - lim <= ms / 1000 <= lim).
  { split; [apply Z.div_le_lower_bound; lia|apply Z.div_le_upper_bound; lia]. }
  rewrite ck64_ok by (unfold lim in S; nums; lia). cbn [obind].
  destruct cal as [C1 _]. destruct (C1 (ms / 1000) S) as [V E].
  eexists. split; [reflexivity|]. unfold e_reading. cbn [e_year e_month e_mday e_hour e_min e_sec e_ms].
  unfold reading_of in V, E. split; [exact V|]. split; [apply Z.mod_pos_bound; lia|].
  rewrite E. pose proof (Z.div_mod ms 1000). lia.
Qed.

Lemma mostly_equals_eq a b : mostly_equals a b = true <-> a = b.
Proof.
  unfold mostly_equals. rewrite !andb_true_iff, !Z.eqb_eq. destruct a, b; cbn. split.
  - intros ((((((-> & ->) & ->) & ->) & ->) & ->) & ->). reflexivity.
  - intros E. injection E as -> -> -> -> -> -> ->. tauto.
Qed.
Lemma e_eq a b : e_reading a = e_reading b -> e_ms a = e_ms b -> a = b.
Proof.
  destruct a, b. unfold e_reading. cbn. intros E ->. injection E as -> -> -> -> -> ->. reflexivity.
Qed.

(** The instant an exploded time denotes, in microseconds since the Unix epoch. *)
Definition e_instant (e : exploded) : Z := (seconds_of (e_reading e) * 1000 + e_ms e) * 1000.
Definition e_valid (e : exploded) : Prop := valid_reading (e_reading e) /\ 0 <= e_ms e < 1000.

Lemma from_exploded_sound e t : from_exploded gmtime timegm e = Ok (true, t) ->
  e_valid e /\ t = unix_epoch + e_instant e /\ int64 t.
Proof.
  unfold from_exploded.
  destruct (negb (in32b (e_month e - 1)) || negb (in32b (e_year e - 1900))); [intros X; discriminate X|].
  match goal with |- (match ?m with _ => _ end) = _ -> _ => destruct m as [ms|] eqn:Em; [|intros X; discriminate X] end.
  rewrite from_ms_epoch_ok. destruct (in64b (ms * 1000) && in64b (ms * 1000 + unix_epoch)) eqn:Er;
    [|cbn [negb]; intros X; discriminate X].
  cbn [negb]. apply andb_true_iff in Er. destruct Er as [Er1 Er2].
  apply in64b_true in Er1, Er2.
  destruct (explode_ok (ms * 1000 + unix_epoch) Er2) as (e' & -> & V & M & S).
  cbn [obind]. destruct (mostly_equals e' e) eqn:Q; [|intros X; discriminate X].
  intros X. injection X as <-. apply mostly_equals_eq in Q. subst e'.
  replace (ms * 1000 + unix_epoch - unix_epoch) with (ms * 1000) in S by lia.
  rewrite Z.div_mul in S by lia. unfold e_instant, e_valid. repeat split; try apply V; try lia; apply Er2.
Qed.

Lemma minus_one_year r : valid_reading r -> seconds_of r = -1 -> r = (1969, 12, 31, 23, 59, 59).
Proof.
  intros V E. apply seconds_of_inj; [exact V| |rewrite E; reflexivity].
  cbn. unfold valid_date, valid_clock. cbn. lia.
Qed.

Lemma from_exploded_complete e : in32b (e_month e - 1) = true -> in32b (e_year e - 1900) = true ->
  e_valid e -> int64 (e_instant e) -> int64 (unix_epoch + e_instant e) ->
  from_exploded gmtime timegm e = Ok (true, unix_epoch + e_instant e).
Proof.
  intros I1 I2 [V M] R1 R2. unfold from_exploded. rewrite I1, I2. cbn [negb orb].
  destruct cal as [_ C2]. pose proof (C2 (e_reading e) V) as T. cbn [tm_of e_reading] in T.
  rewrite T. set (s := seconds_of (e_reading e)) in *.
  replace ((s =? -1) && ((e_year e <? 1969) || (1970 <? e_year e))) with false.
  2:{ symmetry. destruct (Z.eqb_spec s (-1)) as [Es|]; [|reflexivity]. cbn [andb].
      pose proof (minus_one_year _ V Es) as Y. unfold e_reading in Y. injection Y as -> _ _ _ _ _. reflexivity. }
  unfold e_instant in *. fold s in R1, R2.
  unfold mul_builtin at 1. rewrite (proj2 (in64b_true (s * 1000))) by (nums; lia).
  unfold add_builtin at 1. rewrite (proj2 (in64b_true (s * 1000 + e_ms e))) by (nums; lia).
  rewrite from_ms_epoch_ok. rewrite (proj2 (in64b_true _) R1).
  replace ((s * 1000 + e_ms e) * 1000 + unix_epoch) with (unix_epoch + (s * 1000 + e_ms e) * 1000) by lia.
  rewrite (proj2 (in64b_true _) R2). cbn [andb negb].
  destruct (explode_ok _ R2) as (e' & -> & V' & M' & S'). cbn [obind].
  replace (unix_epoch + (s * 1000 + e_ms e) * 1000 - unix_epoch) with ((s * 1000 + e_ms e) * 1000) in S' by lia.
  rewrite Z.div_mul in S' by lia.
  assert (Es : seconds_of (e_reading e') = s) by lia.
  assert (e' = e) as ->.
  { apply e_eq; [apply seconds_of_inj; assumption|lia]. }
  now rewrite (proj2 (mostly_equals_eq e e) eq_refl).
Qed.

Lemma from_exploded_total e : exists b t, from_exploded gmtime timegm e = Ok (b, t) /\ (b = false -> t = 0).
Proof.
  unfold from_exploded.
  destruct (negb (in32b (e_month e - 1)) || negb (in32b (e_year e - 1900))); [eauto|].
  match goal with |- context [match ?m with Some _ => _ | None => _ end] => destruct m as [ms|] eqn:Em; [|eauto] end.
  rewrite from_ms_epoch_ok. destruct (in64b (ms * 1000) && in64b (ms * 1000 + unix_epoch)) eqn:Er; [|cbn [negb]; eauto].
  cbn [negb]. apply andb_true_iff in Er. destruct Er as [Er1 Er2]. apply in64b_true in Er2.
  destruct (explode_ok _ Er2) as (e' & -> & _). cbn [obind].
  destruct (mostly_equals e' e); [|eauto]. do 2 eexists. split; [reflexivity|]. discriminate.
Qed.

Lemma year_fits y m d : valid_date y m d -> - lim <= day_number y m d * 86400 + 86400 -> day_number y m d * 86400 <= lim ->
  in32b (y - 1900) = true /\ in32b (m - 1) = true.
Proof.
  intros V L U. pose proof (day_in_year _ _ _ V) as D. unfold lim in *.
  unfold in32b, i32min, i32max. rewrite !andb_true_iff, !Z.leb_le.
  destruct V as [Hm _]. split; [|lia].
  destruct (Z.le_gt_cases 1970 y) as [G|G].
  - pose proof (year_start_mono 1970 y G) as Q. change (year_start 1970) with 0 in Q. lia.
  - pose proof (year_start_mono (y + 1) 1970 ltac:(lia)) as Q. change (year_start 1970) with 0 in Q. lia.
Qed.

Lemma midnight_ok t : int64 t -> unix_epoch + minus_inf + 86400000000 <= t ->
  midnight gmtime timegm t = Ok (86400000000 * (t / 86400000000)).
Proof.
  intros H L. unfold midnight. destruct (explode_ok t H) as (e & -> & V & M & S). cbn [obind].
  set (e0 := {| e_year := _ |}).
  pose proof (ms_range t H) as R.
  unfold e_reading in V, S. destruct V as [VD VC]. cbn [seconds_of] in S. unfold utc_seconds in S.
  set (D := day_number (e_year e) (e_month e) (e_mday e)) in *.
  destruct VC as (C1 & C2 & C3).
  assert (HD : D = (t - unix_epoch) / 86400000000).
  { apply Z.div_unique with (t - unix_epoch - D * 86400000000); [|lia]. left.
    pose proof (Z.div_mod (t - unix_epoch) 1000 ltac:(lia)). pose proof (Z.mod_pos_bound (t - unix_epoch) 1000 ltac:(lia)). lia. }
  assert (HI : unix_epoch + e_instant e0 = 86400000000 * (t / 86400000000)).
  { unfold e_instant, e0, e_reading. cbn [e_year e_month e_mday e_hour e_min e_sec e_ms seconds_of]. unfold utc_seconds. fold D. rewrite HD. unfold unix_epoch.
    replace (t - 11644473600000000) with (t + (- 134774) * 86400000000) by lia.
    rewrite Z.div_add by lia. lia. }
  assert (B : t - 86400000000 < unix_epoch + e_instant e0 <= t).
  { rewrite HI. pose proof (Z.div_mod t 86400000000 ltac:(lia)). pose proof (Z.mod_pos_bound t 86400000000 ltac:(lia)). lia. }
  destruct (year_fits _ _ _ VD) as [F1 F2]; [fold D; unfold lim in *; lia|fold D; unfold lim in *; lia|].
  rewrite from_exploded_complete; [cbn [obind fst snd]; now rewrite HI|exact F2|exact F1| | |].
  - split; [|cbn [e_ms e0]; lia]. unfold e_reading, e0. cbn [e_year e_month e_mday e_hour e_min e_sec e_ms valid_reading]. split; [exact VD|]. unfold valid_clock. lia.
  - epoch. nums. lia.
  - epoch. nums. lia.
Qed.
End Calendar.
