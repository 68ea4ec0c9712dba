(** C118-C132: saturating arithmetic, time deltas, points in time and calendar conversions. *)
From Verif Require Import Model.Common Model.TimeDelta Spec.TimeSpec.
From Verif Require Import Proofs.Tac Proofs.TimeProofs Proofs.TimeProofs2 Proofs.Calendar Proofs.TimeProofs3.
Local Open Scope Z_scope.

(** ** C118: clamped arithmetic delivers the exact result or the nearest representable one *)
Theorem C118_clamped_exact_or_saturated : forall x y, int64 x -> int64 y ->
  clamp_add x y = saturate (x + y) /\ clamp_sub x y = saturate (x - y) /\ clamp_mul x y = saturate (x * y).
Proof. intros x y Hx Hy. auto using clamp_add_sat, clamp_sub_sat, clamp_mul_sat. Qed.
(** Checked arithmetic: a value is reported exactly when the exact result is representable, and then it
    is that result; with or without the compiler's overflow builtins. *)
Theorem C118_checked_same_in_every_build : forall x y, int64 x -> int64 y ->
  (forall r, add_portable x y = Some r <-> r = x + y /\ int64 (x + y)) /\
  (forall r, sub_portable x y = Some r <-> r = x - y /\ int64 (x - y)) /\
  (forall r, mul_portable x y = Some r <-> r = x * y /\ int64 (x * y)) /\
  add_portable x y = add_builtin x y /\ sub_portable x y = sub_builtin x y /\ mul_portable x y = mul_builtin x y.
Proof.
  intros x y Hx Hy. rewrite add_portable_ok, sub_portable_ok, mul_portable_ok by assumption.
  assert (G : forall z r, (if in64b z then Some z else None) = Some r <-> r = z /\ int64 z).
  { intros z r. destruct (in64b z) eqn:E.
    - apply in64b_true in E. split; [intros X; injection X as <-; auto|intros [-> _]; reflexivity].
    - apply in64b_false in E. split; [discriminate|tauto]. }
  unfold add_builtin, sub_builtin, mul_builtin. split; [intros r; apply G|split; [intros r; apply G|split; [intros r; apply G|auto]]].
Qed.
Example C118_nonvacuous :
  mul_portable (-9223372036854775808) (-1) = None /\ mul_portable (-9223372036854775808) 1 = Some (-9223372036854775808) /\
  mul_portable 3037000500 (-3037000500) = None /\ add_portable 9223372036854775807 1 = None /\
  clamp_mul 3037000500 (-3037000500) = -9223372036854775808.
Proof. vm_compute. repeat split. Qed.

(** ** C119: sums and differences of deltas *)
Theorem C119_finite_operand : forall a b, int64 a -> finite b ->
  td_add a b = Ok (saturate (a + b)) /\ td_sub a b = Ok (saturate (a - b)).
Proof. intros. auto using td_add_fin, td_sub_fin. Qed.
Theorem C119_infinite_operand : forall a, finite a ->
  td_add a plus_inf = Ok plus_inf /\ td_add a minus_inf = Ok minus_inf /\
  td_sub a plus_inf = Ok minus_inf /\ td_sub a minus_inf = Ok plus_inf.
Proof.
  intros a F. rewrite !td_add_inf, !td_sub_inf by tauto. rewrite (finite_not_inf a F). cbn [andb].
  destruct (Z.eqb_spec a plus_inf), (Z.eqb_spec a minus_inf); try (exfalso; nums; lia). repeat split; reflexivity.
Qed.
Theorem C119_two_infinities :
  td_add plus_inf plus_inf = Ok plus_inf /\ td_add minus_inf minus_inf = Ok minus_inf /\
  td_sub plus_inf minus_inf = Ok plus_inf /\ td_sub minus_inf plus_inf = Ok minus_inf /\
  td_add plus_inf minus_inf = CheckFail /\ td_add minus_inf plus_inf = CheckFail /\
  td_sub plus_inf plus_inf = CheckFail /\ td_sub minus_inf minus_inf = CheckFail.
Proof. repeat split. Qed.
Example C119_nonvacuous : finite (5 * 10 ^ 18) /\ td_add (5 * 10 ^ 18) (5 * 10 ^ 18) = Ok plus_inf /\
  td_sub 3 5 = Ok (-2).
Proof. vm_compute. repeat split. Qed.

(** ** C120: an infinite delta stays infinite when a finite one is added (it does not) *)
Definition C120_statement : Prop := forall a b, a = plus_inf \/ a = minus_inf -> finite b ->
  td_add a b = Ok a /\ td_sub a b = Ok a.
Theorem C120_statement_refuted : ~ C120_statement.
Proof.
  intros S. destruct (S plus_inf (-1) (or_introl eq_refl) ltac:(nums; lia)) as [A _]. vm_compute in A. discriminate A.
Qed.
(** What is kept: the infinity survives exactly the additions that point outwards. *)
Theorem C120_outward_partial : forall b, finite b ->
  (td_add plus_inf b = Ok plus_inf <-> 0 <= b) /\ (td_add minus_inf b = Ok minus_inf <-> b <= 0) /\
  (td_sub plus_inf b = Ok plus_inf <-> b <= 0) /\ (td_sub minus_inf b = Ok minus_inf <-> 0 <= b).
Proof.
  intros b F. rewrite !td_add_fin, !td_sub_fin by (try exact F; nums; lia).
  assert (G : forall x y : Z, Ok x = Ok y <-> x = y) by (intros; split; congruence).
  rewrite !G. nums. clear G. lia.
Qed.

(** ** C121: negation, magnitude, scaling *)
Theorem C121_negate : forall d, int64 d -> exists n, td_neg d = Ok n /\
  (finite d -> n = - d) /\ (d = plus_inf -> n = minus_inf) /\ (d = minus_inf -> n = plus_inf).
Proof.
  intros d H. eexists. split; [apply td_neg_ok; exact H|].
  destruct (Z.eqb_spec d minus_inf), (Z.eqb_spec d plus_inf); nums; lia.
Qed.
Theorem C121_magnitude : forall d, int64 d -> td_magnitude d = Ok (saturate (Z.abs d)).
Proof. exact td_magnitude_ok. Qed.
Theorem C121_scale : forall d k, int64 d -> int64 k ->
  td_mul d k = saturate (d * k) /\
  (k <> 0 -> td_div d k = saturate (Z.quot d k)) /\
  (0 <= d -> td_div d 0 = plus_inf) /\ (d < 0 -> td_div d 0 = minus_inf).
Proof.
  intros d k Hd Hk. split; [apply td_mul_ok|]. split.
  - intros N. rewrite td_div_ok by assumption. destruct (Z.eqb_spec k 0); [contradiction|reflexivity].
  - split; intros S; rewrite td_div_ok by (nums; lia); cbn [Z.eqb]; destruct (Z.ltb_spec d 0); try reflexivity; lia.
Qed.
(** Scaling up and down again is the identity unless the product overflowed. *)
Theorem C121_scale_back : forall d k, int64 d -> int64 k -> k <> 0 -> int64 (d * k) -> td_div (td_mul d k) k = d.
Proof.
  intros d k Hd Hk N P. rewrite td_mul_ok, saturate_id by exact P. rewrite td_div_ok by assumption.
  destruct (Z.eqb_spec k 0); [contradiction|]. rewrite Z.quot_mul by exact N. now apply saturate_id.
Qed.
Example C121_nonvacuous : td_neg (-7) = Ok 7 /\ td_div minus_inf (-1) = plus_inf /\ td_mul (-4000000000) 4000000000 = minus_inf /\
  td_div (-7) 2 = -3.
Proof. vm_compute. repeat split. Qed.

(** ** C122: conversions between units *)
Theorem C122_build : forall n, int64 n ->
  from_seconds n = saturate (n * 1000000) /\ from_milliseconds n = saturate (n * 1000) /\ from_microseconds n = n.
Proof. intros n H. unfold from_seconds, from_milliseconds. rewrite !clamp_mul_sat. auto. Qed.
Theorem C122_read_truncated : forall d, finite d ->
  in_seconds d = Z.quot d 1000000 /\ in_milliseconds d = Z.quot d 1000 /\
  in_days d = Z.quot d 86400000000 /\ in_nanoseconds d = saturate (d * 1000) /\
  in_hours d = Z.max (- 2 ^ 31) (Z.min (2 ^ 31 - 1) (Z.quot d 3600000000)) /\
  in_minutes d = Z.max (- 2 ^ 31) (Z.min (2 ^ 31 - 1) (Z.quot d 60000000)).
Proof.
  intros d F. unfold in_seconds, in_milliseconds, in_days, in_nanoseconds, in_hours, in_minutes.
  rewrite (finite_not_inf d F). cbn [negb]. rewrite clamp_mul_sat.
  assert (S : forall z, saturated_int z = Z.max (- 2 ^ 31) (Z.min (2 ^ 31 - 1) z)).
  { intros z. unfold saturated_int. change (2 ^ 31) with 2147483648. destruct (Z.ltb_spec i32max z), (Z.ltb_spec z i32min); nums; lia. }
  rewrite !S. repeat split.
  assert (- 2147483648 <= Z.quot d 86400000000 <= 2147483647).
  { pose proof (Z.quot_rem d 86400000000 ltac:(lia)). pose proof (Z.rem_bound_abs d 86400000000 ltac:(lia)). nums. lia. }
  unfold to_i32. destruct (Z.le_gt_cases 0 (Z.quot d 86400000000)).
  - rewrite Z.mod_small by lia. destruct (Z.leb_spec (Z.quot d 86400000000) i32max); nums; lia.
  - replace (Z.quot d 86400000000 mod 4294967296) with (Z.quot d 86400000000 + 4294967296)
      by (apply Z.mod_unique with (-1); lia).
    destruct (Z.leb_spec (Z.quot d 86400000000 + 4294967296) i32max); nums; lia.
Qed.
Theorem C122_read_floored_and_rounded_up : forall d, finite d ->
  in_days_floored d = Ok (d / 86400000000) /\ in_milliseconds_up d = Ok (- ((- d) / 1000)).
Proof.
  intros d F. destruct (C122_read_truncated d F) as (_ & _ & D & _). split.
  - unfold in_days_floored, in_days in *. rewrite (finite_not_inf d F) in *. cbn [negb] in *. rewrite D.
    rewrite ck64_ok by (nums; zq; lia). cbn [obind].
    destruct (Z.ltb_spec d (Z.quot d 86400000000 * 86400000000)); f_equal; zq; lia.
  - unfold in_milliseconds_up. rewrite (finite_not_inf d F). cbn [negb].
    rewrite ck64_ok by (nums; zq; lia). cbn [obind].
    destruct (Z.ltb_spec (Z.quot d 1000 * 1000) d); [rewrite ck64_ok by (nums; zq; lia)|]; f_equal; zq; lia.
Qed.
Theorem C122_infinities_read_as_limits :
  in_seconds plus_inf = plus_inf /\ in_milliseconds plus_inf = plus_inf /\ in_nanoseconds plus_inf = plus_inf /\
  in_days plus_inf = 2 ^ 31 - 1 /\ in_hours plus_inf = 2 ^ 31 - 1 /\ in_minutes plus_inf = 2 ^ 31 - 1 /\
  in_days_floored plus_inf = Ok (2 ^ 31 - 1) /\ in_milliseconds_up plus_inf = Ok plus_inf /\
  in_seconds minus_inf = minus_inf /\ in_milliseconds minus_inf = minus_inf /\ in_nanoseconds minus_inf = minus_inf /\
  in_days minus_inf = - 2 ^ 31 /\ in_hours minus_inf = - 2 ^ 31 /\ in_minutes minus_inf = - 2 ^ 31 /\
  in_days_floored minus_inf = Ok (- 2 ^ 31) /\ in_milliseconds_up minus_inf = Ok minus_inf.
Proof. vm_compute. repeat split. Qed.
(** Building from a unit and reading it back. *)
Theorem C122_round_trip : forall n, finite (n * 1000000) ->
  in_seconds (from_seconds n) = n /\ in_milliseconds (from_milliseconds n) = n.
Proof.
  intros n F. unfold from_seconds, from_milliseconds. rewrite !clamp_mul_sat.
  assert (finite (n * 1000)) as F' by (nums; lia).
  rewrite !saturate_id by (auto using finite_int64).
  destruct (C122_read_truncated _ F) as [-> _]. destruct (C122_read_truncated _ F') as (_ & -> & _).
  rewrite !Z.quot_mul by lia. auto.
Qed.
Example C122_nonvacuous : in_days_floored (-1) = Ok (-1) /\ in_days (-1) = 0 /\ in_milliseconds_up 1 = Ok 1 /\
  in_milliseconds_up (-1) = Ok 0 /\ from_seconds (10 ^ 14) = plus_inf.
Proof. vm_compute. repeat split. Qed.

(** ** C123: an extreme argument of a constructor gives an infinite delta (time_delta.h:41-46) *)
Definition C123_statement : Prop :=
  from_seconds plus_inf = plus_inf /\ from_seconds minus_inf = minus_inf /\
  from_milliseconds plus_inf = plus_inf /\ from_milliseconds minus_inf = minus_inf /\
  from_microseconds plus_inf = plus_inf /\ from_microseconds minus_inf = minus_inf /\
  from_nanoseconds plus_inf = plus_inf /\ from_nanoseconds minus_inf = minus_inf.
Theorem C123_statement_refuted : ~ C123_statement.
Proof. intros (_ & _ & _ & _ & _ & _ & H & _). vm_compute in H. discriminate H. Qed.
Theorem C123_other_units_partial :
  from_seconds plus_inf = plus_inf /\ from_seconds minus_inf = minus_inf /\
  from_milliseconds plus_inf = plus_inf /\ from_milliseconds minus_inf = minus_inf /\
  from_microseconds plus_inf = plus_inf /\ from_microseconds minus_inf = minus_inf.
Proof. vm_compute. repeat split. Qed.
(** Nanoseconds: every argument gives a finite delta, truncated towards zero. *)
Theorem C123_nanoseconds_partial : forall n, int64 n -> finite (from_nanoseconds n) /\ from_nanoseconds n = Z.quot n 1000.
Proof.
  intros n H. split; [|reflexivity]. unfold from_nanoseconds.
  pose proof (quot_bound2 n 1000 ltac:(lia)). nums. lia.
Qed.

(** ** C124: integer division and remainder *)
(* The smallest finite delta divided by +infinity is -1: the two have the same magnitude. *)
Theorem C124_division : forall d a, finite d -> finite a -> a <> 0 -> exists q r,
  td_intdiv d a = Ok q /\ td_mod d a = Ok r /\
  d = a * q + r /\ Z.abs r < Z.abs a /\ 0 <= r * d /\ Z.abs (a * q) <= Z.abs d.
Proof.
  intros d a Fd Fa N. exists (Z.quot d a), (Z.rem d a).
  rewrite td_intdiv_ok, td_mod_ok by (auto using finite_int64).
  pose proof (Z.quot_rem d a N). pose proof (Z.rem_bound_abs d a N). pose proof (Z.rem_sign_mul d a N).
  pose proof (rem_bounds_sum d a N) as [B _]. repeat split; try assumption. replace (a * Z.quot d a) with (d - Z.rem d a) by lia. exact B.
Qed.
Theorem C124_division_edges : forall d, finite d ->
  (td_intdiv d plus_inf = Ok 0 <-> d <> minus_inf + 1) /\ td_intdiv d minus_inf = Ok 0 /\
  td_mod d plus_inf = Ok d /\ td_mod d minus_inf = Ok d /\ td_mod d 0 = Ok d /\
  (0 < d -> td_intdiv d 0 = Ok plus_inf) /\ (d < 0 -> td_intdiv d 0 = Ok minus_inf) /\ (d = 0 -> td_intdiv d 0 = CheckFail).
Proof.
  intros d F. assert (int64 d) by auto using finite_int64.
  rewrite !td_intdiv_ok by (try assumption; nums; lia).
  assert (Ok (Z.quot d plus_inf) = Ok 0 <-> d <> minus_inf + 1) as P.
  { assert (G : forall x y : Z, Ok x = Ok y <-> x = y) by (intros; split; congruence).
    rewrite G, Z.quot_small_iff by (nums; lia). clear G. nums. lia. }
  assert (Z.quot d minus_inf = 0) as -> by (apply Z.quot_small_iff; nums; lia).
  rewrite !td_mod_inf by (try reflexivity; rewrite (finite_not_inf d F); reflexivity).
  split; [exact P|]. repeat split; intros S; unfold td_intdiv; rewrite (finite_not_inf d F); cbn [negb andb Z.eqb];
    destruct (Z.eqb_spec d 0); try lia; cbn [andb]; try reflexivity;
    destruct (Z.ltb_spec d 0); cbn [Z.ltb Z.compare Bool.eqb]; reflexivity || lia.
Qed.
Theorem C124_infinite_dividend : forall a, finite a ->
  (0 <= a -> td_intdiv plus_inf a = Ok plus_inf /\ td_intdiv minus_inf a = Ok minus_inf) /\
  (a < 0 -> td_intdiv plus_inf a = Ok minus_inf /\ td_intdiv minus_inf a = Ok plus_inf) /\
  td_mod plus_inf a = Ok plus_inf /\ td_mod minus_inf a = Ok minus_inf.
Proof.
  intros a F. unfold td_intdiv, td_mod. rewrite (finite_not_inf a F).
  change (is_inf plus_inf) with true. change (is_inf minus_inf) with true.
  change (plus_inf =? 0) with false. change (minus_inf =? 0) with false.
  change (plus_inf <? 0) with false. change (minus_inf <? 0) with true. cbn [negb andb orb].
  destruct (Z.ltb_spec a 0); cbn [Bool.eqb]; repeat split; intros; reflexivity || lia.
Qed.
Example C124_nonvacuous : td_intdiv (-7) 2 = Ok (-3) /\ td_mod (-7) 2 = Ok (-1) /\ td_intdiv plus_inf minus_inf = CheckFail.
Proof. vm_compute. repeat split. Qed.

(** ** C125: rounding down and up to a multiple *)
Theorem C125_floor : forall d i, finite d -> finite (Z.abs i) -> i <> 0 ->
  exists m, floor_multiple d i m /\ td_floor d i = Ok (saturate m).
Proof. intros d i Fd Fi N. exists (fl d i). auto using fl_floor, td_floor_ok. Qed.
Theorem C125_ceil : forall d i, finite d -> finite (Z.abs i) -> i <> 0 ->
  exists m, ceil_multiple d i m /\ td_ceil d i = Ok (saturate m).
Proof. intros d i Fd Fi N. exists (cl d i). auto using cl_ceil, td_ceil_ok. Qed.
(** The specification determines the multiple. *)
Theorem C125_unique : forall d i m m',
  (floor_multiple d i m -> floor_multiple d i m' -> m = m') /\ (ceil_multiple d i m -> ceil_multiple d i m' -> m = m').
Proof. intros. split; [apply floor_unique|apply ceil_unique]. Qed.
Theorem C125_unrounded : forall d i, int64 d -> d = plus_inf \/ d = minus_inf \/ i = 0 ->
  td_floor d i = Ok d /\ td_ceil d i = Ok d /\ td_round d i = Ok d.
Proof.
  intros d i H C. unfold td_floor, td_ceil, td_round.
  assert (is_inf d || (i =? 0) = true) as ->; [|auto].
  apply orb_true_iff. rewrite is_inf_true, Z.eqb_eq. tauto.
Qed.
Theorem C125_infinite_interval : forall d i, finite d -> i = plus_inf \/ i = minus_inf ->
  (0 <= d -> td_floor d i = Ok 0) /\ (d < 0 -> td_floor d i = Ok minus_inf) /\
  (0 < d -> td_ceil d i = Ok plus_inf) /\ (d <= 0 -> td_ceil d i = Ok 0) /\ td_round d i = Ok 0.
Proof.
  intros d i F Hi.
  assert (Ii : is_inf i = true) by (apply is_inf_true; tauto).
  assert (Zi : (i =? 0) = false) by (destruct Hi as [-> | ->]; reflexivity).
  assert (Mi : td_magnitude i = Ok plus_inf) by (destruct Hi as [-> | ->]; reflexivity).
  assert (Ed : saturate (d - d) = 0) by (nums; lia).
  unfold td_floor, td_ceil, td_round. rewrite (finite_not_inf d F), Zi, Ii. cbn [orb].
  rewrite td_mod_inf by (rewrite Ii; apply orb_true_r). cbn [obind].
  rewrite td_sub_fin by (auto using finite_int64). rewrite Ed, Mi. cbn [obind].
  split; [|split; [|split; [|split]]]; intros; destruct (Z.ltb_spec d 0); try lia; try reflexivity;
    destruct (Z.eqb_spec d 0); try lia; reflexivity || congruence.
Qed.
Example C125_nonvacuous : td_floor (-7) 3 = Ok (-9) /\ td_ceil (-7) 3 = Ok (-6) /\ td_floor 7 (-3) = Ok 6 /\ td_ceil 7 (-3) = Ok 9 /\
  td_ceil (2 ^ 63 - 2) 4 = Ok plus_inf.
Proof. vm_compute. repeat split. Qed.

(** ** C126: rounding to the nearest multiple *)
Definition C126_statement : Prop := forall d i, finite d -> finite (Z.abs i) -> i <> 0 ->
  exists m, nearest_multiple d i m /\ td_round d i = Ok (saturate m).
(** The largest finite delta is even, so it is a multiple of 2 us; rounding it to 2 us gives infinity. *)
Theorem C126_statement_refuted : ~ C126_statement.
Proof.
  intros S. destruct (S (plus_inf - 1) 2 ltac:(nums; lia) ltac:(nums; lia) ltac:(lia)) as (m & [_ [H _]] & E).
  specialize (H (2 ^ 62 - 1)). 
  assert (td_round (plus_inf - 1) 2 = Ok plus_inf) as R by (vm_compute; reflexivity).
  rewrite R in E. injection E as E. clear R.
  change (2 ^ 62) with 4611686018427387904 in H. nums. lia.
Qed.
Theorem C126_nearest_partial : forall d i, finite d -> finite (Z.abs i) -> i <> 0 -> Z.abs d + Z.abs i / 2 < plus_inf ->
  exists m, nearest_multiple d i m /\ td_round d i = Ok (saturate m).
Proof. intros d i Fd Fi N S. exists (rnd d i). auto using rnd_nearest, td_round_ok. Qed.
Example C126_nonvacuous : td_round 5 2 = Ok 6 /\ td_round (-5) 2 = Ok (-6) /\ td_round 7 3 = Ok 6 /\ td_round (-8) 3 = Ok (-9).
Proof. vm_compute. repeat split. Qed.

(** ** C127: conversion to a timespec *)
Definition C127_statement : Prop := forall d, int64 d -> exists s n, to_timespec d = Ok (s, n) /\
  0 <= n < 1000000000 /\ s * 1000000000 + n = d * 1000.
Theorem C127_statement_refuted : ~ C127_statement.
Proof.
  intros S. destruct (S plus_inf ltac:(nums; lia)) as (s & n & E & _). vm_compute in E. discriminate E.
Qed.
Theorem C127_nonnegative_partial : forall d, 0 <= d -> d < plus_inf -> exists s n, to_timespec d = Ok (s, n) /\
  0 <= n < 1000000000 /\ s * 1000000000 + n = d * 1000 /\ from_timespec s n = Ok d.
Proof.
  intros d P L. unfold to_timespec. destruct (Z.leb_spec 1000000 d).
  - unfold in_seconds. rewrite finite_not_inf by (nums; lia).
    rewrite ck64_ok by (nums; zq; lia). cbn [obind]. rewrite ck64_ok by (nums; zq; lia). cbn [obind].
    rewrite ck64_ok by (nums; zq; lia). cbn [obind]. do 2 eexists. split; [reflexivity|].
    split; [zq; lia|]. split; [zq; lia|]. unfold from_timespec.
    rewrite ck64_ok by (nums; zq; lia). cbn [obind]. rewrite Z.quot_mul by lia.
    rewrite ck64_ok by (nums; zq; lia). f_equal. lia.
  - rewrite ck64_ok by (nums; lia). cbn [obind]. do 2 eexists. split; [reflexivity|]. split; [lia|]. split; [lia|].
    unfold from_timespec. rewrite ck64_ok by (nums; lia). cbn [obind]. rewrite Z.quot_mul by lia.
    rewrite ck64_ok by (nums; lia). f_equal.
Qed.
(** Negative deltas keep everything, down to whole days, in a negative nanosecond field; far ones overflow. *)
Theorem C127_negative_partial : forall d, int64 d -> d < 0 ->
  (int64 (d * 1000) -> to_timespec d = Ok (0, d * 1000)) /\ (~ int64 (d * 1000) -> to_timespec d = UB).
Proof.
  intros d H N. unfold to_timespec. destruct (Z.leb_spec 1000000 d); [lia|]. split; intros R.
  - now rewrite ck64_ok.
  - now rewrite ck64_ub.
Qed.
Example C127_nonvacuous : to_timespec 1500000 = Ok (1, 500000000) /\ to_timespec (-2000000) = Ok (0, -2000000000) /\
  to_timespec (- 10 ^ 16) = UB /\ to_timespec plus_inf = UB.
Proof. vm_compute. repeat split. Qed.

(** ** C128: moving a point in time, and the distance between two *)
Definition C128_statement : Prop := forall t u, int64 t -> int64 u -> exists d, t_diff t u = Ok d /\ d = saturate (t - u).
Theorem C128_statement_refuted : ~ C128_statement.
Proof.
  intros S. destruct (S plus_inf (-1) ltac:(nums; lia) ltac:(nums; lia)) as (d & E & _). vm_compute in E. discriminate E.
Qed.
Theorem C128_shift_saturates_partial : forall t d, int64 t -> finite d ->
  t_add t d = Ok (saturate (t + d)) /\ t_sub t d = Ok (saturate (t - d)).
Proof. intros. split; [now apply td_add_fin|now apply td_sub_fin]. Qed.
Theorem C128_difference_partial : forall t u, int64 t -> int64 u ->
  (int64 (t - u) -> t_diff t u = Ok (t - u)) /\ (~ int64 (t - u) -> t_diff t u = UB).
Proof. intros t u Ht Hu. split; intros; unfold t_diff; [now apply ck64_ok|now apply ck64_ub]. Qed.
(** Two times on the same side of 1601 are always safely comparable by difference, and the later minus
    the earlier, added to the earlier, is the later. *)
Theorem C128_same_side_partial : forall t u, int64 t -> int64 u -> 0 <= t /\ 0 <= u \/ t < 0 /\ u < 0 ->
  exists d, t_diff t u = Ok d /\ (finite d -> t_add u d = Ok t).
Proof.
  intros t u Ht Hu S. exists (t - u). split; [apply ck64_ok; nums; lia|]. intros F.
  unfold t_add. rewrite td_add_fin by assumption. f_equal. rewrite saturate_id; nums; lia.
Qed.
Example C128_nonvacuous : t_diff (10 ^ 15) (10 ^ 16) = Ok (- 9 * 10 ^ 15) /\ t_add (10 ^ 16) (- 9 * 10 ^ 15) = Ok (10 ^ 15).
Proof. vm_compute. repeat split. Qed.

(** ** C129: seconds since the epoch *)
Definition C129_statement : Prop := forall s t, int64 s -> from_time_t s = Ok t -> finite t -> to_time_t t = Ok s.
(** 1601-01-01 00:00:00, the origin of the internal scale, reads back as 1970-01-01. *)
Theorem C129_statement_refuted : ~ C129_statement.
Proof.
  intros S. specialize (S (-11644473600) 0 ltac:(nums; lia) eq_refl ltac:(nums; lia)). vm_compute in S. discriminate S.
Qed.
Theorem C129_round_trip_partial : forall s, s <> -11644473600 -> -9223372036854 <= s <= 9200083089653 ->
  exists t, from_time_t s = Ok t /\ to_time_t t = Ok s.
Proof.
  intros s N R. destruct (Z.eq_dec s 0) as [->|Ns]; [exists 0; split; reflexivity|].
  exists (unix_epoch + s * 1000000).
  rewrite from_time_t_ok by (try assumption; nums; lia).
  rewrite saturate_id by (epoch; nums; lia). split; [reflexivity|].
  rewrite to_time_t_ok by (epoch; nums; lia).
  replace (unix_epoch + s * 1000000 - unix_epoch) with (s * 1000000) by lia. now rewrite Z.quot_mul by lia.
Qed.
(** Reading a time far in the past (within 369 years of the smallest time) is undefined behaviour. *)
Theorem C129_far_past_undefined_partial : forall t, minus_inf < t -> t < minus_inf + unix_epoch -> to_time_t t = UB.
Proof.
  intros t L U. unfold to_time_t. destruct (Z.eqb_spec t 0); [epoch; nums; lia|].
  rewrite finite_not_inf by (epoch; nums; lia). destruct (Z.ltb_spec t (i64max - unix_epoch)); [|epoch; nums; lia].
  cbn [negb andb]. unfold t_diff. rewrite ck64_ub by (epoch; nums; lia). reflexivity.
Qed.
Example C129_nonvacuous : from_time_t 1600000000 = Ok 13244473600000000 /\ to_time_t 13244473600999999 = Ok 1600000000 /\
  from_time_t 0 = Ok 0 /\ to_time_t unix_epoch = Ok 0.
Proof. vm_compute. repeat split. Qed.

(** ** C130: timeval *)
Definition C130_statement : Prop := forall sec usec, 0 <= sec < 2 ^ 32 -> 0 <= usec < 1000000 ->
  exists t, from_timeval sec usec = Ok t /\ to_timeval t = Ok (sec, usec).
(** Every timeval on a whole second terminates the process. *)
Theorem C130_statement_refuted : ~ C130_statement.
Proof.
  intros S. destruct (S 1600000000 0 ltac:(vm_compute; split; congruence) ltac:(lia)) as (t & E & _). vm_compute in E. discriminate E.
Qed.
Theorem C130_whole_second_aborts_partial : forall sec, from_timeval sec 0 = CheckFail.
Proof. reflexivity. Qed.
Theorem C130_round_trip_partial : forall sec usec, 0 <= sec < 9211727563254 -> 0 < usec < 1000000 ->
  exists t, from_timeval sec usec = Ok t /\ to_timeval t = Ok (sec, usec).
Proof.
  intros sec usec S U. exists (sec * 1000000 + usec + unix_epoch).
  rewrite from_timeval_ok by (try exact U; epoch; nums; lia). split; [reflexivity|].
  rewrite to_timeval_ok by (epoch; nums; lia).
  replace (sec * 1000000 + usec + unix_epoch - unix_epoch) with (sec * 1000000 + usec) by lia.
  f_equal. f_equal; zq; lia.
Qed.
(** Times before 1970 come out with a negative microsecond field. *)
Theorem C130_before_epoch_partial : forall t, minus_inf + unix_epoch <= t -> t < unix_epoch -> t <> 0 ->
  exists sec usec, to_timeval t = Ok (sec, usec) /\ sec * 1000000 + usec = t - unix_epoch /\ -1000000 < usec <= 0.
Proof.
  intros t L U N. do 2 eexists. rewrite to_timeval_ok by (epoch; nums; lia). split; [reflexivity|].
  epoch. zq. lia.
Qed.
Example C130_nonvacuous : from_timeval 1600000000 5 = Ok 13244473600000005 /\ to_timeval (unix_epoch - 1) = Ok (0, -1).
Proof. vm_compute. repeat split. Qed.

(** ** C131: calendar conversion (the C library's calendar is an assumption, Spec/TimeSpec.v [calendar]) *)
Definition lib_calendar (gmtime : Z -> tm) (timegm : tm -> Z) : Prop :=
  calendar 10000000000000 (fun s => reading_of (gmtime s)) (fun r => timegm (tm_of r)).
(** Exploding any time gives a valid date and clock reading that denotes the time rounded down to milliseconds. *)
Theorem C131_explode : forall gmtime timegm t, lib_calendar gmtime timegm -> int64 t ->
  exists e, explode gmtime t = Ok e /\
    valid_date (e_year e) (e_month e) (e_mday e) /\ valid_clock (e_hour e) (e_min e) (e_sec e) /\ 0 <= e_ms e < 1000 /\
    utc_seconds (e_year e) (e_month e) (e_mday e) (e_hour e) (e_min e) (e_sec e) * 1000 + e_ms e =
      (t - 11644473600000000) / 1000.
Proof.
  intros g tg t C H. destruct (explode_ok g tg C t H) as (e & E & [V1 V2] & M & S).
  exists e. repeat split; try assumption; try apply V1; try apply V2; apply M.
Qed.
(** Building a time from an exploded one: accepted exactly for the valid dates in range, and then exact;
    rejected (never rolled over) otherwise. *)
Theorem C131_from_exploded : forall gmtime timegm e, lib_calendar gmtime timegm ->
  let us := (utc_seconds (e_year e) (e_month e) (e_mday e) (e_hour e) (e_min e) (e_sec e) * 1000 + e_ms e) * 1000 in
  (forall t, from_exploded gmtime timegm e = Ok (true, t) ->
     valid_date (e_year e) (e_month e) (e_mday e) /\ valid_clock (e_hour e) (e_min e) (e_sec e) /\ 0 <= e_ms e < 1000 /\
     t = 11644473600000000 + us) /\
  (- 2 ^ 31 + 1900 <= e_year e <= 2 ^ 31 - 1 ->
   valid_date (e_year e) (e_month e) (e_mday e) -> valid_clock (e_hour e) (e_min e) (e_sec e) -> 0 <= e_ms e < 1000 ->
   int64 us -> int64 (11644473600000000 + us) ->
   from_exploded gmtime timegm e = Ok (true, 11644473600000000 + us)) /\
  exists b t, from_exploded gmtime timegm e = Ok (b, t) /\ (b = false -> t = 0).
Proof.
  intros g tg e C us. split; [|split].
  - intros t E. destruct (from_exploded_sound g tg C e t E) as ([[V1 V2] M] & T & _).
    repeat split; try apply V1; try apply V2; try apply M. exact T.
  - intros Y V1 V2 M R1 R2. change (11644473600000000 + us) with (unix_epoch + e_instant e) in *.
    apply from_exploded_complete; try assumption.
    + unfold in32b. destruct V1 as [Hm _]. apply andb_true_iff. rewrite !Z.leb_le. nums. lia.
    + unfold in32b. apply andb_true_iff. rewrite !Z.leb_le. change (2 ^ 31) with 2147483648 in Y. nums. lia.
    + repeat split; try apply V1; try apply V2; apply M.
  - exact (from_exploded_total g tg C e).
Qed.
(** Midnight: the latest start of a UTC day not after the time. *)
Theorem C131_midnight : forall gmtime timegm t, lib_calendar gmtime timegm -> int64 t ->
  11644473600000000 + minus_inf + 86400000000 <= t ->
  exists m, midnight gmtime timegm t = Ok m /\ floor_multiple t 86400000000 m.
Proof.
  intros g tg t C H L. eexists. split; [apply (midnight_ok g tg C); assumption|].
  pose proof (fl_floor t 86400000000 ltac:(lia)) as F. unfold fl in F. exact F.
Qed.
(** Such a calendar exists, and a date is never two days. *)
Example C131_nonvacuous : exists gmtime timegm, lib_calendar gmtime timegm /\
  explode gmtime 13244473600999999 =
    Ok {| e_year := 2020; e_month := 9; e_mday := 13; e_hour := 12; e_min := 26; e_sec := 40; e_ms := 999 |} /\
  from_exploded gmtime timegm {| e_year := 2020; e_month := 2; e_mday := 29; e_hour := 0; e_min := 0; e_sec := 0; e_ms := 0 |} = Ok (true, 13227408000000000) /\
  from_exploded gmtime timegm {| e_year := 2021; e_month := 2; e_mday := 29; e_hour := 0; e_min := 0; e_sec := 0; e_ms := 0 |} = Ok (false, 0).
Proof.
  exists (fun s => tm_of (gmtime_spec s)), (fun g => seconds_of (reading_of g)). split.
  - destruct (calendar_exists 10000000000000) as [C1 C2]. split.
    + intros s R. specialize (C1 s R). destruct (gmtime_spec s) as [[[[[y m] d] h] mi] se].
      cbn [tm_of]. unfold reading_of. cbn [tm_year tm_mon tm_mday tm_hour tm_min tm_sec].
      replace (y - 1900 + 1900) with y by lia. replace (m - 1 + 1) with m by lia. exact C1.
    + intros [[[[[y m] d] h] mi] se] _. cbn [tm_of]. unfold reading_of.
      cbn [tm_year tm_mon tm_mday tm_hour tm_min tm_sec].
      replace (y - 1900 + 1900) with y by lia. replace (m - 1 + 1) with m by lia. reflexivity.
  - vm_compute. repeat split.
Qed.
(** The calendar used in these statements: consecutive years and months follow each other without gap. *)
Theorem C131_calendar_sanity :
  year_start 1970 = 0 /\ (forall y, year_start (y + 1) = year_start y + year_len y) /\
  (forall y m, 1 <= m <= 12 -> month_start y (m + 1) = month_start y m + month_len y m) /\
  (forall y, month_start y 13 = year_len y) /\
  (forall n, exists y m d, valid_date y m d /\ day_number y m d = n) /\
  (forall y m d y' m' d', valid_date y m d -> valid_date y' m' d' -> day_number y m d = day_number y' m' d' ->
     y = y' /\ m = m' /\ d = d').
Proof.
  split; [reflexivity|]. split; [exact year_start_next|]. split; [exact month_start_next|].
  split; [exact month_start_13|]. split; [|exact day_number_inj].
  intros n. pose proof (date_of_ok n) as D. destruct (date_of n) as [[y m] d]. eauto.
Qed.

(** ** C132: system clock structures *)
Theorem C132_ms_to_timeval : forall ms, 0 <= ms < 2 ^ 32 -> let '(s, us) := ms_to_timeval ms in
  0 <= us < 1000000 /\ s * 1000000 + us = ms * 1000.
Proof. intros ms H. cbn. zq. lia. Qed.
(** Converting the monotonic clock preserves its order, and loses less than a microsecond. *)
Theorem C132_ticks_monotone : forall s n s' n', 0 <= n < 1000000000 -> 0 <= n' < 1000000000 ->
  - 2 ^ 42 <= s <= 2 ^ 42 -> - 2 ^ 42 <= s' <= 2 ^ 42 ->
  exists u u', timespec_to_micros s n = Ok u /\ timespec_to_micros s' n' = Ok u' /\
    u * 1000 <= s * 1000000000 + n < u * 1000 + 1000 /\
    (s * 1000000000 + n <= s' * 1000000000 + n' -> u <= u').
Proof.
  intros s n s' n' Hn Hn' Hs Hs'. change (2 ^ 42) with 4398046511104 in *.
  assert (G : forall a b, 0 <= b < 1000000000 -> - 4398046511104 <= a <= 4398046511104 ->
    timespec_to_micros a b = Ok (a * 1000000 + b / 1000)).
  { intros a b Hb Ha. unfold timespec_to_micros, mul_builtin.
    rewrite (proj2 (in64b_true (a * 1000000))) by (nums; lia). unfold add_builtin.
    rewrite Z.quot_div_nonneg by lia.
    assert (0 <= b / 1000 < 1000000) by (split; [apply Z.div_pos; lia|apply Z.div_lt_upper_bound; lia]).
    rewrite (proj2 (in64b_true _)) by (nums; lia). reflexivity. }
  rewrite !G by assumption. do 2 eexists. split; [reflexivity|]. split; [reflexivity|]. zq. lia.
Qed.
Example C132_nonvacuous : ms_to_timeval 4294967295 = (4294967, 295000) /\ timespec_to_micros 5 1999 = Ok 5000001.
Proof. vm_compute. repeat split. Qed.

Print Assumptions C118_clamped_exact_or_saturated.
Print Assumptions C118_checked_same_in_every_build.
Print Assumptions C119_finite_operand.
Print Assumptions C119_infinite_operand.
Print Assumptions C119_two_infinities.
Print Assumptions C120_statement_refuted.
Print Assumptions C120_outward_partial.
Print Assumptions C121_negate.
Print Assumptions C121_magnitude.
Print Assumptions C121_scale.
Print Assumptions C121_scale_back.
Print Assumptions C122_build.
Print Assumptions C122_read_truncated.
Print Assumptions C122_read_floored_and_rounded_up.
Print Assumptions C122_infinities_read_as_limits.
Print Assumptions C122_round_trip.
Print Assumptions C123_statement_refuted.
Print Assumptions C123_other_units_partial.
Print Assumptions C123_nanoseconds_partial.
Print Assumptions C124_division.
Print Assumptions C124_division_edges.
Print Assumptions C124_infinite_dividend.
Print Assumptions C125_floor.
Print Assumptions C125_ceil.
Print Assumptions C125_unique.
Print Assumptions C125_unrounded.
Print Assumptions C125_infinite_interval.
Print Assumptions C126_statement_refuted.
Print Assumptions C126_nearest_partial.
Print Assumptions C127_statement_refuted.
Print Assumptions C127_nonnegative_partial.
Print Assumptions C127_negative_partial.
Print Assumptions C128_statement_refuted.
Print Assumptions C128_shift_saturates_partial.
Print Assumptions C128_difference_partial.
Print Assumptions C128_same_side_partial.
Print Assumptions C129_statement_refuted.
Print Assumptions C129_round_trip_partial.
Print Assumptions C129_far_past_undefined_partial.
Print Assumptions C130_statement_refuted.
Print Assumptions C130_whole_second_aborts_partial.
Print Assumptions C130_round_trip_partial.
Print Assumptions C130_before_epoch_partial.
Print Assumptions C131_explode.
Print Assumptions C131_from_exploded.
Print Assumptions C131_midnight.
Print Assumptions C131_calendar_sanity.
Print Assumptions C132_ms_to_timeval.
Print Assumptions C132_ticks_monotone.
