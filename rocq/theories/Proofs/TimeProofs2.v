(** Proofs about TimeDelta and Time. *)
From Verif Require Import Model.Common Model.TimeDelta Spec.TimeSpec Proofs.Tac Proofs.TimeProofs.
Local Open Scope Z_scope.

Ltac zq := Z.to_euclidean_division_equations.

Lemma finite_int64 d : finite d -> int64 d.
Proof. nums. lia. Qed.
Lemma saturate_id z : int64 z -> saturate z = z.
Proof. nums. lia. Qed.
Lemma saturate_int64 z : int64 (saturate z).
Proof. nums. lia. Qed.

Lemma td_add_fin a b : int64 a -> finite b -> td_add a b = Ok (saturate (a + b)).
Proof.
  intros Ha Hb. unfold td_add. rewrite (finite_not_inf b Hb). cbn [negb].
  now rewrite clamp_add_sat by (auto using finite_int64).
Qed.
Lemma td_sub_fin a b : int64 a -> finite b -> td_sub a b = Ok (saturate (a - b)).
Proof.
  intros Ha Hb. unfold td_sub. rewrite (finite_not_inf b Hb). cbn [negb].
  now rewrite clamp_sub_sat by (auto using finite_int64).
Qed.
Lemma td_add_inf a b : b = plus_inf \/ b = minus_inf ->
  td_add a b = if (is_inf a && negb (a =? b)) then CheckFail else Ok b.
Proof.
  intros Hb. unfold td_add. replace (is_inf b) with true by (symmetry; apply is_inf_true; tauto).
  cbn [negb]. destruct (is_inf a), (a =? b); reflexivity.
Qed.
Lemma td_sub_inf a b : b = plus_inf \/ b = minus_inf ->
  td_sub a b = if a =? b then CheckFail else Ok (- b - 1).
Proof.
  intros Hb. unfold td_sub. replace (is_inf b) with true by (symmetry; apply is_inf_true; tauto).
  cbn [negb]. destruct (a =? b); [reflexivity|].
  destruct Hb as [-> | ->]; reflexivity.
Qed.

Lemma td_neg_ok d : int64 d -> td_neg d = Ok (if d =? minus_inf then plus_inf else if d =? plus_inf then minus_inf else - d).
Proof.
  intros H. unfold td_neg. destruct (is_inf d) eqn:E; cbn [negb].
  - apply is_inf_true in E. destruct E as [-> | ->]; reflexivity.
  - apply is_inf_false in E; [|exact H].
    rewrite ck64_ok by (nums; lia).
    destruct (Z.eqb_spec d minus_inf), (Z.eqb_spec d plus_inf); nums; try lia; reflexivity.
Qed.
Lemma shiftr63 d : int64 d -> Z.shiftr d 63 = if d <? 0 then -1 else 0.
Proof.
  intros H. rewrite Z.shiftr_div_pow2 by lia. change (2 ^ 63) with 9223372036854775808.
  destruct (Z.ltb_spec d 0).
  - symmetry. apply Z.div_unique with (d + 9223372036854775808); nums; lia.
  - apply Z.div_small. nums. lia.
Qed.
Lemma td_magnitude_ok d : int64 d -> td_magnitude d = Ok (saturate (Z.abs d)).
Proof.
  intros H. unfold td_magnitude. destruct (Z.eqb_spec d i64min) as [->|N]; [reflexivity|].
  rewrite shiftr63 by exact H. destruct (Z.ltb_spec d 0).
  - rewrite ck64_ok by (nums; lia). cbn [obind].
    rewrite Z.lxor_m1_r. rewrite saturate_id by (nums; lia).
    unfold Z.lnot. f_equal. lia.
  - rewrite ck64_ok by (nums; lia). cbn [obind]. rewrite Z.lxor_0_r, saturate_id by (nums; lia).
    f_equal. lia.
Qed.
Lemma td_mul_ok d a : td_mul d a = saturate (d * a).
Proof.
  rewrite <- clamp_mul_sat. unfold td_mul, clamp_mul. destruct (mul_builtin d a); [reflexivity|].
  destruct (d <? 0), (a <? 0); reflexivity.
Qed.
Lemma quot_bound x y : y <> 0 -> Z.abs (Z.quot x y) <= Z.abs x.
Proof. intros H. rewrite <- Z.quot_abs by exact H. apply Z.quot_le_upper_bound; [lia|]. nia. Qed.
Lemma quot_bound2 x y : 2 <= Z.abs y -> 2 * Z.abs (Z.quot x y) <= Z.abs x.
Proof.
  intros H. assert (y <> 0) by lia. rewrite <- Z.quot_abs by assumption.
  pose proof (Z.mul_quot_le (Z.abs x) (Z.abs y)). nia.
Qed.
Lemma quot_int64 x y : int64 x -> y <> 0 -> ~ (x = minus_inf /\ y = -1) -> int64 (Z.quot x y).
Proof.
  intros Hx Hy N. destruct (Z.eq_dec x minus_inf) as [->|].
  - destruct (Z.eq_dec (Z.abs y) 1).
    + assert (y = 1) as -> by lia. rewrite Z.quot_1_r. exact Hx.
    + pose proof (quot_bound2 minus_inf y ltac:(lia)). nums. lia.
  - pose proof (quot_bound x y Hy). nums. lia.
Qed.
Lemma td_div_ok d a : int64 d -> int64 a -> td_div d a =
  if a =? 0 then (if d <? 0 then minus_inf else plus_inf) else saturate (Z.quot d a).
Proof.
  intros Hd Ha. unfold td_div, checked_div. destruct (Z.eqb_spec a 0) as [->|Na].
  - destruct (d <? 0); reflexivity.
  - destruct ((d =? i64min) && (a =? -1)) eqn:E.
    + apply andb_true_iff in E. destruct E as [E1 E2]. apply Z.eqb_eq in E1, E2. subst. reflexivity.
    + symmetry. apply saturate_id. apply quot_int64; try assumption.
      intros [-> ->]. discriminate E.
Qed.

Lemma td_intdiv_ok d a : int64 d -> int64 a -> finite d -> a <> 0 -> td_intdiv d a = Ok (Z.quot d a).
Proof.
  intros Hd Ha Fd Na. unfold td_intdiv. rewrite (finite_not_inf d Fd). cbn [negb andb].
  destruct (Z.eqb_spec a 0); [contradiction|]. cbn [negb]. unfold quot64.
  destruct (Z.eqb_spec a 0); [contradiction|]. apply ck64_ok. apply quot_int64; try assumption.
  intros [-> _]. nums. lia.
Qed.
Lemma td_mod_ok d a : finite d -> finite a -> a <> 0 -> td_mod d a = Ok (Z.rem d a).
Proof.
  intros Fd Fa Na. unfold td_mod. rewrite (finite_not_inf d Fd), (finite_not_inf a Fa).
  destruct (Z.eqb_spec a 0); [contradiction|]. cbn [orb]. unfold rem64.
  destruct (Z.eqb_spec a 0); [contradiction|].
  assert (int64 (Z.quot d a)) as H.
  { apply quot_int64; auto using finite_int64. intros [-> _]. nums. lia. }
  apply in64b_true in H. now rewrite H.
Qed.
Lemma td_mod_inf d a : is_inf d || (a =? 0) || is_inf a = true -> td_mod d a = Ok d.
Proof. intros H. unfold td_mod. now rewrite H. Qed.

(** ** Multiples *)
Definition fl (d i : Z) : Z := Z.abs i * (d / Z.abs i).
Lemma fl_floor d i : i <> 0 -> floor_multiple d i (fl d i).
Proof.
  intros N. unfold fl. assert (0 < Z.abs i) as P by lia.
  pose proof (Z.mul_div_le d (Z.abs i) P) as L.
  pose proof (Z.mul_succ_div_gt d (Z.abs i) P) as G. unfold Z.succ in G.
  split; [|split; [exact L|]].
  - exists (Z.sgn i * (d / Z.abs i)). destruct (Z.lt_trichotomy i 0) as [?|[?|?]]; [|lia|].
    + rewrite Z.sgn_neg, Z.abs_neq by lia. lia.
    + rewrite Z.sgn_pos, Z.abs_eq by lia. lia.
  - intros k Hk. 
    assert (exists k', k * i = Z.abs i * k') as [k' Ek].
    { exists (Z.sgn i * k). destruct (Z.lt_trichotomy i 0) as [?|[?|?]]; [|lia|].
      + rewrite Z.sgn_neg, Z.abs_neq by lia. lia.
      + rewrite Z.sgn_pos, Z.abs_eq by lia. lia. }
    rewrite Ek in *. apply Z.mul_le_mono_nonneg_l; [lia|].
    apply Z.div_le_lower_bound; lia.
Qed.
Definition cl (d i : Z) : Z := - fl (- d) i.
Lemma cl_ceil d i : i <> 0 -> ceil_multiple d i (cl d i).
Proof.
  intros N. unfold cl. destruct (fl_floor (- d) i N) as [[k Ek] [L G]].
  split; [exists (- k); lia|]. split; [lia|].
  intros k' Hk. specialize (G (- k')). lia.
Qed.
Lemma floor_unique d i m m' : floor_multiple d i m -> floor_multiple d i m' -> m = m'.
Proof.
  intros [[k ->] [L G]] [[k' ->] [L' G']]. specialize (G k' L'). specialize (G' k L). lia.
Qed.
Lemma ceil_unique d i m m' : ceil_multiple d i m -> ceil_multiple d i m' -> m = m'.
Proof.
  intros [[k ->] [L G]] [[k' ->] [L' G']]. specialize (G k' L'). specialize (G' k L). lia.
Qed.

Lemma rem_abs_r d i : i <> 0 -> Z.rem d i = Z.rem d (Z.abs i).
Proof.
  intros N. destruct (Z.le_gt_cases 0 i).
  - now rewrite Z.abs_eq by lia.
  - rewrite Z.abs_neq by lia. symmetry. apply Z.rem_opp_r. exact N.
Qed.
Lemma fl_nonneg d i : 0 <= d -> i <> 0 -> fl d i = d - Z.rem d i.
Proof.
  intros P N. unfold fl. rewrite rem_abs_r by exact N.
  rewrite Z.rem_mod_nonneg by lia. pose proof (Z.div_mod d (Z.abs i)). lia.
Qed.
Lemma fl_neg d i : d < 0 -> i <> 0 -> fl d i = if Z.rem d i =? 0 then d else d - Z.rem d i - Z.abs i.
Proof.
  intros P N. unfold fl. rewrite rem_abs_r by exact N. set (j := Z.abs i). assert (0 < j) by lia.
  assert (E : Z.rem d j = - (- d mod j)).
  { rewrite <- (Z.opp_involutive d) at 1. rewrite Z.rem_opp_l by lia. rewrite Z.rem_mod_nonneg by lia. lia. }
  rewrite E. pose proof (Z.div_mod d j ltac:(lia)) as D. pose proof (Z.mod_pos_bound d j ltac:(lia)).
  destruct (Z.eqb_spec (- (- d mod j)) 0) as [Z0|NZ].
  - assert (d mod j = 0). { rewrite <- (Z.opp_involutive d), Z.mod_opp_l_z; lia. } lia.
  - assert (d mod j <> 0). { intros Hz. apply NZ. rewrite Z.mod_opp_l_z; lia. }
    assert (- d mod j = j - d mod j) by (rewrite Z.mod_opp_l_nz; lia). lia.
Qed.

Lemma rem_bounds_sum d i : i <> 0 -> Z.abs (d - Z.rem d i) <= Z.abs d /\ Z.abs (Z.rem d i) <= Z.abs d.
Proof.
  intros N. pose proof (Z.quot_rem d i N) as E.
  pose proof (Z.rem_sign_mul d i N). 
  assert (0 <= d -> 0 <= Z.rem d i <= d).
  { intros. split; [apply Z.rem_nonneg; lia|]. rewrite rem_abs_r by exact N. apply Z.rem_le; lia. }
  assert (d <= 0 -> d <= Z.rem d i <= 0).
  { intros. split; [|apply Z.rem_nonpos; lia]. 
    rewrite rem_abs_r by exact N. pose proof (Z.rem_opp_l d (Z.abs i) ltac:(lia)) as Eo.
    pose proof (Z.rem_le (- d) (Z.abs i) ltac:(lia) ltac:(lia)). lia. }
  lia.
Qed.
Lemma rem_finite d i : finite d -> i <> 0 -> finite (Z.rem d i).
Proof. intros F N. pose proof (rem_bounds_sum d i N). nums. lia. Qed.
Lemma abs_finite i : finite (Z.abs i) -> finite i.
Proof. nums. lia. Qed.

Lemma td_floor_ok d i : finite d -> finite (Z.abs i) -> i <> 0 -> td_floor d i = Ok (saturate (fl d i)).
Proof.
  intros Fd Fa N. pose proof (abs_finite i Fa) as Fi. unfold td_floor. rewrite (finite_not_inf d Fd).
  destruct (Z.eqb_spec i 0); [contradiction|]. cbn [orb].
  rewrite td_mod_ok by assumption. cbn [obind].
  pose proof (rem_finite d i Fd N) as Fr. pose proof (rem_bounds_sum d i N) as [B1 B2].
  destruct (Z.ltb_spec d 0).
  - rewrite fl_neg by assumption. destruct (Z.eqb_spec (Z.rem d i) 0).
    + now rewrite saturate_id by (auto using finite_int64).
    + rewrite td_sub_fin by (auto using finite_int64). cbn [obind].
      rewrite (saturate_id (d - Z.rem d i)) by (nums; lia).
      rewrite td_magnitude_ok by (auto using finite_int64). cbn [obind].
      rewrite (saturate_id (Z.abs i)) by (nums; lia).
      apply td_sub_fin; [nums; lia|exact Fa].
  - rewrite td_sub_fin by (auto using finite_int64). now rewrite fl_nonneg by assumption.
Qed.
Lemma td_ceil_ok d i : finite d -> finite (Z.abs i) -> i <> 0 -> td_ceil d i = Ok (saturate (cl d i)).
Proof.
  intros Fd Fa N. pose proof (abs_finite i Fa) as Fi. unfold td_ceil. rewrite (finite_not_inf d Fd).
  destruct (Z.eqb_spec i 0); [contradiction|]. cbn [orb].
  rewrite td_mod_ok by assumption. cbn [obind].
  pose proof (rem_finite d i Fd N) as Fr. pose proof (rem_bounds_sum d i N) as [B1 B2].
  unfold cl.
  destruct (Z.ltb_spec d 0).
  - rewrite td_sub_fin by (auto using finite_int64).
    rewrite fl_nonneg by lia. rewrite Z.rem_opp_l by exact N. do 2 f_equal. lia.
  - destruct (Z.eq_dec d 0) as [->|].
    + rewrite Z.rem_0_l by exact N. cbn. unfold fl. rewrite Z.div_0_l, Z.mul_0_r by lia. reflexivity.
    + rewrite fl_neg by lia. rewrite Z.rem_opp_l by exact N.
      destruct (Z.eqb_spec (Z.rem d i) 0), (Z.eqb_spec (- Z.rem d i) 0); try lia.
      * rewrite saturate_id by (nums; lia). f_equal. lia.
      * rewrite td_sub_fin by (auto using finite_int64). cbn [obind].
        rewrite (saturate_id (d - Z.rem d i)) by (nums; lia).
        rewrite td_magnitude_ok by (auto using finite_int64). cbn [obind].
        rewrite (saturate_id (Z.abs i)) by (nums; lia).
        rewrite td_add_fin; [|nums; lia|exact Fa]. do 2 f_equal. lia.
Qed.

Lemma td_div2 m : 0 <= m -> finite m -> td_div m 2 = m / 2.
Proof.
  intros P F. rewrite td_div_ok; [|auto using finite_int64|nums; lia]. cbn [Z.eqb].
  rewrite Z.quot_div_nonneg by lia. rewrite saturate_id; [reflexivity|].
  assert (0 <= m / 2 <= m) by (split; [apply Z.div_pos; lia|apply Z.div_le_upper_bound; lia]). nums. lia.
Qed.

Definition rnd (d i : Z) : Z :=
  let h := Z.abs i / 2 in if d <? 0 then cl (d - h) i else fl (d + h) i.

Lemma fl_nearest d i : 0 <= d -> i <> 0 -> nearest_multiple d i (fl (d + Z.abs i / 2) i).
Proof.
  intros P N. set (j := Z.abs i). assert (Pj : 0 < j) by lia.
  unfold fl. fold j. set (q := (d + j / 2) / j).
  pose proof (Z.div_mod (d + j / 2) j ltac:(lia)) as D. fold q in D.
  pose proof (Z.mod_pos_bound (d + j / 2) j Pj) as R.
  pose proof (Z.div_mod j 2 ltac:(lia)) as H2. pose proof (Z.mod_pos_bound j 2 ltac:(lia)) as R2.
  assert (Hq : 0 <= q) by (apply Z.div_pos; [assert (0 <= j / 2) by (apply Z.div_pos; lia); lia|lia]).
  assert (Hk : forall k, exists k', k * i = j * k').
  { intros k. exists (Z.sgn i * k). subst j. destruct (Z.lt_trichotomy i 0) as [?|[?|?]]; [|lia|].
    + rewrite Z.sgn_neg, Z.abs_neq by lia. lia.
    + rewrite Z.sgn_pos, Z.abs_eq by lia. lia. }
  assert (Hlo : 2 * (d - j * q) < j + 0 \/ 2 * (d - j * q) < j) by (left; lia).
  assert (Hhi : - j <= 2 * (d - j * q)) by lia.
  split; [|split].
  - exists (Z.sgn i * q). subst j. destruct (Z.lt_trichotomy i 0) as [?|[?|?]]; [|lia|].
    + rewrite Z.sgn_neg, Z.abs_neq by lia. lia.
    + rewrite Z.sgn_pos, Z.abs_eq by lia. lia.
  - intros k. destruct (Hk k) as [k' ->].
    destruct (Z.lt_trichotomy k' q) as [?|[->|?]]; [|lia|].
    + assert (j * k' <= j * q - j) by nia. lia.
    + assert (j * q + j <= j * k') by nia. lia.
  - intros k. destruct (Hk k) as [k' ->].
    destruct (Z.lt_trichotomy k' q) as [?|[->|?]]; [|lia|].
    + intros E. assert (j * k' <= j * q - j) by nia.
      destruct (Z.le_gt_cases 0 k'); [assert (0 <= j * k') by nia; assert (0 <= j * q) by nia; lia|].
      assert (j * k' <= -j) by nia. assert (0 <= j * q) by nia. lia.
    + intros E. assert (j * q + j <= j * k') by nia. lia.
Qed.
Lemma nearest_opp d i m : nearest_multiple (- d) i (- m) -> nearest_multiple d i m.
Proof.
  intros [[k E] [A B]]. split; [exists (- k); lia|]. split.
  - intros k'. specialize (A (- k')). lia.
  - intros k' E'. specialize (B (- k')). lia.
Qed.
Lemma rnd_nearest d i : i <> 0 -> nearest_multiple d i (rnd d i).
Proof.
  intros N. unfold rnd. destruct (Z.ltb_spec d 0).
  - apply nearest_opp. unfold cl. rewrite Z.opp_involutive.
    replace (- (d - Z.abs i / 2)) with (- d + Z.abs i / 2) by lia. apply fl_nearest; lia.
  - apply fl_nearest; assumption.
Qed.
Lemma nearest_unique d i m m' : nearest_multiple d i m -> nearest_multiple d i m' -> d <> 0 \/ True -> Z.abs m = Z.abs m'.
Proof.
  intros [[k ->] [A B]] [[k' ->] [A' B']] _.
  specialize (A k'). specialize (A' k).
  specialize (B k' ltac:(lia)). specialize (B' k ltac:(lia)). lia.
Qed.

Lemma td_round_ok d i : finite d -> finite (Z.abs i) -> i <> 0 -> Z.abs d + Z.abs i / 2 < plus_inf ->
  td_round d i = Ok (saturate (rnd d i)).
Proof.
  intros Fd Fa N S. pose proof (abs_finite i Fa) as Fi. unfold td_round. rewrite (finite_not_inf d Fd), (finite_not_inf i Fi).
  destruct (Z.eqb_spec i 0); [contradiction|]. cbn [orb].
  rewrite td_magnitude_ok by (auto using finite_int64). cbn [obind].
  rewrite (saturate_id (Z.abs i)) by (nums; lia). rewrite td_div2; [|lia|exact Fa].
  assert (0 <= Z.abs i / 2) by (apply Z.div_pos; lia).
  unfold rnd. destruct (Z.ltb_spec d 0).
  - rewrite td_sub_fin; [|auto using finite_int64|nums; lia]. cbn [obind].
    rewrite saturate_id by (nums; lia). apply td_ceil_ok; try assumption. nums. lia.
  - rewrite td_add_fin; [|auto using finite_int64|nums; lia]. cbn [obind].
    rewrite saturate_id by (nums; lia). apply td_floor_ok; try assumption. nums. lia.
Qed.
