(** Proofs about base/numerics and TimeDelta. *)
From Verif Require Import Model.Common Model.TimeDelta Spec.TimeSpec Proofs.Tac.
Local Open Scope Z_scope.

Lemma int64_def z : int64 z <-> i64min <= z <= i64max.
Proof. unfold int64, i64min, i64max. change (2 ^ 63) with 9223372036854775808. lia. Qed.

Lemma in64b_true z : in64b z = true <-> int64 z.
Proof. rewrite int64_def. unfold in64b. rewrite andb_true_iff, !Z.leb_le. tauto. Qed.
Lemma in64b_false z : in64b z = false <-> ~ int64 z.
Proof. rewrite <- in64b_true. destruct (in64b z); split; congruence. Qed.

Lemma ck64_ok z : int64 z -> ck64 z = Ok z.
Proof. intros H. unfold ck64. apply in64b_true in H. now rewrite H. Qed.
Lemma ck64_ub z : ~ int64 z -> ck64 z = UB.
Proof. intros H. unfold ck64. apply in64b_false in H. now rewrite H. Qed.

Ltac nums := unfold int64, saturate, finite, plus_inf, minus_inf, i64min, i64max, i32min, i32max in *;
  change (2 ^ 63) with 9223372036854775808 in *.

Lemma is_inf_false d : int64 d -> (is_inf d = false <-> finite d).
Proof.
  intros H. unfold is_inf. rewrite orb_false_iff, !Z.eqb_neq. nums. lia.
Qed.
Lemma finite_not_inf d : finite d -> is_inf d = false.
Proof. intros H. apply is_inf_false; [|exact H]. nums. lia. Qed.
Lemma is_inf_true d : is_inf d = true <-> d = minus_inf \/ d = plus_inf.
Proof. unfold is_inf. rewrite orb_true_iff, !Z.eqb_eq. nums. tauto. Qed.

(** ** Checked and clamped arithmetic *)
Lemma clamp_add_sat x y : int64 x -> int64 y -> clamp_add x y = saturate (x + y).
Proof.
  intros Hx Hy. unfold clamp_add, add_builtin.
  destruct (in64b (x + y)) eqn:E.
  - apply in64b_true in E. nums. lia.
  - apply in64b_false in E. destruct (Z.ltb_spec y 0); nums; lia.
Qed.
Lemma clamp_sub_sat x y : int64 x -> int64 y -> clamp_sub x y = saturate (x - y).
Proof.
  intros Hx Hy. unfold clamp_sub, sub_builtin.
  destruct (in64b (x - y)) eqn:E.
  - apply in64b_true in E. nums. lia.
  - apply in64b_false in E. destruct (Z.ltb_spec y 0); cbn [negb]; nums; lia.
Qed.
Lemma mul_sign x y : (x < 0 /\ y < 0 -> 0 <= x * y) /\ (0 <= x /\ 0 <= y -> 0 <= x * y) /\
  (x < 0 /\ 0 <= y -> x * y <= 0) /\ (0 <= x /\ y < 0 -> x * y <= 0).
Proof. repeat split; intros [? ?]; nia. Qed.
Lemma clamp_mul_sat x y : clamp_mul x y = saturate (x * y).
Proof.
  unfold clamp_mul, mul_builtin.
  destruct (in64b (x * y)) eqn:E.
  - apply in64b_true in E. nums. lia.
  - apply in64b_false in E. pose proof (mul_sign x y) as (A & B & C & D).
    destruct (Z.ltb_spec x 0), (Z.ltb_spec y 0); cbn [xorb]; nums; lia.
Qed.

Lemma to_u64_range x : 0 <= to_u64 x < 18446744073709551616.
Proof. unfold to_u64. apply Z.mod_pos_bound. lia. Qed.
Lemma to_u64_eq x : int64 x -> to_u64 x = if x <? 0 then x + 18446744073709551616 else x.
Proof.
  intros H. unfold to_u64. destruct (Z.ltb_spec x 0).
  - symmetry. apply Z.mod_unique with (-1); nums; lia.
  - apply Z.mod_small. nums. lia.
Qed.
Lemma to_u64_idem x : 0 <= x < 18446744073709551616 -> to_u64 x = x.
Proof. intros H. unfold to_u64. now apply Z.mod_small. Qed.
Lemma to_i64_u x : int64 x -> to_i64 (to_u64 x) = x.
Proof.
  intros H. unfold to_i64. rewrite (to_u64_idem (to_u64 x)) by apply to_u64_range.
  rewrite to_u64_eq by exact H. destruct (Z.ltb_spec x 0).
  - destruct (Z.leb_spec (x + 18446744073709551616) i64max); nums; lia.
  - destruct (Z.leb_spec x i64max); nums; lia.
Qed.
Lemma bit63 u : 0 <= u < 18446744073709551616 -> Z.testbit u 63 = (9223372036854775808 <=? u).
Proof.
  intros H.
  apply eq_true_iff_eq. rewrite Z.testbit_true by lia. rewrite Z.leb_le.
  change (2 ^ 63) with 9223372036854775808.
  assert (u / 9223372036854775808 = 0 \/ u / 9223372036854775808 = 1) as [E|E] by
    (assert (0 <= u / 9223372036854775808 < 2);
      [split; [apply Z.div_pos; lia|apply Z.div_lt_upper_bound; lia]|lia]).
  - rewrite E. split; [discriminate|]. intros. apply Z.div_small_iff in E; lia.
  - rewrite E. split; [|reflexivity]. intros _.
    destruct (Z.le_gt_cases 9223372036854775808 u); [assumption|].
    rewrite Z.div_small in E by lia. discriminate.
Qed.

Lemma to_i64_neg u : 0 <= u < 18446744073709551616 -> (to_i64 u <? 0) = Z.testbit u 63.
Proof.
  intros H. rewrite bit63 by exact H. unfold to_i64. rewrite to_u64_idem by exact H.
  destruct (Z.leb_spec u i64max), (Z.leb_spec 9223372036854775808 u),
    (Z.ltb_spec u 0), (Z.ltb_spec (u - 18446744073709551616) 0); nums; lia.
Qed.
Lemma bit_u64 x : int64 x -> Z.testbit (to_u64 x) 63 = (x <? 0).
Proof.
  intros H. rewrite bit63 by apply to_u64_range. rewrite to_u64_eq by exact H.
  destruct (Z.ltb_spec x 0); destruct (Z.leb_spec 9223372036854775808 (x + 18446744073709551616)), (Z.leb_spec 9223372036854775808 x);
    nums; lia.
Qed.
Lemma lxor_range a b : 0 <= a < 18446744073709551616 -> 0 <= b < 18446744073709551616 -> 0 <= Z.lxor a b < 18446744073709551616.
Proof.
  intros Ha Hb. split; [apply Z.lxor_nonneg; lia|].
  destruct (Z.eq_dec (Z.lxor a b) 0) as [->|N]; [lia|].
  change 18446744073709551616 with (2 ^ 64). apply Z.log2_lt_pow2; [pose proof (proj2 (Z.lxor_nonneg a b)); lia|].
  eapply Z.le_lt_trans; [apply Z.log2_lxor; lia|].
  apply Z.max_lub_lt.
  - destruct (Z.eq_dec a 0) as [->|]; [cbn; lia|]. apply Z.log2_lt_pow2; [lia|]. exact (proj2 Ha).
  - destruct (Z.eq_dec b 0) as [->|]; [cbn; lia|]. apply Z.log2_lt_pow2; [lia|]. exact (proj2 Hb).
Qed.
Lemma land_range a b : 0 <= a < 18446744073709551616 -> 0 <= b < 18446744073709551616 -> 0 <= Z.land a b < 18446744073709551616.
Proof.
  intros Ha Hb. split; [apply Z.land_nonneg; lia|].
  destruct (Z.eq_dec (Z.land a b) 0) as [->|N]; [lia|].
  change 18446744073709551616 with (2 ^ 64). apply Z.log2_lt_pow2; [pose proof (proj2 (Z.land_nonneg a b)); lia|].
  eapply Z.le_lt_trans; [apply Z.log2_land; lia|].
  apply Z.min_lt_iff. left.
  destruct (Z.eq_dec a 0) as [->|]; [cbn; lia|]. apply Z.log2_lt_pow2; [lia|]. exact (proj2 Ha).
Qed.
Lemma to_u64_add x y : to_u64 (to_u64 x + to_u64 y) = to_u64 (x + y).
Proof. unfold to_u64. symmetry. apply Z.add_mod. lia. Qed.
Lemma to_u64_sub x y : to_u64 (to_u64 x - to_u64 y) = to_u64 (x - y).
Proof. unfold to_u64. symmetry. apply Zminus_mod. Qed.

Lemma to_u64_add_eq x y : int64 x -> int64 y -> ~ int64 (x + y) ->
  to_u64 (x + y) = if x + y <? 0 then x + y + 18446744073709551616 else x + y.
Proof.
  intros Hx Hy N. unfold to_u64. destruct (Z.ltb_spec (x + y) 0).
  - symmetry. apply Z.mod_unique with (-1); nums; lia.
  - apply Z.mod_small. nums. lia.
Qed.

Lemma add_portable_ok x y : int64 x -> int64 y -> add_portable x y = add_builtin x y.
Proof.
  intros Hx Hy. unfold add_portable, add_builtin. rewrite to_u64_add.
  pose proof (to_u64_range x) as Rx. pose proof (to_u64_range y) as Ry. pose proof (to_u64_range (x + y)) as Rr.
  rewrite to_i64_neg by (apply land_range; apply lxor_range; assumption).
  rewrite Z.land_spec, !Z.lxor_spec, (bit_u64 x), (bit_u64 y) by assumption.
  destruct (in64b (x + y)) eqn:E.
  - apply in64b_true in E. rewrite bit_u64 by exact E. rewrite to_i64_u by exact E.
    destruct (Z.ltb_spec x 0), (Z.ltb_spec y 0), (Z.ltb_spec (x + y) 0); cbn; try reflexivity; nums; lia.
  - apply in64b_false in E. rewrite bit63 by exact Rr. rewrite to_u64_add_eq by assumption.
    destruct (Z.ltb_spec x 0), (Z.ltb_spec y 0), (Z.ltb_spec (x + y) 0);
      try (exfalso; nums; lia);
      match goal with |- context [9223372036854775808 <=? ?u] => destruct (Z.leb_spec 9223372036854775808 u) end;
      cbn [xorb andb]; try reflexivity; nums; lia.
Qed.
Lemma sub_portable_ok x y : int64 x -> int64 y -> sub_portable x y = sub_builtin x y.
Proof.
  intros Hx Hy. unfold sub_portable, sub_builtin. rewrite to_u64_sub.
  pose proof (to_u64_range x) as Rx. pose proof (to_u64_range y) as Ry. pose proof (to_u64_range (x - y)) as Rr.
  rewrite to_i64_neg by (apply land_range; apply lxor_range; assumption).
  rewrite Z.land_spec, !Z.lxor_spec, (bit_u64 x), (bit_u64 y) by assumption.
  destruct (in64b (x - y)) eqn:E.
  - apply in64b_true in E. rewrite bit_u64 by exact E. rewrite to_i64_u by exact E.
    destruct (Z.ltb_spec x 0), (Z.ltb_spec y 0), (Z.ltb_spec (x - y) 0); cbn; try reflexivity; nums; lia.
  - apply in64b_false in E. rewrite bit63 by exact Rr.
    assert (to_u64 (x - y) = if x - y <? 0 then x - y + 18446744073709551616 else x - y) as ->.
    { unfold to_u64. destruct (Z.ltb_spec (x - y) 0).
      - symmetry. apply Z.mod_unique with (-1); nums; lia.
      - apply Z.mod_small. nums. lia. }
    destruct (Z.ltb_spec x 0), (Z.ltb_spec y 0), (Z.ltb_spec (x - y) 0);
      try (exfalso; nums; lia);
      match goal with |- context [9223372036854775808 <=? ?u] => destruct (Z.leb_spec 9223372036854775808 u) end;
      cbn [xorb andb]; try reflexivity; nums; lia.
Qed.

Lemma lxor_sign x y : (Z.lxor x y <? 0) = xorb (x <? 0) (y <? 0).
Proof.
  pose proof (Z.lxor_nonneg x y) as L.
  destruct (Z.ltb_spec (Z.lxor x y) 0), (Z.ltb_spec x 0), (Z.ltb_spec y 0); cbn; try reflexivity; lia.
Qed.
Lemma abs_ok x : int64 x -> safe_unsigned_abs x = Z.abs x.
Proof.
  intros H. unfold safe_unsigned_abs. destruct (Z.ltb_spec x 0).
  - rewrite (to_u64_eq x) by exact H. destruct (Z.ltb_spec x 0); [|lia].
    unfold to_u64. symmetry. apply Z.mod_unique with (-1); nums; lia.
  - rewrite to_u64_idem; nums; lia.
Qed.

Lemma mul_portable_ok x y : int64 x -> int64 y -> mul_portable x y = mul_builtin x y.
Proof.
  intros Hx Hy. unfold mul_portable, mul_builtin. rewrite !abs_ok by assumption.
  rewrite lxor_sign.
  set (neg := xorb (x <? 0) (y <? 0)). set (nb := if neg then 1 else 0).
  assert (Hxy : x * y = if neg then - (Z.abs x * Z.abs y) else Z.abs x * Z.abs y).
  { rewrite <- Z.abs_mul. subst neg. pose proof (mul_sign x y) as (A & B & C & D).
    destruct (Z.ltb_spec x 0), (Z.ltb_spec y 0); cbn [xorb]; lia. }
  assert (Hb : (i64max + nb) / Z.abs y < Z.abs x <-> (y <> 0 /\ i64max + nb < Z.abs x * Z.abs y) \/ (y = 0 /\ x <> 0)).
  { destruct (Z.eq_dec y 0) as [->|Ny].
    - cbn [Z.abs]. rewrite Zdiv_0_r. lia.
    - assert (0 < Z.abs y) by lia.
      split; intros Hlt.
      + left. split; [exact Ny|]. 
        assert (Hs : i64max + nb < Z.abs y * ((i64max + nb) / Z.abs y + 1)).
        { pose proof (Z.mul_succ_div_gt (i64max + nb) (Z.abs y)). unfold Z.succ in *. lia. }
        nia.
      + destruct Hlt as [[_ Hlt]|[? _]]; [|lia]. apply Z.div_lt_upper_bound; lia. }
  assert (Hp : 0 <= Z.abs x * Z.abs y) by (apply Z.mul_nonneg_nonneg; lia).
  destruct ((nb <? Z.abs y) && ((i64max + nb) / Z.abs y <? Z.abs x)) eqn:E.
  - apply andb_true_iff in E. destruct E as [E1 E2]. apply Z.ltb_lt in E1, E2.
    apply Hb in E2. 
    assert (in64b (x * y) = false) as ->; [|reflexivity].
    apply in64b_false. rewrite Hxy. subst nb. destruct neg; nums; lia.
  - assert (Hfit : Z.abs x * Z.abs y <= i64max + nb).
    { apply andb_false_iff in E. destruct E as [E|E]; apply Z.ltb_ge in E.
      - assert (Z.abs y <= 1) by (subst nb; destruct neg; lia).
        assert (Z.abs y = 0 \/ (Z.abs y = 1 /\ nb = 1)) as [->|[-> ->]] by (subst nb; destruct neg; lia);
          nums; lia.
      - destruct (Z.le_gt_cases (Z.abs x * Z.abs y) (i64max + nb)) as [|G]; [assumption|].
        exfalso. enough ((i64max + nb) / Z.abs y < Z.abs x) by lia. apply Hb. left.
        split; [|lia]. intros ->. cbn [Z.abs] in G. subst nb. nums. destruct neg; lia. }
    assert (Hin : int64 (x * y)) by (rewrite Hxy; subst nb; destruct neg; nums; lia).
    pose proof (proj2 (in64b_true _) Hin) as ->. f_equal.
    assert (Hs : to_u64 (Z.abs x * Z.abs y) = Z.abs x * Z.abs y).
    { apply to_u64_idem. subst nb. nums. destruct neg; lia. }
    rewrite Hs. rewrite Hxy in *. destruct neg.
    + replace (0 - Z.abs x * Z.abs y) with (- (Z.abs x * Z.abs y)) by lia. apply to_i64_u. exact Hin.
    + rewrite <- Hs at 1. now apply to_i64_u.
Qed.
