From Verif.Model Require Import Common Numerics.
From Verif.Spec Require Import NumSpec.
From Verif.Proofs Require Import Tac NumProofs NumProofs2 NumProofs3.
Local Open Scope Z_scope.

Lemma rem_fits p x y : fits p x -> y <> 0 -> fits p (Z.rem x y).
Proof. intros F N. assert (Z0 := zero_fits p). destruct (rem_between x y N) as [A B]. unfold fits in *. destruct (Z.leb_spec 0 x); [specialize (A ltac:(lia))|specialize (B ltac:(lia))]; lia. Qed.
Lemma CheckedModOp_ok t u v x y : fits t x -> fits u y ->
  let p := fst (BigEnough t u) in fits p x -> fits p y ->
  CheckedModOp t u v x y = Ok (if Z.eq_dec y 0 then None else if fits_dec v (Z.rem x y) then Some (Z.rem x y) else None).
Proof.
  intros X Y p FX FY. unfold CheckedModOp. cbn zeta. fold p.
  destruct (Z.eq_dec y 0) as [->|N]; [reflexivity|]. replace (y =? 0) with false by (symmetry; now apply Z.eqb_neq).
  assert (SC := special_case t u x y X Y). cbn zeta in SC. fold p in SC.
  destruct (sgn t && sgn u && TypeInRange t p && (cast p x =? lo p) && (y =? cast u (-1))).
  - destruct SC as [SC _]. destruct (SC eq_refl) as (S1 & S2 & EX & EY).
    assert (R : Z.rem x y = 0). { rewrite EY. change (-1) with (- (1)). rewrite Z.rem_opp_r by lia. apply Z.rem_1_r. }
    rewrite R. destruct (fits_dec v 0) as [_|F0]; [reflexivity|exfalso; apply F0, zero_fits].
  - assert (NS : ~ (x = lo p /\ y = -1 /\ sgn p = true)).
    { intros (EX & EY & SP). destruct SC as [_ SC]. discriminate SC. split; [now apply (p_lo_fits t u x)|]. split; auto.
      rewrite sgn_lo. unfold fits in Y. apply Z.ltb_lt. lia. }
    rewrite (cast_id p x), (cast_id p y) by auto. rewrite mod__ok by (auto; now apply quot_fits). cbn [obind].
    assert (RF := rem_fits p x y FX N). rewrite (cast_id p) by auto. rewrite negb_in by auto.
    destruct (fits_dec v (Z.rem x y)) as [FV|FV]; [|reflexivity]. rewrite (cast_id p), (cast_id v) by auto. reflexivity.
Qed.
Lemma contained_fits t u x y : snd (BigEnough t u) = true -> fits t x -> fits u y -> fits (fst (BigEnough t u)) x /\ fits (fst (BigEnough t u)) y.
Proof. intros C X Y. assert (B := BigEnough_ok t u C). b2p. split; [now apply in_type with t|now apply in_type with u]. Qed.
Lemma not_contained t u : snd (BigEnough t u) = false <-> (sgn t <> sgn u /\ (t = Ty false W64 \/ u = Ty false W64)).
Proof. tys; vm_compute; intuition congruence. Qed.
Lemma not_contained_p t u : snd (BigEnough t u) = false -> fst (BigEnough t u) = Ty false W64.
Proof. tys; vm_compute; intro; auto; discriminate. Qed.

(** ** Shifts *)
Lemma digits_ok t : hi t = 2 ^ digits t - 1 /\ 7 <= digits t <= bits t /\ bits t <= 64 /\ (sgn t = true -> lo t = - 2 ^ digits t) /\ (sgn t = true -> bits t = digits t + 1) /\ (sgn t = false -> bits t = digits t).
Proof. tys; vm_compute; repeat split; congruence. Qed.
Lemma shift_test u s n t : fits u s -> 0 <= n <= 64 -> (t = Ty false W32 \/ t = Ty true W32) ->
  let c := cast (common (uns u) t) (cast (uns u) s) in cast (common (uns u) t) (cast t n) = n /\ c = cast (uns u) s /\
  ((0 <= s < 64 -> c = s) /\ (~ (0 <= s <= 64) -> c > 64) /\ (0 <= s -> c = s)).
Proof.
  intros F N T c. assert (C := common_uns (uns u) t eq_refl). b2p.
  assert (FN : fits t n) by (destruct T; subst t; unfold fits, lo, hi; cbn; lia).
  rewrite (cast_id t n FN). split.
  - apply cast_id. assert (L := lo_hi (common (uns u) t)). unfold fits in *. lia.
  - assert (c = cast (uns u) s) by (subst c; apply cast_id; apply in_type with (uns u); auto using cast_fits). split; auto. rewrite H1. rewrite cast_uns by auto.
    assert (HU := halves u). unfold fits in F. assert (R := range u).
    split; [|split]; destruct (Z.ltb_spec s 0); lia.
Qed.
Lemma shl_cast t x s : fits t x -> 0 <= s < digits t ->
  cast t (cast (promote (uns t)) (Z.shiftl (cast (uns t) x) s)) = cast t (x * 2 ^ s).
Proof.
  intros F S. rewrite Z.shiftl_mul_pow2 by lia. 
  destruct (cast_shift (uns t) x) as (k & ->). destruct (uns_facts t) as (_ & _ & _ & _ & B). rewrite B.
  destruct (cast_shift (promote (uns t)) ((x + k * 2 ^ bits t) * 2 ^ s)) as (j & J). rewrite J.
  assert (D : exists m, 2 ^ bits (promote (uns t)) = m * 2 ^ bits t).
  { exists (2 ^ (bits (promote (uns t)) - bits t)). rewrite <- Z.pow_add_r; [f_equal; lia| |]; tys; vm_compute; congruence. }
  destruct D as (m & D). rewrite D.
  destruct (cast_shift t (x * 2 ^ s)) as (i & I). symmetry. rewrite I.
  symmetry. apply cast_unique with (i - k * 2 ^ s - j * m); [rewrite <- I; apply cast_fits|]. ring.
Qed.
Lemma shl_reversible t x s : fits t x -> 0 <= s < digits t ->
  Z.shiftr (cast t (x * 2 ^ s)) s = x <-> fits t (x * 2 ^ s).
Proof.
  intros F S. rewrite Z.shiftr_div_pow2 by lia. assert (P : 0 < 2 ^ s) by (apply Z.pow_pos_nonneg; lia). split.
  - intro E. destruct (cast_shift t (x * 2 ^ s)) as (k & K). destruct (Z.eq_dec k 0) as [->|NK].
    + replace (x * 2 ^ s) with (cast t (x * 2 ^ s)) by lia. apply cast_fits.
    + exfalso. rewrite K in E. destruct (digits_ok t) as (_ & D & _).
      replace (2 ^ bits t) with (2 ^ (bits t - s) * 2 ^ s) in E by (rewrite <- Z.pow_add_r by lia; f_equal; lia).
      rewrite Z.mul_assoc, <- Z.mul_add_distr_r, Z.div_mul in E by lia. assert (0 < 2 ^ (bits t - s)) by (apply Z.pow_pos_nonneg; lia). nia.
  - intro G. rewrite cast_id by auto. apply Z.div_mul. lia.
Qed.
Lemma promote_common t : TypeInRange (common (promote t) t) t = true.  Proof. allty. Qed.
Lemma shr_fits t x s : fits t x -> 0 <= s -> fits t (Z.shiftr x s).
Proof.
  intros F S. rewrite Z.shiftr_div_pow2 by lia. assert (P : 0 < 2 ^ s) by (apply Z.pow_pos_nonneg; lia). assert (L := lo_hi t). unfold fits in *.
  split; [apply Z.div_le_lower_bound; nia|apply Z.div_le_upper_bound; nia].
Qed.
Lemma shl_test t x s : fits t x -> 0 <= s < digits t ->
  eq_ (promote t) t (Z.shiftr (cast t (x * 2 ^ s)) s) x = if fits_dec t (x * 2 ^ s) then true else false.
Proof.
  intros F S. unfold eq_. assert (G := shr_fits t (cast t (x * 2 ^ s)) s (cast_fits _ _) ltac:(lia)).
  rewrite !(cast_id (common (promote t) t)) by (apply in_type with t; auto using promote_common). assert (R := shl_reversible t x s F S).
  destruct (fits_dec t (x * 2 ^ s)) as [A|A]; [apply Z.eqb_eq|apply Z.eqb_neq]; tauto.
Qed.
Lemma big_shift t x s : digits t <= s -> 0 < x -> ~ fits t (x * 2 ^ s).
Proof.
  intros S X [_ H]. destruct (digits_ok t) as (E & D & _). rewrite E in H.
  assert (2 ^ digits t <= 2 ^ s) by (apply Z.pow_le_mono_r; lia). nia.
Qed.
Lemma CheckedLshOp_ok t u x s : fits t x -> fits u s ->
  CheckedLshOp t u x s =
    if (0 <=? x) && (0 <=? s) && (s <? digits t) then (if fits_dec t (x * 2 ^ s) then Some (x * 2 ^ s) else None)
    else if sgn t && (x =? 0) && (s =? digits t) then Some 0 else None.
Proof.
  intros X S. unfold CheckedLshOp, lt_. cbn zeta. rewrite IsValueNegative_ok by auto. destruct (digits_ok t) as (_ & D & B & _).
  destruct (shift_test u s (digits t) (Ty false W32) S ltac:(lia) (or_introl eq_refl)) as (-> & C0 & C1 & C2 & C3).
  unfold eq_ at 2. destruct (shift_test u s (digits t) (Ty false W32) S ltac:(lia) (or_introl eq_refl)) as (-> & _ & _).
  set (c := cast (common (uns u) (Ty false W32)) (cast (uns u) s)) in *.
  assert (G : (c <? digits t) = (0 <=? s) && (s <? digits t)) by lia.
  assert (G' : (c =? digits t) = (s =? digits t)) by lia. rewrite G, G'.
  replace (negb (x <? 0) && ((0 <=? s) && (s <? digits t))) with ((0 <=? x) && (0 <=? s) && (s <? digits t)) by lia.
  destruct ((0 <=? x) && (0 <=? s) && (s <? digits t)) eqn:E.
  - b2p. rewrite shl_cast by (auto; lia). rewrite shl_test by (auto; lia). destruct (fits_dec t (x * 2 ^ s)) as [F|F]; [|reflexivity]. now rewrite cast_id.
  - destruct (sgn t), (x =? 0), (s =? digits t); reflexivity.
Qed.
Lemma CheckedRshOp_ok t u x s : fits t x -> fits u s ->
  CheckedRshOp t u x s = if (0 <=? s) && (s <? bits t) then Some (x / 2 ^ s) else None.
Proof.
  intros X S. unfold CheckedRshOp, le_. rewrite (common_sym (Ty true W32) (uns u)). destruct (digits_ok t) as (_ & D & B & _).
  assert (BT : fits (Ty true W32) (bits t)) by (unfold fits, lo, hi; cbn; lia).
  destruct (shift_test u s (bits t) (Ty true W32) S ltac:(lia) (or_intror eq_refl)) as (E & C0 & C1 & C2 & C3). rewrite (cast_id (Ty true W32) (bits t) BT) in E. rewrite E.
  set (c := cast (common (uns u) (Ty true W32)) (cast (uns u) s)) in *.
  destruct (Z.leb_spec (bits t) c).
  - replace ((0 <=? s) && (s <? bits t)) with false by lia. reflexivity.
  - assert (0 <= s < bits t) by lia. replace ((0 <=? s) && (s <? bits t)) with true by lia. cbn zeta. assert (F := shr_fits t x s X ltac:(lia)). rewrite (cast_id t) by auto.
    rewrite negb_in by auto. destruct (fits_dec t (Z.shiftr x s)) as [_|]; [|tauto]. rewrite (cast_id t) by auto. rewrite Z.shiftr_div_pow2 by lia. reflexivity.
Qed.
Lemma uns_self u : sgn u = false -> uns u = u.  Proof. destruct u as [[] w]; [discriminate|reflexivity]. Qed.
Lemma ClampedLshOp_ok t u x s : sgn u = false -> fits t x -> fits u s -> ClampedLshOp t u x s = clampZ t (x * 2 ^ s).
Proof.
  intros SU X S. unfold ClampedLshOp, lt_. cbn zeta. rewrite Common_same, IsValueNegative_ok by auto. destruct (digits_ok t) as (HI & D & B & LO & _).
  assert (S0 : 0 <= s) by (unfold fits in S; rewrite (uns_lo _ SU) in S; lia).
  assert (BT : fits (Ty true W32) (digits t)) by (unfold fits, lo, hi; cbn; lia).
  destruct (shift_test u s (digits t) (Ty true W32) S ltac:(lia) (or_intror eq_refl)) as (E & C0 & C1 & C2 & C3). rewrite (cast_id (Ty true W32) (digits t) BT) in E.
  rewrite (uns_self u SU) in *. rewrite E. rewrite (cast_id u s S) in *. rewrite C3 by auto.
  assert (P : 0 < 2 ^ s) by (apply Z.pow_pos_nonneg; lia). assert (L := lo_hi t).
  assert (SAT : ~ fits t (x * 2 ^ s) \/ digits t <= s -> (if negb (x =? 0) then if x <? 0 then lo t else hi t else 0) = clampZ t (x * 2 ^ s)).
  { intro H. unfold clampZ. destruct (Z.eqb_spec x 0) as [->|NX]; cbn [negb]; [lia|].
    assert (BIG : digits t <= s -> 2 ^ digits t <= 2 ^ s) by (intro; apply Z.pow_le_mono_r; lia).
    destruct (Z.ltb_spec x 0).
    - assert (lo t >= x * 2 ^ s); [|lia]. destruct H as [H|H]; [unfold fits in H; nia|]. specialize (BIG H). destruct (sgn t) eqn:ST; [rewrite LO by auto; nia|].
      unfold fits in X. rewrite (uns_lo t ST) in X. lia.
    - assert (hi t <= x * 2 ^ s); [|lia]. destruct H as [H|H]; [unfold fits in H; nia|]. specialize (BIG H). nia. }
  destruct (Z.ltb_spec s (digits t)).
  - rewrite shl_cast by (auto; lia). rewrite shl_test by (auto; lia). destruct (fits_dec t (x * 2 ^ s)) as [F|F]; [|apply SAT; auto].
    rewrite cast_id by auto. unfold clampZ, fits in *. lia.
  - apply SAT. auto.
Qed.
Lemma ClampedRshOp_ok const t u x s : sgn u = false -> fits t x -> fits u s -> ClampedRshOp const t u x s = x / 2 ^ s.
Proof.
  intros SU X S. unfold ClampedRshOp, lt_. cbn zeta. rewrite IsValueNegative_ok by auto. destruct (digits_ok t) as (HI & D & B & LO & B1 & B2).
  assert (S0 : 0 <= s) by (unfold fits in S; rewrite (uns_lo _ SU) in S; lia).
  assert (BT : fits (Ty true W32) (bits t)) by (unfold fits, lo, hi; cbn; lia).
  destruct (shift_test u s (bits t) (Ty true W32) S ltac:(lia) (or_intror eq_refl)) as (E & C0 & C1 & C2 & C3). rewrite (cast_id (Ty true W32) (bits t) BT) in E.
  rewrite (uns_self u SU) in *. rewrite E. rewrite (cast_id u s S) in *. rewrite C3 by auto.
  assert (F := shr_fits t x s X S0). rewrite Z.shiftr_div_pow2 in * by lia.
  destruct (Z.ltb_spec s (bits t)).
  - rewrite saturated_cast_ok by (apply in_type with t; auto using promote_wider). unfold clampZ, fits in *. lia.
  - assert (BIG : 2 ^ bits t <= 2 ^ s) by (apply Z.pow_le_mono_r; lia). destruct (halves t) as [HB H']. unfold fits in X. assert (R := range t).
    destruct (Z.ltb_spec x 0).
    + rewrite cast_id by (unfold fits; lia). apply Z.div_unique with (x + 2 ^ s); [lia|]. ring.
    + rewrite cast_id by (apply zero_fits). symmetry. apply Z.div_small. lia.
Qed.

(** ** Negation and absolute value *)
Lemma SafeUnsignedAbs_ok t v : fits t v -> SafeUnsignedAbs t v = Z.abs v /\ fits (uns t) (Z.abs v).
Proof.
  intro F. unfold SafeUnsignedAbs. rewrite IsValueNegative_ok, !(cast_uns t v) by auto. destruct (uns_facts t) as (L & U & B & _ & _).
  assert (H := halves t). assert (R := range t). unfold fits in *.
  assert (FA : fits (uns t) (Z.abs v)) by (unfold fits; rewrite L, U; lia). split; [|auto].
  destruct (Z.ltb_spec v 0); [|lia]. replace (Z.abs v) with (- v) in * by lia.
  apply cast_unique with 1; [auto|]. rewrite B. lia.
Qed.
Lemma NegateWrapper_ok t v : fits t v -> NegateWrapper t v = cast t (- v).
Proof.
  intro F. unfold NegateWrapper. destruct (uns_facts t) as (_ & _ & _ & _ & B).
  destruct (cast_shift (uns t) v) as (k & ->). destruct (cast_shift (uns t) (0 - (v + k * 2 ^ bits (uns t)))) as (j & ->). rewrite B.
  destruct (cast_shift t (- v)) as (i & I). rewrite I. apply cast_unique with (i + k - j); [rewrite <- I; apply cast_fits|]. ring.
Qed.
Lemma neg_lo t v : sgn t = true -> fits t v -> cast t (- v) = lo t <-> v = lo t.
Proof.
  intros S F. destruct (range t) as [(_ & L & U)|(A & _)]; [|congruence]. destruct (halves t) as [HB H]. unfold fits in F. split.
  - intro E. destruct (Z.eq_dec v (lo t)); auto. rewrite cast_id in E by (unfold fits; lia). lia.
  - intros ->. apply cast_unique with (-1); [apply lo_fits|]. rewrite HB. lia.
Qed.
Lemma SaturatedNeg_ok const t v : fits t v -> SaturatedNeg const t v = clampZ t (- v).
Proof.
  intro F. unfold SaturatedNeg, clampZ. assert (L := lo_hi t). assert (R := range t). destruct (halves t) as [HB H]. destruct (sgn t) eqn:S; cbn [negb].
  - destruct R as [(_ & RL & RU)|(A & _)]; [|congruence]. rewrite NegateWrapper_ok by auto. assert (N := neg_lo t v S F). destruct const.
    + destruct (Z.eqb_spec (cast t (- v)) (lo t)) as [E|E]; cbn [negb].
      * apply N in E. subst. lia.
      * assert (v <> lo t) by tauto. unfold fits in F. rewrite cast_id by (unfold fits; lia). lia.
    + rewrite builtin_spec. unfold fits in F. destruct (fits_dec t (0 - v)) as [G|G]; unfold fits in G; lia.
  - unfold fits in F. lia.
Qed.
Lemma SaturatedAbs_ok t v : fits t v -> SaturatedAbs t v = clampZ t (Z.abs v).
Proof.
  intro F. unfold SaturatedAbs, clampZ. cbn zeta. destruct (SafeUnsignedAbs_ok t v F) as [-> FU]. assert (L := lo_hi t). assert (R := range t). destruct (halves t) as [HB H].
  rewrite IsValueNegative_ok by apply cast_fits. unfold fits in F.
  destruct (Z.leb_spec (Z.abs v) (hi t)).
  - rewrite (cast_id t (Z.abs v)) by (unfold fits; lia). replace (Z.abs v <? 0) with false by lia. rewrite Z.sub_0_r. rewrite cast_id by (unfold fits; lia). lia.
  - destruct R as [(S & RL & RU)|(_ & RL & RU)]; [|lia]. assert (E : cast t (Z.abs v) = lo t) by (apply cast_unique with (-1); [apply lo_fits|lia]).
    rewrite E. replace (lo t <? 0) with true by lia. rewrite cast_id by (unfold fits; lia). lia.
Qed.
Lemma CheckedNeg_ok t v : sgn t = true -> fits t v -> CheckedNeg t (true, v) = if fits_dec t (- v) then (true, - v) else (false, cast t (- v)).
Proof.
  intros S F. unfold CheckedNeg, mk_state, IsValid. cbn [fst snd]. rewrite NegateWrapper_ok by auto. rewrite S. cbn [negb orb].
  rewrite !IsValueInRange_ok by (auto using cast_fits). assert (C := cast_fits t (- v)). apply in_rangeb in C. rewrite C. apply in_rangeb in F as FB. rewrite FB. cbn [andb].
  rewrite (cast_id t (cast t (- v))) by apply cast_fits. assert (N := neg_lo t v S F).
  destruct (range t) as [(_ & RL & RU)|(A & _)]; [|congruence]. destruct (halves t) as [HB H]. unfold fits in F.
  destruct (fits_dec t (- v)) as [G|G].
  - rewrite (cast_id _ _ G). replace (- v =? lo t) with false by (unfold fits in G; lia). reflexivity.
  - assert (E : v = lo t) by (unfold fits in G; lia). apply N in E. rewrite E, Z.eqb_refl. reflexivity.
Qed.
