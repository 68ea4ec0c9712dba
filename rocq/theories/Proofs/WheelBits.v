(** Bit-level facts of the timing wheel. *)
From Verif.Model Require Import Common TimeWheel.
From Verif.Proofs Require Import Tac.
Open Scope Z_scope.

Lemma u64_small x : 0 <= x < 2 ^ 64 -> u64 x = x.
Proof. intro H. unfold u64. now apply Z.mod_small. Qed.

Lemma u64_range x : 0 <= u64 x < 2 ^ 64.
Proof. unfold u64. apply Z.mod_pos_bound. reflexivity. Qed.

Lemma ctz_pos_spec p : 0 <= ctz_pos p /\ Z.testbit (Zpos p) (ctz_pos p) = true /\
  forall i, 0 <= i < ctz_pos p -> Z.testbit (Zpos p) i = false.
Proof.
  induction p as [p IH|p IH|]; cbn [ctz_pos].
  - split; [lia|]. split; [reflexivity|]. intros; lia.
  - destruct IH as (A & B & C). split; [lia|].
    change (Zpos (xO p)) with (2 * Zpos p).
    split.
    + replace (1 + ctz_pos p) with (Z.succ (ctz_pos p)) by lia.
      rewrite Z.double_bits_succ. exact B.
    + intros i Hi. destruct (Z.eq_dec i 0) as [->|Hn].
      * apply Z.testbit_even_0.
      * replace i with (Z.succ (i - 1)) by lia. rewrite Z.double_bits_succ. apply C. lia.
  - split; [lia|]. split; [reflexivity|]. intros; lia.
Qed.

Lemma ctz_spec n : 0 < n -> exists c, ctz n = Ok c /\ 0 <= c /\ Z.testbit n c = true /\
  forall i, 0 <= i < c -> Z.testbit n i = false.
Proof.
  intro H. destruct n as [|p|p]; try lia. exists (ctz_pos p). split; [reflexivity|].
  apply ctz_pos_spec.
Qed.

Lemma land63 x : Z.land 63 x = x mod 64.
Proof. rewrite Z.land_comm. change 63 with (Z.ones 6). rewrite Z.land_ones by lia. reflexivity. Qed.

Lemma land63' x : Z.land x 63 = x mod 64.
Proof. change 63 with (Z.ones 6). rewrite Z.land_ones by lia. reflexivity. Qed.

Lemma shr x k : 0 <= k -> Z.shiftr x k = x / 2 ^ k.
Proof. intro. now apply Z.shiftr_div_pow2. Qed.

Lemma bits_high v n i : 0 <= v < 2 ^ n -> n <= i -> Z.testbit v i = false.
Proof.
  intros H Hi. destruct (Z.eq_dec v 0) as [->|Hv]; [apply Z.bits_0|].
  assert (0 <= n). { destruct (Z_lt_dec n 0); [|lia]. rewrite Z.pow_neg_r in H; lia. }
  apply Z.bits_above_log2; [lia|].
  assert (Z.log2 v < n). { apply Z.log2_lt_pow2; lia. } lia.
Qed.

Lemma bits_bound v n : 0 <= n -> 0 <= v -> (forall i, n <= i -> Z.testbit v i = false) -> v < 2 ^ n.
Proof.
  intros Hn Hv H. destruct (Z_lt_dec v (2 ^ n)); [assumption|exfalso].
  assert (0 < 2 ^ n) by (apply Z.pow_pos_nonneg; lia).
  assert (n <= Z.log2 v). { apply Z.log2_le_pow2; lia. }
  pose proof (Z.bit_log2 v ltac:(lia)) as B. rewrite H in B by assumption. discriminate.
Qed.

Lemma u64_testbit x i : Z.testbit (u64 x) i = if i <? 64 then Z.testbit x i else false.
Proof.
  unfold u64. destruct (i <? 64) eqn:E; b2p.
  - apply Z.mod_pow2_bits_low. assumption.
  - apply Z.mod_pow2_bits_high. lia.
Qed.

Lemma rotl_range v c : 0 <= v < 2 ^ 64 -> 0 <= rotl v c < 2 ^ 64.
Proof.
  intro H. unfold rotl.
  assert (P1 : 0 <= u64 (Z.shiftl v (Z.land c 63)) < 2 ^ 64) by apply u64_range.
  assert (P2 : 0 <= Z.shiftr v (Z.land (- Z.land c 63) 63)) by (apply Z.shiftr_nonneg; lia).
  split; [apply Z.lor_nonneg; lia|].
  apply bits_bound; [lia|apply Z.lor_nonneg; lia|].
  intros i Hi. rewrite Z.lor_spec, (bits_high _ 64 i P1 Hi). simpl.
  assert (0 <= Z.land (- Z.land c 63) 63) by (rewrite land63'; apply Z.mod_pos_bound; lia).
  rewrite Z.shiftr_spec by lia. apply (bits_high _ 64); lia.
Qed.

Lemma rotl_testbit v c i : 0 <= v < 2 ^ 64 -> 0 <= i < 64 ->
  Z.testbit (rotl v c) i = Z.testbit v ((i - c) mod 64).
Proof.
  intros H Hi. unfold rotl. rewrite Z.lor_spec, u64_testbit.
  replace (i <? 64) with true by (symmetry; apply Z.ltb_lt; lia).
  rewrite !land63'.
  assert (Hc : 0 <= c mod 64 < 64) by (apply Z.mod_pos_bound; lia).
  rewrite Z.shiftl_spec by lia.
  assert (H2 : 0 <= (- (c mod 64)) mod 64 < 64) by (apply Z.mod_pos_bound; lia).
  rewrite Z.shiftr_spec by lia.
  assert (E : (i - c) mod 64 = (i - c mod 64) mod 64) by (rewrite Zminus_mod_idemp_r; reflexivity).
  rewrite E. set (d := c mod 64) in *. clearbody d. clear E.
  destruct (Z_lt_dec i d).
  - rewrite (Z.testbit_neg_r v (i - d)) by lia. simpl.
    rewrite Z.mod_opp_l_nz by (try lia; rewrite Z.mod_small; lia).
    rewrite (Z.mod_small d 64) by lia.
    replace ((i - d) mod 64) with (i - d + 64); [f_equal; lia|].
    apply Z.mod_unique_pos with (q := -1); lia.
  - rewrite (Z.mod_small (i - d) 64) by lia.
    destruct (Z.eq_dec d 0) as [->|Hd].
    + simpl Z.opp. rewrite Z.mod_0_l by lia. rewrite Z.sub_0_r, Z.add_0_r. apply orb_diag.
    + rewrite Z.mod_opp_l_nz by (try lia; rewrite Z.mod_small; lia).
      rewrite (Z.mod_small d 64) by lia.
      rewrite (bits_high v 64 (i + (64 - d))) by lia. apply orb_false_r.
Qed.

Lemma rotr_rotl v c : 0 <= v < 2 ^ 64 -> 0 <= c < 64 -> rotr v c = rotl v (- c).
Proof.
  intros H Hc. unfold rotr, rotl. rewrite Z.lor_comm. rewrite !land63'.
  rewrite (Z.mod_small c 64) by lia.
  f_equal. f_equal. destruct (Z.eq_dec c 0) as [->|]; [reflexivity|].
  rewrite (Z.mod_opp_l_nz c 64) by (try lia; rewrite Z.mod_small; lia).
  rewrite (Z.mod_small c 64) by lia.
  rewrite Z.mod_opp_l_nz by (try lia; rewrite Z.mod_small; lia).
  rewrite Z.mod_small by lia. lia.
Qed.

Lemma rotr_testbit v c i : 0 <= v < 2 ^ 64 -> 0 <= c < 64 -> 0 <= i < 64 ->
  Z.testbit (rotr v c) i = Z.testbit v ((i + c) mod 64).
Proof.
  intros. rewrite rotr_rotl, rotl_testbit by lia. f_equal. f_equal. lia.
Qed.

Lemma pow2_m1_testbit e i : 0 <= e -> 0 <= i -> Z.testbit (Z.shiftl 1 e - 1) i = (i <? e).
Proof.
  intros. rewrite Z.shiftl_1_l.
  replace (2 ^ e - 1) with (Z.ones e) by (rewrite Z.ones_equiv; lia).
  destruct (i <? e) eqn:E; b2p.
  - apply Z.ones_spec_low. lia.
  - apply Z.ones_spec_high. lia.
Qed.

Lemma full_testbit i : 0 <= i < 64 -> Z.testbit (2 ^ 64 - 1) i = true.
Proof.
  intros. replace (2 ^ 64 - 1) with (Z.shiftl 1 64 - 1) by reflexivity.
  rewrite pow2_m1_testbit by lia. apply Z.ltb_lt. lia.
Qed.

(** Where a pending timer may sit when the time is [C]. *)
Definition place (C w s E : Z) : Prop :=
  0 <= w < 4 /\ s = (E / 2 ^ (w * 6)) mod 64 /\
  C / 2 ^ (w * 6) < E / 2 ^ (w * 6) /\
  (w < 3 -> E / 2 ^ ((w + 1) * 6) = C / 2 ^ ((w + 1) * 6)).

Lemma place_later C w s E : place C w s E -> C < E.
Proof.
  intros (Hw & _ & H & _). destruct (Z_lt_dec C E); [assumption|].
  assert (0 < 2 ^ (w * 6)) by (apply Z.pow_pos_nonneg; lia).
  pose proof (Z.div_le_mono E C (2 ^ (w * 6)) ltac:(lia) ltac:(lia)). lia.
Qed.

Lemma place_slot C w s E : place C w s E -> 0 <= s < 64.
Proof. intros (_ & -> & _). apply Z.mod_pos_bound. lia. Qed.

Lemma timeout_wheel_place C E : 0 <= C -> C < E ->
  exists w, timeout_wheel C E = Ok w /\ place C w (timeout_slot w E) E.
Proof.
  intros HC HE. unfold timeout_wheel.
  assert (Hx0 : 0 <= Z.lxor C E) by (apply Z.lxor_nonneg; lia).
  assert (Hxn : Z.lxor C E <> 0) by (rewrite Z.lxor_eq_0_iff; lia).
  set (x := Z.lxor C E) in *.
  assert (Hm : 0 < Z.min x TIMEOUT_MAX) by (unfold TIMEOUT_MAX, WHEEL_BIT, WHEEL_NUM; simpl; lia).
  assert (Hm2 : Z.min x TIMEOUT_MAX <= 16777215) by (unfold TIMEOUT_MAX, WHEEL_BIT, WHEEL_NUM; simpl; lia).
  remember (Z.min x TIMEOUT_MAX) as m eqn:Em.
  assert (F : fls m = Ok (Z.log2 m + 1)). { destruct m; try lia. reflexivity. }
  rewrite F. cbn [obind].
  replace (Z.log2 m + 1 - 1) with (Z.log2 m) by lia. unfold WHEEL_BIT.
  exists (Z.log2 m / 6). split; [reflexivity|].
  pose proof (Z.log2_nonneg m) as L0.
  assert (L1 : Z.log2 m < 24).
  { apply Z.log2_lt_pow2; [lia|]. change (2 ^ 24) with 16777216. lia. }
  set (w := Z.log2 m / 6) in *.
  assert (Hw : 6 * w <= Z.log2 m < 6 * (w + 1)).
  { unfold w. pose proof (Z.div_mod (Z.log2 m) 6 ltac:(lia)).
    pose proof (Z.mod_pos_bound (Z.log2 m) 6 ltac:(lia)). lia. }
  pose proof (Z.log2_spec m Hm) as LS.
  unfold place. repeat split.
  - lia.
  - lia.
  - unfold timeout_slot, WHEEL_MASK, WHEEL_LEN, WHEEL_BIT. change (64 - 1) with 63. rewrite land63, shr by lia. reflexivity.
  - assert (P : 0 < 2 ^ (w * 6)) by (apply Z.pow_pos_nonneg; lia).
    pose proof (Z.div_le_mono C E (2 ^ (w * 6)) P ltac:(lia)) as Hle.
    assert (Hne : C / 2 ^ (w * 6) <> E / 2 ^ (w * 6)).
    { intro Heq. rewrite <- !shr in Heq by lia.
      assert (Z0 : Z.shiftr x (w * 6) = 0).
      { unfold x. rewrite Z.shiftr_lxor, Heq. apply Z.lxor_nilpotent. }
      rewrite shr in Z0 by lia.
      assert (x < 2 ^ (w * 6)).
      { pose proof (Z.div_mod x (2 ^ (w * 6)) ltac:(lia)).
        pose proof (Z.mod_pos_bound x (2 ^ (w * 6)) P). nia. }
      pose proof (Z.pow_le_mono_r 2 (w * 6) (Z.log2 m) ltac:(lia) ltac:(lia)). lia. }
    lia.
  - intro Hw3.
    assert (m < 2 ^ ((w + 1) * 6)).
    { pose proof (Z.pow_le_mono_r 2 (Z.succ (Z.log2 m)) ((w + 1) * 6) ltac:(lia) ltac:(lia)). lia. }
    assert (Hlt : 2 ^ ((w + 1) * 6) <= 2 ^ 18) by (apply Z.pow_le_mono_r; lia).
    change (2 ^ 18) with 262144 in Hlt.
    assert (m = x). { revert Em. unfold TIMEOUT_MAX, WHEEL_BIT, WHEEL_NUM. simpl. lia. }
    assert (Z0 : Z.shiftr x ((w + 1) * 6) = 0).
    { rewrite shr by lia. apply Z.div_small. lia. }
    unfold x in Z0. rewrite Z.shiftr_lxor in Z0. apply Z.lxor_eq in Z0.
    rewrite <- !shr by lia. congruence.
Qed.

(** Forward update, relating quotients at one wheel. *)
Lemma div_diff C N k : 0 < k -> C <= N -> (N - C) / k <= N / k - C / k <= (N - C) / k + 1.
Proof.
  intros Hk H.
  pose proof (Z.div_mod C k ltac:(lia)). pose proof (Z.mod_pos_bound C k Hk).
  pose proof (Z.div_mod N k ltac:(lia)). pose proof (Z.mod_pos_bound N k Hk).
  pose proof (Z.div_mod (N - C) k ltac:(lia)). pose proof (Z.mod_pos_bound (N - C) k Hk).
  split; nia.
Qed.

Lemma pow6_succ w : 0 <= w -> 2 ^ ((w + 1) * 6) = 2 ^ (w * 6) * 64.
Proof. intro. replace ((w + 1) * 6) with (w * 6 + 6) by lia. rewrite Z.pow_add_r by lia. reflexivity. Qed.

Lemma div_succ x w : 0 <= w -> x / 2 ^ ((w + 1) * 6) = x / 2 ^ (w * 6) / 64.
Proof.
  intro H. rewrite pow6_succ by lia. rewrite Z.div_div; try lia.
Qed.

Definition mask_bits (m : Z) : Prop := 0 <= m < 2 ^ 64.

(** The mask computed for a forward move: full, or exactly the slots (c, c'] of the wheel. *)
Lemma update_mask_fwd C N w : 0 <= w < 4 -> 0 <= C -> C <= N -> N < 2 ^ 64 ->
  mask_bits (update_mask C N w) /\
  (update_mask C N w = 2 ^ 64 - 1 \/
   (0 <= N / 2 ^ (w * 6) - C / 2 ^ (w * 6) <= 63 /\
    forall i, 0 <= i < 64 ->
      Z.testbit (update_mask C N w) i =
      ((i - (C / 2 ^ (w * 6) + 1)) mod 64 <? N / 2 ^ (w * 6) - C / 2 ^ (w * 6)))).
Proof.
  intros Hw HC HN HN2. unfold update_mask, WHEEL_MAX, WHEEL_MASK, WHEEL_LEN, WHEEL_BIT.
  change (64 - 1) with 63.
  rewrite u64_small by lia. rewrite !shr by lia. rewrite !land63.
  set (k := 2 ^ (w * 6)). assert (Hk : 0 < k) by (apply Z.pow_pos_nonneg; lia).
  destruct (63 <=? (N - C) / k) eqn:E; b2p.
  - split; [split; [discriminate|reflexivity]|]. left. reflexivity.
  - pose proof (div_diff C N k Hk HN) as D.
    assert (0 <= (N - C) / k) by (apply Z.div_pos; lia).
    set (c := C / k) in *. set (n := N / k) in *.
    assert (Ee : (64 + n mod 64 - c mod 64) mod 64 = n - c).
    { rewrite <- (Z.mod_small (n - c) 64) by lia.
      replace (64 + n mod 64 - c mod 64) with ((n mod 64 - c mod 64) + 1 * 64) by lia.
      rewrite Z.mod_add by lia. rewrite <- Zminus_mod. reflexivity. }
    rewrite Ee.
    assert (R : 0 <= Z.shiftl 1 (n - c) - 1 < 2 ^ 64).
    { rewrite Z.shiftl_1_l.
      pose proof (Z.pow_pos_nonneg 2 (n - c) ltac:(lia) ltac:(lia)).
      pose proof (Z.pow_le_mono_r 2 (n - c) 64 ltac:(lia) ltac:(lia)). lia. }
    split; [apply rotl_range; exact R|]. right. split; [lia|].
    intros i Hi. rewrite rotl_testbit by assumption.
    rewrite pow2_m1_testbit; [|lia|apply Z.mod_pos_bound; lia].
    f_equal.
    replace (i - (c mod 64 + 1)) with (i - 1 - c mod 64) by lia.
    rewrite Zminus_mod_idemp_r. f_equal. lia.
Qed.

(** Backward move (or wrap): every wheel is swept. *)
Lemma update_mask_bwd C N w : 0 <= w < 4 -> 0 <= N -> N < C -> C < 2 ^ 63 ->
  update_mask C N w = 2 ^ 64 - 1.
Proof.
  intros Hw HN HC HC2. unfold update_mask, WHEEL_MAX, WHEEL_MASK, WHEEL_LEN, WHEEL_BIT.
  change (64 - 1) with 63.
  replace (u64 (N - C)) with (N - C + 2 ^ 64).
  2:{ unfold u64. apply Z.mod_unique_pos with (q := -1); lia. }
  rewrite shr by lia.
  replace (63 <=? (N - C + 2 ^ 64) / 2 ^ (w * 6)) with true; [reflexivity|].
  symmetry. apply Z.leb_le.
  apply Z.le_trans with ((2 ^ 63) / 2 ^ (w * 6)).
  - assert (2 ^ (w * 6) <= 2 ^ 18) by (apply Z.pow_le_mono_r; lia).
    apply Z.div_le_lower_bound; [apply Z.pow_pos_nonneg; lia|].
    change (2 ^ 18) with 262144 in *. change (2 ^ 63) with 9223372036854775808. lia.
  - apply Z.div_le_mono; [apply Z.pow_pos_nonneg; lia|lia].
Qed.

(** A slot outside the mask stays correctly placed. *)
Lemma place_unswept C N w s E : 0 <= C -> C <= N -> N < 2 ^ 64 ->
  place C w s E -> Z.testbit (update_mask C N w) s = false -> place N w s E.
Proof.
  intros HC HN HN2 Hp Hb. pose proof (place_slot _ _ _ _ Hp) as Hs.
  destruct Hp as (Hw & -> & Hlt & Heq).
  destruct (update_mask_fwd C N w Hw HC HN HN2) as (_ & [F|(D & B)]).
  { rewrite F, full_testbit in Hb by assumption. discriminate. }
  rewrite B in Hb by assumption. b2p.
  set (k := 2 ^ (w * 6)) in *. set (e := E / k) in *. set (c := C / k) in *. set (n := N / k) in *.
  assert (Hen : n < e).
  { destruct (Z_lt_dec n e); [assumption|exfalso].
    assert (X : (e mod 64 - (c + 1)) mod 64 = e - (c + 1)).
    { rewrite Zminus_mod_idemp_l. apply Z.mod_small. lia. }
    rewrite X in Hb. lia. }
  unfold place. fold k. fold e. fold n. split; [lia|]. split; [reflexivity|]. split; [lia|].
  intro H3. specialize (Heq H3). rewrite !div_succ in * by lia. fold k in Heq |- *. fold e c in Heq. fold e n.
  pose proof (Z.div_le_mono c n 64 ltac:(lia) ltac:(lia)).
  pose proof (Z.div_le_mono n e 64 ltac:(lia) ltac:(lia)). lia.
Qed.

(** When the sweep of wheel [w] did not pass its end, the higher wheels have not moved. *)
Lemma mask_break C N w : 0 <= w < 4 -> 0 <= C -> C <= N -> N < 2 ^ 64 ->
  Z.land 1 (update_mask C N w) = 0 -> N / 2 ^ ((w + 1) * 6) = C / 2 ^ ((w + 1) * 6).
Proof.
  intros Hw HC HN HN2 Hb.
  assert (B0 : Z.testbit (update_mask C N w) 0 = false).
  { assert (T : Z.testbit (Z.land 1 (update_mask C N w)) 0 = false) by (rewrite Hb; reflexivity).
    rewrite Z.land_spec in T. exact T. }
  destruct (update_mask_fwd C N w Hw HC HN HN2) as (_ & [F|(D & B)]).
  { rewrite F in B0. discriminate. }
  rewrite B in B0 by lia. b2p. rewrite !div_succ by lia.
  set (c := C / 2 ^ (w * 6)) in *. set (n := N / 2 ^ (w * 6)) in *.
  pose proof (Z.div_mod c 64 ltac:(lia)). pose proof (Z.mod_pos_bound c 64 ltac:(lia)).
  assert (X : (0 - (c + 1)) mod 64 = 63 - c mod 64).
  { symmetry. apply Z.mod_unique_pos with (q := - (c / 64) - 1); lia. }
  rewrite X in B0.
  symmetry. apply Z.div_unique_pos with (r := c mod 64 + (n - c)); lia.
Qed.

Lemma place_higher C N w0 w s E : 0 <= w0 < w -> C <= N ->
  N / 2 ^ ((w0 + 1) * 6) = C / 2 ^ ((w0 + 1) * 6) -> place C w s E -> place N w s E.
Proof.
  intros Hw HN Heq (H4 & Hs & Hlt & Hup).
  assert (X : forall v, w0 + 1 <= v -> N / 2 ^ (v * 6) = C / 2 ^ (v * 6)).
  { intros v Hv. replace (v * 6) with ((w0 + 1) * 6 + (v - w0 - 1) * 6) by lia.
    rewrite Z.pow_add_r by lia. rewrite <- !Z.div_div; try (apply Z.pow_nonzero; lia); try (apply Z.pow_pos_nonneg; lia).
    now rewrite Heq. }
  unfold place. rewrite !X by lia. auto.
Qed.
