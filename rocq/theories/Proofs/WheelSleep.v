(** The sleep computed from the wheel never passes a deadline. *)
From Verif.Model Require Import Common TimeWheel.
From Verif.Spec Require Import TimerSpec.
From Verif.Proofs Require Import Tac WheelBits WheelProofs.
Open Scope Z_scope.

Lemma rotr_range v c : 0 <= v < 2 ^ 64 -> 0 <= c < 64 -> 0 <= rotr v c < 2 ^ 64.
Proof. intros. rewrite rotr_rotl by assumption. now apply rotl_range. Qed.

Lemma relmask_ok w : 0 <= w < 4 ->
  Z.lor (u64 (Z.shiftl (2 ^ (w * 6) - 1) WHEEL_BIT)) WHEEL_MASK = 2 ^ ((w + 1) * 6) - 1.
Proof.
  intro H. assert (C : w = 0 \/ w = 1 \/ w = 2 \/ w = 3) by lia.
  destruct C as [->|[->|[-> | ->]]]; reflexivity.
Qed.

Lemma land_relmask w x : 0 <= w -> Z.land (2 ^ (w * 6) - 1) x = x mod 2 ^ (w * 6).
Proof.
  intro. rewrite Z.land_comm. replace (2 ^ (w * 6) - 1) with (Z.ones (w * 6)) by (rewrite Z.ones_equiv; lia).
  apply Z.land_ones. lia.
Qed.

Lemma int_one T w : Cons T [] -> Placed (curtime T) T -> 0 <= curtime T < 2 ^ 62 -> 0 <= w < 4 ->
  pending T w <> 0 ->
  exists c, let s := Z.land WHEEL_MASK (Z.shiftr (curtime T) (w * WHEEL_BIT)) in
    ctz (rotr (pending T w) s) = Ok c /\
    let t := u64 (Z.shiftl (c + (if Z.land (pending T w) (Z.shiftl 1 s) =? 0 then 0 else 1)) (w * WHEEL_BIT)
                  - Z.land (2 ^ (w * 6) - 1) (curtime T)) in
    0 < t /\ (forall s' i, In i (wheel T w s') -> t <= to_expires (heap T i) - curtime T).
Proof.
  intros HC HP Hcur Hw Hpd.
  unfold WHEEL_MASK, WHEEL_LEN, WHEEL_BIT. change (64 - 1) with 63.
  rewrite shr, land63 by lia. rewrite land_relmask by lia.
  set (k := 2 ^ (w * 6)). assert (Hk : 0 < k <= 2 ^ 18).
  { split; [apply Z.pow_pos_nonneg; lia|apply Z.pow_le_mono_r; lia]. }
  change (2 ^ 18) with 262144 in Hk.
  set (C := curtime T) in *. set (c0 := C / k).
  pose proof (c_range _ _ HC w) as Hr.
  assert (Hs : 0 <= c0 mod 64 < 64) by (apply Z.mod_pos_bound; lia).
  set (s := c0 mod 64) in *.
  pose proof (rotr_range _ s Hr Hs) as Hrr.
  assert (Hpos : 0 < rotr (pending T w) s).
  { destruct (Z.eq_dec (rotr (pending T w) s) 0) as [Hz|]; [|lia]. exfalso. apply Hpd.
    apply Z.bits_inj'. intros i Hi. rewrite Z.bits_0.
    destruct (Z_lt_dec i 64); [|apply (bits_high _ 64); lia].
    pose proof (rotr_testbit (pending T w) s ((i - s) mod 64) Hr Hs ltac:(apply Z.mod_pos_bound; lia)) as X.
    rewrite Hz, Z.bits_0 in X. rewrite X. f_equal.
    rewrite Zplus_mod_idemp_l. rewrite <- (Z.mod_small i 64) at 1 by lia. f_equal. lia. }
  destruct (ctz_spec _ Hpos) as (c & Ec & Hc0 & Hcb & Hcl).
  assert (Hc64 : c < 64).
  { destruct (Z_lt_dec c 64); [assumption|]. rewrite (bits_high _ 64 c Hrr) in Hcb by lia. discriminate. }
  exists c. cbv zeta. split; [assumption|].
  pose proof (Z.div_mod C k ltac:(lia)) as DC. pose proof (Z.mod_pos_bound C k ltac:(lia)) as MC. fold c0 in DC.
  (* the slot test *)
  assert (Hplus : (Z.land (pending T w) (Z.shiftl 1 s) =? 0) = negb (Z.testbit (pending T w) s)).
  { destruct (Z.testbit (pending T w) s) eqn:B; simpl.
    - apply Z.eqb_neq. intro Z0.
      assert (X : Z.testbit (Z.land (pending T w) (Z.shiftl 1 s)) s = false) by (rewrite Z0; apply Z.bits_0).
      rewrite Z.land_spec, B, Z.shiftl_1_l, Z.pow2_bits_true in X by lia. discriminate.
    - apply Z.eqb_eq. apply Z.bits_inj'. intros i Hi. rewrite Z.bits_0, Z.land_spec, Z.shiftl_1_l, Z.pow2_bits_eqb by lia.
      destruct (Z.eqb_spec s i) as [<-|]; [rewrite B; reflexivity|apply andb_false_r]. }
  rewrite Hplus.
  assert (Hcz : c = 0 <-> Z.testbit (pending T w) s = true).
  { pose proof (rotr_testbit (pending T w) s 0 Hr Hs ltac:(lia)) as X. rewrite Z.add_0_l, (Z.mod_small s 64) in X by lia.
    split.
    - intros ->. congruence.
    - intro B. rewrite B in X. destruct (Z.eq_dec c 0); [assumption|]. rewrite Hcl in X by lia. discriminate. }
  set (q := c + (if negb (Z.testbit (pending T w) s) then 0 else 1)).
  assert (Hq : 1 <= q <= 64 /\ (c = 0 -> q = 1) /\ (c <> 0 -> q = c)).
  { unfold q. destruct (Z.testbit (pending T w) s); cbn [negb].
    - assert (c = 0) by (apply Hcz; reflexivity). lia.
    - assert (c <> 0) by (intro X; apply Hcz in X; discriminate). lia. }
  assert (Hv : Z.shiftl q (w * 6) = q * k) by (rewrite Z.shiftl_mul_pow2 by lia; reflexivity).
  rewrite Hv.
  assert (Hu : 0 < q * k - C mod k < 2 ^ 64).
  { split; [nia|]. assert (q * k <= 64 * 262144) by nia. change (2 ^ 64) with 18446744073709551616. lia. }
  rewrite u64_small by lia.
  split; [lia|].
  intros s' i Hin. specialize (HP _ _ _ Hin). fold C in HP.
  destruct HP as (_ & Hs' & Hlt & _). fold k in Hs', Hlt. fold c0 in Hlt.
  set (E := to_expires (heap T i)) in *. set (e := E / k) in *.
  pose proof (Z.div_mod E k ltac:(lia)) as DE. pose proof (Z.mod_pos_bound E k ltac:(lia)) as ME. fold e in DE.
  assert (Hqe : q <= e - c0).
  { destruct (Z.eq_dec c 0) as [c00|cn].
    - destruct Hq as (_ & -> & _); [lia|assumption].
    - destruct Hq as (_ & _ & ->); [|assumption].
      destruct (c_wheel _ _ HC _ _ _ Hin) as (_ & _ & _ & Hs'r).
      assert (B : Z.testbit (pending T w) s' = true).
      { apply (c_bit _ _ HC); [assumption|]. intro X. rewrite X in Hin. destruct Hin. }
      assert (X : Z.testbit (rotr (pending T w) s) ((s' - s) mod 64) = true).
      { rewrite rotr_testbit; [|assumption|assumption|apply Z.mod_pos_bound; lia].
        rewrite Zplus_mod_idemp_l. replace (s' - s + s) with s' by lia. rewrite Z.mod_small by lia. assumption. }
      assert (Hle : c <= (s' - s) mod 64).
      { destruct (Z_le_dec c ((s' - s) mod 64)); [assumption|].
        rewrite Hcl in X; [discriminate|]. pose proof (Z.mod_pos_bound (s' - s) 64 ltac:(lia)). lia. }
      rewrite Hs' in Hle. unfold s in Hle. rewrite <- Zminus_mod in Hle.
      pose proof (Z.mod_le (e - c0) 64 ltac:(lia) ltac:(lia)). lia. }
  nia.
Qed.

Lemma int_wheels_ok T : Cons T [] -> Placed (curtime T) T -> 0 <= curtime T < 2 ^ 62 ->
  forall w ws, from w ws -> forall acc, 0 < acc ->
  exists r, int_wheels ws T (2 ^ (w * 6) - 1) acc = Ok r /\ 0 < r <= acc /\
    (forall w' s' i, w <= w' -> In i (wheel T w' s') -> r <= to_expires (heap T i) - curtime T).
Proof.
  intros HC HP Hcur. induction 1 as [|w ws Hw Hf IH]; intros acc Hacc.
  - exists acc. split; [reflexivity|]. split; [lia|]. intros w' s' i Hw' Hin.
    destruct (c_wheel _ _ HC _ _ _ Hin) as (_ & _ & X & _). lia.
  - cbn [int_wheels]. rewrite relmask_ok by assumption.
    destruct (pending T w =? 0) eqn:E0; b2p.
    + destruct (IH acc Hacc) as (r & A & B & C). exists r. split; [assumption|]. split; [assumption|].
      intros w' s' i Hw' Hin. destruct (Z.eq_dec w' w) as [->|]; [|apply (C w' s' i); [lia|assumption]].
      exfalso. destruct (c_wheel _ _ HC _ _ _ Hin) as (_ & _ & _ & Hs).
      assert (X : Z.testbit (pending T w) s' = true).
      { apply (c_bit _ _ HC); [assumption|]. intro X. rewrite X in Hin. destruct Hin. }
      rewrite E0, Z.bits_0 in X. discriminate.
    + destruct (int_one T w HC HP Hcur Hw E0) as (c & Ec & Ht1 & Ht2). cbv zeta in Ec, Ht1, Ht2.
      rewrite Ec. cbn [obind].
      set (t := u64 _) in *. clearbody t.
      destruct (IH (Z.min t acc) ltac:(lia)) as (r & A & B & C). exists r. split; [assumption|]. split; [lia|].
      intros w' s' i Hw' Hin. destruct (Z.eq_dec w' w) as [->|]; [|apply (C w' s' i); [lia|assumption]].
      specialize (Ht2 _ _ Hin). lia.
Qed.

Lemma timeouts_int_ok T : Cons T [] -> Placed (curtime T) T -> 0 <= curtime T < 2 ^ 62 ->
  exists r, timeouts_int T = Ok r /\ 0 < r /\
    (forall w s i, In i (wheel T w s) -> r <= to_expires (heap T i) - curtime T).
Proof.
  intros HC HP Hcur.
  destruct (int_wheels_ok T HC HP Hcur 0 _ from_0 (2 ^ 64 - 1) ltac:(reflexivity)) as (r & A & B & C).
  exists r. split; [exact A|]. split; [lia|]. intros w s i Hin. apply (C w s i); [|assumption].
  destruct (c_wheel _ _ HC _ _ _ Hin) as (_ & _ & X & _). lia.
Qed.

Lemma next_timeout_ok rep T S now : Rel rep T S -> 0 <= now < TB ->
  exists t T', NextTimeout T now = Ok (t, T') /\ Rel rep T' (tab_step rep S (OTick now)) /\
    0 <= t <= 50 /\
    ((exists i d, tb_armed (tab_step rep S (OTick now)) i = Some (d, true)) <-> t = 0) /\
    (forall i d, tb_armed (tab_step rep S (OTick now)) i = Some (d, false) -> now + t <= d).
Proof.
  intros HR Hn. unfold NextTimeout. destruct (update_ok rep T S now HR Hn) as (T' & -> & HR'). cbn [obind].
  set (S' := tab_step rep S (OTick now)) in *.
  destruct (r_inv _ _ _ HR') as (HC & HP & HN).
  pose proof (n_cur _ HN) as Hcur. unfold TB in Hcur.
  assert (Hnow : curtime T' = now) by (rewrite (r_now _ _ _ HR'); reflexivity).
  assert (Hpend : forall i d, tb_armed S' i = Some (d, false) ->
            exists w s, In i (wheel T' w s) /\ d = to_expires (heap T' i) /\ now < d).
  { intros i d Hx. rewrite <- (r_arm _ _ _ HR') in Hx. unfold alive in Hx.
    destruct (to_pending (heap T' i)) as [[|w s]|] eqn:Hp; try discriminate. inv Hx.
    assert (Hin : In i (wheel T' w s)) by (apply (c_wheel' _ _ HC); auto).
    exists w, s. split; [assumption|]. split; [reflexivity|]. eapply place_later, HP, Hin. }
  assert (Hexp : (exists i d, tb_armed S' i = Some (d, true)) <-> expired T' <> []).
  { split.
    - intros (i & d & Hx). rewrite <- (r_arm _ _ _ HR') in Hx. unfold alive in Hx.
      destruct (to_pending (heap T' i)) as [[|w s]|] eqn:Hp; try discriminate.
      pose proof (c_exp' _ _ HC i (fun x => x) Hp) as Hin. intro E. rewrite E in Hin. destruct Hin.
    - intro Hne. destruct (expired T') as [|i l] eqn:El; [congruence|].
      destruct (c_exp _ _ HC i) as (Hp & _); [rewrite El; left; reflexivity|].
      exists i, (to_expires (heap T' i)). rewrite <- (r_arm _ _ _ HR'). unfold alive. rewrite Hp. reflexivity. }
  unfold timeouts_timeout, timeouts_expired. destruct (expired T') as [|i0 l0] eqn:El.
  - destruct (timeouts_pending T') eqn:Ep.
    + destruct (timeouts_int_ok T' HC HP Hcur) as (r & -> & Hr & Hb). cbn [obind].
      exists (Z.min 50 r), T'. split; [reflexivity|]. split; [assumption|]. split; [lia|]. split.
      * rewrite Hexp. split; [congruence|lia].
      * intros i d Hx. destruct (Hpend i d Hx) as (w & s & Hin & -> & _). specialize (Hb _ _ _ Hin).
        rewrite Hnow in Hb. lia.
    + exists 50, T'. split; [reflexivity|]. split; [assumption|]. split; [lia|]. split.
      * rewrite Hexp. split; [congruence|lia].
      * intros i d Hx. exfalso. destruct (Hpend i d Hx) as (w & s & Hin & _).
        destruct (c_wheel _ _ HC _ _ _ Hin) as (_ & _ & Hw & Hs).
        assert (B : Z.testbit (pending T' w) s = true).
        { apply (c_bit _ _ HC); [assumption|]. intro X. rewrite X in Hin. destruct Hin. }
        unfold timeouts_pending in Ep. b2p.
        apply Z.lor_eq_0_iff in Ep. destruct Ep as (Ep & E3). apply Z.lor_eq_0_iff in Ep. destruct Ep as (Ep & E2).
        apply Z.lor_eq_0_iff in Ep. destruct Ep as (E0 & E1).
        assert (Cw : w = 0 \/ w = 1 \/ w = 2 \/ w = 3) by lia.
        destruct Cw as [->|[->|[-> | ->]]]; rewrite ?E0, ?E1, ?E2, ?E3, Z.bits_0 in B; discriminate.
  - exists 0, T'. split; [reflexivity|]. split; [assumption|]. split; [lia|]. split.
    + rewrite Hexp. split; [reflexivity|discriminate].
    + intros i d Hx. destruct (Hpend i d Hx) as (w & s & _ & _ & Hlt). lia.
Qed.
