(** Invariant of the timing wheel and its refinement of the timer table. *)
From Verif.Model Require Import Common TimeWheel.
From Verif.Spec Require Import TimerSpec.
From Verif.Proofs Require Import Tac WheelBits.
Open Scope Z_scope.

(** Lists, bitmaps and back pointers agree; [X] are timers unlinked for rescheduling. *)
Record Cons (T : timeouts) (X : list nat) : Prop := mkCons {
  c_range : forall w, 0 <= pending T w < 2 ^ 64;
  c_bit : forall w s, 0 <= s < 64 -> (Z.testbit (pending T w) s = true <-> wheel T w s <> []);
  c_wheel : forall w s i, In i (wheel T w s) ->
     to_pending (heap T i) = Some (LSlot w s) /\ ~ In i X /\ 0 <= w < 4 /\ 0 <= s < 64;
  c_exp : forall i, In i (expired T) -> to_pending (heap T i) = Some LExp /\ ~ In i X;
  c_wheel' : forall i w s, ~ In i X -> to_pending (heap T i) = Some (LSlot w s) -> In i (wheel T w s);
  c_exp' : forall i, ~ In i X -> to_pending (heap T i) = Some LExp -> In i (expired T);
  c_nd1 : forall w s, NoDup (wheel T w s);
  c_nd2 : NoDup (expired T);
  c_ndX : NoDup X;
  c_X : forall i, In i X -> exists w s, to_pending (heap T i) = Some (LSlot w s)
}.

Definition Placed (C : Z) (T : timeouts) : Prop :=
  forall w s i, In i (wheel T w s) -> place C w s (to_expires (heap T i)).

Lemma upd_heap_eq h i t : upd_heap h i t i = t.
Proof. unfold upd_heap. now rewrite Nat.eqb_refl. Qed.
Lemma upd_heap_neq h i t j : j <> i -> upd_heap h i t j = h j.
Proof. intro H. unfold upd_heap. apply Nat.eqb_neq in H. now rewrite H. Qed.
Lemma upd_wheel_eq f w s l : upd_wheel f w s l w s = l.
Proof. unfold upd_wheel. now rewrite !Z.eqb_refl. Qed.
Lemma upd_wheel_neq f w s l w' s' : w' <> w \/ s' <> s -> upd_wheel f w s l w' s' = f w' s'.
Proof.
  intro H. unfold upd_wheel. destruct (w' =? w) eqn:E1; destruct (s' =? s) eqn:E2; simpl; auto.
  b2p. lia.
Qed.
Lemma upd_pend_eq f w v : upd_pend f w v w = v.
Proof. unfold upd_pend. now rewrite Z.eqb_refl. Qed.
Lemma upd_pend_neq f w v w' : w' <> w -> upd_pend f w v w' = f w'.
Proof. intro H. unfold upd_pend. apply Z.eqb_neq in H. now rewrite H. Qed.

Lemma slot_dec (w s w' s' : Z) : {w' = w /\ s' = s} + {w' <> w \/ s' <> s}.
Proof. destruct (Z.eq_dec w' w), (Z.eq_dec s' s); auto. Qed.

Lemma setbit_range p s : 0 <= p < 2 ^ 64 -> 0 <= s < 64 -> 0 <= Z.lor p (Z.shiftl 1 s) < 2 ^ 64.
Proof.
  intros H Hs. assert (0 <= Z.shiftl 1 s) by (apply Z.shiftl_nonneg; lia).
  split; [apply Z.lor_nonneg; lia|].
  apply bits_bound; [lia|apply Z.lor_nonneg; lia|].
  intros i Hi. rewrite Z.lor_spec, (bits_high p 64 i H Hi). simpl.
  rewrite Z.shiftl_1_l. rewrite Z.pow2_bits_eqb by lia. apply Z.eqb_neq. lia.
Qed.

Lemma setbit_test p s i : 0 <= s -> Z.testbit (Z.lor p (Z.shiftl 1 s)) i = Z.testbit p i || (s =? i).
Proof. intros Hs. rewrite Z.lor_spec, Z.shiftl_1_l, Z.pow2_bits_eqb by lia. reflexivity. Qed.

Lemma clrbit_test p s i : 0 <= s -> 0 <= i ->
  Z.testbit (Z.land p (Z.lnot (Z.shiftl 1 s))) i = Z.testbit p i && negb (s =? i).
Proof.
  intros Hs Hi. rewrite Z.land_spec, Z.lnot_spec by lia.
  rewrite Z.shiftl_1_l, Z.pow2_bits_eqb by lia. reflexivity.
Qed.

Lemma clrbit_range p s : 0 <= p < 2 ^ 64 -> 0 <= s ->
  0 <= Z.land p (Z.lnot (Z.shiftl 1 s)) < 2 ^ 64.
Proof.
  intros H Hs. assert (0 <= Z.land p (Z.lnot (Z.shiftl 1 s))) by (apply Z.land_nonneg; lia).
  split; [assumption|]. apply bits_bound; [lia|assumption|].
  intros i Hi. rewrite clrbit_test by lia. rewrite (bits_high p 64 i H Hi). reflexivity.
Qed.

(** Only [to_pending] of the heap matters to [Cons]. *)
Lemma Cons_heap T X h : Cons T X -> (forall i, to_pending (h i) = to_pending (heap T i)) ->
  Cons (with_heap T h) X.
Proof.
  intros [] E. constructor; simpl; intros; rewrite ?E in *; eauto.
Qed.

Lemma Cons_cur T X c h : Cons T X -> h = heap T -> Cons (mkTS (wheel T) (expired T) (pending T) c h) X.
Proof. intros [] ->. constructor; simpl; eauto. Qed.

(** Insertion. *)
Lemma sched_future_ok T X i : Cons T X -> ~ In i X -> to_pending (heap T i) = None ->
  0 <= curtime T -> curtime T < to_expires (heap T i) -> Placed (curtime T) T ->
  exists T' w s, timeouts_sched_future_nopending T i = Ok T' /\
    Cons T' X /\ Placed (curtime T) T' /\ curtime T' = curtime T /\ expired T' = expired T /\
    heap T' = upd_heap (heap T) i (set_pending (heap T i) (Some (LSlot w s))).
Proof.
  intros HC HX HP H0 HE HPl. unfold timeouts_sched_future_nopending.
  destruct (timeout_wheel_place _ _ H0 HE) as (w & -> & Hp). cbn [obind].
  set (s := timeout_slot w (to_expires (heap T i))) in *.
  pose proof (place_slot _ _ _ _ Hp) as Hs.
  eexists. exists w, s. split; [reflexivity|].
  assert (Hnw : forall w' s', ~ In i (wheel T w' s')).
  { intros w' s' Hin. destruct (c_wheel _ _ HC _ _ _ Hin) as (A & _). congruence. }
  assert (Hne : ~ In i (expired T)).
  { intro Hin. destruct (c_exp _ _ HC _ Hin) as (A & _). congruence. }
  split; [|split; [|auto]].
  - constructor; simpl.
    + intro w'. destruct (Z.eq_dec w' w) as [->|n].
      * rewrite upd_pend_eq. apply setbit_range; [apply (c_range _ _ HC)|assumption].
      * rewrite upd_pend_neq by assumption. apply (c_range _ _ HC).
    + intros w' s' Hs'. destruct (Z.eq_dec w' w) as [->|n].
      * rewrite upd_pend_eq, setbit_test by lia.
        destruct (Z.eq_dec s' s) as [->|n].
        -- rewrite upd_wheel_eq, Z.eqb_refl, orb_true_r. split; [discriminate|reflexivity].
        -- rewrite upd_wheel_neq by auto.
           replace (s =? s') with false by (symmetry; apply Z.eqb_neq; lia). rewrite orb_false_r.
           apply (c_bit _ _ HC); assumption.
      * rewrite upd_pend_neq, upd_wheel_neq by auto. apply (c_bit _ _ HC); assumption.
    + intros w' s' j Hin. destruct (slot_dec w s w' s') as [(-> & ->)|n].
      * rewrite upd_wheel_eq in Hin. destruct Hin as [<-|Hin].
        -- rewrite upd_heap_eq. simpl. destruct Hp as (Hw & _). auto.
        -- assert (j <> i) by (intros ->; eapply Hnw; eauto).
           rewrite upd_heap_neq by assumption. apply (c_wheel _ _ HC); assumption.
      * rewrite upd_wheel_neq in Hin by assumption.
        assert (j <> i) by (intros ->; eapply Hnw; eauto).
        rewrite upd_heap_neq by assumption. apply (c_wheel _ _ HC); assumption.
    + intros j Hin. assert (j <> i) by (intros ->; auto).
      rewrite upd_heap_neq by assumption. apply (c_exp _ _ HC); assumption.
    + intros j w' s' HjX Hj. destruct (Nat.eq_dec j i) as [->|n].
      * rewrite upd_heap_eq in Hj. simpl in Hj. inv Hj. rewrite upd_wheel_eq. left; auto.
      * rewrite upd_heap_neq in Hj by assumption.
        pose proof (c_wheel' _ _ HC _ _ _ HjX Hj) as Hin.
        destruct (slot_dec w s w' s') as [(-> & ->)|n2].
        -- rewrite upd_wheel_eq. right. assumption.
        -- rewrite upd_wheel_neq by assumption. assumption.
    + intros j HjX Hj. destruct (Nat.eq_dec j i) as [->|n].
      * rewrite upd_heap_eq in Hj. discriminate.
      * rewrite upd_heap_neq in Hj by assumption. apply (c_exp' _ _ HC); assumption.
    + intros w' s'. destruct (slot_dec w s w' s') as [(-> & ->)|n].
      * rewrite upd_wheel_eq. constructor; [apply Hnw|apply (c_nd1 _ _ HC)].
      * rewrite upd_wheel_neq by assumption. apply (c_nd1 _ _ HC).
    + apply (c_nd2 _ _ HC).
    + apply (c_ndX _ _ HC).
    + intros j HjX. assert (j <> i) by (intros ->; auto).
      rewrite upd_heap_neq by assumption. apply (c_X _ _ HC); assumption.
  - intros w' s' j Hin. simpl in Hin |- *. destruct (slot_dec w s w' s') as [(-> & ->)|n].
    + rewrite upd_wheel_eq in Hin. destruct Hin as [<-|Hin].
      * rewrite upd_heap_eq. simpl. assumption.
      * assert (j <> i) by (intros ->; eapply Hnw; eauto).
        rewrite upd_heap_neq by assumption. apply HPl; assumption.
    + rewrite upd_wheel_neq in Hin by assumption.
      assert (j <> i) by (intros ->; eapply Hnw; eauto).
      rewrite upd_heap_neq by assumption. apply HPl; assumption.
Qed.

(** Where a (re)scheduled timer ends up. *)
Definition landed (cur E : Z) (p : option loc) : Prop :=
  if cur <? E then exists w s, p = Some (LSlot w s) else p = Some LExp.

Lemma sched_nopending_ok T X i : Cons T X -> ~ In i X -> to_pending (heap T i) = None ->
  0 <= curtime T -> Placed (curtime T) T ->
  exists T' p, timeouts_sched_nopending T i = Ok T' /\
    Cons T' X /\ Placed (curtime T) T' /\ curtime T' = curtime T /\
    heap T' = upd_heap (heap T) i (set_pending (heap T i) p) /\
    landed (curtime T) (to_expires (heap T i)) p.
Proof.
  intros HC HX HP H0 HPl. unfold timeouts_sched_nopending, landed.
  destruct (curtime T <? to_expires (heap T i)) eqn:E; b2p.
  - destruct (sched_future_ok T X i HC HX HP H0 E HPl) as (T' & w & s & A & B & C & D & _ & F).
    exists T', (Some (LSlot w s)). eauto 10.
  - eexists. exists (Some LExp). split; [reflexivity|].
    assert (Hnw : forall w' s', ~ In i (wheel T w' s')).
    { intros w' s' Hin. destruct (c_wheel _ _ HC _ _ _ Hin) as (A & _). congruence. }
    assert (Hne : ~ In i (expired T)).
    { intro Hin. destruct (c_exp _ _ HC _ Hin) as (A & _). congruence. }
    split; [|split; [|auto]].
    + constructor; simpl.
      * apply (c_range _ _ HC).
      * apply (c_bit _ _ HC).
      * intros w' s' j Hin. assert (j <> i) by (intros ->; eapply Hnw; eauto).
        rewrite upd_heap_neq by assumption. apply (c_wheel _ _ HC); assumption.
      * intros j [<-|Hin].
        -- rewrite upd_heap_eq. auto.
        -- assert (j <> i) by (intros ->; auto).
           rewrite upd_heap_neq by assumption. apply (c_exp _ _ HC); assumption.
      * intros j w' s' HjX Hj. destruct (Nat.eq_dec j i) as [->|n].
        -- rewrite upd_heap_eq in Hj. discriminate.
        -- rewrite upd_heap_neq in Hj by assumption. apply (c_wheel' _ _ HC); assumption.
      * intros j HjX Hj. destruct (Nat.eq_dec j i) as [->|n]; [auto|].
        rewrite upd_heap_neq in Hj by assumption. right. apply (c_exp' _ _ HC); assumption.
      * apply (c_nd1 _ _ HC).
      * constructor; [assumption|apply (c_nd2 _ _ HC)].
      * apply (c_ndX _ _ HC).
      * intros j HjX. assert (j <> i) by (intros ->; auto).
        rewrite upd_heap_neq by assumption. apply (c_X _ _ HC); assumption.
    + intros w' s' j Hin. simpl in Hin |- *. assert (j <> i) by (intros ->; eapply Hnw; eauto).
      rewrite upd_heap_neq by assumption. apply HPl; assumption.
Qed.

(** Rescheduling the timers in limbo. *)
Lemma resched_all_ok X : forall T, Cons T X -> 0 <= curtime T -> Placed (curtime T) T ->
  exists T', resched_all T X = Ok T' /\ Cons T' [] /\ Placed (curtime T) T' /\ curtime T' = curtime T /\
    forall i, exists p, heap T' i = set_pending (heap T i) p /\
      (~ In i X -> p = to_pending (heap T i)) /\
      (In i X -> landed (curtime T) (to_expires (heap T i)) p).
Proof.
  induction X as [|i X IH]; intros T HC H0 HPl.
  - exists T. simpl. split; [reflexivity|]. do 3 (split; [auto|]).
    intro i. exists (to_pending (heap T i)). split; [destruct (heap T i); reflexivity|].
    split; [auto|intros []].
  - cbn [resched_all]. unfold resched.
    set (T1 := with_heap T (upd_heap (heap T) i (set_pending (heap T i) None))).
    pose proof (c_ndX _ _ HC) as ND. apply NoDup_cons_iff in ND. destruct ND as (HiX & HndX).
    assert (HnW : forall w s, ~ In i (wheel T w s)).
    { intros w s Hin. destruct (c_wheel _ _ HC _ _ _ Hin) as (_ & A & _). apply A. left; auto. }
    assert (HnE : ~ In i (expired T)).
    { intro Hin. destruct (c_exp _ _ HC _ Hin) as (_ & A). apply A. left; auto. }
    assert (HC1 : Cons T1 X).
    { unfold T1. constructor; simpl.
      - apply (c_range _ _ HC).
      - apply (c_bit _ _ HC).
      - intros w s j Hin. assert (j <> i) by (intros ->; eapply HnW; eauto).
        rewrite upd_heap_neq by assumption.
        destruct (c_wheel _ _ HC _ _ _ Hin) as (A & B & C). simpl in B. tauto.
      - intros j Hin. assert (j <> i) by (intros ->; auto).
        rewrite upd_heap_neq by assumption.
        destruct (c_exp _ _ HC _ Hin) as (A & B). simpl in B. tauto.
      - intros j w s HjX Hj. destruct (Nat.eq_dec j i) as [->|n].
        + rewrite upd_heap_eq in Hj. discriminate.
        + rewrite upd_heap_neq in Hj by assumption. apply (c_wheel' _ _ HC); [|assumption].
          intros [->|]; auto.
      - intros j HjX Hj. destruct (Nat.eq_dec j i) as [->|n].
        + rewrite upd_heap_eq in Hj. discriminate.
        + rewrite upd_heap_neq in Hj by assumption. apply (c_exp' _ _ HC); [|assumption].
          intros [->|]; auto.
      - apply (c_nd1 _ _ HC).
      - apply (c_nd2 _ _ HC).
      - assumption.
      - intros j HjX. assert (j <> i) by (intros ->; auto).
        rewrite upd_heap_neq by assumption. apply (c_X _ _ HC). right; assumption. }
    assert (HPl1 : Placed (curtime T1) T1).
    { intros w s j Hin. simpl in Hin |- *. assert (j <> i) by (intros ->; eapply HnW; eauto).
      rewrite upd_heap_neq by assumption. apply HPl; assumption. }
    destruct (sched_nopending_ok T1 X i HC1 HiX) as (T2 & p & A & B & C & D & F & G); try assumption.
    { unfold T1. simpl. now rewrite upd_heap_eq. }
    rewrite A. cbn [obind].
    assert (C1 : curtime T1 = curtime T) by reflexivity.
    destruct (IH T2 B) as (T3 & A3 & B3 & C3 & D3 & E3).
    { rewrite D, C1. assumption. }
    { rewrite D. assumption. }
    exists T3. split; [assumption|]. split; [assumption|]. rewrite D, C1 in *.
    split; [assumption|]. split; [congruence|].
    intro j. destruct (E3 j) as (q & Eq & En & Ei).
    destruct (Nat.eq_dec j i) as [->|n].
    + exists q. rewrite Eq, F. unfold T1. simpl. rewrite !upd_heap_eq. simpl.
      split; [reflexivity|]. split.
      * intro Hn. exfalso. apply Hn. left; auto.
      * intros _. rewrite (En HiX), F. unfold T1. simpl. rewrite !upd_heap_eq. simpl.
        unfold T1 in G. simpl in G. rewrite upd_heap_eq in G. simpl in G. assumption.
    + exists q. rewrite Eq, F. unfold T1. simpl. rewrite !upd_heap_neq by assumption.
      split; [reflexivity|].
      rewrite F in En, Ei. unfold T1 in En, Ei. simpl in En, Ei. rewrite !upd_heap_neq in En, Ei by assumption.
      split.
      * intro Hn. apply En. intro. apply Hn. right; assumption.
      * intros [<-|Hin]; [congruence|]. auto.
Qed.

(** The inner sweep. *)
Lemma update_slots_ok mask w : mask_bits mask -> 0 <= w < 4 ->
  forall fuel k T todo, Cons T (concat todo) -> 0 <= k <= 64 -> 64 - k <= Z.of_nat fuel ->
  (forall i, 0 <= i < k -> Z.testbit (Z.land mask (pending T w)) i = false) ->
  Z.of_nat (length todo) <= 64 * w + k ->
  exists T' todo', update_slots fuel mask w T todo = Ok (T', todo') /\
    Cons T' (concat todo') /\ heap T' = heap T /\ curtime T' = curtime T /\ expired T' = expired T /\
    Z.of_nat (length todo') <= 64 * (w + 1) /\
    (forall w' s' i, In i (wheel T' w' s') ->
       In i (wheel T w' s') /\ (w' = w -> Z.testbit mask s' = false)).
Proof.
  intros Hm Hw. induction fuel as [|fuel IH]; intros k T todo HC Hk Hf Hz Hl;
    cbn [update_slots]; destruct (Z.land mask (pending T w) =? 0) eqn:E0; b2p.
  1,3: exists T, todo; split; [reflexivity|]; split; [assumption|]; do 3 (split; [reflexivity|]);
    split; [lia|]; intros w' s' i Hin; split; [assumption|]; intros ->;
    destruct (c_wheel _ _ HC _ _ _ Hin) as (_ & _ & _ & Hs);
    assert (B : Z.testbit (pending T w) s' = true)
      by (apply (c_bit _ _ HC); [assumption|intro X; rewrite X in Hin; destruct Hin]);
    assert (Z0 : Z.testbit (Z.land mask (pending T w)) s' = false) by (rewrite E0; apply Z.bits_0);
    rewrite Z.land_spec, B, andb_true_r in Z0; assumption.
  - exfalso. apply E0. apply Z.bits_inj'. intros i Hi. rewrite Z.bits_0.
    destruct (Z_lt_dec i k); [apply Hz; lia|].
    rewrite Z.land_spec, (bits_high mask 64 i Hm) by lia. reflexivity.
  - assert (Hpos : 0 < Z.land mask (pending T w)).
    { assert (0 <= Z.land mask (pending T w)) by (apply Z.land_nonneg; left; apply Hm). lia. }
    destruct (ctz_spec _ Hpos) as (s & -> & Hs0 & Hbit & Hlow). cbn [obind].
    assert (Hks : k <= s).
    { destruct (Z_lt_dec s k); [|lia]. rewrite Hz in Hbit by lia. discriminate. }
    assert (Hs64 : s < 64).
    { destruct (Z_lt_dec s 64); [assumption|].
      rewrite Z.land_spec, (bits_high mask 64 s Hm) in Hbit by lia. discriminate. }
    unfold WHEEL_NUM, WHEEL_LEN. destruct (4 * 64 <=? Z.of_nat (length todo)) eqn:El; b2p; [lia|].
    set (T1 := mkTS (upd_wheel (wheel T) w s []) (expired T)
                  (upd_pend (pending T) w (Z.land (pending T w) (Z.lnot (Z.shiftl 1 s))))
                  (curtime T) (heap T)).
    assert (Hmb : Z.testbit mask s = true) by (rewrite Z.land_spec in Hbit; now apply andb_prop in Hbit).
    assert (Hcat : concat (todo ++ [wheel T w s]) = concat todo ++ wheel T w s).
    { rewrite concat_app. simpl. now rewrite app_nil_r. }
    assert (HC1 : Cons T1 (concat (todo ++ [wheel T w s]))).
    { rewrite Hcat. unfold T1. constructor; simpl.
      - intro w'. destruct (Z.eq_dec w' w) as [->|n].
        + rewrite upd_pend_eq. apply clrbit_range; [apply (c_range _ _ HC)|lia].
        + rewrite upd_pend_neq by assumption. apply (c_range _ _ HC).
      - intros w' s' Hs'. destruct (Z.eq_dec w' w) as [->|n].
        + rewrite upd_pend_eq, clrbit_test by lia. destruct (Z.eq_dec s' s) as [->|n].
          * rewrite upd_wheel_eq, Z.eqb_refl, andb_false_r. split; [discriminate|congruence].
          * rewrite upd_wheel_neq by auto.
            replace (s =? s') with false by (symmetry; apply Z.eqb_neq; lia). rewrite andb_true_r.
            apply (c_bit _ _ HC); assumption.
        + rewrite upd_pend_neq, upd_wheel_neq by auto. apply (c_bit _ _ HC); assumption.
      - intros w' s' j Hin. destruct (slot_dec w s w' s') as [(-> & ->)|n].
        + rewrite upd_wheel_eq in Hin. destruct Hin.
        + rewrite upd_wheel_neq in Hin by assumption.
          destruct (c_wheel _ _ HC _ _ _ Hin) as (A & B & C). split; [assumption|]. split; [|assumption].
          intro Hx. apply in_app_or in Hx. destruct Hx as [Hx|Hx]; [auto|].
          destruct (c_wheel _ _ HC _ _ _ Hx) as (A' & _). rewrite A in A'. inv A'. lia.
      - intros j Hin. destruct (c_exp _ _ HC _ Hin) as (A & B). split; [assumption|].
        intro Hx. apply in_app_or in Hx. destruct Hx as [Hx|Hx]; [auto|].
        destruct (c_wheel _ _ HC _ _ _ Hx) as (A' & _). congruence.
      - intros j w' s' Hx Hj. rewrite in_app_iff in Hx.
        assert (Hin : In j (wheel T w' s')) by (apply (c_wheel' _ _ HC); [tauto|assumption]).
        destruct (slot_dec w s w' s') as [(-> & ->)|n]; [tauto|].
        rewrite upd_wheel_neq by assumption. assumption.
      - intros j Hx Hj. rewrite in_app_iff in Hx. apply (c_exp' _ _ HC); [tauto|assumption].
      - intros w' s'. destruct (slot_dec w s w' s') as [(-> & ->)|n].
        + rewrite upd_wheel_eq. constructor.
        + rewrite upd_wheel_neq by assumption. apply (c_nd1 _ _ HC).
      - apply (c_nd2 _ _ HC).
      - assert (ND : forall (a b : list nat), NoDup a -> NoDup b -> (forall x, In x a -> ~ In x b) -> NoDup (a ++ b)).
        { clear. induction a as [|x a IHa]; simpl; intros b Ha Hb Hd; [assumption|].
          inversion Ha; subst. constructor.
          - rewrite in_app_iff. intros [?|?]; [auto|]. eapply Hd; eauto.
          - apply IHa; auto. }
        apply ND; [apply (c_ndX _ _ HC)|apply (c_nd1 _ _ HC)|].
        intros x Hx Hx'. destruct (c_wheel _ _ HC _ _ _ Hx') as (_ & B & _). auto.
      - intros j Hx. apply in_app_or in Hx. destruct Hx as [Hx|Hx]; [apply (c_X _ _ HC); assumption|].
        destruct (c_wheel _ _ HC _ _ _ Hx) as (A & _). eauto. }
    destruct (IH (s + 1) T1 (todo ++ [wheel T w s]) HC1) as (T' & todo' & A & B & C & D & F & G & H).
    + lia.
    + lia.
    + intros i Hi. unfold T1. simpl. rewrite upd_pend_eq, Z.land_spec, clrbit_test by lia.
      destruct (Z.eq_dec s i) as [->|n].
      * rewrite Z.eqb_refl. rewrite andb_false_r. apply andb_false_r.
      * replace (s =? i) with false by (symmetry; apply Z.eqb_neq; lia). rewrite andb_true_r.
        rewrite <- Z.land_spec. apply Hlow. lia.
    + rewrite app_length. cbn [length]. lia.
    + exists T', todo'. split; [exact A|]. split; [assumption|].
      split; [rewrite C; reflexivity|]. split; [rewrite D; reflexivity|].
      split; [rewrite F; reflexivity|]. split; [assumption|].
      intros w' s' i Hin. destruct (H _ _ _ Hin) as (H1 & H2). unfold T1 in H1. simpl in H1.
      destruct (slot_dec w s w' s') as [(-> & ->)|n].
      * rewrite upd_wheel_eq in H1. destruct H1.
      * rewrite upd_wheel_neq in H1 by assumption. auto.
Qed.

Inductive from : Z -> list Z -> Prop :=
| from_end : from 4 []
| from_cons w ws : 0 <= w < 4 -> from (w + 1) ws -> from w (w :: ws).

Lemma from_0 : from 0 [0; 1; 2; 3].
Proof. repeat (constructor; [lia|]). constructor. Qed.

Lemma mask_any C N w : 0 <= w < 4 -> 0 <= C < 2 ^ 63 -> 0 <= N < 2 ^ 63 -> mask_bits (update_mask C N w).
Proof.
  intros Hw HC HN. destruct (Z_le_dec C N).
  - apply update_mask_fwd; lia.
  - rewrite update_mask_bwd by lia. split; [discriminate|reflexivity].
Qed.

Lemma update_wheels_ok N : 0 <= N < 2 ^ 63 -> forall w ws, from w ws -> forall T todo,
  0 <= curtime T < 2 ^ 63 -> Cons T (concat todo) -> Z.of_nat (length todo) <= 64 * w ->
  Placed (curtime T) T ->
  (forall w' s i, In i (wheel T w' s) -> w' < w -> place N w' s (to_expires (heap T i))) ->
  exists T' todo', update_wheels ws N T todo = Ok (T', todo') /\
    Cons T' (concat todo') /\ heap T' = heap T /\ curtime T' = curtime T /\ expired T' = expired T /\
    Placed N T'.
Proof.
  intros HN. induction 1 as [|w ws Hw Hfrom IH]; intros T todo HT HC Hl HP Hdone.
  - exists T, todo. cbn [update_wheels]. split; [reflexivity|]. split; [assumption|].
    do 3 (split; [reflexivity|]). intros w s i Hin. apply Hdone; [assumption|].
    destruct (c_wheel _ _ HC _ _ _ Hin) as (_ & _ & A & _). lia.
  - cbn [update_wheels].
    destruct (update_slots_ok (update_mask (curtime T) N w) w (mask_any _ _ _ Hw HT HN) Hw 64 0 T todo HC)
      as (T1 & todo1 & A & B & C & D & E & F & G); try lia.
    rewrite A. cbn [obind].
    assert (HP1 : Placed (curtime T1) T1).
    { intros w' s' i Hin. destruct (G _ _ _ Hin) as (G1 & _). rewrite C, D. apply HP; assumption. }
    assert (Hdone1 : forall w' s i, In i (wheel T1 w' s) -> w' < w + 1 -> place N w' s (to_expires (heap T1 i))).
    { intros w' s' i Hin Hlt. destruct (G _ _ _ Hin) as (G1 & G2). rewrite C.
      destruct (Z.eq_dec w' w) as [->|n].
      - specialize (G2 eq_refl). destruct (Z_le_dec (curtime T) N).
        + apply place_unswept with (C := curtime T); try lia; [|assumption]. apply HP; assumption.
        + rewrite update_mask_bwd in G2 by lia.
          destruct (c_wheel _ _ HC _ _ _ G1) as (_ & _ & _ & Hs).
          rewrite full_testbit in G2 by assumption. discriminate.
      - apply Hdone; [assumption|lia]. }
    destruct (Z.land 1 (update_mask (curtime T) N w) =? 0) eqn:Eb; b2p.
    + exists T1, todo1. split; [reflexivity|]. split; [assumption|].
      split; [assumption|]. split; [assumption|]. split; [assumption|].
      intros w' s' i Hin. destruct (Z_lt_dec w' (w + 1)); [apply Hdone1; assumption|].
      destruct (Z_le_dec (curtime T) N).
      * apply place_higher with (C := curtime T) (w0 := w); try lia.
        -- apply mask_break; lia || assumption.
        -- rewrite <- D. apply HP1; assumption.
      * rewrite update_mask_bwd in Eb by lia. discriminate Eb.
    + destruct (IH T1 todo1) as (T2 & todo2 & A2 & B2 & C2 & D2 & E2 & F2); try assumption.
      { rewrite D; assumption. }
      exists T2, todo2. split; [assumption|]. split; [assumption|]. 
      split; [congruence|]. split; [congruence|]. split; [congruence|assumption].
Qed.

(** Complete invariant and link to the table. *)
Definition alive (T : timeouts) (i : nat) : option (Z * bool) :=
  match to_pending (heap T i) with
  | None => None
  | Some LExp => Some (to_expires (heap T i), true)
  | Some (LSlot _ _) => Some (to_expires (heap T i), false)
  end.

Record Num (T : timeouts) : Prop := mkNum {
  n_cur : 0 <= curtime T < TB;
  n_int : forall i, 0 <= to_interval (heap T i) <= TB;
  n_exp : forall i, to_pending (heap T i) <> None -> 0 <= to_expires (heap T i) < 2 * TB;
  n_due : forall i, to_pending (heap T i) = Some LExp -> to_expires (heap T i) < TB
}.

Definition Inv (T : timeouts) : Prop := Cons T [] /\ Placed (curtime T) T /\ Num T.

Record Rel (rep : nat -> bool) (T : timeouts) (S : table) : Prop := mkRel {
  r_inv : Inv T;
  r_now : curtime T = tb_now S;
  r_ival : forall i, to_interval (heap T i) = tb_ival S i;
  r_int : forall i, to_int (heap T i) = rep i;
  r_abs : forall i, to_abs (heap T i) = negb (rep i);
  r_arm : forall i, alive T i = tb_armed S i
}.

Lemma update_ok rep T S now : Rel rep T S -> 0 <= now < TB ->
  exists T', timeouts_update T now = Ok T' /\ Rel rep T' (tab_step rep S (OTick now)).
Proof.
  intros [HI Hnow Hival Hint Habs Harm] Hn. destruct HI as (HC & HP & HN).
  assert (TBv : TB < 2 ^ 63) by reflexivity.
  pose proof (n_cur _ HN) as Hcur.
  unfold timeouts_update.
  destruct (update_wheels_ok now ltac:(lia) 0 _ from_0 T [] ltac:(lia) HC) as (T1 & todo & A & B & C & D & E & F).
  { cbn [length]. lia. }
  { assumption. }
  { intros w' s' i Hin Hlt. destruct (c_wheel _ _ HC _ _ _ Hin) as (_ & _ & X & _). lia. }
  rewrite A. cbn [obind].
  set (T2 := mkTS (wheel T1) (expired T1) (pending T1) now (heap T1)).
  assert (HC2 : Cons T2 (concat todo)) by (apply Cons_cur; auto).
  assert (HP2 : Placed (curtime T2) T2) by exact F.
  destruct (resched_all_ok (concat todo) T2 HC2) as (T3 & A3 & B3 & C3 & D3 & E3); [apply Hn|assumption|].
  exists T3. split; [assumption|].
  assert (Hh : forall i, exists p, heap T3 i = set_pending (heap T i) p /\
     ((p = None /\ alive T i = None) \/
      (p = Some LExp /\ exists b, alive T i = Some (to_expires (heap T i), b) /\
          (b = true \/ to_expires (heap T i) <= now)) \/
      ((exists w s, p = Some (LSlot w s)) /\ alive T i = Some (to_expires (heap T i), false) /\
          now < to_expires (heap T i)))).
  { intro i. destruct (E3 i) as (p & P1 & P2 & P3). exists p.
    unfold T2 in P1, P2, P3. simpl in P1, P2, P3. rewrite C in P1, P2, P3.
    split; [assumption|]. unfold alive.
    destruct (in_dec Nat.eq_dec i (concat todo)) as [Hin|Hni].
    - specialize (P3 Hin). destruct (c_X _ _ HC2 _ Hin) as (w & s & Hx). unfold T2 in Hx. simpl in Hx.
      rewrite C in Hx. rewrite Hx. unfold landed in P3.
      destruct (now <? to_expires (heap T i)) eqn:Hc; b2p.
      + right; right. auto.
      + right; left. split; [assumption|]. exists false. auto.
    - specialize (P2 Hni). rewrite P2. destruct (to_pending (heap T i)) as [[|w s]|] eqn:Hp.
      + right; left. split; [reflexivity|]. exists true. auto.
      + right; right. split; [eauto|]. split; [reflexivity|].
        assert (Hin : In i (wheel T2 w s)).
        { apply (c_wheel' _ _ HC2); [assumption|]. unfold T2. simpl. rewrite C. assumption. }
        specialize (HP2 _ _ _ Hin). apply place_later in HP2. simpl in HP2. rewrite C in HP2. assumption.
      + left. auto. }
  assert (Hf : forall i, to_expires (heap T3 i) = to_expires (heap T i) /\
     to_interval (heap T3 i) = to_interval (heap T i) /\ to_int (heap T3 i) = to_int (heap T i) /\
     to_abs (heap T3 i) = to_abs (heap T i)).
  { intro i. destruct (Hh i) as (p & -> & _). auto. }
  constructor.
  - split; [assumption|]. split; [rewrite D3; assumption|].
    constructor.
    + rewrite D3. simpl. assumption.
    + intro i. destruct (Hf i) as (_ & -> & _). apply (n_int _ HN).
    + intros i Hp. destruct (Hf i) as (-> & _). apply (n_exp _ HN).
      destruct (Hh i) as (p & Hp1 & Hcase). rewrite Hp1 in Hp. simpl in Hp.
      destruct Hcase as [(-> & _)|[(-> & b & Ha & _)|(_ & Ha & _)]]; [congruence| |];
      unfold alive in Ha; destruct (to_pending (heap T i)); discriminate.
    + intros i Hp. destruct (Hf i) as (-> & _). 
      destruct (Hh i) as (p & Hp1 & Hcase). rewrite Hp1 in Hp. simpl in Hp. subst p.
      destruct Hcase as [(X & _)|[(_ & b & Ha & [->|Hb])|((w & s & X) & _)]]; try discriminate.
      * apply (n_due _ HN). unfold alive in Ha. destruct (to_pending (heap T i)) as [[|]|]; congruence.
      * lia.
  - rewrite D3. reflexivity.
  - intro i. destruct (Hf i) as (_ & -> & _). apply Hival.
  - intro i. destruct (Hf i) as (_ & _ & -> & _). apply Hint.
  - intro i. destruct (Hf i) as (_ & _ & _ & ->). apply Habs.
  - intro i. simpl. rewrite <- Harm. destruct (Hh i) as (p & Hp1 & Hcase).
    destruct Hcase as [(-> & ->)|[(-> & b & -> & Hb)|((w & s & ->) & -> & Hb)]];
      unfold alive; rewrite Hp1; simpl.
    + reflexivity.
    + destruct Hb as [->|Hb]; [reflexivity|].
      replace (to_expires (heap T i) <=? now) with true by (symmetry; apply Z.leb_le; lia).
      rewrite orb_true_r. reflexivity.
    + replace (to_expires (heap T i) <=? now) with false by (symmetry; apply Z.leb_gt; lia). reflexivity.
Qed.

(** Deletion. *)
Lemma list_remove_in i j l : In j (list_remove i l) <-> In j l /\ j <> i.
Proof.
  unfold list_remove. rewrite filter_In. destruct (Nat.eqb_spec j i); simpl; intuition congruence.
Qed.

Lemma list_remove_nd i l : NoDup l -> NoDup (list_remove i l).
Proof. apply NoDup_filter. Qed.

Lemma del_cons T i : Cons T [] -> Placed (curtime T) T ->
  let T' := timeouts_del T i in
  Cons T' [] /\ Placed (curtime T) T' /\ curtime T' = curtime T /\
  (forall j, heap T' j = if Nat.eqb j i then set_pending (heap T i) None else heap T j).
Proof.
  intros HC HP. unfold timeouts_del. destruct (to_pending (heap T i)) as [[|w s]|] eqn:Hp; cbv zeta; simpl.
  - assert (Hnw : forall w' s', ~ In i (wheel T w' s')).
    { intros w' s' Hin. destruct (c_wheel _ _ HC _ _ _ Hin) as (A & _). congruence. }
    split; [|split; [|split; [reflexivity|]]].
    + constructor; simpl.
      * apply (c_range _ _ HC).
      * apply (c_bit _ _ HC).
      * intros w' s' j Hin. assert (j <> i) by (intros ->; eapply Hnw; eauto).
        rewrite upd_heap_neq by assumption. apply (c_wheel _ _ HC _ _ _ Hin).
      * intros j H. apply list_remove_in in H. destruct H as (H & n). rewrite upd_heap_neq by assumption.
        apply (c_exp _ _ HC _ H).
      * intros j w' s' _ Hj. destruct (Nat.eq_dec j i) as [->|n].
        -- rewrite upd_heap_eq in Hj. discriminate.
        -- rewrite upd_heap_neq in Hj by assumption. apply (c_wheel' _ _ HC); auto.
      * intros j _ Hj. destruct (Nat.eq_dec j i) as [->|n].
        -- rewrite upd_heap_eq in Hj. discriminate.
        -- rewrite upd_heap_neq in Hj by assumption. apply list_remove_in. split; [|assumption].
           apply (c_exp' _ _ HC); auto.
      * apply (c_nd1 _ _ HC).
      * apply list_remove_nd, (c_nd2 _ _ HC).
      * constructor.
      * intros j [].
    + intros w' s' j Hin. simpl in *. assert (j <> i) by (intros ->; eapply Hnw; eauto).
      rewrite upd_heap_neq by assumption. apply (HP _ _ _ Hin).
    + reflexivity.
  - assert (Hin0 : In i (wheel T w s)) by (apply (c_wheel' _ _ HC); auto).
    destruct (c_wheel _ _ HC _ _ _ Hin0) as (_ & _ & Hw & Hs).
    assert (Hne : ~ In i (expired T)).
    { intro Hin. destruct (c_exp _ _ HC _ Hin) as (A & _). congruence. }
    assert (Hnw : forall w' s', In i (wheel T w' s') -> w' = w /\ s' = s).
    { intros w' s' Hin. destruct (c_wheel _ _ HC _ _ _ Hin) as (A & _). rewrite Hp in A. inv A. auto. }
    set (l := list_remove i (wheel T w s)).
    assert (Hl : forall j, In j l <-> In j (wheel T w s) /\ j <> i) by (intro; apply list_remove_in).
    assert (Hndl : NoDup l) by (apply list_remove_nd, (c_nd1 _ _ HC)).
    assert (Hsub : forall w' s' j, In j (upd_wheel (wheel T) w s l w' s') -> In j (wheel T w' s') /\ j <> i).
    { intros w' s' j Hin. destruct (slot_dec w s w' s') as [(-> & ->)|n].
      - rewrite upd_wheel_eq in Hin. apply Hl in Hin. assumption.
      - rewrite upd_wheel_neq in Hin by assumption. split; [assumption|]. intros ->.
        apply Hnw in Hin. lia. }
    split; [|split; [|split; [reflexivity|]]].
    + assert (Hpd : forall w', match l with [] => upd_pend (pending T) w (Z.land (pending T w) (Z.lnot (Z.shiftl 1 s)))
                 | _ :: _ => pending T end w' =
                 if (w' =? w) && (match l with [] => true | _ => false end)
                 then Z.land (pending T w) (Z.lnot (Z.shiftl 1 s)) else pending T w').
      { intro w'. unfold upd_pend. destruct l; destruct (w' =? w); reflexivity. }
      constructor; simpl.
      * intro w'. rewrite Hpd. destruct ((w' =? w) && _).
        -- apply clrbit_range; [apply (c_range _ _ HC)|lia].
        -- apply (c_range _ _ HC).
      * intros w' s' Hs'. rewrite Hpd. clear Hpd. destruct (w' =? w) eqn:Ew; b2p; cbn [andb].
        -- subst w'. destruct (Z.eq_dec s' s) as [->|n].
           ++ rewrite upd_wheel_eq. destruct l eqn:El.
              ** rewrite clrbit_test by lia. rewrite Z.eqb_refl, andb_false_r. split; [discriminate|congruence].
              ** split; [discriminate|]. intros _. apply (c_bit _ _ HC); [assumption|].
                 intro X. rewrite X in Hin0. destruct Hin0.
           ++ rewrite upd_wheel_neq by auto. destruct l.
              ** rewrite clrbit_test by lia.
                 replace (s =? s') with false by (symmetry; apply Z.eqb_neq; lia). rewrite andb_true_r.
                 apply (c_bit _ _ HC); assumption.
              ** apply (c_bit _ _ HC); assumption.
        -- rewrite upd_wheel_neq by auto. apply (c_bit _ _ HC); assumption.
      * intros w' s' j Hin. apply Hsub in Hin. destruct Hin as (Hin & n). rewrite upd_heap_neq by assumption.
        apply (c_wheel _ _ HC _ _ _ Hin).
      * intros j Hin. assert (j <> i) by (intros ->; auto). rewrite upd_heap_neq by assumption.
        apply (c_exp _ _ HC _ Hin).
      * intros j w' s' _ Hj. destruct (Nat.eq_dec j i) as [->|n].
        -- rewrite upd_heap_eq in Hj. discriminate.
        -- rewrite upd_heap_neq in Hj by assumption.
           assert (Hin : In j (wheel T w' s')) by (apply (c_wheel' _ _ HC); auto).
           destruct (slot_dec w s w' s') as [(-> & ->)|n2].
           ++ rewrite upd_wheel_eq. apply Hl. auto.
           ++ rewrite upd_wheel_neq by assumption. assumption.
      * intros j _ Hj. destruct (Nat.eq_dec j i) as [->|n].
        -- rewrite upd_heap_eq in Hj. discriminate.
        -- rewrite upd_heap_neq in Hj by assumption. apply (c_exp' _ _ HC); auto.
      * intros w' s'. destruct (slot_dec w s w' s') as [(-> & ->)|n].
        -- rewrite upd_wheel_eq. assumption.
        -- rewrite upd_wheel_neq by assumption. apply (c_nd1 _ _ HC).
      * apply (c_nd2 _ _ HC).
      * constructor.
      * intros j [].
    + intros w' s' j Hin. simpl in *. apply Hsub in Hin. destruct Hin as (Hin & n).
      rewrite upd_heap_neq by assumption. apply (HP _ _ _ Hin).
    + reflexivity.
  - split; [assumption|]. split; [assumption|]. split; [reflexivity|].
    intro j. destruct (Nat.eqb_spec j i) as [->|]; [|reflexivity].
    unfold set_pending. rewrite <- Hp. destruct (heap T i); reflexivity.
Qed.

Lemma del_ok rep T S i : Rel rep T S -> Rel rep (timeouts_del T i) (tab_step rep S (ODel i)).
Proof.
  intros [HI Hnow Hival Hint Habs Harm]. destruct HI as (HC & HP & HN).
  destruct (del_cons T i HC HP) as (A & B & C & D). set (T' := timeouts_del T i) in *. clearbody T'.
  assert (Hf : forall j, to_expires (heap T' j) = to_expires (heap T j) /\
     to_interval (heap T' j) = to_interval (heap T j) /\ to_int (heap T' j) = to_int (heap T j) /\
     to_abs (heap T' j) = to_abs (heap T j) /\
     to_pending (heap T' j) = if Nat.eqb j i then None else to_pending (heap T j)).
  { intro j. rewrite D. destruct (Nat.eqb_spec j i) as [->|]; auto. }
  constructor.
  - split; [assumption|]. split; [rewrite C; assumption|]. constructor.
    + rewrite C. apply (n_cur _ HN).
    + intro j. destruct (Hf j) as (_ & -> & _). apply (n_int _ HN).
    + intros j Hj. destruct (Hf j) as (-> & _ & _ & _ & Hq). rewrite Hq in Hj. apply (n_exp _ HN).
      destruct (Nat.eqb j i); congruence.
    + intros j Hj. destruct (Hf j) as (-> & _ & _ & _ & Hq). rewrite Hq in Hj. apply (n_due _ HN).
      destruct (Nat.eqb j i); congruence.
  - simpl. congruence.
  - intro j. destruct (Hf j) as (_ & -> & _). apply Hival.
  - intro j. destruct (Hf j) as (_ & _ & -> & _). apply Hint.
  - intro j. destruct (Hf j) as (_ & _ & _ & -> & _). apply Habs.
  - intro j. simpl. unfold set1. rewrite <- Harm. unfold alive.
    destruct (Hf j) as (-> & _ & _ & _ & ->). destruct (Nat.eqb j i); reflexivity.
Qed.

(** Scheduling at a given deadline. *)
Lemma sched_ok rep T S i e : Rel rep T S -> 0 <= e < 2 * TB ->
  exists T', timeouts_sched T i e = Ok T' /\
    Rel rep T' (mkTab (tb_now S) (tb_ival S) (set1 (tb_armed S) i (Some (e, e <=? tb_now S)))).
Proof.
  intros HR He. pose proof (del_ok rep T S i HR) as HR1. unfold timeouts_sched.
  assert (Hpn : to_pending (heap (timeouts_del T i) i) = None).
  { destruct (r_inv _ _ _ HR) as (HC & HP & _).
    destruct (del_cons T i HC HP) as (_ & _ & _ & D). rewrite D, Nat.eqb_refl. reflexivity. }
  set (T1 := timeouts_del T i) in *. clearbody T1.
  set (T2 := with_heap T1 (upd_heap (heap T1) i (set_expires (heap T1 i) e))).
  destruct HR1 as [HI Hnow Hival Hint Habs Harm]. destruct HI as (HC & HP & HN).
  assert (Hp2 : forall j, to_pending (heap T2 j) = to_pending (heap T1 j)).
  { intro j. unfold T2. simpl. unfold upd_heap. destruct (Nat.eqb_spec j i) as [->|]; reflexivity. }
  assert (HC2 : Cons T2 []) by (apply Cons_heap; [assumption|exact Hp2]).
  assert (Hnw : forall w' s', ~ In i (wheel T1 w' s')).
  { intros w' s' Hin. destruct (c_wheel _ _ HC _ _ _ Hin) as (A & _). congruence. }
  assert (HP2 : Placed (curtime T2) T2).
  { intros w s j Hin. simpl in *. assert (j <> i) by (intros ->; eapply Hnw; eauto).
    rewrite upd_heap_neq by assumption. apply HP; assumption. }
  destruct (sched_nopending_ok T2 [] i HC2) as (T' & p & A & B & C & D & E & F); auto.
  { rewrite Hp2. assumption. }
  { apply (n_cur _ HN). }
  exists T'. split; [assumption|].
  assert (Hcur : curtime T2 = curtime T1) by reflexivity.
  assert (Hi2 : heap T2 i = set_expires (heap T1 i) e) by (unfold T2; simpl; apply upd_heap_eq).
  assert (Hi : heap T' i = set_pending (set_expires (heap T1 i) e) p).
  { rewrite E, upd_heap_eq, Hi2. reflexivity. }
  assert (Hj : forall j, j <> i -> heap T' j = heap T1 j).
  { intros j n. rewrite E, upd_heap_neq by assumption. unfold T2. simpl. apply upd_heap_neq. assumption. }
  rewrite Hi2, Hcur in F. simpl in F.
  assert (Hland : alive T' i = Some (e, e <=? curtime T1)).
  { unfold alive. rewrite Hi. simpl. unfold landed in F.
    destruct (curtime T1 <? e) eqn:Hc; b2p.
    - destruct F as (w & s & ->). replace (e <=? curtime T1) with false by (symmetry; apply Z.leb_gt; lia). reflexivity.
    - subst p. replace (e <=? curtime T1) with true by (symmetry; apply Z.leb_le; lia). reflexivity. }
  simpl in Hnow, Hival, Harm.
  constructor.
  - split; [assumption|]. split; [rewrite D; assumption|]. constructor.
    + rewrite D. apply (n_cur _ HN).
    + intro j. destruct (Nat.eq_dec j i) as [->|n]; [rewrite Hi|rewrite Hj by assumption]; apply (n_int _ HN).
    + intros j Hx. destruct (Nat.eq_dec j i) as [->|n].
      * rewrite Hi. exact He.
      * rewrite Hj in * by assumption. apply (n_exp _ HN). assumption.
    + intros j Hx. destruct (Nat.eq_dec j i) as [->|n].
      * unfold alive in Hland. rewrite Hx in Hland. inv Hland. b2p. pose proof (n_cur _ HN).
        rewrite Hi. simpl. symmetry in H1. b2p. rewrite Hi in H1. simpl in H1. lia.
      * rewrite Hj in * by assumption. apply (n_due _ HN). assumption.
  - simpl. rewrite D. assumption.
  - intro j. simpl. destruct (Nat.eq_dec j i) as [->|n]; [rewrite Hi|rewrite Hj by assumption]; apply Hival.
  - intro j. destruct (Nat.eq_dec j i) as [->|n]; [rewrite Hi|rewrite Hj by assumption]; apply Hint.
  - intro j. destruct (Nat.eq_dec j i) as [->|n]; [rewrite Hi|rewrite Hj by assumption]; apply Habs.
  - intro j. simpl. unfold set1. destruct (Nat.eqb_spec j i) as [->|n].
    + rewrite Hland, Hnow. reflexivity.
    + unfold alive. rewrite Hj by assumption. change (alive T1 j = tb_armed S j).
      rewrite Harm. simpl. unfold set1. destruct (Nat.eqb_spec j i); [contradiction|reflexivity].
Qed.

Lemma set_interval_ok rep T S i v : Rel rep T S -> 0 <= v <= TB ->
  Rel rep (with_heap T (upd_heap (heap T) i (set_interval (heap T i) v)))
      (mkTab (tb_now S) (set1 (tb_ival S) i v) (tb_armed S)).
Proof.
  intros [HI Hnow Hival Hint Habs Harm] Hv. destruct HI as (HC & HP & HN).
  set (h := upd_heap (heap T) i (set_interval (heap T i) v)).
  assert (Hf : forall j, to_expires (h j) = to_expires (heap T j) /\
     to_interval (h j) = (if Nat.eqb j i then v else to_interval (heap T j)) /\
     to_int (h j) = to_int (heap T j) /\
     to_abs (h j) = to_abs (heap T j) /\ to_pending (h j) = to_pending (heap T j)).
  { intro j. unfold h, upd_heap. destruct (Nat.eqb_spec j i) as [->|]; auto. }
  constructor; simpl.
  - split; [apply Cons_heap; [assumption|intro j; apply (Hf j)]|]. split.
    + intros w s j Hin. simpl in *. destruct (Hf j) as (-> & _). apply HP; assumption.
    + constructor; simpl.
      * apply (n_cur _ HN).
      * intro j. destruct (Hf j) as (_ & -> & _). destruct (Nat.eqb j i); [assumption|apply (n_int _ HN)].
      * intro j. destruct (Hf j) as (-> & _ & _ & _ & ->). apply (n_exp _ HN).
      * intro j. destruct (Hf j) as (-> & _ & _ & _ & ->). apply (n_due _ HN).
  - assumption.
  - intro j. destruct (Hf j) as (_ & -> & _). unfold set1. rewrite Hival. reflexivity.
  - intro j. destruct (Hf j) as (_ & _ & -> & _). apply Hint.
  - intro j. destruct (Hf j) as (_ & _ & _ & -> & _). apply Habs.
  - intro j. unfold alive. simpl. destruct (Hf j) as (-> & _ & _ & _ & ->). apply Harm.
Qed.

Lemma add_ok rep T S i now : Rel rep T S -> 0 <= now < TB -> 
  (forall j, 0 <= tb_ival S j < TB) ->
  exists T', AddTimeoutEvent T now i = Ok T' /\ Rel rep T' (tab_step rep S (OAdd i now)).
Proof.
  intros HR Hn Hsm. unfold AddTimeoutEvent, timeouts_add, IsRepeated.
  assert (TB2 : 2 * TB < 2 ^ 64) by reflexivity.
  pose proof (Hsm i) as Hv. pose proof (n_cur _ (proj2 (proj2 (r_inv _ _ _ HR)))) as Hc.
  pose proof (r_int _ _ _ HR i) as Hint. pose proof (r_abs _ _ _ HR i) as Habs.
  pose proof (r_ival _ _ _ HR i) as Hival. pose proof (r_now _ _ _ HR) as Hnow.
  rewrite Hint. simpl tab_step. destruct (rep i) eqn:Er; simpl in Habs.
  - set (T1 := with_heap T _).
    assert (HR1 : Rel rep T1 (mkTab (tb_now S) (set1 (tb_ival S) i (Z.max 1 (tb_ival S i))) (tb_armed S))).
    { unfold T1. rewrite Hival. apply set_interval_ok; [assumption|]. unfold TB in *. lia. }
    assert (Ha : to_abs (heap T1 i) = false) by (rewrite (r_abs _ _ _ HR1), Er; reflexivity).
    rewrite Ha. change (curtime T1) with (curtime T). rewrite Hival, Hnow, u64_small by lia.
    destruct (sched_ok rep T1 _ i (tb_now S + tb_ival S i) HR1) as (T' & A & B); [lia|].
    exists T'. split; [assumption|]. exact B.
  - rewrite Habs. rewrite Hival, u64_small by lia.
    destruct (sched_ok rep T _ i (now + tb_ival S i) HR) as (T' & A & B); [lia|].
    exists T'. split; [assumption|]. exact B.
Qed.

Lemma set_ok rep T S i ms : Rel rep T S -> 0 <= ms < TB ->
  Rel rep (UpdateInterval T i ms) (tab_step rep S (OSetInterval i ms)).
Proof.
  intros HR Hm. unfold UpdateInterval. rewrite u64_small; [|unfold TB in *; lia].
  apply set_interval_ok; [assumption|lia].
Qed.

Lemma next_period_spec d v now : 0 < v ->
  exists k, 1 <= k /\ next_period d v now = d + k * v /\ now < next_period d v now /\
  (forall k', 1 <= k' -> now < d + k' * v -> k <= k').
Proof.
  intro Hv. unfold next_period. exists (Z.max 0 ((now - d) / v) + 1).
  pose proof (Z.div_mod (now - d) v ltac:(lia)). pose proof (Z.mod_pos_bound (now - d) v Hv).
  set (q := (now - d) / v) in *. set (r := (now - d) mod v) in *.
  split; [lia|]. split; [lia|]. split; [nia|].
  intros k' Hk Hlt. destruct (Z_le_dec 0 q); [|lia]. rewrite Z.max_r by lia.
  assert (q < k') by nia. lia.
Qed.

Lemma readd_next e v cur : 0 <= e -> 0 < v -> 0 <= cur -> e + v < 2 ^ 64 -> cur + v < 2 ^ 64 ->
  (if u64 (e + v) <=? cur then u64 (cur + (v - (cur - u64 (e + v)) mod v)) else u64 (e + v))
  = next_period e v cur.
Proof.
  intros He Hv Hc H1 H2. rewrite (u64_small (e + v)) by lia. unfold next_period.
  destruct (e + v <=? cur) eqn:E; b2p.
  - pose proof (Z.mod_pos_bound (cur - (e + v)) v Hv).
    pose proof (Z.div_mod (cur - (e + v)) v ltac:(lia)) as D.
    rewrite u64_small by lia.
    assert (Q : (cur - (e + v)) / v = (cur - e) / v - 1).
    { replace (cur - (e + v)) with (cur - e + (-1) * v) by lia. rewrite Z.div_add by lia. lia. }
    rewrite Q in D.
    assert (0 <= (cur - e) / v) by (apply Z.div_pos; lia).
    rewrite Z.max_r by lia. nia.
  - assert ((cur - e) / v < 1) by (apply Z.div_lt_upper_bound; lia).
    rewrite Z.max_l by lia. lia.
Qed.

Lemma get_ok rep T S : Rel rep T S ->
  exists r T', timeouts_get T = Ok (r, T') /\ Rel rep T' (tab_step rep S (OGet r)) /\
  match r with
  | None => forall i d, tb_armed S i <> Some (d, true)
  | Some i => exists d, tb_armed S i = Some (d, true)
  end.
Proof.
  intros HR. destruct HR as [HI Hnow Hival Hint Habs Harm]. destruct HI as (HC & HP & HN).
  unfold timeouts_get. destruct (expired T) as [|i l] eqn:El.
  - exists None, T. split; [reflexivity|]. split.
    + simpl. constructor; auto. split; auto.
    + intros i d Hx. rewrite <- Harm in Hx. unfold alive in Hx.
      destruct (to_pending (heap T i)) as [[|]|] eqn:Hp; try discriminate.
      pose proof (c_exp' _ _ HC i (fun x => x) Hp) as Hin. rewrite El in Hin. destruct Hin.
  - assert (Hin : In i (expired T)) by (rewrite El; left; reflexivity).
    destruct (c_exp _ _ HC _ Hin) as (Hp & _).
    pose proof (c_nd2 _ _ HC) as Hnd. rewrite El in Hnd. apply NoDup_cons_iff in Hnd. destruct Hnd as (Hil & Hnd).
    assert (Hnw : forall w' s', ~ In i (wheel T w' s')).
    { intros w' s' Hx. destruct (c_wheel _ _ HC _ _ _ Hx) as (A & _). congruence. }
    cbv zeta. cbn [heap]. rewrite upd_heap_eq. cbn [to_int to_interval set_pending].
    set (T1 := mkTS (wheel T) l (pending T) (curtime T) (upd_heap (heap T) i (set_pending (heap T i) None))).
    assert (Hf : forall j, to_expires (heap T1 j) = to_expires (heap T j) /\
      to_interval (heap T1 j) = to_interval (heap T j) /\ to_int (heap T1 j) = to_int (heap T j) /\
      to_abs (heap T1 j) = to_abs (heap T j) /\
      to_pending (heap T1 j) = if Nat.eqb j i then None else to_pending (heap T j)).
    { intro j. unfold T1. simpl. unfold upd_heap. destruct (Nat.eqb_spec j i) as [->|]; auto. }
    assert (HC1 : Cons T1 []).
    { unfold T1. constructor; simpl.
      - apply (c_range _ _ HC).
      - apply (c_bit _ _ HC).
      - intros w' s' j Hx. assert (j <> i) by (intros ->; eapply Hnw; eauto).
        rewrite upd_heap_neq by assumption. apply (c_wheel _ _ HC _ _ _ Hx).
      - intros j Hx. assert (j <> i) by (intros ->; auto). rewrite upd_heap_neq by assumption.
        apply (c_exp _ _ HC). rewrite El. right; assumption.
      - intros j w' s' _ Hj. destruct (Nat.eq_dec j i) as [->|n].
        + rewrite upd_heap_eq in Hj. discriminate.
        + rewrite upd_heap_neq in Hj by assumption. apply (c_wheel' _ _ HC); auto.
      - intros j _ Hj. destruct (Nat.eq_dec j i) as [->|n].
        + rewrite upd_heap_eq in Hj. discriminate.
        + rewrite upd_heap_neq in Hj by assumption.
          pose proof (c_exp' _ _ HC j (fun x => x) Hj) as Hx. rewrite El in Hx. destruct Hx; [congruence|assumption].
      - apply (c_nd1 _ _ HC).
      - assumption.
      - constructor.
      - intros j []. }
    assert (HP1 : Placed (curtime T1) T1).
    { intros w s j Hx. simpl in *. assert (j <> i) by (intros ->; eapply Hnw; eauto).
      rewrite upd_heap_neq by assumption. apply HP; assumption. }
    assert (Hdue : tb_armed S i = Some (to_expires (heap T i), true)).
    { rewrite <- Harm. unfold alive. rewrite Hp. reflexivity. }
    destruct (to_int (heap T i) && (0 <? to_interval (heap T i))) eqn:Erep.
    + b2p. unfold timeouts_readd.
      destruct (Hf i) as (E1 & E2 & _). rewrite E1, E2. change (curtime T1) with (curtime T).
      assert (TB2 : 2 * TB < 2 ^ 64) by reflexivity.
      pose proof (n_cur _ HN) as Hcur. pose proof (n_int _ HN i) as Hvi.
      pose proof (n_exp _ HN i ltac:(congruence)) as He. pose proof (n_due _ HN i Hp) as He2.
      rewrite readd_next by lia.
      set (e' := next_period _ _ _).
      destruct (next_period_spec (to_expires (heap T i)) (to_interval (heap T i)) (curtime T) ltac:(assumption))
        as (k & Hk & Hke & Hlt & Hmin). fold e' in Hke, Hlt.
      assert (He' : e' < 2 * TB).
      { destruct (Z.eq_dec k 1) as [->|]; [lia|].
        destruct (Z_lt_dec (curtime T) (to_expires (heap T i) + (k - 1) * to_interval (heap T i))) as [Hl|Hl].
        - specialize (Hmin (k - 1) ltac:(lia) Hl). lia.
        - lia. }
      set (T2 := with_heap T1 (upd_heap (heap T1) i (set_expires (heap T1 i) e'))).
      assert (Hp2 : forall j, to_pending (heap T2 j) = to_pending (heap T1 j)).
      { intro j. unfold T2. simpl. unfold upd_heap at 1. destruct (Nat.eqb_spec j i) as [->|]; reflexivity. }
      assert (HC2 : Cons T2 []) by (apply Cons_heap; [assumption|exact Hp2]).
      assert (HP2 : Placed (curtime T2) T2).
      { intros w s j Hx. unfold T2 in *. simpl in Hx |- *. assert (j <> i) by (intros ->; eapply Hnw; eauto).
        rewrite upd_heap_neq by assumption. apply HP1; assumption. }
      assert (Hi2 : heap T2 i = set_expires (heap T1 i) e') by (unfold T2; simpl; apply upd_heap_eq).
      destruct (sched_future_ok T2 [] i HC2) as (T' & w & s & A & B & C & D & _ & F); auto.
      { rewrite Hp2. destruct (Hf i) as (_ & _ & _ & _ & ->). now rewrite Nat.eqb_refl. }
      { exact (proj1 Hcur). }
      { rewrite Hi2. exact Hlt. }
      rewrite A. cbn [obind]. exists (Some i), T'. split; [reflexivity|]. split; [|eauto].
      assert (Hi : heap T' i = set_pending (set_expires (heap T1 i) e') (Some (LSlot w s))).
      { rewrite F, upd_heap_eq, Hi2. reflexivity. }
      assert (Hj : forall j, j <> i -> heap T' j = heap T j).
      { intros j n. rewrite F, upd_heap_neq by assumption. unfold T2. simpl. rewrite upd_heap_neq by assumption.
        apply upd_heap_neq. assumption. }
      constructor.
      * split; [assumption|]. split; [rewrite D; assumption|]. constructor.
        -- rewrite D. exact Hcur.
        -- intro j. destruct (Nat.eq_dec j i) as [->|n].
           ++ rewrite Hi. cbn [to_interval set_pending set_expires]. rewrite E2. apply (n_int _ HN).
           ++ rewrite Hj by assumption. apply (n_int _ HN).
        -- intros j Hx. destruct (Nat.eq_dec j i) as [->|n].
           ++ rewrite Hi. cbn [to_expires set_pending set_expires]. lia.
           ++ rewrite Hj in * by assumption. apply (n_exp _ HN). assumption.
        -- intros j Hx. destruct (Nat.eq_dec j i) as [->|n].
           ++ rewrite Hi in Hx. discriminate.
           ++ rewrite Hj in * by assumption. apply (n_due _ HN). assumption.
      * cbn [tab_step tb_now]. rewrite D. exact Hnow.
      * intro j. cbn [tab_step tb_ival]. destruct (Nat.eq_dec j i) as [->|n].
        -- rewrite Hi. cbn [to_interval set_pending set_expires]. rewrite E2. apply Hival.
        -- rewrite Hj by assumption. apply Hival.
      * intro j. destruct (Nat.eq_dec j i) as [->|n].
        -- rewrite Hi. simpl. rewrite upd_heap_eq. apply Hint.
        -- rewrite Hj by assumption. apply Hint.
      * intro j. destruct (Nat.eq_dec j i) as [->|n].
        -- rewrite Hi. simpl. rewrite upd_heap_eq. apply Habs.
        -- rewrite Hj by assumption. apply Habs.
      * intro j. cbn [tab_step tb_armed]. unfold set1. destruct (Nat.eqb_spec j i) as [->|n].
        -- unfold alive. rewrite Hi. cbn [to_pending to_expires set_pending set_expires].
           rewrite Hdue, <- Hint, <- Hival, <- Hnow.
           replace (to_int (heap T i) && (0 <? to_interval (heap T i))) with true; [reflexivity|].
           symmetry. apply andb_true_intro. split; [assumption|now apply Z.ltb_lt].
        -- unfold alive. rewrite Hj by assumption. apply Harm.
    + exists (Some i), T1. split; [reflexivity|]. split; [|eauto].
      constructor.
      * split; [assumption|]. split; [assumption|]. constructor.
        -- apply (n_cur _ HN).
        -- intro j. destruct (Hf j) as (_ & -> & _). apply (n_int _ HN).
        -- intros j Hx. destruct (Hf j) as (-> & _ & _ & _ & Hq). rewrite Hq in Hx. apply (n_exp _ HN).
           destruct (Nat.eqb j i); congruence.
        -- intros j Hx. destruct (Hf j) as (-> & _ & _ & _ & Hq). rewrite Hq in Hx. apply (n_due _ HN).
           destruct (Nat.eqb j i); congruence.
      * exact Hnow.
      * intro j. destruct (Hf j) as (_ & -> & _). apply Hival.
      * intro j. destruct (Hf j) as (_ & _ & -> & _). apply Hint.
      * intro j. destruct (Hf j) as (_ & _ & _ & -> & _). apply Habs.
      * intro j. cbn [tab_step tb_armed]. unfold set1. rewrite Hdue, <- Hint, <- Hival, Erep.
        unfold alive. destruct (Hf j) as (-> & _ & _ & _ & ->).
        destruct (Nat.eqb j i); [reflexivity|apply Harm].
Qed.

(** Initial state. *)
Lemma init_ok rep ms t0 : (forall i, 0 <= ms i < TB) -> 0 <= t0 < TB ->
  exists T0, InitializeTimeWheel (new_timers rep ms) t0 = Ok T0 /\ Rel rep T0 (tab0 ms t0).
Proof.
  intros Hms Ht. unfold InitializeTimeWheel.
  assert (R0 : Rel rep (timeouts_open (new_timers rep ms)) (tab0 ms 0)).
  { constructor; try reflexivity.
    - split; [|split].
      + constructor; simpl; intros; try (now constructor); try contradiction; try discriminate.
        * split; [|congruence]. rewrite Z.bits_0. discriminate.
      + intros w s i [].
      + constructor; simpl; intros; try discriminate; try congruence.
        * unfold TB. lia.
        * specialize (Hms i). lia. }
  destruct (update_ok rep _ _ t0 R0 Ht) as (T & A & B). exists T. split; [exact A|]. exact B.
Qed.

Lemma tab_snoc rep ms t0 h o : tab rep ms t0 (h ++ [o]) = tab_step rep (tab rep ms t0 h) o.
Proof. unfold tab. rewrite fold_left_app. reflexivity. Qed.

Lemma tab_ival_ok rep ms t0 h : run_ok ms t0 h -> forall i, 0 <= tb_ival (tab rep ms t0 h) i < TB.
Proof.
  intros (Hms & _ & Hops). induction h as [|o h IH] using rev_ind; [exact Hms|].
  apply Forall_app in Hops. destruct Hops as (H1 & H2). inversion H2; subst. specialize (IH H1).
  rewrite tab_snoc. set (S := tab rep ms t0 h) in *. clearbody S. intro i. unfold TB in *.
  destruct o as [j now|j|j v|now|[j|]]; simpl; try apply IH.
  - destruct (rep j); simpl; [|apply IH]. unfold set1. destruct (Nat.eqb i j); [|apply IH].
    specialize (IH j). lia.
  - unfold set1. destruct (Nat.eqb i j); [assumption|apply IH].
Qed.

(** What the table says must hold for the observed operation to be possible. *)
Definition permitted (S : table) (o : op) : Prop :=
  match o with
  | OGet (Some i) => exists d, tb_armed S i = Some (d, true)
  | OGet None => forall i d, tb_armed S i <> Some (d, true)
  | _ => True
  end.

Lemma step_ok rep T S o T' : Rel rep T S -> (forall j, 0 <= tb_ival S j < TB) -> op_ok o -> step T o T' ->
  Rel rep T' (tab_step rep S o) /\ permitted S o.
Proof.
  intros HR Hv Ho Hs. inversion Hs; subst.
  - destruct (add_ok rep T S i now HR Ho Hv) as (T1 & A & B). rewrite A in H. inv H. split; [exact B|exact I].
  - split; [apply del_ok; assumption|exact I].
  - split; [apply set_ok; assumption|exact I].
  - destruct (update_ok rep T S now HR Ho) as (T1 & A & B). rewrite A in H. inv H. split; [exact B|exact I].
  - destruct (get_ok rep T S HR) as (r1 & T1 & A & B & C). rewrite A in H. inv H. split; [exact B|].
    destruct r; exact C.
Qed.

Lemma run_rel rep ms t0 h T : run_ok ms t0 h -> pump_run rep ms t0 h T -> Rel rep T (tab rep ms t0 h).
Proof.
  intros Hok (T0 & Hi & Hs). revert Hok Hi. induction Hs as [T|T h T1 o T2 Hs IH Hst]; intros Hok Hi.
  - destruct Hok as (Hms & Ht & _). destruct (init_ok rep ms t0 Hms Ht) as (T1 & A & B). rewrite A in Hi. inv Hi. exact B.
  - assert (Hok1 : run_ok ms t0 h).
    { destruct Hok as (Hms & Ht & Hf). apply Forall_app in Hf. destruct Hf. exact (conj Hms (conj Ht H)). }
    specialize (IH Hok1 Hi). rewrite tab_snoc.
    eapply step_ok; eauto.
    + apply tab_ival_ok. assumption.
    + destruct Hok as (_ & _ & Hf). apply Forall_app in Hf. destruct Hf as (_ & Hf). now inv Hf.
Qed.

Lemma run_permitted rep ms t0 h o T : run_ok ms t0 (h ++ [o]) -> pump_run rep ms t0 (h ++ [o]) T ->
  permitted (tab rep ms t0 h) o.
Proof.
  intros Hok (T0 & Hi & Hs).
  inversion Hs as [|? h' T1 o' T2 Hs1 Hst E1 E2]; subst.
  - destruct h; discriminate.
  - apply app_inj_tail in E2. destruct E2 as (-> & ->).
    assert (Hok1 : run_ok ms t0 h).
    { destruct Hok as (Hms & Ht & Hf). apply Forall_app in Hf. destruct Hf. exact (conj Hms (conj Ht H)). }
    eapply step_ok with (T := T1) (rep := rep).
    + apply run_rel; [assumption|]. exists T0. auto.
    + apply tab_ival_ok. assumption.
    + destruct Hok as (_ & _ & Hf). apply Forall_app in Hf. destruct Hf as (_ & Hf). now inv Hf.
    + exact Hst.
Qed.

(** Progress: every operation can be carried out (no undefined behaviour, no endless loop). *)
Lemma run_progress rep ms t0 h T : run_ok ms t0 h -> pump_run rep ms t0 h T ->
  (forall i now, 0 <= now < TB -> exists T', AddTimeoutEvent T now i = Ok T') /\
  (forall now, 0 <= now < TB -> exists T', timeouts_update T now = Ok T') /\
  (exists r T', timeouts_get T = Ok (r, T')).
Proof.
  intros Hok Hr. pose proof (run_rel _ _ _ _ _ Hok Hr) as R. pose proof (tab_ival_ok rep _ _ _ Hok) as Hv.
  split; [|split].
  - intros i now Hn. destruct (add_ok _ _ _ i now R Hn Hv) as (T' & A & _). eauto.
  - intros now Hn. destruct (update_ok _ _ _ now R Hn) as (T' & A & _). eauto.
  - destruct (get_ok _ _ _ R) as (r & T' & A & _). eauto.
Qed.
