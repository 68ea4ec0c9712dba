(** C17-C21 and C43: timers (timing wheel + event pump). *)
From Verif.Model Require Import Common TimeWheel.
From Verif.Spec Require Import TimerSpec.
From Verif.Proofs Require Import Tac WheelBits WheelProofs WheelSleep TimerTab.
Open Scope Z_scope.

(** No operation of the wheel runs into undefined behaviour or an endless loop. *)
Theorem C18_operations_total rep ms t0 h T :
  run_ok ms t0 h -> pump_run rep ms t0 h T ->
  (forall i now, 0 <= now < TB -> exists T', AddTimeoutEvent T now i = Ok T') /\
  (forall now, 0 <= now < TB -> exists T', timeouts_update T now = Ok T') /\
  (exists r T', timeouts_get T = Ok (r, T')).
Proof. apply run_progress. Qed.

(** C17.  Whatever the clock does, a timer is reported only if its deadline was reached by a clock
    value the pump has seen; with the monotonic clock ltio uses, by the current one. *)
Theorem C17_never_early rep ms t0 h i T :
  run_ok ms t0 h -> pump_run rep ms t0 (h ++ [OGet (Some i)]) T ->
  exists d, tb_armed (tab rep ms t0 h) i = Some (d, true) /\
    (exists t, In t (clocks t0 h) /\ d <= t) /\
    (ticks_from t0 h -> d <= clock t0 h).
Proof.
  intros Hok Hr.
  assert (Hok' : run_ok ms t0 (h ++ [OGet (Some i)])).
  { destruct Hok as (A & B & C). split; [assumption|]. split; [assumption|]. apply Forall_app. split; [assumption|]. repeat constructor. }
  destruct (run_permitted _ _ _ _ _ _ Hok' Hr) as (d & Hd). exists d. split; [assumption|]. split.
  - assert (S0 : due_seen [t0] (tab0 ms t0)) by (split; [left; reflexivity|discriminate]).
    destruct (due_seen_run rep h (tab0 ms t0) [t0] S0) as (_ & X). apply (X i d Hd).
  - intro Ht. assert (D0 : due_ok (tab0 ms t0)) by (intros j e; discriminate).
    pose proof (due_run rep h (tab0 ms t0) D0 Ht i d Hd) as X. rewrite run_now in X. exact X.
Qed.

(** The same in terms of the calls made: a one-shot timer added at [now] with delay [v] and neither
    removed nor re-added fires only once the clock shows [now + v]. *)
Theorem C17_one_shot_never_early rep ms t0 h1 i now h2 T :
  rep i = false ->
  run_ok ms t0 (h1 ++ OAdd i now :: h2 ++ [OGet (Some i)]) ->
  pump_run rep ms t0 (h1 ++ OAdd i now :: h2 ++ [OGet (Some i)]) T ->
  forallb (fun o => negb (rearms i o)) h2 = true ->
  ticks_from t0 (h1 ++ OAdd i now :: h2) ->
  now + interval_of rep ms t0 h1 i <= clock t0 (h1 ++ OAdd i now :: h2).
Proof.
  intros Hrep Hok Hr Hn Ht.
  replace (h1 ++ OAdd i now :: h2 ++ [OGet (Some i)]) with ((h1 ++ OAdd i now :: h2) ++ [OGet (Some i)]) in *
    by (rewrite <- app_assoc; reflexivity).
  destruct (C17_never_early rep ms t0 _ i T (run_ok_prefix _ _ _ _ Hok) Hr) as (d & Hd & _ & X).
  specialize (X Ht).
  enough (d = now + interval_of rep ms t0 h1 i) by lia.
  unfold tab in Hd. rewrite fold_left_app in Hd. cbn [fold_left] in Hd. fold (tab rep ms t0 h1) in Hd.
  set (S := tab rep ms t0 h1) in *.
  assert (A : tb_armed (tab_step rep S (OAdd i now)) i = Some (now + tb_ival S i, now + tb_ival S i <=? tb_now S)).
  { cbn [tab_step tb_armed]. unfold set1. rewrite Nat.eqb_refl, Hrep. reflexivity. }
  destruct (untouched_oneshot rep i (now + tb_ival S i) h2 Hrep Hn _ (or_introl (ex_intro _ _ A))) as [(b & B)|B];
    unfold run in B; rewrite Hd in B; [|discriminate]. inv B. reflexivity.
Qed.

(** C18.  When timeouts_get reports "nothing more", no installed timer's deadline has been reached;
    all others are still installed with their deadlines ([tab] never drops one). *)
Theorem C18_none_left_due rep ms t0 h T :
  run_ok ms t0 h -> pump_run rep ms t0 (h ++ [OGet None]) T ->
  forall i d b, tb_armed (tab rep ms t0 h) i = Some (d, b) -> b = false /\ clock t0 h < d.
Proof.
  intros Hok Hr i d b Ha.
  assert (Hok' : run_ok ms t0 (h ++ [OGet None])).
  { destruct Hok as (A & B & C). split; [assumption|]. split; [assumption|]. apply Forall_app. split; [assumption|]. repeat constructor. }
  pose proof (run_permitted _ _ _ _ _ _ Hok' Hr) as X. simpl in X.
  destruct b; [exfalso; eapply X; eauto|]. split; [reflexivity|].
  destruct (run_prefix _ _ _ _ _ _ Hr) as (T1 & Hr1).
  pose proof (run_rel _ _ _ _ _ Hok Hr1) as R. rewrite <- (r_arm _ _ _ R) in Ha. unfold alive in Ha.
  destruct (to_pending (heap T1 i)) as [[|w s]|] eqn:Hp; try discriminate. inv Ha.
  destruct (r_inv _ _ _ R) as (HC & HP & _).
  assert (Hin : In i (wheel T1 w s)) by (apply (c_wheel' _ _ HC); auto).
  pose proof (place_later _ _ _ _ (HP _ _ _ Hin)) as L. rewrite (r_now _ _ _ R) in L.
  change (tab rep ms t0 h) with (run rep h (tab0 ms t0)) in L. rewrite run_now in L. exact L.
Qed.

(** Every pass of ProcessTimerEvent at time [now], whatever the handlers do to other timers, runs
    the handler of a timer whose deadline is reached exactly once, and no other handler. *)
Theorem C18_process_fires_exactly_once rep ms t0 h l now i d b T :
  run_ok ms t0 (h ++ l) -> pump_run rep ms t0 (h ++ l) T -> process_trace now l ->
  tb_armed (tab rep ms t0 h) i = Some (d, b) ->
  forallb (fun o => negb (rearms i o)) l = true ->
  (d <= now -> fires i l = 1%nat) /\ (b = false -> now < d -> fires i l = 0%nat).
Proof.
  intros Hok Hr Hp Ha Hn.
  pose proof (run_legal _ _ _ _ _ Hok Hr) as L. apply legal_app in L. destruct L as (_ & L).
  split.
  - intro Hle. eapply process_fires_due; eauto.
  - intros -> Hlt. eapply process_not_due; eauto.
Qed.

(** Such a pass can always be completed when the handlers themselves add no work. *)
Theorem C18_drain_terminates rep ms t0 h T :
  run_ok ms t0 h -> pump_run rep ms t0 h T ->
  exists l T', steps T l T' /\ drain_trace l.
Proof.
  intros Hok Hr. destruct (drain_exists rep _ T _ (run_rel _ _ _ _ _ Hok Hr) eq_refl) as (l & T' & A & B & _). eauto.
Qed.

(** C19.  The wait before polling: at most 50ms, zero exactly when a timer is due, and never past the
    deadline of an installed timer. *)
Theorem C19_sleep_bound rep ms t0 h T now :
  run_ok ms t0 h -> pump_run rep ms t0 h T -> 0 <= now < TB ->
  exists t T', NextTimeout T now = Ok (t, T') /\ 0 <= t <= 50 /\
    (t = 0 <-> exists i d, tb_armed (tab rep ms t0 (h ++ [OTick now])) i = Some (d, true)) /\
    (forall i d, tb_armed (tab rep ms t0 (h ++ [OTick now])) i = Some (d, false) -> now + t <= d).
Proof.
  intros Hok Hr Hn. rewrite tab_snoc.
  destruct (next_timeout_ok rep T _ now (run_rel _ _ _ _ _ Hok Hr) Hn) as (t & T' & A & _ & B & C & D).
  exists t, T'. split; [assumption|]. split; [assumption|]. split; [symmetry; assumption|assumption].
Qed.

Theorem C19_pump_wait rep ms t0 h T now m :
  run_ok ms t0 h -> pump_run rep ms t0 h T -> 0 <= now < TB -> 0 <= m ->
  exists t T', PumpWait T now m = Ok (t, T') /\ 0 <= t <= Z.min m 50 /\
    (forall i d b, tb_armed (tab rep ms t0 h) i = Some (d, b) -> now + t <= Z.max now d).
Proof.
  intros Hok Hr Hn Hm. destruct (C19_sleep_bound rep ms t0 h T now Hok Hr Hn) as (t & T' & A & B & C & D).
  unfold PumpWait. rewrite A. cbn [obind]. exists (Z.min m t), T'. split; [reflexivity|]. split; [lia|].
  intros i d b Ha. rewrite tab_snoc in C, D. cbn [tab_step tb_armed] in C, D.
  specialize (D i d). rewrite Ha in D. destruct (b || (d <=? now)) eqn:E.
  - assert (t = 0). { apply C. exists i, d. now rewrite Ha, E. } lia.
  - specialize (D eq_refl). lia.
Qed.

(** C20.  After a removal the timer does not fire again until it is added again... *)
Theorem C20_removed_never_fires rep ms t0 h1 i h2 T :
  run_ok ms t0 (h1 ++ ODel i :: h2) -> pump_run rep ms t0 (h1 ++ ODel i :: h2) T ->
  forallb (fun o => negb (match o with OAdd j _ => Nat.eqb j i | _ => false end)) h2 = true ->
  fires i h2 = 0%nat.
Proof.
  intros Hok Hr Hn. pose proof (run_legal _ _ _ _ _ Hok Hr) as L. apply legal_app in L. destruct L as (_ & L).
  cbn [legal] in L. destruct L as (_ & L). set (S := tab_step rep _ (ODel i)) in L.
  assert (HS : tb_armed S i = None) by (unfold S; cbn [tab_step tb_armed]; unfold set1; now rewrite Nat.eqb_refl).
  clearbody S. clear Hok Hr. revert S L HS. induction h2 as [|o h2 IH]; intros S L HS; [reflexivity|].
  cbn [legal] in L. destruct L as (Hp & L). cbn [forallb] in Hn. b2p. rewrite fires_cons.
  rewrite (IH H0 _ L).
  - destruct o as [| | | |[j|]]; auto. destruct (Nat.eqb_spec j i) as [->|]; auto.
    exfalso. destruct Hp as (d & Hp). congruence.
  - destruct o as [j now|j|j v|now|[j|]]; cbn [tab_step tb_armed]; auto.
    + unfold set1. rewrite Nat.eqb_sym, H. assumption.
    + unfold set1. destruct (Nat.eqb i j); auto.
    + now rewrite HS.
    + unfold set1. destruct (Nat.eqb_spec i j) as [<-|]; [|assumption]. now rewrite HS.
Qed.

(** ... it is on no list of the wheel, and every other timer object is untouched. *)
Theorem C20_removed_is_detached rep ms t0 h i T :
  run_ok ms t0 h -> pump_run rep ms t0 h T ->
  let T' := RemoveTimeoutEvent T i in
  to_pending (heap T' i) = None /\ ~ In i (expired T') /\ (forall w s, ~ In i (wheel T' w s)) /\
  (forall j, j <> i -> heap T' j = heap T j /\
     (In j (expired T') <-> In j (expired T)) /\ (forall w s, In j (wheel T' w s) <-> In j (wheel T w s))).
Proof.
  intros Hok Hr. cbv zeta. pose proof (run_rel _ _ _ _ _ Hok Hr) as R.
  destruct (r_inv _ _ _ R) as (HC & HP & _).
  destruct (del_cons T i HC HP) as (HC' & _ & _ & D). unfold RemoveTimeoutEvent.
  set (T' := timeouts_del T i) in *. clearbody T'.
  assert (Hi : to_pending (heap T' i) = None) by (rewrite D, Nat.eqb_refl; reflexivity).
  split; [assumption|]. split; [|split].
  - intro Hx. apply (c_exp _ _ HC') in Hx. destruct Hx. congruence.
  - intros w s Hx. apply (c_wheel _ _ HC') in Hx. destruct Hx. congruence.
  - intros j n. assert (E : heap T' j = heap T j) by (rewrite D; apply Nat.eqb_neq in n; now rewrite n).
    split; [assumption|]. split.
    + split; intro Hx.
      * apply (c_exp' _ _ HC); [auto|]. rewrite <- E. now apply (c_exp _ _ HC').
      * apply (c_exp' _ _ HC'); [auto|]. rewrite E. now apply (c_exp _ _ HC).
    + intros w s. split; intro Hx.
      * apply (c_wheel' _ _ HC); [auto|]. rewrite <- E. now apply (c_wheel _ _ HC').
      * apply (c_wheel' _ _ HC'); [auto|]. rewrite E. now apply (c_wheel _ _ HC).
Qed.

(** C21.  A repeating timer fetched with deadline [d] and interval [v] is re-armed at the first
    d + k*v after the current time. *)
Theorem C21_rearmed_at_next_multiple rep ms t0 h i T :
  run_ok ms t0 h -> pump_run rep ms t0 (h ++ [OGet (Some i)]) T ->
  rep i = true -> 0 < interval_of rep ms t0 h i ->
  exists d k, tb_armed (tab rep ms t0 h) i = Some (d, true) /\ 1 <= k /\
    to_expires (heap T i) = d + k * interval_of rep ms t0 h i /\
    to_pending (heap T i) <> None /\
    clock t0 h < d + k * interval_of rep ms t0 h i /\
    (forall k', 1 <= k' -> clock t0 h < d + k' * interval_of rep ms t0 h i -> k <= k').
Proof.
  intros Hok Hr Hrep Hv.
  assert (Hok' : run_ok ms t0 (h ++ [OGet (Some i)])).
  { destruct Hok as (A & B & C). split; [assumption|]. split; [assumption|]. apply Forall_app. split; [assumption|]. repeat constructor. }
  destruct (run_permitted _ _ _ _ _ _ Hok' Hr) as (d & Hd).
  pose proof (run_rel _ _ _ _ _ Hok' Hr) as R. rewrite tab_snoc in R.
  unfold interval_of in *. set (S := tab rep ms t0 h) in *.
  assert (Hnow : tb_now S = clock t0 h) by (unfold S; change (tab rep ms t0 h) with (run rep h (tab0 ms t0)); apply run_now).
  destruct (next_period_spec d (tb_ival S i) (tb_now S) Hv) as (k & K1 & K2 & K3 & K4).
  exists d, k. rewrite Hnow in *. split; [assumption|]. split; [assumption|].
  pose proof (r_arm _ _ _ R i) as A. cbn [tab_step tb_armed] in A. unfold set1 in A.
  rewrite Nat.eqb_refl, Hd, Hrep in A. replace (0 <? tb_ival S i) with true in A by (symmetry; now apply Z.ltb_lt).
  simpl in A. unfold alive in A. rewrite Hnow, K2 in A.
  destruct (to_pending (heap T i)) as [[|w s]|] eqn:Hp; try discriminate. injection A as A.
  split; [assumption|]. split; [discriminate|]. split; [lia|assumption].
Qed.

(** No drift, and at most one firing per period: a repeating timer added when the pump's clock showed
    [c] with interval v (and left alone) always has a deadline c + v + k*v, and by the time the clock
    shows t it has fired at most (t - c) / v times. *)
Theorem C21_phase_and_rate rep ms t0 h1 i now h2 T :
  rep i = true ->
  run_ok ms t0 (h1 ++ OAdd i now :: h2) -> pump_run rep ms t0 (h1 ++ OAdd i now :: h2) T ->
  forallb (fun o => negb (rearms i o) && negb (reinterval i o)) h2 = true ->
  ticks_from t0 (h1 ++ OAdd i now :: h2) ->
  let v := interval_of rep ms t0 h1 i in
  1 <= v ->
  (exists k b, tb_armed (tab rep ms t0 (h1 ++ OAdd i now :: h2)) i = Some (clock t0 h1 + v + k * v, b) /\
     Z.of_nat (fires i h2) <= k) /\
  v * Z.of_nat (fires i h2) <= clock t0 (h1 ++ OAdd i now :: h2) - clock t0 h1.
Proof.
  intros Hrep Hok Hr Hn Ht v Hv.
  set (S1 := run rep h1 (tab0 ms t0)).
  assert (N1 : tb_now S1 = clock t0 h1) by (unfold S1; apply run_now).
  assert (V1 : tb_ival S1 i = v) by reflexivity.
  assert (P0 : phase i (clock t0 h1) v 0 (tab_step rep S1 (OAdd i now))).
  { split.
    - cbn [tab_step tb_ival]. rewrite Hrep. unfold set1. rewrite Nat.eqb_refl, V1. lia.
    - exists 0. eexists. cbn [tab_step tb_armed]. unfold set1. rewrite Nat.eqb_refl, Hrep, V1, N1.
      split; [|lia]. f_equal. f_equal. lia. }
  assert (ET : forall l, tab rep ms t0 (h1 ++ OAdd i now :: l) = run rep l (tab_step rep S1 (OAdd i now))).
  { intro l. change (tab rep ms t0 (h1 ++ OAdd i now :: l)) with (run rep (h1 ++ OAdd i now :: l) (tab0 ms t0)).
    rewrite run_app. reflexivity. }
  split.
  - destruct (phase_run rep i (clock t0 h1) v h2 Hrep ltac:(lia) Hn _ _ P0) as (_ & k & b & A & B).
    exists k, b. rewrite ET. split; [exact A|]. simpl in B. exact B.
  - (* induct on h2 from the right *)
    revert T Hok Hr Hn Ht. induction h2 as [|o h2 IH] using rev_ind; intros T Hok Hr Hn Ht.
    + unfold fires. simpl. 
      assert (E : clock t0 (h1 ++ [OAdd i now]) = clock t0 h1).
      { change (clock (tb_now (tab0 ms t0)) (h1 ++ [OAdd i now]) = clock (tb_now (tab0 ms t0)) h1).
        rewrite <- !(run_now rep). rewrite run_app. reflexivity. }
      rewrite E. lia.
    + replace (h1 ++ OAdd i now :: h2 ++ [o]) with ((h1 ++ OAdd i now :: h2) ++ [o]) in *
        by (rewrite <- app_assoc; reflexivity).
      destruct (run_prefix _ _ _ _ _ _ Hr) as (T1 & Hr1).
      rewrite forallb_app in Hn. b2p.
      assert (Ht1 : ticks_from t0 (h1 ++ OAdd i now :: h2)).
      { revert Ht. generalize (h1 ++ OAdd i now :: h2) as hh. clear. intro hh. revert t0.
        induction hh as [|x hh IHh]; intros t0 Ht; [exact I|]. destruct x; simpl in *; try (now apply IHh).
        destruct Ht. split; [assumption|]. now apply IHh. }
      specialize (IH T1 (run_ok_prefix _ _ _ _ Hok) Hr1 H Ht1).
      assert (Hc : clock t0 (h1 ++ OAdd i now :: h2) <= clock t0 ((h1 ++ OAdd i now :: h2) ++ [o])).
      { revert Ht. generalize (h1 ++ OAdd i now :: h2) as hh. clear. intro hh. revert t0.
        induction hh as [|x hh IHh]; intros t0 Ht.
        - destruct o; simpl in *; lia.
        - destruct x; simpl in *; apply IHh; tauto. }
      rewrite fires_app, fires_cons.
      destruct o as [j t|j|j t|t|[j|]]; try (change (fires i []) with 0%nat; simpl; lia).
      destruct (Nat.eqb_spec j i) as [->|n]; [|change (fires i []) with 0%nat; simpl; lia].
      destruct (C17_never_early rep ms t0 _ i T (run_ok_prefix _ _ _ _ Hok) Hr) as (d & Hd & _ & Hle).
      specialize (Hle Ht1).
      destruct (phase_run rep i (clock t0 h1) v h2 Hrep ltac:(lia) H _ _ P0) as (_ & k & b & A & B).
      rewrite ET in Hd. rewrite A in Hd. inv Hd.
      change (fires i []) with 0%nat. simpl in B. nia.
Qed.

(** C43.  "A timer added with delay v does not fire before v milliseconds after the add call."
    True for one-shot timers (C17_one_shot_never_early); false for repeating ones, whose first
    deadline is counted from the last time the pump looked at the clock. *)
Definition C43_statement : Prop :=
  forall rep ms t0 h1 i now h2 T,
  run_ok ms t0 (h1 ++ OAdd i now :: h2 ++ [OGet (Some i)]) ->
  pump_run rep ms t0 (h1 ++ OAdd i now :: h2 ++ [OGet (Some i)]) T ->
  forallb (fun o => negb (rearms i o)) h2 = true ->
  ticks_from t0 (h1 ++ OAdd i now :: h2) ->
  clock t0 h1 <= now ->
  now + interval_of rep ms t0 h1 i <= clock t0 (h1 ++ OAdd i now :: h2).

(** A handler that ran for 5s adds a repeating timer of 1s: it fires at once. *)
Theorem C43_repeating_timer_fires_early_refuted : ~ C43_statement.
Proof.
  intro H.
  destruct (run_exec_ok (fun _ => true) (fun _ => 1000) 0 [OAdd 0%nat 5000; OTick 5000; OGet (Some 0%nat)]) as (T & Hr).
  { vm_compute. reflexivity. }
  assert (X := H (fun _ => true) (fun _ => 1000) 0 [] 0%nat 5000 [OTick 5000] T).
  assert (Y : 5000 + 1000 <= 5000); [|lia].
  apply X.
  - split; [intro; unfold TB; lia|]. split; [unfold TB; lia|]. repeat constructor; unfold TB; simpl; lia.
  - exact Hr.
  - reflexivity.
  - simpl. lia.
  - simpl. lia.
Qed.

(** What holds instead: the delay is counted from the pump's last clock reading. *)
Theorem C43_from_last_reading_partial rep ms t0 h1 i now h2 T :
  rep i = true ->
  run_ok ms t0 (h1 ++ OAdd i now :: h2 ++ [OGet (Some i)]) ->
  pump_run rep ms t0 (h1 ++ OAdd i now :: h2 ++ [OGet (Some i)]) T ->
  forallb (fun o => negb (rearms i o) && negb (reinterval i o)) h2 = true ->
  ticks_from t0 (h1 ++ OAdd i now :: h2 ++ [OGet (Some i)]) ->
  1 <= interval_of rep ms t0 h1 i ->
  clock t0 h1 + interval_of rep ms t0 h1 i <= clock t0 (h1 ++ OAdd i now :: h2 ++ [OGet (Some i)]).
Proof.
  intros Hrep Hok Hr Hn Ht Hv.
  destruct (C21_phase_and_rate rep ms t0 h1 i now (h2 ++ [OGet (Some i)]) T Hrep Hok Hr) as (_ & R); try assumption.
  { rewrite forallb_app, Hn. reflexivity. }
  rewrite fires_app, fires_cons, Nat.eqb_refl in R. change (fires i []) with 0%nat in R. nia.
Qed.

(** Concrete runs meeting the hypotheses: two timers, a jump over several revolutions of the
    lowest wheel, a repeating timer fetched late, a removal. *)
Example timers_run : exists T, pump_run (fun i => Nat.eqb i 1) (fun i => if Nat.eqb i 1 then 30 else 5000) 1000
  [OAdd 0%nat 1010; OAdd 1%nat 1010; OAdd 2%nat 1020; OTick 1029; OGet None; OTick 1095; OGet (Some 1%nat); OGet None;
   ODel 2%nat; OTick 6010; OGet (Some 0%nat); OGet (Some 1%nat); OGet None] T.
Proof. apply run_exec_ok. vm_compute. reflexivity. Qed.

Example timers_process : process_trace 6010 [OTick 6010; OGet (Some 0%nat); OGet (Some 1%nat); OGet None].
Proof.
  exists [OGet (Some 0%nat); OGet (Some 1%nat); OGet None]. split; [reflexivity|].
  apply (dt_fire 0 [] _ eq_refl). apply (dt_fire 1 [] _ eq_refl). constructor.
Qed.

Example timers_table : 
  let S := tab (fun i => Nat.eqb i 1) (fun i => if Nat.eqb i 1 then 30 else 5000) 1000
    [OAdd 0%nat 1010; OAdd 1%nat 1010; OAdd 2%nat 1020; OTick 1029; OGet None; OTick 1095; OGet (Some 1%nat); OGet None; ODel 2%nat] in
  tb_armed S 0%nat = Some (6010, false) /\ tb_armed S 1%nat = Some (1120, false) /\ tb_armed S 2%nat = None.
Proof. vm_compute. auto. Qed.

Print Assumptions C18_operations_total.
Print Assumptions C17_never_early.
Print Assumptions C17_one_shot_never_early.
Print Assumptions C18_none_left_due.
Print Assumptions C18_process_fires_exactly_once.
Print Assumptions C18_drain_terminates.
Print Assumptions C19_sleep_bound.
Print Assumptions C19_pump_wait.
Print Assumptions C20_removed_never_fires.
Print Assumptions C20_removed_is_detached.
Print Assumptions C21_rearmed_at_next_multiple.
Print Assumptions C21_phase_and_rate.
Print Assumptions C43_repeating_timer_fires_early_refuted.
Print Assumptions C43_from_last_reading_partial.
