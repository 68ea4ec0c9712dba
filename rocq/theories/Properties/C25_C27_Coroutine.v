(** C25-C27, C45 and C46: coroutines, the coroutine mutex and the wait group. *)
From Verif.Model Require Import Common Coro CoSync.
From Verif.Spec Require Import CoroSpec.
From Verif.Proofs Require Import Tac CoroProofs CoSyncProofs.

(** * C25: CoMutex *)

(** Throughout this section a coroutine blocked in lock() is woken only by the resumer lock() itself
    made ([no MEStray]); see C46 for what happens otherwise. *)

(** At most one coroutine is inside the critical section. *)
Theorem C25_mutual_exclusion h s :
  mrun h s -> (forall c, ~ In (MEStray c) h) -> length (inside h) <= 1.
Proof.
  intros R N. destruct (inside_pc h s R N) as [I ND]. pose proof (MI_run _ _ R N) as K.
  assert (U : forall a b, In a (inside h) -> In b (inside h) -> a = b).
  { intros a b Ha Hb. apply I in Ha. apply I in Hb.
    assert (X : TH a = TH b); [|congruence]. apply (mi_tok _ K); cbn.
    - destruct (mp s a); auto; discriminate.
    - destruct (mp s b); auto; discriminate. }
  destruct (inside h) as [|a [|b l]]; cbn; try lia.
  exfalso. inversion ND; subst. apply H1. rewrite (U a b); cbn; auto.
Qed.

(** Waiters obtain the mutex in the order in which they blocked: those that got it, then at most one
    to which it has been handed over but who has not run yet, then the queue. *)
Theorem C25_fifo_handover h s :
  mrun h s -> (forall c, ~ In (MEStray c) h) ->
  exists l, length l <= 1 /\ blocked h = entered_w h ++ l ++ waiters s.
Proof.
  intros R N. destruct (order_run h s R N) as (l & T & E). exists l. split; auto.
  destruct T as [(-> & _)|(w & -> & _)]; cbn; lia.
Qed.

(** Nobody barges in: while some coroutine waits (or the mutex is being handed over), no lock or
    try_lock succeeds directly. *)
Theorem C25_no_barging h s c s' :
  mrun h s -> (forall c, ~ In (MEStray c) h) -> mstep s (MEEnter c) s' ->
  blocked h = entered_w h.
Proof.
  intros R N St. destruct (order_run h s R N) as (l & T & E). pose proof (MI_run _ _ R N) as K.
  assert (L : mlocked s = false) by (inversion St; auto).
  assert (W : waiters s = []).
  { destruct (waiters s) eqn:W; auto. assert (mlocked s = true) by (apply (mi_wl _ K); congruence). congruence. }
  destruct T as [(-> & _)|(w & -> & [(d & C)|C])].
  - rewrite E, W. cbn. now rewrite app_nil_r.
  - assert (mlocked s = true) by (apply (mi_tl _ K (TT d w)); auto). congruence.
  - assert (mlocked s = true) by (apply (mi_tl _ K (TG w)); auto). congruence.
Qed.

(** If somebody waits, the mutex is not free: it is held, or on its way to the waiter at the head. *)
Theorem C25_never_free_while_waited h s :
  mrun h s -> (forall c, ~ In (MEStray c) h) -> waiters s <> [] ->
  mlocked s = true /\
  ((exists c, own (mp s c) = true) \/ (exists c w, mp s c = MPop w \/ mp s c = MRes w) \/
   (exists w, granted s w = true)).
Proof.
  intros R N W. pose proof (MI_run _ _ R N) as K. pose proof (mi_wl _ K W) as L. split; auto.
  destruct (mi_lt _ K L) as [[c|c w|w] T]; cbn in T; eauto.
  right; left. exists c, w. destruct (mp s c); try discriminate; injection T as ->; auto.
Qed.

(** lock waits, and try_lock fails, only while the mutex is held by another coroutine or being handed to a waiter. *)
Theorem C25_refused_only_while_held h s c s' :
  mrun h s -> (forall c, ~ In (MEStray c) h) -> mstep s (METryFail c) s' \/ mstep s (MEBlock c) s' ->
  (exists d, d <> c /\ own (mp s d) = true) \/ (exists d w, mp s d = MPop w \/ mp s d = MRes w) \/
  (exists w, granted s w = true).
Proof.
  intros R N St. pose proof (MI_run _ _ R N) as K.
  assert (L : mlocked s = true /\ own (mp s c) = false).
  { destruct St as [St|St]; inversion St; subst; (split; [assumption|]);
      match goal with H : mp s c = _ |- _ => rewrite H; reflexivity end. }
  destruct L as [L O]. destruct (mi_lt _ K L) as [[d|d w|w] T]; cbn in T.
  - left. exists d. split; [congruence|exact T].
  - right; left. exists d, w. destruct (mp s d); try discriminate; injection T as ->; auto.
  - eauto.
Qed.
Print Assumptions C25_refused_only_while_held.

(** A blocked coroutine is never forgotten: it is queued, or being handed the mutex. *)
Theorem C25_blocked_is_tracked h s w :
  mrun h s -> (forall c, ~ In (MEStray c) h) -> mp s w = MYield ->
  In w (waiters s) \/ granted s w = true \/ exists c, mp s c = MPop w \/ mp s c = MRes w.
Proof.
  intros R N W. pose proof (MI_run _ _ R N) as K.
  destruct (mi_y _ K w W) as [?|[?|(c & T)]]; auto. right; right. exists c.
  destruct (mp s c); try discriminate; injection T as ->; auto.
Qed.

(** C46.  "The mutex excludes even if a coroutine blocked in lock() is woken by another of its
    resumers." *)
Definition C46_statement := forall h s, mrun h s -> length (inside h) <= 1.

(** False: lock() returns without re-checking whether it was handed the mutex. *)
Theorem C46_statement_refuted : ~ C46_statement.
Proof.
  intros C.
  assert (X : exists h s, mrun h s /\ length (inside h) = 2).
  { eexists _, _. split.
    - eapply mrun_snoc; [eapply mrun_snoc; [eapply mrun_snoc; [eapply mrun_snoc; [eapply mrun_snoc; [
      eapply mrun_snoc; [eapply mrun_snoc; [eapply mrun_snoc; [eapply mrun_snoc; [apply mrun_nil|]|]|]|]|]|]|]|]|].
      + apply (m_lock _ 1). reflexivity.
      + apply (m_spin_l _ 1); reflexivity.
      + apply (m_take _ 1); reflexivity.
      + apply (m_got _ 1 false); reflexivity.
      + apply (m_lock _ 2). reflexivity.
      + apply (m_spin_l _ 2); reflexivity.
      + apply (m_block _ 2); reflexivity.
      + apply (m_yield _ 2); reflexivity.
      + apply (m_stray _ 2); reflexivity.
    - reflexivity. }
  destruct X as (h & s & R & E). apply C in R. lia.
Qed.

Theorem C46_exclusion_without_stray_resumers_partial h s :
  mrun h s -> (forall c, ~ In (MEStray c) h) -> length (inside h) <= 1.
Proof. apply C25_mutual_exclusion. Qed.

(** * C26: WaitGroup *)
Local Open Scope Z_scope.

(** Uses: no Done without an earlier Add. *)
Definition wg_used_properly (h : list wev) := forall a b, h = a ++ b -> dones a <= added a.

(** C26.  "Wait returns success only when as many Done calls were made as were registered." *)
Definition C26_statement := forall h s,
  wrun (h ++ [WEReturn false]) s -> wg_used_properly h -> dones h = added h.

(** False: if the counter touches zero between two Adds, the wakeup posted by that Done ends a later
    Wait. *)
Theorem C26_statement_refuted : ~ C26_statement.
Proof.
  intros C.
  assert (X : exists s, wrun ([WEAdd 1; WEDone; WEAdd 1; WEWait; WETau; WETau] ++ [WEReturn false]) s).
  { eexists.
    change ([WEAdd 1; WEDone; WEAdd 1; WEWait; WETau; WETau] ++ [WEReturn false]) with
      ((((((([] ++ [WEAdd 1]) ++ [WEDone]) ++ [WEAdd 1]) ++ [WEWait]) ++ [WETau]) ++ [WETau]) ++ [WEReturn false]).
    eapply wrun_snoc; [eapply wrun_snoc; [eapply wrun_snoc; [eapply wrun_snoc; [eapply wrun_snoc; [
      eapply wrun_snoc; [eapply wrun_snoc; [apply wrun_nil|]|]|]|]|]|]|].
    - apply w_add. lia.
    - apply w_done_last. reflexivity.
    - apply w_add. lia.
    - apply w_wait; [reflexivity|cbn; lia].
    - apply (w_block _ false). reflexivity.
    - eapply w_wakeup; [reflexivity|discriminate].
    - apply (w_return (mkW _ _ _ false _)). reflexivity. }
  destruct X as (s & R). specialize (C _ _ R). cut (wg_used_properly [WEAdd 1; WEDone; WEAdd 1; WEWait; WETau; WETau]).
  { intros U. specialize (C U). discriminate C. }
  intros a b E. do 6 (destruct a as [|? a]; [vm_compute; discriminate|cbn in E; injection E as <- E]).
  destruct a; [vm_compute; discriminate|discriminate].
Qed.

(** It holds when the counter does not touch zero before the last Add (for instance when all Adds
    precede the first Done); missing: Adds after the counter has been zero. *)
Theorem C26_wait_is_complete_partial h s :
  wrun (h ++ [WEReturn false]) s -> wg_used_properly h ->
  (forall a b n, h = a ++ WEDone :: b -> dones a + 1 = added a -> ~ In (WEAdd n) b) ->
  dones h = added h.
Proof.
  intros R U Z. inversion R as [|h0 s0 e s1 R0 St E]; [destruct h; discriminate|].
  apply app_inj_tail in E. destruct E as [-> ->]. subst s1.
  assert (C : wcount s0 = 0 \/ touched h).
  { inversion St; subst; auto. right. eapply wg_touched; eauto. }
  destruct C as [C|(a & b & -> & E)].
  - rewrite (wcount_run _ _ R0) in C. lia.
  - assert (added b = 0).
    { assert (N : forall n, ~ In (WEAdd n) b) by (intros n; eapply Z; eauto).
      clear -N. induction b as [|[] b IH]; cbn [added]; auto; try (apply IH; intros m X; apply (N m); right; auto).
      exfalso. apply (N n). left; auto. }
    assert (0 <= dones b) by (clear; induction b as [|[] b IH]; cbn [dones]; lia).
    specialize (U (a ++ WEDone :: b) []). rewrite app_nil_r in U. specialize (U eq_refl).
    rewrite added_app, dones_app in *. cbn [added dones] in *. lia.
Qed.

(** The other direction holds always: once all work is done a blocked Wait has its wakeup posted. *)
Theorem C26_no_lost_wakeup h s :
  wrun h s -> wg_used_properly h -> wp s = WArming \/ wp s = WBlocked -> dones h = added h ->
  (0 < wpost s)%nat.
Proof.
  intros R U W E. eapply wg_no_lost; eauto. rewrite (wcount_run _ _ R). lia.
Qed.

(** * C27: resuming *)
Local Open Scope nat_scope.

(** A coroutine is switched to only while it is suspended: the last thing that happened to it was a
    suspension.  So of all resumers of one suspension at most one wakes it. *)
Theorem C27_wakes_only_suspended h c s :
  krun (h ++ [EWake c]) s ->
  exists h1 h2, h = h1 ++ ESuspend c :: h2 /\ forall e, In e h2 -> ~ moves_co c e.
Proof.
  intros R. inversion R as [|h0 s0 e s1 R0 A St E]; [destruct h; discriminate|].
  apply app_inj_tail in E. destruct E as [-> ->]. subst. pose proof (KI_run _ _ R0) as K.
  inversion St; subst. apply (ki_susp _ _ K).
  assert (L : live (stat s0 c)) by (apply (ki_ready _ _ K); rewrite H2; left; auto).
  destruct L as [L|L]; auto. apply (ki_cur _ _ K) in L. congruence.
Qed.

(** Every wake is caused by a resumer that the coroutine took in the run that led to the present
    suspension (after its previous start), invoked since: resumers of earlier suspensions never wake
    it. *)
Theorem C27_wake_has_its_own_resumer h c s :
  krun (h ++ [EWake c]) s ->
  exists h1 h2 h3 r, h = h1 ++ ETake c r :: h2 ++ ECall r :: h3 /\
    (forall e, In e h2 -> ~ starts_co c e) /\ (forall e, In e h3 -> ~ starts_co c e).
Proof.
  intros R. inversion R as [|h0 s0 e s1 R0 A St E]; [destruct h; discriminate|].
  apply app_inj_tail in E. destruct E as [-> ->]. subst. pose proof (KI_run _ _ R0) as K.
  inversion St; subst. apply (ki_cause _ _ K). rewrite H2; left; auto.
Qed.

(** No resume is lost: if a resumer taken in the current run has been invoked and the coroutine has
    not run since, it is in the ready list (or has finished). *)
Theorem C27_resume_not_lost h s h1 h2 h3 c r :
  krun h s -> h = h1 ++ ETake c r :: h2 ++ ECall r :: h3 ->
  (forall e, In e h2 -> ~ starts_co c e) -> (forall e, In e h3 -> ~ starts_co c e) ->
  stat s c = CSusp -> In c (ready s).
Proof.
  intros R E N2 N3 S. eapply (ki_eff _ _ (KI_run _ _ R)); eauto. right; auto.
Qed.

(** And it is there once: the next round of the scheduler wakes it once. *)
Theorem C27_ready_once h s : krun h s -> NoDup (ready s).
Proof. intros R. apply (ki_nodup _ _ (KI_run _ _ R)). Qed.

(** C45.  "Invoking a resumer never terminates the process." *)
Definition C45_statement := forall h s, krun h s -> aborted s = false.

(** False: a resumer invoked before its coroutine suspends links the running coroutine into the ready
    list; if the coroutine then finishes instead of suspending, GC's CHECK(!Attatched()) fails. *)
Theorem C45_statement_refuted : ~ C45_statement.
Proof.
  intros C.
  assert (X : exists h s, krun h s /\ aborted s = true).
  { eexists _, _. split.
    - eapply krun_snoc; [eapply krun_snoc; [eapply krun_snoc; [eapply krun_snoc; [apply krun_nil| |]| |]| |]| |].
      + reflexivity.
      + apply (k_spawn _ 1); [reflexivity|left; reflexivity].
      + reflexivity.
      + apply (k_take _ 1); reflexivity.
      + reflexivity.
      + apply (k_call _ 0 1 1); reflexivity.
      + reflexivity.
      + apply (k_exit_abort _ 1); reflexivity.
    - reflexivity. }
  destruct X as (h & s & R & E). apply C in R. congruence.
Qed.

(** The only way: some resumer taken in the run that finished had been invoked before the coroutine
    could suspend.  Programs that suspend after taking a resumer never get there. *)
Theorem C45_abort_needs_early_resume_partial h s e s' :
  krun h s -> aborted s = false -> kstep s e s' -> aborted s' = true ->
  exists c h1 h2 h3 r, cur s = Some c /\ h = h1 ++ ETake c r :: h2 ++ ECall r :: h3 /\
    (forall e, In e h2 -> ~ starts_co c e) /\ (forall e, In e h3 -> ~ starts_co c e).
Proof.
  intros R A St A'. pose proof (KI_run _ _ R) as K. inversion St; subst; cbn in A'; try congruence.
  - unfold do_resume in A'. dmatch; cbn in A'; congruence.
  - unfold do_resume in A'. dmatch; cbn in A'; congruence.
  - exists c. assert (In c (ready s)).
    { unfold attached in H0. apply Bool.orb_true_iff in H0. destruct H0 as [H0|H0]; [now apply existsb_eqb in H0|].
      apply (ki_cur _ _ K) in H. rewrite H in H0. discriminate. }
    destruct (ki_cause _ _ K c H1) as (h1 & h2 & h3 & r & X). exists h1, h2, h3, r. tauto.
Qed.

(** Non-vacuity: coroutine 1 suspends with two resumers taken; both are invoked (one remotely), it is
    woken once, and the stale resumer invoked again has no effect. *)
Example coro_example : exists h s, krun h s /\ In (EWake 1) h /\ ready s = [] /\ cur s = Some 1 /\
  h = [ESpawn 1; ETake 1 0; ETake 1 1; ERemote 1; ESuspend 1; ECall 0; ECall 0; EWake 1; ECall 1].
Proof.
  eexists _, _. split.
  - change [ESpawn 1; ETake 1 0; ETake 1 1; ERemote 1; ESuspend 1; ECall 0; ECall 0; EWake 1; ECall 1] with
      ((((((((([] ++ [ESpawn 1]) ++ [ETake 1 0]) ++ [ETake 1 1]) ++ [ERemote 1]) ++ [ESuspend 1]) ++ [ECall 0]) ++ [ECall 0]) ++ [EWake 1]) ++ [ECall 1]).
    eapply krun_snoc; [eapply krun_snoc; [eapply krun_snoc; [eapply krun_snoc; [eapply krun_snoc; [eapply krun_snoc; [
      eapply krun_snoc; [eapply krun_snoc; [eapply krun_snoc; [apply krun_nil| |]| |]| |]| |]| |]| |]| |]| |]| |].
    + reflexivity.
    + apply (k_spawn _ 1); [reflexivity|left; reflexivity].
    + reflexivity.
    + apply (k_take _ 1); reflexivity.
    + reflexivity.
    + apply (k_take _ 1); reflexivity.
    + reflexivity.
    + apply (k_call_remote _ 1 1 1); reflexivity.
    + reflexivity.
    + apply (k_suspend _ 1); reflexivity.
    + reflexivity.
    + apply (k_call _ 0 1 1); reflexivity.
    + reflexivity.
    + apply (k_call _ 0 1 1); reflexivity.
    + reflexivity.
    + apply (k_wake _ 1 []); reflexivity.
    + reflexivity.
    + apply (k_inbox _ [] 1 [] 1 1 1); reflexivity.
  - repeat split. cbn; tauto.
Qed.

Example mutex_example : exists h s, mrun h s /\ (forall c, ~ In (MEStray c) h) /\ blocked h = [2] /\ entered_w h = [2] /\ inside h = [2].
Proof.
  pose proof mrun_nil as R.
  eapply mrun_snoc in R; [|apply (m_lock _ 1); reflexivity]. cbn -[mset] in R.
  eapply mrun_snoc in R; [|apply (m_spin_l _ 1); reflexivity]. cbn -[mset] in R.
  eapply mrun_snoc in R; [|apply (m_take _ 1); reflexivity]. cbn -[mset] in R.
  eapply mrun_snoc in R; [|apply (m_got _ 1 false); reflexivity]. cbn -[mset] in R.
  eapply mrun_snoc in R; [|apply (m_lock _ 2); reflexivity]. cbn -[mset] in R.
  eapply mrun_snoc in R; [|apply (m_spin_l _ 2); reflexivity]. cbn -[mset] in R.
  eapply mrun_snoc in R; [|apply (m_block _ 2); reflexivity]. cbn -[mset] in R.
  eapply mrun_snoc in R; [|apply (m_yield _ 2); reflexivity]. cbn -[mset] in R.
  eapply mrun_snoc in R; [|apply (m_unlock _ 1); reflexivity]. cbn -[mset] in R.
  eapply mrun_snoc in R; [|apply (m_spin_u _ 1); reflexivity]. cbn -[mset] in R.
  eapply mrun_snoc in R; [|apply (m_pop _ 1 2 []); reflexivity]. cbn -[mset] in R.
  eapply mrun_snoc in R; [|apply (m_pop_unl _ 1 2); reflexivity]. cbn -[mset] in R.
  eapply mrun_snoc in R; [|apply (m_resume _ 1 2); reflexivity]. cbn -[mset] in R.
  eapply mrun_snoc in R; [|apply (m_wake _ 2); reflexivity]. cbn -[mset] in R.
  eexists _, _. split; [exact R|]. clear R. split; [|repeat split].
  cbn. intros c X. repeat (destruct X as [X|X]; [discriminate|]). destruct X.
Qed.

Example waitgroup_example : exists s, wrun ([WEAdd 2; WEDone; WEWait; WETau; WEDone; WETau] ++ [WEReturn false])%Z s.
Proof.
  eexists.
  change ([WEAdd 2; WEDone; WEWait; WETau; WEDone; WETau] ++ [WEReturn false])%Z with
    ((((((([] ++ [WEAdd 2]) ++ [WEDone]) ++ [WEWait]) ++ [WETau]) ++ [WEDone]) ++ [WETau]) ++ [WEReturn false])%Z.
  eapply wrun_snoc; [eapply wrun_snoc; [eapply wrun_snoc; [eapply wrun_snoc; [eapply wrun_snoc; [
    eapply wrun_snoc; [eapply wrun_snoc; [apply wrun_nil|]|]|]|]|]|]|].
  - apply w_add. lia.
  - apply w_done. cbn; lia.
  - apply w_wait; [reflexivity|cbn; lia].
  - apply (w_block _ false). reflexivity.
  - apply w_done_last. reflexivity.
  - eapply w_wakeup; [reflexivity|discriminate].
  - apply (w_return (mkW _ _ _ false _)). reflexivity.
Qed.

Print Assumptions C25_mutual_exclusion.
Print Assumptions C25_fifo_handover.
Print Assumptions C25_no_barging.
Print Assumptions C25_never_free_while_waited.
Print Assumptions C25_blocked_is_tracked.
Print Assumptions C46_statement_refuted.
Print Assumptions C46_exclusion_without_stray_resumers_partial.
Print Assumptions C26_statement_refuted.
Print Assumptions C26_wait_is_complete_partial.
Print Assumptions C26_no_lost_wakeup.
Print Assumptions C27_wakes_only_suspended.
Print Assumptions C27_wake_has_its_own_resumer.
Print Assumptions C27_resume_not_lost.
Print Assumptions C27_ready_once.
Print Assumptions C45_statement_refuted.
Print Assumptions C45_abort_needs_early_resume_partial.
