(** C95-C97: starting and stopping a message loop. *)
From Verif.Model Require Import Common LoopLife.
From Verif.Spec Require Import LoopLifeSpec.
From Verif.Proofs Require Import Tac LoopLifeProofs.

Ltac xgo L := eapply xr_cons; [eapply L; try reflexivity; try (cbn; lia); try (cbn; congruence); try (cbn; tauto)|].

(** C95.  "A call of Start() returns (some continuation lets it return), whatever the other threads
    do meanwhile." *)
Definition C95_statement := forall h s c,
  xrun_to xinit h s -> inside c KStart h -> can_return c KStart s.

(** False: if the quit request is served before the starting thread looks at [running_], the call
    waits for a condition that will never hold again.  One thread suffices: QuitLoop(); Start(). *)
Theorem C95_statement_refuted : ~ C95_statement.
Proof.
  intros S.
  assert (E : exists h s, xrun_to xinit h s /\ inside 0 KStart h /\ xpc s = XDone /\ is_starter (xst s 0) = true).
  { do 2 eexists. split.
    - xgo x_quit. xgo (x_start_first 0). xgo x_running. xgo x_install. xgo x_announce. xgo x_top_go.
      xgo x_pump_quit. xgo x_pump_done. xgo x_top_stop. xgo x_drain_done.
      xgo (x_take 0 KStart). xgo (x_check_no 0 KStart). xgo (x_block 0 KStart). xgo x_end.
      apply xr_nil.
    - split; [|split; reflexivity]. exists [XQuit]. eexists. split; [cbn; reflexivity|].
      cbn. intuition discriminate. }
  destruct E as (h & s & R & I & P & B). destruct (S _ _ _ R I) as (h' & s' & R' & X).
  exact (stuck_start _ _ _ _ (XI_reach _ _ R) R' P B X).
Qed.

(** Nor is it saved by nobody asking to quit: if the loop's notification falls between the
    starting thread's test and its sleep, the call sleeps as long as the loop runs. *)
Definition C95_undisturbed_statement := forall h s c,
  xrun_to xinit h s -> no_quit h -> no_spurious h -> inside c KStart h ->
  exists h' s', xrun_to s h' s' /\ no_quit h' /\ no_spurious h' /\ In (XRet c KStart) h'.

Theorem C95_undisturbed_statement_refuted : ~ C95_undisturbed_statement.
Proof.
  intros S.
  assert (E : exists h s, xrun_to xinit h s /\ no_quit h /\ no_spurious h /\ inside 0 KStart h /\
     xctl s = 0 /\ xrun s = true /\ xpc s = XTop /\ xst s 0 = CBlocked KStart).
  { do 2 eexists. split.
    - xgo (x_start_first 0). xgo (x_take 0 KStart). xgo (x_check_no 0 KStart).
      xgo x_running. xgo x_install. xgo x_announce. xgo (x_block 0 KStart). apply xr_nil.
    - split; [split; [cbn; intuition discriminate|intros c; cbn; intuition discriminate]|].
      split; [intros c; cbn; intuition discriminate|].
      split; [|repeat split; reflexivity]. exists []. eexists. split; [cbn; reflexivity|].
      cbn. intuition discriminate. }
  destruct E as (h & s & R & Q & N & I & A1 & A2 & A3 & A4).
  destruct (S _ _ _ R Q N I) as (h' & s' & R' & Q' & N' & X).
  exact (stuck_lost _ _ _ _ (XI_reach _ _ R) R' Q' N' A1 A2 (or_introl A3) A4 X).
Qed.

(** What holds.  Once any Start() has returned and nobody has asked to quit, the loop is running
    (PostTask's CHECK(running_) passes). *)
Theorem C95_started_means_running_partial h s c :
  xrun_to xinit h s -> no_quit h -> In (XRet c KStart) h -> xrun s = true.
Proof.
  intros R Q X. destruct (NQ_run _ _ _ XI_init R Q NQ_init) as [_ N]. apply N. eapply started_past; eauto.
Qed.

(** If no starter is between its test and its sleep at the moment the loop announces itself, then as
    long as nobody asks to quit every pending Start() - of every thread - can return, without relying
    on spurious wake-ups. *)
Theorem C95_returns_partial h1 s1 s2 h2 s c :
  xrun_to xinit h1 s1 -> xstep s1 XNotify s2 -> xrun_to s2 h2 s -> no_quit (h1 ++ XNotify :: h2) ->
  (forall d, xst s1 d <> CGap KStart) ->
  inside c KStart (h1 ++ XNotify :: h2) ->
  exists h' s', xrun_to s h' s' /\ no_quit h' /\ no_spurious h' /\ In (XRet c KStart) h'.
Proof.
  intros R1 St R2 Q G I. apply no_quit_app in Q. destruct Q as [Q1 Q2]. apply no_quit_cons in Q2.
  destruct Q2 as (_ & _ & Q2).
  pose proof (XI_reach _ _ R1) as I1. pose proof (XI_step _ _ _ I1 St) as I2.
  pose proof (NQ_run _ _ _ XI_init R1 Q1 NQ_init) as [Z Rn].
  assert (N2 : NG s2).
  { inv St; try (destruct k; discriminate); unx.
    - assert (xrun s1 = true) by (apply Rn; unfold past; split; congruence).
      split; [exact H0|split; [exact Z|]]. intros d. cbn. specialize (G d).
      destruct (xst s1 d); split; congruence.
    - assert (xrun s1 = true) by (apply Rn; unfold past; split; congruence).
      apply (i_run _ I1) in H0. unfold live_pc in H0. intuition congruence. }
  pose proof (NG_run _ _ _ R2 Q2 N2) as N3. pose proof (XI_run _ _ _ I2 R2) as I3.
  assert (R : xrun_to xinit (h1 ++ XNotify :: h2) s) by (eapply xrun_app; eauto; econstructor; eauto).
  pose proof (inside_busy _ _ _ _ R I) as B.
  destruct (NG_start _ _ I3 N3 B) as (h' & s' & R' & Ca & X).
  exists h', s'. split; [exact R'|]. split; [now apply calm_no_quit|]. split; [now apply calm_no_spurious|exact X].
Qed.

(** As long as the loop has not announced itself, every pending Start() can still return by its
    announcement: only a notification that has already gone by is lost. *)
Theorem C95_before_announcement_partial h s c :
  xrun_to xinit h s -> no_quit h -> ~ In XNotify h -> inside c KStart h ->
  exists h' s', xrun_to s h' s' /\ no_quit h' /\ no_spurious h' /\ In (XRet c KStart) h'.
Proof.
  intros R Q N I.
  destruct (start_ret_notify s c) as (h' & s' & R' & Ca & X).
  - eapply XI_reach; eauto.
  - eapply NQ_run; eauto using XI_init, NQ_init.
  - eapply inside_busy; eauto.
  - intros A. apply N. eapply announced_inv; eauto.
  - exists h', s'. split; [exact R'|]. split; [now apply calm_no_quit|]. split; [now apply calm_no_spurious|exact X].
Qed.

Example C95_before_case : exists h s, xrun_to xinit h s /\ no_quit h /\ ~ In XNotify h /\ inside 0 KStart h /\ xst s 0 = CGap KStart.
Proof.
  do 2 eexists. split.
  { xgo (x_start_first 0). xgo (x_take 0 KStart). xgo (x_check_no 0 KStart). apply xr_nil. }
  split; [split; [cbn; intuition discriminate|intros c; cbn; intuition discriminate]|].
  split; [cbn; intuition discriminate|]. split; [|reflexivity].
  exists []. eexists. split; [cbn; reflexivity|]. cbn. intuition discriminate.
Qed.

(** The hypotheses are met: the usual schedule, two threads calling Start. *)
Example C95_returns_case : exists h1 s1 s2 h2 s,
  xrun_to xinit h1 s1 /\ xstep s1 XNotify s2 /\ xrun_to s2 h2 s /\ no_quit (h1 ++ XNotify :: h2) /\
  (forall d, xst s1 d <> CGap KStart) /\
  inside 0 KStart (h1 ++ XNotify :: h2) /\ inside 1 KStart (h1 ++ XNotify :: h2).
Proof.
  do 5 eexists. split.
  { xgo (x_start_first 0). xgo (x_take 0 KStart). xgo (x_check_no 0 KStart). xgo (x_block 0 KStart).
    xgo (x_start_other 1). xgo x_running. xgo x_install. apply xr_nil. }
  split; [eapply x_announce; reflexivity|]. split; [apply xr_nil|].
  split; [split; [cbn; intuition discriminate|intros c; cbn; intuition discriminate]|].
  split.
  - intros d. cbn. unfold xset. repeat match goal with |- context[Nat.eqb ?a ?b] => destruct (Nat.eqb a b) end; discriminate.
  - split.
    + exists []. eexists. split; [cbn; reflexivity|]. cbn. intuition discriminate.
    + eexists [_; _; _; _]. eexists. split; [cbn; reflexivity|]. cbn. intuition discriminate.
Qed.

(** C96.  "When SyncStop() / WaitLoopEnd(), called after Start() returned, has returned, the loop no
    longer runs tasks." *)
Definition C96_statement := forall h1 c0 h2 c h3 h4 s,
  xrun_to xinit (h1 ++ XRet c0 KStart :: h2 ++ XCall c KWait :: h3 ++ XRet c KWait :: h4) s ->
  ~ In XTask h4.

(** False: running_ is cleared before the final drain (and in the middle of an event batch). *)
Theorem C96_statement_refuted : ~ C96_statement.
Proof.
  intros S.
  assert (E : exists s, xrun_to xinit
     ([XCall 0 KStart; XTau; XTau; XNotify; XTau] ++ XRet 0 KStart :: [XTau; XQuit] ++ XCall 0 KWait :: [XTau] ++ XRet 0 KWait :: [XTau; XTau; XTask]) s).
  { eexists. cbn.
    xgo (x_start_first 0). xgo x_running. xgo x_install. xgo x_announce. xgo (x_take 0 KStart).
    eapply xr_cons; [apply (x_check_yes 0 KStart); reflexivity|].
    xgo x_top_go. xgo x_quit. xgo (x_wait 0). xgo x_pump_quit.
    eapply xr_cons; [apply (x_entry_ret 0 KWait); reflexivity|].
    xgo x_pump_done. xgo x_top_stop. xgo x_drain_task. apply xr_nil. }
  destruct E as (s & R). apply (S _ _ _ _ _ _ _ R). cbn. auto.
Qed.

(** What holds.  The destructor does guarantee it: once it has returned, no task runs. *)
Theorem C96_destructor_partial h1 c h2 s :
  xrun_to xinit (h1 ++ XRet c KDtor :: h2) s -> ~ In XTask h2.
Proof.
  intros R. destruct (xrun_split _ _ _ _ R) as (s1 & A & B). inv B.
  pose proof (XI_reach _ _ A) as I.
  assert (K : (xpc s' = XDone \/ xpc s' = XNone) /\ xalive s' = false).
  { inv H2; try (destruct k; discriminate). unx. split; auto. apply (i_dtor _ I c). match goal with E : xst _ _ = CJoin |- _ => rewrite E end. reflexivity. }
  clear - K H4. revert K. induction H4 as [|s0 e s1 h s2 St R IH]; intros [P A]; [intros []|].
  assert (K1 : (xpc s1 = XDone \/ xpc s1 = XNone) /\ xalive s1 = false /\ e <> XTask).
  { inv St; unx; try congruence; try (repeat split; auto; congruence); try (intuition congruence);
      try (destruct (leave_same s0 c k) as (A1 & A2 & A3 & A4 & A5); rewrite ?A2; destruct k; cbn; repeat split; auto; discriminate). }
  destruct K1 as (K1 & K2 & K3). intros [X|X]; [congruence|]. revert X. now apply IH.
Qed.

(** After SyncStop / WaitLoopEnd (called after Start had returned) returned, the loop is not
    running and never will be again, and somebody had asked it to quit. *)
Theorem C96_stopped_for_good_partial h1 c0 h2 c h3 h4 s :
  xrun_to xinit (h1 ++ XRet c0 KStart :: h2 ++ XCall c KWait :: h3 ++ XRet c KWait :: h4) s ->
  xrun s = false /\ quit_asked (h1 ++ XRet c0 KStart :: h2 ++ XCall c KWait :: h3).
Proof.
  intros R.
  replace (h1 ++ XRet c0 KStart :: h2 ++ XCall c KWait :: h3 ++ XRet c KWait :: h4)
    with ((h1 ++ XRet c0 KStart :: h2 ++ XCall c KWait :: h3) ++ XRet c KWait :: h4) in R
    by (rewrite <- !app_assoc; cbn; rewrite <- !app_assoc; reflexivity).
  set (hh := h1 ++ XRet c0 KStart :: h2 ++ XCall c KWait :: h3) in *.
  destruct (xrun_split _ _ _ _ R) as (s1 & A & B). inv B.
  pose proof (XI_reach _ _ A) as I.
  assert (P : past (xpc s1)). { eapply started_past; eauto. unfold hh. apply in_app_iff; right; left; reflexivity. }
  assert (F : xrun s1 = false).
  { inv H2; try discriminate; destruct k; try discriminate; auto. cbn in *. now destruct (xrun s1). }
  assert (M : forall s0 h s', XI s0 -> xrun_to s0 h s' -> past (xpc s0) -> xrun s0 = false -> xrun s' = false).
  { clear. intros s0 h s' I R. revert I. induction R as [|s e s1 h s2 St R IH]; intros I P F; auto.
    apply IH; eauto using XI_step, past_step. unfold past in P.
    inv St; unx; auto; try congruence; try (destruct (leave_same s c k) as (A1 & A2 & A3 & A4 & A5); rewrite ?A1; auto).
    intuition congruence. }
  split.
  - eapply M; [eapply XI_step; eauto|eassumption|eapply past_step; eauto|].
    eapply M; [exact I|econstructor; [exact H2|constructor]|exact P|exact F].
  - destruct (in_dec xev_dec XQuit hh) as [X|X]; [now left|].
    assert (D : (exists d, In (XCall d KDtor) hh) \/ no_quit hh).
    { clear - X. induction hh as [|e l IHl].
      - right. split; [exact X|]. intros d [].
      - destruct IHl as [[d D]|D]; [cbn in X; tauto|left; exists d; now right|].
        destruct e as [d k| | | | | |]; try (right; destruct D as [D1 D2]; split; [auto|intros d' [Y|Y]; [discriminate|exact (D2 _ Y)]]).
        destruct k; try (right; destruct D as [D1 D2]; split; [auto|intros d' [Y|Y]; [discriminate|exact (D2 _ Y)]]).
        left. exists d. now left. }
    destruct D as [D|D]; [now right|].
    destruct (NQ_run _ _ _ XI_init A D NQ_init) as [_ N]. rewrite (N P) in F. discriminate.
Qed.

Example C96_case : exists h1 c0 h2 c h3 h4 s,
  xrun_to xinit (h1 ++ XRet c0 KStart :: h2 ++ XCall c KWait :: h3 ++ XRet c KWait :: h4) s /\ In XTask h2.
Proof.
  exists [XCall 0 KStart; XTau; XTau; XNotify; XTau], 0, [XTau; XTask; XQuit], 0, [XTau], [XTau; XTau; XTask].
  eexists. split; [|cbn; auto]. cbn.
  xgo (x_start_first 0). xgo x_running. xgo x_install. xgo x_announce. xgo (x_take 0 KStart).
  eapply xr_cons; [apply (x_check_yes 0 KStart); reflexivity|].
  xgo x_top_go. xgo x_pump_task. xgo x_quit. xgo (x_wait 0). xgo x_pump_quit.
  eapply xr_cons; [apply (x_entry_ret 0 KWait); reflexivity|].
  xgo x_pump_done. xgo x_top_stop. xgo x_drain_task. apply xr_nil.
Qed.

Example C96_destructor_case : exists h1 c h2 s,
  xrun_to xinit (h1 ++ XRet c KDtor :: h2) s /\ In XTask h1.
Proof.
  eexists ([XCall 0 KStart; XTau; XTau; XNotify; XTau; XRet 0 KStart; XTau; XTask; XCall 0 KDtor; XTau; XTau; XTau; XTau; XTau; XNotify]), 0, [].
  eexists. split; [|cbn; tauto]. cbn.
  xgo (x_start_first 0). xgo x_running. xgo x_install. xgo x_announce. xgo (x_take 0 KStart).
  eapply xr_cons; [apply (x_check_yes 0 KStart); reflexivity|].
  xgo x_top_go. xgo x_pump_task. xgo (x_dtor 0). xgo x_pump_quit.
  eapply xr_cons; [apply (x_entry_ret 0 KDtor); reflexivity|].
  xgo x_pump_done. xgo x_top_stop. xgo x_drain_done. xgo x_end. xgo (x_join 0). apply xr_nil.
Qed.

(** C97.  "SyncStop() / WaitLoopEnd() and the destructor return once the loop has been asked to
    quit", relying only on notifications. *)
Definition C97_statement := forall h s c k,
  k <> KStart -> xrun_to xinit h s -> no_spurious h -> inside c k h -> quit_asked h ->
  can_return_by_notify c k s.

(** False for each of them: the loop's last notification may fall between the test and the sleep. *)
Lemma stop_lost_wakeup k : k <> KStart -> ~ (forall h s c,
  xrun_to xinit h s -> no_spurious h -> inside c k h -> quit_asked h -> can_return_by_notify c k s).
Proof.
  intros NK S.
  assert (E : exists h s, xrun_to xinit h s /\ no_spurious h /\ inside 0 k h /\ quit_asked h /\
     xpc s = XDone /\ xst s 0 = CBlocked k).
  { destruct k; [congruence| |].
    - do 2 eexists. split.
      + xgo (x_start_first 0). xgo x_running. xgo x_install. xgo x_announce. xgo (x_take 0 KStart).
        eapply xr_cons; [apply (x_check_yes 0 KStart); reflexivity|].
        xgo x_top_go. xgo x_quit. xgo (x_wait 0). xgo (x_entry_go 0 KWait). xgo (x_take 0 KWait). xgo (x_check_no 0 KWait).
        xgo x_pump_quit. xgo x_pump_done. xgo x_top_stop. xgo x_drain_done. xgo x_end.
        xgo (x_block 0 KWait). apply xr_nil.
      + split; [intros c; cbn; intuition discriminate|]. split.
        * eexists [_; _; _; _; _; _; _; _]. eexists. split; [cbn; reflexivity|]. cbn. intuition discriminate.
        * split; [left; cbn; tauto|]. split; reflexivity.
    - do 2 eexists. split.
      + xgo (x_start_first 0). xgo x_running. xgo x_install. xgo x_announce. xgo (x_take 0 KStart).
        eapply xr_cons; [apply (x_check_yes 0 KStart); reflexivity|].
        xgo x_top_go. xgo (x_dtor 0). xgo (x_entry_go 0 KDtor). xgo (x_take 0 KDtor). xgo (x_check_no 0 KDtor).
        xgo x_pump_quit. xgo x_pump_done. xgo x_top_stop. xgo x_drain_done. xgo x_end.
        xgo (x_block 0 KDtor). apply xr_nil.
      + split; [intros c; cbn; intuition discriminate|]. split.
        * eexists [_; _; _; _; _; _; _]. eexists. split; [cbn; reflexivity|]. cbn. intuition discriminate.
        * split; [right; exists 0; cbn; tauto|]. split; reflexivity. }
  destruct E as (h & s & R & N & I & Q & P & B). destruct (S _ _ _ R N I Q) as (h' & s' & R' & N' & X).
  exact (stuck_wait _ _ _ _ _ (XI_reach _ _ R) R' N' P B X).
Qed.

Theorem C97_statement_refuted : ~ C97_statement.
Proof. intros S. apply (stop_lost_wakeup KWait); [discriminate|]. intros. eapply S; eauto. discriminate. Qed.

(** The destructor is affected just as SyncStop is. *)
Theorem C97_destructor_statement_refuted : ~ (forall h s c,
  xrun_to xinit h s -> no_spurious h -> inside c KDtor h -> can_return_by_notify c KDtor s).
Proof. intros S. apply (stop_lost_wakeup KDtor); [discriminate|]. intros. eapply S; eauto. Qed.

(** What holds.  If spurious wake-ups may happen, every stop call can return from every reachable
    state; the loop thread itself always gets to its end. *)
Theorem C97_can_return_partial h s c k :
  k <> KStart -> xrun_to xinit h s -> inside c k h -> quit_asked h -> can_return c k s.
Proof.
  intros N R I Q. eapply stop_ret; eauto using XI_reach, quitting_asked, inside_busy.
Qed.

Theorem C97_loop_ends_partial h s c :
  xrun_to xinit h s -> In (XCall c KStart) h -> quit_asked h ->
  exists h' s', xrun_to s h' s' /\ no_spurious h' /\ xpc s' = XDone.
Proof.
  intros R X Q.
  assert (N : xpc s <> XNone).
  { intros E. apply in_split in X. destruct X as (h1 & h2 & ->).
    destruct (xrun_split _ _ _ _ R) as (s1 & A & B). inv B. pose proof (XI_reach _ _ A) as I.
    assert (I' : XI s') by (eapply XI_step; eauto).
    assert (P : xpc s' <> XNone).
    { inv H2; try (destruct k; discriminate); unx; try discriminate. intros Y. apply (i_none _ I) in Y. congruence. }
    clear - P I' H4 E. revert I' P E. induction H4 as [|s e s1 h s2 St R IH]; intros I P E; [congruence|].
    apply IH; auto. eapply XI_step; eauto.
    inv St; unx; auto; try congruence; try (destruct (leave_same s c k) as (A1 & A2 & A3 & A4 & A5); rewrite ?A2; auto). }
  destruct (loop_ends s (XI_reach _ _ R) (quitting_asked _ _ R Q) N) as (h' & s' & R' & Ca & P & _).
  exists h', s'. split; [exact R'|]. split; [now apply calm_no_spurious|exact P].
Qed.

(** If no waiter is between its test and its sleep when the loop gives its last notification, every
    pending stop call can return from then on by notifications alone. *)
Theorem C97_returns_by_notify_partial h1 s1 s2 h2 s c k :
  k <> KStart -> xrun_to xinit h1 s1 -> In XNotify h1 -> xstep s1 XNotify s2 -> xrun_to s2 h2 s ->
  (forall d j, j <> KStart -> xst s1 d <> CGap j) ->
  inside c k (h1 ++ XNotify :: h2) -> can_return_by_notify c k s.
Proof.
  intros NK R1 X St R2 G I.
  pose proof (XI_reach _ _ R1) as I1. pose proof (XI_step _ _ _ I1 St) as I2.
  pose proof (announced _ _ R1 X) as An.
  assert (N2 : ND s2).
  { inv St; try (destruct k0; discriminate); unx.
    - unfold after_announce in An. intuition congruence.
    - split; [reflexivity|]. intros d j Nj. cbn. specialize (G d j Nj). destruct (xst s1 d); split; congruence. }
  pose proof (ND_run _ _ _ I2 R2 N2) as N3. pose proof (XI_run _ _ _ I2 R2) as I3.
  assert (R : xrun_to xinit (h1 ++ XNotify :: h2) s) by (eapply xrun_app; eauto; econstructor; eauto).
  destruct (ND_ret _ _ _ I3 N3 NK (inside_busy _ _ _ _ R I)) as (h' & s' & R' & Ca & Y).
  exists h', s'. eauto using calm_no_spurious.
Qed.

(** Until the loop thread has ended, a stop call can always still return by its last notification. *)
Theorem C97_before_end_partial h s c k :
  k <> KStart -> xrun_to xinit h s -> inside c k h -> quit_asked h -> xpc s <> XDone -> can_return_by_notify c k s.
Proof.
  intros N R I Q D.
  destruct (stop_ret_notify s c k) as (h' & s' & R' & Ca & X); eauto using XI_reach, quitting_asked, inside_busy.
  exists h', s'. eauto using calm_no_spurious.
Qed.

Example C97_returns_case : exists h1 s1 s2 h2 s,
  xrun_to xinit h1 s1 /\ In XNotify h1 /\ xstep s1 XNotify s2 /\ xrun_to s2 h2 s /\
  (forall d j, j <> KStart -> xst s1 d <> CGap j) /\ inside 0 KWait (h1 ++ XNotify :: h2).
Proof.
  do 5 eexists. split.
  { xgo (x_start_first 0). xgo x_running. xgo x_install. xgo x_announce. xgo (x_take 0 KStart).
    eapply xr_cons; [apply (x_check_yes 0 KStart); reflexivity|].
    xgo x_top_go. xgo x_quit. xgo (x_wait 0). xgo (x_entry_go 0 KWait). xgo (x_take 0 KWait). xgo (x_check_no 0 KWait).
    xgo (x_block 0 KWait). xgo x_pump_quit. xgo x_pump_done. xgo x_top_stop. xgo x_drain_done. apply xr_nil. }
  split; [cbn; tauto|]. split; [eapply x_end; reflexivity|]. split; [apply xr_nil|]. split.
  - intros d j Nj. cbn. unfold xset. repeat match goal with |- context[Nat.eqb ?a ?b] => destruct (Nat.eqb a b) end; discriminate.
  - eexists [_; _; _; _; _; _; _; _]. eexists. split; [cbn; reflexivity|]. cbn. intuition discriminate.
Qed.

(** Once the quit request has been served, the loop makes no further pass: when control is back at the
    loop's test with the running flag cleared, the event pump is never entered again, whatever the
    other threads do; all that is left is the final drain and the last notification. *)
Theorem C97_no_further_pass_partial h0 s0 h s :
  xrun_to xinit h0 s0 -> xpc s0 = XTop -> xrun s0 = false -> xrun_to s0 h s ->
  xpc s <> XPump /\ xrun s = false.
Proof.
  intros R0 P F R. pose proof (XI_reach _ _ R0) as I.
  assert (K : xpc s0 = XTop \/ xpc s0 = XDrain \/ xpc s0 = XEnding \/ xpc s0 = XDone) by auto.
  clear R0 P. revert I F K. induction R as [|s e s1 h s2 St R IH]; intros I F K.
  - split; [intuition congruence|exact F].
  - assert (L : xrun s1 = false /\ (xpc s1 = XTop \/ xpc s1 = XDrain \/ xpc s1 = XEnding \/ xpc s1 = XDone)).
    { pose proof (i_none _ I) as IN.
      inv St; unx; auto; try (intuition congruence);
        try (destruct (leave_same s c k) as (A1 & A2 & A3 & A4 & A5); rewrite ?A1, ?A2; auto). }
    destruct L as [L1 L2]. apply IH; auto. eapply XI_step; eauto.
Qed.

Example C97_no_further_pass_case : exists h0 s0, xrun_to xinit h0 s0 /\ xpc s0 = XTop /\ xrun s0 = false /\ In XTask h0.
Proof.
  do 2 eexists. split.
  { xgo (x_start_first 0). xgo x_running. xgo x_install. xgo x_announce. xgo x_top_go. xgo x_pump_task. xgo x_quit.
    xgo x_pump_quit. xgo x_pump_done. apply xr_nil. }
  repeat split; cbn; tauto.
Qed.

Print Assumptions C95_statement_refuted.
Print Assumptions C95_undisturbed_statement_refuted.
Print Assumptions C95_started_means_running_partial.
Print Assumptions C95_returns_partial.
Print Assumptions C95_before_announcement_partial.
Print Assumptions C96_statement_refuted.
Print Assumptions C96_destructor_partial.
Print Assumptions C96_stopped_for_good_partial.
Print Assumptions C97_statement_refuted.
Print Assumptions C97_destructor_statement_refuted.
Print Assumptions C97_can_return_partial.
Print Assumptions C97_loop_ends_partial.
Print Assumptions C97_returns_by_notify_partial.
Print Assumptions C97_before_end_partial.

Print Assumptions C97_no_further_pass_partial.
