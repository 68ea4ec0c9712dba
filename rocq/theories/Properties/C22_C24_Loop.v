(** C22-C24 and C44: posting to a message loop and shutting it down. *)
From Verif.Model Require Import Common MsgLoop.
From Verif.Spec Require Import LoopSpec.
From Verif.Proofs Require Import Tac LoopProofs.

(** C22.  Whenever the loop is about to sleep (or sleeps) while thread p's stream holds a task and p
    is not in the middle of PostTask, the wake-up eventfd is readable or some thread is about to
    write it. *)
Theorem C22_no_lost_wakeup body evmax h s p :
  0 < evmax -> lrun body evmax linit h s -> pc s = PPoll ->
  queue s p <> [] -> pst s p = PoIdle ->
  0 < evfd s \/ exists q, pst s q = PoWrite.
Proof.
  intros EM H Hp Hq Hi. destruct (WI_run _ _ _ _ EM H) as [_ Q].
  destruct (Q p Hq) as [E|C]; [congruence|]. unfold cov in C. rewrite Hp in C. tauto.
Qed.

(** In particular, if every poster has returned, an unread task means a readable eventfd. *)
Theorem C22_quiescent_means_readable body evmax h s p :
  0 < evmax -> lrun body evmax linit h s -> pc s = PPoll ->
  queue s p <> [] -> (forall q, pst s q = PoIdle) -> 0 < evfd s.
Proof.
  intros EM H Hp Hq Hi. destruct (C22_no_lost_wakeup _ _ _ _ p EM H Hp Hq (Hi p)) as [E|[q E]]; auto.
  rewrite Hi in E; discriminate.
Qed.

(** Once the loop handles the wake-up, every task that was queued at that moment is run, in order,
    before the loop sleeps again (or exits). *)
Theorem C22_wakeup_runs_everything_queued body evmax s ce h s' p :
  lrun body evmax s h s' -> pc s = PRead ce -> pc s' = PPoll \/ pc s' = PExit ->
  exists rest, runs p h = queue s p ++ rest.
Proof.
  intros H Hp Hp'.
  assert (P : pendw s p) by (unfold pendw; now rewrite Hp).
  pose proof (lrun_fifo _ _ _ _ _ p H) as F.
  destruct (drain_run _ _ _ _ _ p H P) as [C|L].
  - unfold pendw in C. destruct Hp' as [E|E]; rewrite E in C; contradiction.
  - exists (skipn (length (queue s p)) (runs p h)).
    rewrite <- (firstn_skipn (length (queue s p)) (runs p h)) at 1. f_equal.
    apply (f_equal (firstn (length (queue s p)))) in F.
    rewrite !firstn_app in F. rewrite firstn_all in F.
    replace (length (queue s p) - length (queue s p)) with 0 in F by lia.
    replace (length (queue s p) - length (runs p h)) with 0 in F by lia.
    now rewrite !firstn_O, !app_nil_r in F.
Qed.

(** The loop thread is never stuck: unless it has exited or the process was aborted, it has a step
    of its own. *)
Theorem C22_loop_never_stuck body evmax h s :
  lrun body evmax linit h s -> aborted s = false -> pc s <> PExit ->
  exists e s', lstep body evmax s e s' /\ (pc s' <> pc s \/ aborted s' = true).
Proof. apply progress. Qed.

(** C23.  Per posting thread: what has run is a prefix of what was posted, in order, each once; what
    is missing is still queued.  The same for tasks posted by the loop itself. *)
Theorem C23_exactly_once_in_order body evmax h s p :
  lrun body evmax linit h s -> posts p h = runs p h ++ queue s p.
Proof. intros H. apply (lrun_fifo _ _ _ _ _ p H). Qed.

Theorem C23_in_loop_exactly_once_in_order body evmax h s :
  lrun body evmax linit h s -> posts_in h = runs_in h ++ nest s ++ inloop s.
Proof. apply lrun_fifo_in. Qed.

(** In-loop tasks do not starve: when the loop goes to sleep, every task posted from the loop before
    the current round of nested tasks began has run, and those left are exactly the ones posted
    since (they make the next poll non-blocking, message_loop.cc:216). *)
Theorem C23_nested_all_run_before_sleep body evmax h s :
  lrun body evmax linit h s -> pc s = PPoll -> posts_in h = runs_in h ++ inloop s.
Proof.
  intros H Hp. rewrite (lrun_fifo_in _ _ _ _ H). pose proof (NI_run _ _ _ _ H) as N.
  unfold NI in N. rewrite Hp in N. now rewrite N.
Qed.

(** C24.  "A task for which PostTask returned true is executed before the loop thread terminates." *)
Definition C24_statement := forall body evmax h s p,
  0 < evmax -> lrun body evmax linit h s -> aborted s = false -> pc s = PExit ->
  posts p h = runs p h.

(** False: a poster that has passed CHECK(running_) may enqueue after the final drain. *)
Theorem C24_statement_refuted : ~ C24_statement.
Proof.
  intros C.
  assert (X : exists h s, lrun (fun _ => []) 1 linit h s /\ aborted s = false /\ pc s = PExit /\ posts 0 h = [7] /\ runs 0 h = []).
  { eexists _, _. split.
    -       eapply lrun_cons; [reflexivity| |]. 1: eapply (s_check _ _ 0 7); reflexivity.
      eapply lrun_cons; [reflexivity| |]. 1: apply s_quit.
      eapply lrun_cons; [reflexivity| |]. 1: apply s_top_run; reflexivity.
      eapply lrun_cons; [reflexivity| |]. 1: apply (s_poll _ _ _ false true); [reflexivity|discriminate|cbn; lia].
      eapply lrun_cons; [reflexivity| |]. 1: apply (s_ctrl_event _ _ _ false); reflexivity.
      eapply lrun_cons; [reflexivity| |]. 1: apply s_events_done; reflexivity.
      eapply lrun_cons; [reflexivity| |]. 1: apply (s_nest_start _ _ _ false); reflexivity.
      eapply lrun_cons; [reflexivity| |]. 1: apply (s_nest_done _ _ _ false []); reflexivity.
      eapply lrun_cons; [reflexivity| |]. 1: eapply s_body_done; [reflexivity|constructor].
      eapply lrun_cons; [reflexivity| |]. 1: eapply (s_top_stop _ _ _ []); [reflexivity|reflexivity|cbn; congruence].
      eapply lrun_cons; [reflexivity| |]. 1: apply s_scan_done_fin; reflexivity.
      eapply lrun_cons; [reflexivity| |]. 1: apply (s_nest_start _ _ _ true); reflexivity.
      eapply lrun_cons; [reflexivity| |]. 1: apply (s_nest_done _ _ _ true []); reflexivity.
      eapply lrun_cons; [reflexivity| |]. 1: eapply s_body_done; [reflexivity|constructor].
      eapply lrun_cons; [reflexivity| |]. 1: eapply (s_enqueue _ _ 0 7); reflexivity.
      apply run_nil.
    - repeat split. }
  destruct X as (h & s & H & A & P & X1 & X2).
  pose proof (C _ _ _ _ 0 (Nat.lt_0_succ 0) H A P). congruence.
Qed.

(** What does hold: every task accepted while running_ was still true is run before the thread
    ends, and so is every task posted from the loop.  Missing: tasks whose enqueue falls after the
    quit was handled. *)
Theorem C24_accepted_while_running_partial body evmax h1 s1 h2 s2 p :
  lrun body evmax linit h1 s1 -> running s1 = true ->
  lrun body evmax s1 h2 s2 -> pc s2 = PExit ->
  exists rest, runs p (h1 ++ h2) = posts p h1 ++ rest.
Proof.
  intros H1 R H2 P.
  assert (P1 : pendf s1 p).
  { pose proof (RI_run _ _ _ _ H1) as I. unfold RI, pendf in *.
    destruct (final (pc s1)) eqn:F; [specialize (I eq_refl); congruence|].
    destruct (pc s1) eqn:E; auto; repeat match goal with k : scank |- _ => destruct k | k : cont |- _ => destruct k end; auto; discriminate. }
  rewrite runs_app, (lrun_fifo _ _ _ _ _ p H1 : posts p h1 = _).
  pose proof (lrun_fifo _ _ _ _ _ p H2) as F.
  destruct (drain_final _ _ _ _ _ p H2 P1) as [C|L].
  - unfold pendf in C. rewrite P in C. discriminate.
  - exists (skipn (length (queue s1 p)) (runs p h2)). rewrite <- app_assoc. f_equal.
    rewrite <- (firstn_skipn (length (queue s1 p)) (runs p h2)) at 1. f_equal.
    apply (f_equal (firstn (length (queue s1 p)))) in F.
    rewrite !firstn_app in F. rewrite firstn_all in F.
    replace (length (queue s1 p) - length (queue s1 p)) with 0 in F by lia.
    replace (length (queue s1 p) - length (runs p h2)) with 0 in F by lia.
    now rewrite !firstn_O, !app_nil_r in F.
Qed.

Theorem C24_in_loop_tasks_all_run_partial body evmax h s :
  lrun body evmax linit h s -> pc s = PExit -> runs_in h = posts_in h.
Proof.
  intros H P. rewrite (lrun_fifo_in _ _ _ _ H). pose proof (EI_run _ _ _ _ H) as I.
  unfold EI in I. rewrite P in I. destruct I as [-> ->]. now rewrite !app_nil_r.
Qed.

(** C44.  "Posting a task never aborts the process." *)
Definition C44_statement := forall body evmax h s,
  0 < evmax -> lrun body evmax linit h s -> aborted s = false.

(** False: after the control event set running_ to false, a task the loop still runs may itself call
    PostTask, which hits CHECK(running_). *)
Theorem C44_statement_refuted : ~ C44_statement.
Proof.
  intros C.
  (* a handler posts task 1, whose body posts task 2; the quit arrives in between *)
  assert (X : exists h s, lrun (fun t => if Nat.eqb t 1 then [2] else []) 1 linit h s /\ aborted s = true).
  { eexists _, _. split.
    -       eapply lrun_cons; [reflexivity| |]. 1: apply s_quit.
      eapply lrun_cons; [reflexivity| |]. 1: apply s_top_run; reflexivity.
      eapply lrun_cons; [reflexivity| |]. 1: apply (s_poll _ _ _ false true); [reflexivity|discriminate|cbn; lia].
      eapply lrun_cons; [reflexivity| |]. 1: apply (s_handler _ _ _ false true [1]); reflexivity.
      eapply lrun_cons; [reflexivity| |]. 1: eapply s_body_post; reflexivity.
      eapply lrun_cons; [reflexivity| |]. 1: eapply s_body_done; [reflexivity|constructor].
      eapply lrun_cons; [reflexivity| |]. 1: apply (s_ctrl_event _ _ _ false); reflexivity.
      eapply lrun_cons; [reflexivity| |]. 1: apply s_events_done; reflexivity.
      eapply lrun_cons; [reflexivity| |]. 1: apply (s_nest_start _ _ _ false); reflexivity.
      eapply lrun_cons; [reflexivity| |]. 1: eapply (s_nest_run _ _ _ false); reflexivity.
      eapply lrun_cons; [reflexivity| |]. 1: eapply s_body_abort; reflexivity.
      apply run_nil.
    - reflexivity. }
  destruct X as (h & s & H & A).
  pose proof (C _ _ _ _ (Nat.lt_0_succ 0) H). congruence.
Qed.

(** As long as nobody asked the loop to quit, posting is safe and the loop keeps running. *)
Theorem C44_safe_until_quit_partial body evmax h s :
  lrun body evmax linit h s -> ~ In EQuit h -> aborted s = false /\ running s = true.
Proof. intros H N. destruct (QI_run _ _ _ _ H N) as (A & B & D & _). auto. Qed.

(** Non-vacuity: thread 3 posts 9, the loop wakes up, runs it and sleeps again. *)
Example loop_example : exists h s,
  lrun (fun _ => [5]) 1 linit h s /\ pc s = PPoll /\ posts 3 h = [9] /\ runs 3 h = [9] /\ runs_in h = [5] /\ posts_in h = [5; 5].
Proof.
  eexists _, _. split.
  -     eapply lrun_cons; [reflexivity| |]. 1: apply s_top_run; reflexivity.
    eapply lrun_cons; [reflexivity| |]. 1: eapply (s_check _ _ 3 9); reflexivity.
    eapply lrun_cons; [reflexivity| |]. 1: eapply (s_enqueue _ _ 3 9); reflexivity.
    eapply lrun_cons; [reflexivity| |]. 1: eapply (s_tas_clear _ _ 3); reflexivity.
    eapply lrun_cons; [reflexivity| |]. 1: eapply (s_write _ _ 3); [reflexivity|cbn; lia].
    eapply lrun_cons; [reflexivity| |]. 1: apply (s_poll _ _ _ true false); [reflexivity|cbn; lia|discriminate].
    eapply lrun_cons; [reflexivity| |]. 1: eapply (s_task_event _ _ _ false); reflexivity.
    eapply lrun_cons; [reflexivity| |]. 1: eapply (s_read _ _ _ false); reflexivity.
    eapply lrun_cons; [reflexivity| |]. 1: eapply (s_clear _ _ _ false [3]); [reflexivity|].
    { cbn. unfold set1. intros p. destruct (Nat.eqb_spec p 3); subst; auto; congruence. }
    eapply lrun_cons; [reflexivity| |]. 1: eapply (s_scan_run _ _ _ _ _ 3 9 []); [reflexivity|left; reflexivity|reflexivity].
    eapply lrun_cons; [reflexivity| |]. 1: eapply s_body_post; reflexivity.
    eapply lrun_cons; [reflexivity| |]. 1: eapply s_body_done; [reflexivity|apply (ret_scan _ [])].
    { cbn. unfold set1. intros p. destruct (Nat.eqb_spec p 3); subst; congruence. }
    eapply lrun_cons; [reflexivity| |]. 1: eapply (s_scan_done_ev _ _ _ false); reflexivity.
    eapply lrun_cons; [reflexivity| |]. 1: apply s_events_done; reflexivity.
    eapply lrun_cons; [reflexivity| |]. 1: apply (s_nest_start _ _ _ false); reflexivity.
    eapply lrun_cons; [reflexivity| |]. 1: eapply (s_nest_run _ _ _ false); reflexivity.
    eapply lrun_cons; [reflexivity| |]. 1: eapply s_body_post; reflexivity.
    eapply lrun_cons; [reflexivity| |]. 1: eapply s_body_done; [reflexivity|constructor].
    eapply lrun_cons; [reflexivity| |]. 1: apply (s_nest_done _ _ _ false []); reflexivity.
    eapply lrun_cons; [reflexivity| |]. 1: eapply s_body_done; [reflexivity|constructor].
    eapply lrun_cons; [reflexivity| |]. 1: eapply s_top_run; reflexivity.
    apply run_nil.
  - repeat split.
Qed.

Print Assumptions C22_no_lost_wakeup.
Print Assumptions C22_quiescent_means_readable.
Print Assumptions C22_wakeup_runs_everything_queued.
Print Assumptions C22_loop_never_stuck.
Print Assumptions C23_exactly_once_in_order.
Print Assumptions C23_in_loop_exactly_once_in_order.
Print Assumptions C23_nested_all_run_before_sleep.
Print Assumptions C24_statement_refuted.
Print Assumptions C24_accepted_while_running_partial.
Print Assumptions C24_in_loop_tasks_all_run_partial.
Print Assumptions C44_statement_refuted.
Print Assumptions C44_safe_until_quit_partial.
