(** C76-C78: RepeatingTimer. *)
From Verif.Model Require Import Common RepTimer.
From Verif.Spec Require Import RepTimerSpec.
From Verif.Proofs Require Import Tac RepTimerProofs.

(** Runs for the examples. *)
Fixpoint rgo (l : list ract) (s : rst) : option (list (ract * list rtev) * rst) :=
  match l with
  | [] => Some ([], s)
  | a :: l => match rstep s a with
      | Some (Ok (s', e)) => match rgo l s' with Some (h, s'') => Some ((a, e) :: h, s'') | None => None end
      | _ => None
      end
  end.
Lemma rgo_hist l : forall h0 s h s', rhist h0 s -> rgo l s = Some (h, s') -> rhist (h0 ++ h) s'.
Proof.
  induction l as [|a l IH]; intros h0 s h s' H E; cbn in E; [inv E; now rewrite app_nil_r|].
  destruct (rstep s a) as [[[s1 e]| |]|] eqn:S; try discriminate. destruct (rgo l s1) as [[h1 s2]|] eqn:G; inv E.
  replace (h0 ++ (a, e) :: h1) with ((h0 ++ [(a, e)]) ++ h1) by (rewrite <- app_assoc; reflexivity).
  eapply IH; eauto. econstructor; eauto.
Qed.
Definition carefulb (b : bool) (s : rst) (a : ract) : bool :=
  match a with
  | ACall b' c => Bool.eqb b' b && (match c with CStop => r_running s | _ => true end) && (if b then match r_lpc s with RIdle => true | _ => false end else true)
  | AQuit => false
  | _ => true
  end.
Lemma carefulb_ok b s a : carefulb b s a = true -> careful b s a.
Proof.
  destruct a as [b' c| | | | | |]; cbn; auto; try discriminate. rewrite !andb_true_iff, eqb_true_iff. intros ((-> & A) & B). split; [reflexivity|]. split.
  - intros ->. assumption.
  - intros ->. destruct (r_lpc s); try discriminate. reflexivity.
Qed.
Fixpoint cgo (b : bool) (l : list ract) (s : rst) : option (list (ract * list rtev) * rst) :=
  match l with
  | [] => Some ([], s)
  | a :: l => if carefulb b s a then match rstep s a with
      | Some (Ok (s', e)) => match cgo b l s' with Some (h, s'') => Some ((a, e) :: h, s'') | None => None end
      | _ => None
      end else None
  end.
Lemma cgo_hist b l : forall h0 s h s', chist b h0 s -> cgo b l s = Some (h, s') -> chist b (h0 ++ h) s'.
Proof.
  induction l as [|a l IH]; intros h0 s h s' H E; cbn in E; [inv E; now rewrite app_nil_r|].
  destruct (carefulb b s a) eqn:K; [|discriminate].
  destruct (rstep s a) as [[[s1 e]| |]|] eqn:S; try discriminate. destruct (cgo b l s1) as [[h1 s2]|] eqn:G; inv E.
  replace (h0 ++ (a, e) :: h1) with ((h0 ++ [(a, e)]) ++ h1) by (rewrite <- app_assoc; reflexivity).
  eapply IH; eauto. econstructor; eauto. now apply carefulb_ok.
Qed.

(** ** C76: the task runs only between Start and the return of Stop() *)

(** Whatever calls are made, from whichever thread, and whatever the schedule: a task is run only while the timer is started with
    that very task - never after Stop(), a restart with another task, or the destructor returned. *)
Theorem C76_runs_only_while_started h s : rhist h s -> runs_ok (seen h).
Proof. intro H. apply (rhist_inv _ _ H). Qed.

(** Stop() from outside the loop is synchronous: when it returns the callback is not executing, and nothing is attached. *)
Theorem C76_stop_is_synchronous h s s' l :
  rhist h s -> rstep s AOwner = Some (Ok (s', l)) -> In EStop l ->
  (forall e, r_lpc s' <> RInvoke e) /\ (forall e, r_att s' e = false).
Proof.
  intros H S Hin. destruct (rhist_inv _ _ H) as (I & _). cbn in S. destruct (r_opc s) as [|c|c|c|] eqn:O; try discriminate.
  - destruct (r_removed s) eqn:R; [|inv S; destruct Hin].
    destruct (i_wait _ _ I) as (E & L); [now rewrite O|assumption|].
    assert (A : forall e, r_att s e = false). { intro e. destruct (r_att s e) eqn:A; [|reflexivity]. apply (i_att _ _ I) in A. congruence. }
    assert (S' : after_stop false c (with_running (with_opc s OIdle) false) = Ok (s', l)) by congruence. clear S.
    destruct c as [|k|]; cbn in S'.
    + inv S'. split; assumption.
    + unfold start_fin in S'. cbn in S'. rewrite E in S'. destruct (r_on s); cbn in S'; [|discriminate]. inv S'. split; assumption.
    + unfold dead_fin in S'. cbn in S'. rewrite E in S'. inv S'. split; assumption.
  - inv S. destruct Hin.
Qed.

(** And Start does install the timer: in careful use, while the timer runs (and no Stop() is in progress) its event is attached to
    the wheel or its installation is the next thing the loop does with it. *)
Theorem C76_started_is_installed b h s :
  chist b h s -> active (seen h) <> None -> waiting_c (r_opc s) = false ->
  exists e, r_ev s = Some e /\ r_freed s e = false /\ (r_att s e = true \/ In (TAdd e) (r_q s)).
Proof.
  intros H A W. pose proof (chist_inv _ _ _ H) as C. destruct (rhist_inv _ _ (chist_hist _ _ _ H)) as (I & _).
  assert (R : r_ev s <> None).
  { assert (G : forall h s, chist b h s -> waiting_c (r_opc s) = false -> active (seen h) <> None -> r_ev s <> None).
    { clear. intros h s H. pose proof (chist_inv _ _ _ H) as C. intros W A. apply (c_run _ _ C W).
      clear C W. revert A. induction H as [|h s a s' l H IH K S]; [intro X; now destruct X|]. rewrite seen_snoc.
      destruct (rhist_inv _ _ (chist_hist _ _ _ H)) as (I & _).
      unfold active. rewrite fold_left_app. fold (active (seen h)). intro A.
      assert (D : forall s0 il k s1 l1, start_fin il k s0 = Ok (s1, l1) -> r_running s1 = true).
      { intros s0 il k s1 l1 F. unfold start_fin in F. destruct (r_ev s0); [discriminate|]. destruct il; [inv F; reflexivity|]. destruct (r_on s0); inv F; reflexivity. }
      assert (D2 : forall s0 s1 l1 a0, dead_fin s0 = Ok (s1, l1) -> fold_left active_step l1 a0 = None).
      { intros s0 s1 l1 a0 F. unfold dead_fin in F. destruct (r_ev s0); [destruct (r_att s0 _); inv F|inv F]; reflexivity. }
      assert (D3 : forall il c s0 s1 l1 a0, after_stop il c s0 = Ok (s1, l1) -> fold_left active_step l1 a0 <> None -> r_running s1 = true).
      { intros il c s0 s1 l1 a0 F X. destruct c as [|k|]; cbn in F.
        - inv F. now destruct X.
        - destruct (start_fin il k s0) as [[s2 l2]| |] eqn:Y; cbn in F; inv F. eapply D; eauto.
        - destruct (dead_fin s0) as [[s2 l2]| |] eqn:Y; cbn in F; inv F. cbn in X. rewrite (D2 _ _ _ None Y) in X. now destruct X. }
      assert (D4 : forall il c s0 s1 l1, do_stop il c s0 = Ok (s1, l1) -> fold_left active_step l1 (active (seen h)) <> None -> s0 = s -> r_running s1 = true).
      { intros il c s0 s1 l1 F X ->. destruct il; cbn in F.
        - unfold stop_in in F. destruct (r_ev s) as [e|] eqn:E; [eapply D3; eauto|]. inv F. cbn in X. cbn. auto.
        - unfold stop_off in F. destruct (r_on s); inv F. cbn in X |- *. auto. }
      destruct a as [il c| | | |e| |]; cbn in S.
      - destruct (r_opc s) eqn:O; try discriminate.
        assert (S' : do_call il c s = Ok (s', l)).
        { destruct il; [|congruence]. destruct (r_lpc s); try discriminate; destruct (r_on s); try discriminate; congruence. }
        destruct c as [k| |]; cbn in S'.
        + destruct (r_running s); [eapply D4; eauto|eapply D; eauto].
        + eapply D4; eauto.
        + destruct (r_running s); [eapply D4; eauto|]. rewrite (D2 _ _ _ _ S') in A. now destruct A.
      - destruct (r_opc s) eqn:O; try discriminate.
        + destruct (r_removed s); [|inv S; cbn in A |- *; auto].
          assert (S' : after_stop false c (with_running (with_opc s OIdle) false) = Ok (s', l)) by congruence. eapply D3; eauto.
        + inv S; cbn in A |- *; auto.
      - destruct (r_opc s) eqn:O; try discriminate. inv S; cbn in A |- *; auto.
      - destruct (r_on s); [|discriminate]. destruct (r_lpc s); try discriminate. destruct (r_q s) as [|[e|] q]; try discriminate.
        + destruct (r_freed s e); inv S; cbn in A |- *; auto.
        + destruct (r_ev s); inv S; cbn in A |- *; auto.
      - destruct (r_on s); [|discriminate]. destruct (r_lpc s); try discriminate. destruct (r_att s e); [|discriminate].
        destruct (r_opc s); try discriminate; destruct (r_freed s e); inv S; cbn in A |- *; auto.
      - destruct (r_lpc s) as [|e| |]; try discriminate.
        + destruct (r_freed s e); inv S; cbn in A |- *; auto.
        + destruct (r_opc s); inv S; cbn in A |- *; auto.
      - destruct K. }
    apply (G h s); assumption. }
  destruct (r_ev s) as [e|] eqn:E; [|congruence]. exists e. split; [reflexivity|]. split; [apply (i_evf _ _ I _ E)|apply (c_att _ _ C _ E)].
Qed.

(** Start(7), two ticks, Start(8) instead, one tick, Stop(): the runs are 7 7 8. *)
Definition day : list ract :=
  [ACall false (CStart 7); ATask; AFire 0; ALoop; AFire 0; ALoop;
   ACall false (CStart 8); AOwner; AOwner; ATask; ALoop; AOwner; ATask; AFire 1; ALoop;
   ACall false CStop; ATask; AOwner].
Example C76_nonvacuous : exists h s, chist false h s /\ seen h = [EStart 7; ERun 7; ERun 7; EStop; EStart 8; ERun 8; EStop].
Proof.
  destruct (cgo false day rinit) as [[h s]|] eqn:E; [|vm_compute in E; discriminate].
  exists h, s. split; [exact (cgo_hist false day [] _ _ _ (ch_nil _) E)|]. vm_compute in E. inv E. reflexivity.
Qed.
Example C76_installed_nonvacuous : exists h s, chist false h s /\ active (seen h) = Some 7 /\ waiting_c (r_opc s) = false.
Proof.
  destruct (cgo false [ACall false (CStart 7); ATask; AFire 0] rinit) as [[h s]|] eqn:E; [|vm_compute in E; discriminate].
  exists h, s. split; [exact (cgo_hist false _ [] _ _ _ (ch_nil _) E)|]. vm_compute in E. inv E. split; reflexivity.
Qed.
Example C76_synchronous_nonvacuous : exists h s s' l, rhist h s /\ rstep s AOwner = Some (Ok (s', l)) /\ In EStop l.
Proof.
  destruct (rgo [ACall false (CStart 7); ATask; AFire 0; ALoop; ACall false CStop; ATask] rinit) as [[h s]|] eqn:E; [|vm_compute in E; discriminate].
  pose proof (rgo_hist _ [] _ _ _ rh_nil E) as H. vm_compute in E. inv E. do 4 eexists. split; [exact H|]. split; [reflexivity|]. now left.
Qed.

(** ** C77: Stop() returns *)
Definition C77_statement : Prop :=
  forall h s, rhist h s -> r_on s = true -> in_call s = true -> exists s', goes s s' /\ in_call s' = false.

(** Not even in careful use: once the remover has run and notified between the caller's check and its blocking, no step but a
    spurious wakeup lets the caller go on ([lost]: the event is removed, no notification is under way, and the caller blocks or is about to). *)
Theorem C77_lost_wakeup_is_final h s s' : rhist h s -> lost s -> goes s s' -> in_call s' = true.
Proof.
  intros H L G. destruct (rhist_inv _ _ H) as (I & _). revert I. generalize (active (seen h)) as a0. clear H.
  induction G as [s|s a s1 l s2 Hin S G IH]; intros a0 I.
  - destruct L as (_ & _ & c & [O|O]); unfold in_call; now rewrite O.
  - destruct (rstep_inv _ _ _ _ _ I S) as (I1 & _). refine (IH _ _ I1). clear IH G I1. destruct L as (R & N & c & O).
    cbn in Hin. destruct Hin as [<-|[<-|[<-|[]]]]; cbn in S.
    + destruct O as [O|O]; rewrite O in S; [|discriminate]. inv S. split; [assumption|]. split; [assumption|]. exists c. now right.
    + destruct (r_on s); [|discriminate]. destruct (r_lpc s) eqn:L; try discriminate. destruct (r_q s) as [|[e|] q] eqn:Q; try discriminate.
      * destruct (r_freed s e); inv S. split; [assumption|]. split; [cbn; congruence|]. exists c. assumption.
      * destruct (i_wait _ _ I) as (E & _); [destruct O as [->| ->]; reflexivity|assumption|]. rewrite E in S. discriminate.
    + destruct (r_lpc s) as [|e| |] eqn:L; try discriminate; [|now destruct N].
      destruct (r_freed s e); inv S. split; [assumption|]. split; [cbn; congruence|]. exists c. assumption.
Qed.

(** A timer is started and stopped from a thread outside the loop. *)
Definition unlucky : list ract :=
  [ACall false (CStart 7); ATask; ACall false CStop; AOwner; ATask; ALoop; AOwner].
Theorem C77_lost_wakeup : exists h s, chist false h s /\ lost s.
Proof.
  destruct (cgo false unlucky rinit) as [[h s]|] eqn:E; [|vm_compute in E; discriminate].
  exists h, s. split; [exact (cgo_hist false _ [] _ _ _ (ch_nil _) E)|]. vm_compute in E. inv E.
  split; [reflexivity|]. split; [discriminate|]. exists KNone. now right.
Qed.
Theorem C77_statement_refuted : ~ C77_statement.
Proof.
  intro C. destruct C77_lost_wakeup as (h & s & H & L). pose proof (chist_inv _ _ _ H) as I. apply chist_hist in H.
  assert (W : in_call s = true) by (destruct L as (_ & _ & c & [O|O]); unfold in_call; now rewrite O).
  destruct (C h s H (c_on _ _ I) W) as (s' & G & E). rewrite (C77_lost_wakeup_is_final _ _ _ H L G) in E. discriminate.
Qed.

(** Stop() in the loop thread on a timer that is not started stops the whole loop for good. *)
Theorem C77_stop_unstarted_hangs_loop :
  exists h s, rhist h s /\ r_on s = true /\ in_call s = true /\ forall a, match a with ACall false _ => True | _ => rstep s a = None end.
Proof.
  destruct (rgo [ACall true CStop] rinit) as [[h s]|] eqn:E; [|vm_compute in E; discriminate].
  exists h, s. split; [exact (rgo_hist _ [] _ _ _ rh_nil E)|]. vm_compute in E. inv E. split; [reflexivity|]. split; [reflexivity|].
  intros [[|] c| | | |e| |]; reflexivity.
Qed.

(** What holds: in careful use a Stop() in progress can return, unless its wakeup was lost in exactly that way; and used from
    inside the loop, careful calls never wait at all. *)
Theorem C77_stop_returns_partial b h s :
  chist b h s -> in_call s = true -> (exists s', goes s s' /\ in_call s' = false) \/ lost s.
Proof. apply stop_returns. Qed.
Theorem C77_in_loop_never_waits_partial h s : chist true h s -> in_call s = false.
Proof.
  intro H. pose proof (chist_inv _ _ _ H) as C. destruct (c_in _ _ C eq_refl) as (W & _). unfold in_call.
  destruct (r_opc s); try discriminate; destruct (r_lpc s) eqn:L; try reflexivity; destruct (c_stuck _ _ C L).
Qed.
Example C77_nonvacuous : exists h s, chist false h s /\ in_call s = true /\ ~ lost s.
Proof.
  destruct (cgo false [ACall false (CStart 7); ATask; ACall false CStop; AOwner; AOwner] rinit) as [[h s]|] eqn:E; [|vm_compute in E; discriminate].
  exists h, s. split; [exact (cgo_hist false _ [] _ _ _ (ch_nil _) E)|]. vm_compute in E. inv E. split; [reflexivity|]. intros (X & _). discriminate.
Qed.
Example C77_in_loop_nonvacuous : exists h s, chist true h s /\ seen h = [EStart 7; ERun 7; EStop; EStart 8; EStop; EDead].
Proof.
  destruct (cgo true [ACall true (CStart 7); AFire 0; ALoop; ACall true (CStart 8); ACall true CDestroy] rinit) as [[h s]|] eqn:E; [|vm_compute in E; discriminate].
  exists h, s. split; [exact (cgo_hist true _ [] _ _ _ (ch_nil _) E)|]. vm_compute in E. inv E. reflexivity.
Qed.

(** ** C78: using a timer never crashes *)
Definition C78_statement : Prop := forall h s a, rhist h s -> rstep s a <> Some UB /\ rstep s a <> Some CheckFail.

(** Five ways to crash with serialised calls. The first: the callback stops its own timer, which frees the event whose handler is running. *)
Definition crash_by (l : list ract) (a : ract) (o : outcome (rst * list rtev)) : Prop :=
  exists h s, rhist h s /\ map fst h = l /\ rstep s a = Some o.
Ltac crash l := destruct (rgo l rinit) as [[h s]|] eqn:E; [|vm_compute in E; discriminate];
  exists h, s; split; [exact (rgo_hist _ [] _ _ _ rh_nil E)|]; vm_compute in E; inv E; split; reflexivity.
Theorem C78_stop_in_own_callback : crash_by [ACall true (CStart 7); AFire 0; ACall true CStop] ALoop UB.
Proof. crash [ACall true (CStart 7); AFire 0; ACall true CStop]. Qed.
Theorem C78_restart_in_own_callback : crash_by [ACall true (CStart 7); AFire 0; ACall true (CStart 8)] ALoop UB.
Proof. crash [ACall true (CStart 7); AFire 0; ACall true (CStart 8)]. Qed.
(** Stop() on a timer that was never started, from outside the loop. *)
Theorem C78_stop_unstarted : crash_by [ACall false CStop] ATask UB.
Proof. crash [ACall false CStop]. Qed.
(** The destructor returns while the remover has yet to notify. *)
Theorem C78_destroyed_before_notify :
  crash_by [ACall false (CStart 7); ATask; ACall false CDestroy; ATask; AOwner] ALoop UB.
Proof. crash [ACall false (CStart 7); ATask; ACall false CDestroy; ATask; AOwner]. Qed.
(** Started outside the loop, stopped inside it before the posted installation has run. *)
Theorem C78_start_outside_stop_inside : crash_by [ACall false (CStart 7); ACall true CStop] ATask UB.
Proof. crash [ACall false (CStart 7); ACall true CStop]. Qed.
(** The timer is stopped or destroyed after its loop has stopped. *)
Theorem C78_destroyed_after_loop : crash_by [ACall false (CStart 7); ATask; AQuit] (ACall false CDestroy) CheckFail.
Proof. crash [ACall false (CStart 7); ATask; AQuit]. Qed.
Theorem C78_statement_refuted : ~ C78_statement.
Proof. intro C. destruct C78_stop_in_own_callback as (h & s & H & _ & E). destruct (C h s ALoop H) as (X & _). now apply X. Qed.

(** Careful use crashes in one way only, and only from outside the loop: the fourth of the above. *)
Theorem C78_careful_use_partial b h s a :
  chist b h s -> careful b s a ->
  rstep s a <> Some CheckFail /\ (rstep s a = Some UB -> b = false /\ a = ALoop /\ r_lpc s = RNotify /\ r_opc s = ODead).
Proof.
  intros H K. pose proof (chist_inv _ _ _ H) as C. destruct (rhist_inv _ _ (chist_hist _ _ _ H)) as (I & _). split.
  - intro S. destruct (cstep _ _ _ _ _ I C K S) as [(s' & l & X & _)|(X & _)]; discriminate.
  - intro S. destruct (cstep _ _ _ _ _ I C K S) as [(s' & l & X & _)|(_ & -> & L & O)]; [discriminate|]. repeat split; try assumption.
    destruct b; [|reflexivity]. destruct (c_in _ _ C eq_refl) as (_ & N & _). now destruct N.
Qed.
Example C78_nonvacuous : exists h s, chist false h s /\ careful false s (ACall false CDestroy) /\ length h = 18.
Proof.
  destruct (cgo false day rinit) as [[h s]|] eqn:E; [|vm_compute in E; discriminate].
  exists h, s. split; [exact (cgo_hist false day [] _ _ _ (ch_nil _) E)|]. split; [cbn; split; [reflexivity|split; discriminate]|].
  vm_compute in E. inv E. reflexivity.
Qed.

Print Assumptions C76_runs_only_while_started.
Print Assumptions C76_stop_is_synchronous.
Print Assumptions C76_started_is_installed.
Print Assumptions C77_lost_wakeup_is_final.
Print Assumptions C77_lost_wakeup.
Print Assumptions C77_statement_refuted.
Print Assumptions C77_stop_unstarted_hangs_loop.
Print Assumptions C77_stop_returns_partial.
Print Assumptions C77_in_loop_never_waits_partial.
Print Assumptions C78_stop_in_own_callback.
Print Assumptions C78_restart_in_own_callback.
Print Assumptions C78_stop_unstarted.
Print Assumptions C78_destroyed_before_notify.
Print Assumptions C78_start_outside_stop_inside.
Print Assumptions C78_destroyed_after_loop.
Print Assumptions C78_statement_refuted.
Print Assumptions C78_careful_use_partial.
