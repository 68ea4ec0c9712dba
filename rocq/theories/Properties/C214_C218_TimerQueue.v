(** C214-C218: the timer queue (base/message_loop/timer_task_queue.cc). *)
From Verif.Model Require Import Common TimerQueue.
From Verif.Spec Require Import WaitSpec.
From Verif.Proofs Require Import Tac TimerQueueProofs TimerQueueProofs2 TimerQueueProofs3.
Local Open Scope Z_scope.

(** A timer that can be rescheduled: repeating timers have a positive interval. *)
Definition sensible (t : timer) : Prop := once t = true \/ 0 < interval t.

(** C214 (refuted). A timer never fires before its time, a one-shot fires at most once, a repeating one is spaced by its interval. *)
Definition C214_statement : Prop := forall os q t, (forall t, In t (added os) -> sensible t) -> NoDup (map tid (added os)) ->
  (forall o, In o os -> sane o) -> run new_tq os = Ok q -> In t (added os) -> on_time (due t) (once t) (interval t) (fires q (tid t)).
(** The entry of a cancelled timer stays in the heap and is charged to the next timer that gets the identifier. *)
Theorem C214_statement_refuted : ~ C214_statement.
Proof.
  intros H. pose (a := Timer 0 1000 true 0). pose (b := Timer 1 1000000 true 0).
  specialize (H [OAdd a; OCancel 0; OAdd b; OExpire 1 1000 1000] (Tq [(1000000, 0%nat)] [None] [0%nat] [(1%nat, 1000)]) b).
  assert (Hx : ms 1000000 <= ms 1000 /\ @nil Z = []); [ | destruct Hx as [Hx _]; vm_compute in Hx; now destruct Hx ].
  apply H.
  - intros t [<-|[<-|[]]]; left; reflexivity.
  - repeat constructor; cbn; intuition discriminate.
  - intros o [<-|[<-|[<-|[<-|[]]]]]; cbn; auto. lia.
  - reflexivity.
  - right. left. reflexivity.
Qed.
(** Without cancellations it holds; and a one-shot whose time has come has fired exactly once as soon as the queue has nothing due. *)
Theorem C214_no_cancel_partial : forall os q t, (forall t, In t (added os) -> sensible t) -> NoDup (map tid (added os)) ->
  (forall o, In o os -> cancels o = false /\ sane o) -> run new_tq os = Ok q -> In t (added os) ->
  on_time (due t) (once t) (interval t) (fires q (tid t)) /\
  forall now, once t = true -> ms (due t) <= ms now -> 0 < next_wait q now -> exists w, fires q (tid t) = [w].
Proof.
  intros os q t Hp Hn Ho E Hin. destruct (good_run os new_tq [] (good_new os Hn) Ho Hp) as (q' & E' & Hg). rewrite E in E'. injection E' as <-.
  destruct Hg as (_ & _ & _ & Hh & _ & _ & Ht). specialize (Ht t). rewrite app_nil_r in Ht. rewrite <- in_rev in Ht. specialize (Ht Hin).
  split.
  - destruct Ht as [(id & tm & _ & _ & _ & _ & Hw & _)|(H1 & _ & w & Hw & Hd)].
    + specialize (Hw [] Logic.I). rewrite app_nil_r in Hw. exact Hw.
    + rewrite Hw. cbn. rewrite H1. auto.
  - intros now H1 Hd Hw. destruct Ht as [(id & tm & Ho1 & _ & _ & _ & _ & Hf)|(_ & _ & w & Hw' & _)]; [ | eauto ].
    exfalso. destruct (Hf H1) as [_ Hdue]. assert (Hc : covered q) by (intros i x Hx; apply Hh; exact Hx).
    pose proof (wait_le q now id tm Hc Ho1). rewrite Hdue in *. lia.
Qed.
Example C214_nonvacuous : exists q, run new_tq [OAdd (Timer 7 5000 true 0); OAdd (Timer 8 2000 false 3); OExpire 0 2000 2100; OExpire 1 5100 5100; OExpire 0 5100 5200; OExpire 0 9000 9000] = Ok q /\
  fires q 7 = [5100] /\ fires q 8 = [2000; 5100; 9000].
Proof. eexists. split; [ vm_compute; reflexivity | ]. split; reflexivity. Qed.

(** C215. A cancelled timer never fires again. *)
Theorem C215_cancel_is_final : forall os os' id t q q', (forall t, In t (added os ++ added os') -> sensible t) -> NoDup (map tid (added os)) ->
  ~ In (tid t) (map tid (added os')) -> run new_tq os = Ok q -> owner q id = Some t -> run q (OCancel id :: os') = Ok q' -> fires q' (tid t) = fires q (tid t).
Proof. intros os os' id t q q' Hp Hn Hni E Ho E'. exact (cancel_final os os' id t Hp Hn Hni q q' E Ho E'). Qed.
Example C215_nonvacuous : exists q q', run new_tq [OAdd (Timer 7 1000 false 1); OAdd (Timer 8 1000 true 1); OExpire 1 1000 1000] = Ok q /\ owner q 0 = Some (Timer 7 2000 false 1) /\
  run q [OCancel 0; OExpire 1 3000 3000; OExpire 0 3000 3000; OAdd (Timer 9 4000 true 0); OExpire 0 4000 4000] = Ok q' /\ fires q' 7 = [1000] /\ fires q' 9 = [4000].
Proof. eexists. eexists. split; [ vm_compute; reflexivity | ]. split; [ reflexivity | ]. split; [ vm_compute; reflexivity | ]. split; reflexivity. Qed.

(** C216 (refuted). Adding a timer gives an identifier no registered timer has, and disturbs no registered timer. *)
Definition C216_statement : Prop := forall os q t q' id, (forall t, In t (added os) -> sensible t) -> run new_tq os = Ok q -> AddTimerEvent q t = Ok (q', id) ->
  owner q id = None /\ owner q' id = Some t /\ forall j, j <> id -> owner q' j = owner q j.
Theorem C216_statement_refuted : ~ C216_statement.
Proof.
  intros H. pose (t := Timer 0 1000 true 0).
  destruct (H [OAdd t; OCancel 0; OCancel 0; OAdd t] (Tq [(1000, 0%nat); (1000, 0%nat)] [Some t] [0%nat] []) t (Tq [(1000, 0%nat); (1000, 0%nat); (1000, 0%nat)] [Some t] [] []) 0%nat) as [H1 _].
  - intros x [<-|[<-|[]]]; left; reflexivity.
  - reflexivity.
  - reflexivity.
  - discriminate H1.
Qed.
(** It holds when no cancellation names a timer that is not registered (any more). *)
Theorem C216_careful_partial : forall os t, (forall t, In t (added os) -> sensible t) -> careful new_tq os ->
  exists q q' id, run new_tq os = Ok q /\ AddTimerEvent q t = Ok (q', id) /\
  owner q id = None /\ owner q' id = Some t /\ forall j, j <> id -> owner q' j = owner q j.
Proof.
  intros os t Hp Hc. destruct (clear_run os new_tq ranged_new kind_new Hp clear_new Hc) as (q & E & Hr & Hk & Hcl).
  destruct (add_ok q t Hr) as (q' & id & Ea & _ & _ & _ & Ho & Hi). exists q, q', id. split; [ exact E | ]. split; [ exact Ea | ].
  split; [ | split; [ rewrite Ho, Nat.eqb_refl; reflexivity | intros j Hj; rewrite Ho; destruct (Nat.eqb_spec id j); [ congruence | reflexivity ] ] ].
  destruct Hi as [(_ & -> & _)|(Hf & _)].
  - unfold owner. apply nth_overflow. lia.
  - apply (proj2 Hcl). rewrite Hf. left. reflexivity.
Qed.
Example C216_nonvacuous : careful new_tq [OAdd (Timer 1 10 true 0); OAdd (Timer 2 20 true 0); OCancel 0; OAdd (Timer 3 30 false 1); OCancel 1; OCancel 0].
Proof. cbn. repeat split; discriminate. Qed.

(** C217 (refuted). No timer brings the process down. *)
Definition C217_statement : Prop := forall os, exists q, run new_tq os = Ok q.
Theorem C217_statement_refuted : ~ C217_statement.
Proof. intros H. destruct (H [OAdd (Timer 0 1000 false 0); OExpire 0 1000 1000]) as [q Hq]. discriminate Hq. Qed.
Theorem C217_positive_intervals_partial : forall os, (forall t, In t (added os) -> sensible t) -> exists q, run new_tq os = Ok q.
Proof. intros os Hp. destruct (run_safe os new_tq ranged_new kind_new Hp) as (q & E & _). eauto. Qed.
(** Every repeating timer without a positive interval does, the first time it fires. *)
Theorem C217_zero_interval_aborts : forall i d p now now2, p <= 0 -> ms d <= ms now -> run new_tq [OAdd (Timer i d false p); OExpire 0 now now2] = CheckFail.
Proof.
  intros i d p now now2 Hp Hd. apply Z.leb_le in Hd.
  assert (H : expire (Tq [(d, 0%nat)] [Some (Timer i d false p)] [] []) 0 now now2 = CheckFail); [ | cbn [run step AddTimerEvent new_tq free slots heap fired due obind fst length app]; cbn [obind]; rewrite H; reflexivity ].
  unfold expire, is_top. cbn [heap slots nth_error forallb fst once interval tid]. rewrite Z.leb_refl, Hd. cbn [andb].
  destruct (Z.ltb_spec now2 (now2 + 1000 * p)); [ lia | reflexivity ].
Qed.
Example C217_nonvacuous : exists q, run new_tq [OAdd (Timer 1 10 true 0); OCancel 3; OCancel 0; OCancel 0; OExpire 0 50 60; OAdd (Timer 2 5 false 1); OExpire 0 50 60] = Ok q /\ fires q 2 = [50].
Proof. eexists. split; [ vm_compute; reflexivity | reflexivity ]. Qed.

(** C218. After any history the computed sleep is between 0 and what is left until the first registered timer, so no timer is slept
    over; it is exactly that when nothing was cancelled; with nothing in the queue it is a second. *)
Theorem C218_never_sleeps_over : forall os q now, (forall t, In t (added os) -> sensible t) -> run new_tq os = Ok q -> 0 <= next_wait q now /\
  forall id t, owner q id = Some t -> next_wait q now <= Z.max 0 (ms (due t) - ms now).
Proof.
  intros os q now Hp E. pose proof (covered_run os _ _ ranged_new kind_new Hp E covered_new) as Hc. split.
  - destruct (wait_spec q now) as [[_ ->]|(e & _ & _ & ->)]; lia.
  - intros id t Ho. exact (wait_le q now id t Hc Ho).
Qed.
Theorem C218_exact_without_cancel : forall os q now, (forall t, In t (added os) -> sensible t) -> NoDup (map tid (added os)) ->
  (forall o, In o os -> cancels o = false /\ sane o) -> run new_tq os = Ok q ->
  ((forall id, owner q id = None) /\ next_wait q now = 1000) \/
  exists id t, owner q id = Some t /\ (forall id' t', owner q id' = Some t' -> due t <= due t') /\ next_wait q now = Z.max 0 (ms (due t) - ms now).
Proof.
  intros os q now Hp Hn Ho E. destruct (good_run os new_tq [] (good_new os Hn) Ho Hp) as (q' & E' & Hg). rewrite E in E'. injection E' as <-.
  destruct Hg as (_ & _ & _ & (_ & H1 & H2) & _). destruct (wait_spec q now) as [[Eh Ew]|([t id] & He & Hl & Ew)].
  - left. split; [ | exact Ew ]. intros id. destruct (owner q id) as [t|] eqn:Eo; [ | reflexivity ]. apply H2 in Eo. rewrite Eh in Eo. destruct Eo.
  - right. destruct (H1 _ _ He) as (tm & Eo & Ed). exists id, tm. split; [ exact Eo | ]. cbn in Ew, Hl. rewrite Ed. split; [ | exact Ew ].
    intros id' t' Eo'. apply H2 in Eo'. apply Hl in Eo'. exact Eo'.
Qed.
Example C218_nonvacuous : exists q, run new_tq [OAdd (Timer 1 7500 true 0); OAdd (Timer 2 3000 true 0); OCancel 1] = Ok q /\
  next_wait q 1999 = 2 /\ next_wait q 9000 = 0 /\ owner q 0 = Some (Timer 1 7500 true 0) /\ next_wait new_tq 5 = 1000.
Proof. eexists. split; [ vm_compute; reflexivity | ]. repeat split; reflexivity. Qed.

Print Assumptions C214_statement_refuted.
Print Assumptions C214_no_cancel_partial.
Print Assumptions C215_cancel_is_final.
Print Assumptions C216_statement_refuted.
Print Assumptions C216_careful_partial.
Print Assumptions C217_statement_refuted.
Print Assumptions C217_positive_intervals_partial.
Print Assumptions C217_zero_interval_aborts.
Print Assumptions C218_never_sleeps_over.
Print Assumptions C218_exact_without_cancel.
