(** C98-C99: delayed tasks posted to a loop, and what happens to timers when the pump is destroyed. *)
From Verif.Model Require Import Common TimeWheel DelayTask.
From Verif.Spec Require Import TimerSpec DelaySpec.
From Verif.Proofs Require Import Tac WheelBits WheelProofs TimerTab DelayProofs.
From Verif.Properties Require Import C17_C21_Timers.
Open Scope Z_scope.

(** C98.  The delay is counted from the call: a task posted from another thread at clock [p] and taken
    from the queue at clock [r] runs on the spot if the delay is over, and otherwise waits exactly for
    what is left of it, for every delay a caller can give. *)
Theorem C98_queue_time_counts p ms r :
  0 <= p <= r -> r < TB -> 0 <= ms < 2 ^ 32 ->
  helper_Run (NewTimerTaskHelper ms p) r = if p + ms <=? r then RunNow else ArmTimer (p + ms - r).
Proof. apply helper_run_eq. Qed.

(** It never runs before [p + ms], on whichever path ... *)
Theorem C98_not_early_on_the_spot p ms r :
  0 <= p <= r -> r < TB -> 0 <= ms < 2 ^ 32 -> helper_Run (NewTimerTaskHelper ms p) r = RunNow -> p + ms <= r.
Proof. intros A B C. rewrite helper_run_eq by assumption. destruct (Z.leb_spec (p + ms) r); [auto|discriminate]. Qed.

Theorem C98_not_early_posted rep iv t0 h1 h2 T i p ms r d r2 :
  0 <= p <= r -> r < TB -> 0 <= ms < 2 ^ 32 -> helper_Run (NewTimerTaskHelper ms p) r = ArmTimer d -> r <= r2 ->
  rep i = false ->
  run_ok iv t0 (h1 ++ arm_ops i d r2 ++ h2 ++ [OGet (Some i)]) ->
  pump_run rep iv t0 (h1 ++ arm_ops i d r2 ++ h2 ++ [OGet (Some i)]) T ->
  untouched i h2 -> ticks_from t0 (h1 ++ arm_ops i d r2 ++ h2) ->
  p + ms <= clock t0 (h1 ++ arm_ops i d r2 ++ h2).
Proof.
  intros Hp Hr Hm Hh Hr2 Hrep Hok Hrun Hu Ht.
  rewrite helper_run_eq in Hh by assumption. destruct (Z.leb_spec (p + ms) r); [discriminate|]. injection Hh as <-. unfold remaining in *.
  replace (h1 ++ arm_ops i (p + ms - r) r2 ++ h2 ++ [OGet (Some i)])
    with ((h1 ++ [OSetInterval i (p + ms - r)]) ++ OAdd i r2 :: h2 ++ [OGet (Some i)]) in *
    by (unfold arm_ops; rewrite <- app_assoc; reflexivity).
  replace (h1 ++ arm_ops i (p + ms - r) r2 ++ h2)
    with ((h1 ++ [OSetInterval i (p + ms - r)]) ++ OAdd i r2 :: h2) in *
    by (unfold arm_ops; rewrite <- app_assoc; reflexivity).
  pose proof (C17_one_shot_never_early rep iv t0 _ i r2 h2 T Hrep Hok Hrun Hu Ht) as X.
  unfold interval_of in X. rewrite tab_app in X. unfold run in X. cbn [fold_left tab_step tb_ival] in X.
  unfold set1 in X. rewrite Nat.eqb_refl in X. lia.
Qed.

Theorem C98_not_early_in_loop rep iv t0 h1 h2 T i p ms :
  rep i = false ->
  run_ok iv t0 (h1 ++ arm_ops i ms p ++ h2 ++ [OGet (Some i)]) ->
  pump_run rep iv t0 (h1 ++ arm_ops i ms p ++ h2 ++ [OGet (Some i)]) T ->
  untouched i h2 -> ticks_from t0 (h1 ++ arm_ops i ms p ++ h2) ->
  p + ms <= clock t0 (h1 ++ arm_ops i ms p ++ h2).
Proof.
  intros Hrep Hok Hrun Hu Ht.
  replace (h1 ++ arm_ops i ms p ++ h2 ++ [OGet (Some i)])
    with ((h1 ++ [OSetInterval i ms]) ++ OAdd i p :: h2 ++ [OGet (Some i)]) in *
    by (unfold arm_ops; rewrite <- app_assoc; reflexivity).
  replace (h1 ++ arm_ops i ms p ++ h2) with ((h1 ++ [OSetInterval i ms]) ++ OAdd i p :: h2) in *
    by (unfold arm_ops; rewrite <- app_assoc; reflexivity).
  pose proof (C17_one_shot_never_early rep iv t0 _ i p h2 T Hrep Hok Hrun Hu Ht) as X.
  unfold interval_of in X. rewrite tab_app in X. unfold run in X. cbn [fold_left tab_step tb_ival] in X.
  unfold set1 in X. rewrite Nat.eqb_refl in X. lia.
Qed.

(** ... and it runs exactly once: by the end of any timer pass made once the delay is over it has run
    once. ([r2 - r] is the time between the two clock readings inside TimerTaskHelper::Run.) *)
Lemma armed_runs_once rep iv t0 h1 h2 l now T i d r2 :
  rep i = false ->
  run_ok iv t0 (h1 ++ arm_ops i d r2 ++ h2 ++ l) ->
  pump_run rep iv t0 (h1 ++ arm_ops i d r2 ++ h2 ++ l) T ->
  untouched i (h2 ++ l) -> process_trace now l -> r2 + d <= now ->
  fires i (h2 ++ l) = 1%nat.
Proof.
  intros Hrep Hok Hrun Hu Hpt Hle.
  pose proof (run_legal _ _ _ _ _ Hok Hrun) as L. rewrite !app_assoc in L. rewrite <- (app_assoc _ h2 l) in L.
  apply legal_app in L. destruct L as (_ & L). fold (tab rep iv t0 (h1 ++ arm_ops i d r2)) in L.
  change (run rep (h1 ++ arm_ops i d r2) (tab0 iv t0)) with (tab rep iv t0 (h1 ++ arm_ops i d r2)) in L.
  unfold untouched in Hu. rewrite forallb_app in Hu. apply andb_prop in Hu. destruct Hu as (U1 & U2).
  apply legal_app in L. destruct L as (L1 & L2).
  destruct (arm_armed rep iv t0 h1 i d r2 Hrep) as (b & Hb).
  rewrite fires_app.
  destruct (oneshot_count rep i (r2 + d) h2 Hrep U1 _ L1 (ex_intro _ b Hb)) as [((b2 & A) & ->)|(A & ->)].
  - rewrite (process_fires_due rep i l now _ _ _ Hpt U2 L2 A Hle). reflexivity.
  - rewrite (none_no_fire rep i l U2 _ L2 A). reflexivity.
Qed.

Theorem C98_runs_once_posted rep iv t0 h1 h2 l now T i p ms r d r2 :
  0 <= p <= r -> r < TB -> 0 <= ms < 2 ^ 32 -> helper_Run (NewTimerTaskHelper ms p) r = ArmTimer d -> r <= r2 ->
  rep i = false ->
  run_ok iv t0 (h1 ++ arm_ops i d r2 ++ h2 ++ l) ->
  pump_run rep iv t0 (h1 ++ arm_ops i d r2 ++ h2 ++ l) T ->
  untouched i (h2 ++ l) -> process_trace now l -> p + ms + (r2 - r) <= now ->
  fires i (h2 ++ l) = 1%nat.
Proof.
  intros Hp Hr Hm Hh Hr2 Hrep Hok Hrun Hu Hpt Hle.
  rewrite helper_run_eq in Hh by assumption. destruct (Z.leb_spec (p + ms) r); [discriminate|]. injection Hh as <-. unfold remaining in *.
  eapply armed_runs_once; eauto. lia.
Qed.

Theorem C98_runs_once_in_loop rep iv t0 h1 h2 l now T i p ms :
  rep i = false ->
  run_ok iv t0 (h1 ++ arm_ops i ms p ++ h2 ++ l) ->
  pump_run rep iv t0 (h1 ++ arm_ops i ms p ++ h2 ++ l) T ->
  untouched i (h2 ++ l) -> process_trace now l -> p + ms <= now ->
  fires i (h2 ++ l) = 1%nat.
Proof. intros. eapply armed_runs_once; eauto. Qed.

(** Posted at 1000 with a delay of 300, taken from the queue at 1120, armed at 1121: 180 are left; the
    pass at 1300 does not run it, the pass at 1301 does. *)
Example C98_nonvacuous :
  helper_Run (NewTimerTaskHelper 300 1000) 1120 = ArmTimer 180 /\
  helper_Run (NewTimerTaskHelper 300 1000) 1300 = RunNow /\
  (exists T, pump_run (fun _ => false) (fun _ => 0) 1000
    ([OTick 1119] ++ arm_ops 7 180 1121 ++ [OTick 1300; OGet None] ++ [OTick 1301; OGet (Some 7%nat); OGet None]) T) /\
  process_trace 1301 [OTick 1301; OGet (Some 7%nat); OGet None] /\
  untouched 7 ([OTick 1300; OGet None] ++ [OTick 1301; OGet (Some 7%nat); OGet None]).
Proof.
  split; [reflexivity|]. split; [reflexivity|]. split; [apply run_exec_ok; vm_compute; reflexivity|].
  split; [|reflexivity]. eexists. split; [reflexivity|].
  change [OGet (Some 7%nat); OGet None] with (OGet (Some 7%nat) :: [] ++ [OGet None]). repeat constructor.
Qed.

(** C99.  When the pump is destroyed, exactly the installed auto-delete timers are freed, each once, and
    no timer of any kind stays attached (so a later ~TimeoutEvent finds its timer detached). *)
Theorem C99_finalize rep iv t0 h T auto :
  run_ok iv t0 h -> pump_run rep iv t0 h T ->
  let (T', dels) := FinalizeTimeWheel auto T in
  NoDup dels /\
  (forall i, In i dels <-> auto i = true /\ installed rep iv t0 h i) /\
  (forall i, to_pending (heap T' i) = None) /\ all_timers T' = [].
Proof.
  intros Hok Hrun. pose proof (run_rel _ _ _ _ _ Hok Hrun) as R.
  destruct (r_inv _ _ _ R) as (HC & HP & _).
  destruct (finalize_ok auto T HC HP) as (A & B & C). destruct (FinalizeTimeWheel auto T) as (T', dels).
  cbn [fst snd] in A, B, C. subst dels. split; [apply NoDup_filter, nodup_all_timers, HC|]. split; [|auto].
  intro i. rewrite filter_In, (in_all_timers T i HC). unfold installed. rewrite <- (r_arm _ _ _ R i).
  rewrite (alive_none T i). tauto.
Qed.

(** A delayed task's timer (one-shot, auto-delete) that nobody touches is freed exactly once: after its
    handler ran, or when the pump goes down. *)
Theorem C99_freed_exactly_once rep iv t0 h1 h2 T i d now auto :
  rep i = false -> auto i = true ->
  run_ok iv t0 (h1 ++ arm_ops i d now ++ h2) ->
  pump_run rep iv t0 (h1 ++ arm_ops i d now ++ h2) T -> untouched i h2 ->
  deleted_after_invoke rep auto i = true /\
  (fires i h2 + count_occ Nat.eq_dec (snd (FinalizeTimeWheel auto T)) i = 1)%nat.
Proof.
  intros Hrep Hauto Hok Hrun Hu. split; [unfold deleted_after_invoke; now rewrite Hrep, Hauto|].
  pose proof (C99_finalize rep iv t0 _ T auto Hok Hrun) as F. destruct (FinalizeTimeWheel auto T) as (T', dels).
  destruct F as (ND & IN & _). cbn [snd]. rewrite (count_nodup dels i ND).
  pose proof (run_legal _ _ _ _ _ Hok Hrun) as L. rewrite app_assoc in L. apply legal_app in L. destruct L as (_ & L).
  change (run rep (h1 ++ arm_ops i d now) (tab0 iv t0)) with (tab rep iv t0 (h1 ++ arm_ops i d now)) in L.
  destruct (arm_armed rep iv t0 h1 i d now Hrep) as (b & Hb).
  assert (X : tab rep iv t0 (h1 ++ arm_ops i d now ++ h2) = run rep h2 (tab rep iv t0 (h1 ++ arm_ops i d now)))
    by (rewrite app_assoc; apply tab_app).
  specialize (IN i). unfold installed in IN. rewrite X in IN.
  destruct (oneshot_count rep i (now + d) h2 Hrep Hu _ L (ex_intro _ b Hb)) as [((b2 & A) & ->)|(A & ->)]; rewrite A in IN.
  - destruct (in_dec Nat.eq_dec i dels) as [I|I]; [reflexivity|]. exfalso. apply I, IN. split; [assumption|discriminate].
  - destruct (in_dec Nat.eq_dec i dels) as [I|I]; [|reflexivity]. exfalso. apply IN in I. destruct I as (_ & I). now apply I.
Qed.

(** When its handler has run and is about to be freed (event_pump.cc:131-133) the timer is detached,
    unless the handler added it again. *)
Theorem C99_detached_when_freed rep iv t0 h i hs T :
  rep i = false ->
  run_ok iv t0 (h ++ OGet (Some i) :: hs) -> pump_run rep iv t0 (h ++ OGet (Some i) :: hs) T ->
  forallb (fun o => negb (match o with OAdd j _ => Nat.eqb j i | _ => false end)) hs = true ->
  to_pending (heap T i) = None.
Proof.
  intros Hrep Hok Hrun Hn. pose proof (run_rel _ _ _ _ _ Hok Hrun) as R. apply alive_none. rewrite (r_arm _ _ _ R i).
  change (OGet (Some i) :: hs) with ([OGet (Some i)] ++ hs). rewrite app_assoc, tab_app.
  assert (E : tb_armed (tab rep iv t0 (h ++ [OGet (Some i)])) i = None).
  { rewrite tab_app. unfold run. cbn [fold_left tab_step tb_armed]. unfold set1. rewrite Nat.eqb_refl, Hrep. cbn [andb].
    destruct (tb_armed _ i) as [[]|]; reflexivity. }
  revert E. generalize (tab rep iv t0 (h ++ [OGet (Some i)])). clear - Hn Hrep. induction hs as [|o hs IH]; intros S E; [exact E|].
  cbn [forallb] in Hn. b2p. change (run rep (o :: hs) S) with (run rep hs (tab_step rep S o)). apply (IH H0).
  destruct o as [j now|j|j v|now|[j|]]; cbn [tab_step tb_armed]; auto.
  - unfold set1. rewrite Nat.eqb_sym, H. assumption.
  - unfold set1. destruct (Nat.eqb i j); auto.
  - now rewrite E.
  - unfold set1. destruct (Nat.eqb_spec i j) as [<-|]; [|assumption]. now rewrite E.
Qed.

(** Three timers: 1 (auto-delete) fired, 2 (auto-delete) and 3 (owned by the user) still installed. *)
Example C99_nonvacuous :
  let h := arm_ops 1 10 1000 ++ arm_ops 2 5000 1000 ++ arm_ops 3 90 1000 ++ [OTick 1020; OGet (Some 1%nat); OGet None] in
  run_exec (fun _ => false) (fun _ => 0) 1000 h = true /\ untouched 2 [OTick 1020; OGet (Some 1%nat); OGet None] /\
  match InitializeTimeWheel (new_timers (fun _ => false) (fun _ => 0)) 1000 with
  | Ok T0 => match exec T0 h with
             | Some T => snd (FinalizeTimeWheel (fun i => Nat.leb i 2) T) = [2%nat] /\ all_timers T = [3%nat; 2%nat]
             | None => False
             end
  | _ => False
  end.
Proof. vm_compute. auto. Qed.

Print Assumptions C98_queue_time_counts.
Print Assumptions C98_not_early_on_the_spot.
Print Assumptions C98_not_early_posted.
Print Assumptions C98_not_early_in_loop.
Print Assumptions C98_runs_once_posted.
Print Assumptions C98_runs_once_in_loop.
Print Assumptions C99_finalize.
Print Assumptions C99_freed_exactly_once.
Print Assumptions C99_detached_when_freed.
