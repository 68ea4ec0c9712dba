(** C293-C300: what `co_go` promises about coroutine tasks (base/coroutine/co_runner.{h,cc}).

    A history [h] of a process is a list of events; [run h s] says that the model can produce it.  [ESubmit t]: the call that
    hands over task [t] returns; [by_ t] is the calling thread and [to_ t] the way ([Anywhere]: `co_go f`, [OnLoop r]:
    `co_go loop << f`, [Sched r]: ScheduleTask on the runner of loop [r]).  [EStart r t]: loop [r] begins to run [t].
    [ERunBegin r], [ERunEnd r]: a Run() of loop [r]'s runner; [EDone r]: the thread of loop [r] is through. *)
From Verif.Model Require Import Common CoTasks.
From Verif.Spec Require Import CoTaskSpec.
From Verif.Proofs Require Import Tac CoTasksProofs CoTasksProofs2 CoTasksProofs3 CoTasksProofs4.

(** Small tools for concrete histories. *)
Lemma steps_loc r g0 f u b x0 e x x' g h s' : f r = x0 -> lstep r g0 x0 e x g -> x = x' ->
  steps (mkSys g (upd f r x') u b) h s' -> steps (mkSys g0 f u b) (e :: h) s'.
Proof. intros <- L <- H. eapply steps_cons; [apply (s_local (mkSys g0 f u b)); exact L|exact H]. Qed.

(** One step of loop [r] by constructor [c], with goals other than equations left to [tac]. *)
Ltac norm := cbv [set_ph set_sched set_inst set_fin set_quit set_posted set_nest set_remote set_run set_ready set_co switch
  do_resume run_posted after_nested inst running fin posted nest sched remote batch maxdq glob ready cos rid cur ph
  gq rs used bg app length by_ to_ num]; cbn; reflexivity.
Ltac locby r c tac := eapply (steps_loc r); [cbn; reflexivity|cbn; eapply c; try reflexivity; tac|norm|].
Ltac loc r c := locby r c idtac.

(** C293. A task is started at most once, and only if it was submitted. *)
Theorem C293_started_once h s : run h s -> NoDup (started h) /\ (forall t, In t (started h) -> In t (submitted h)).
Proof. intros R. split; [exact (start_once h s R)|]. intros t I. assert (K : In (ESubmit t) h) by (apply (start_or_waits h s t R); left; exact I).
  unfold submitted. apply in_flat_map. exists (ESubmit t). split; [assumption|left; reflexivity]. Qed.

(** Submitting the same task object twice is not possible: tasks are moved into the call. *)
Theorem C293_submitted_once h s : run h s -> NoDup (submitted h).
Proof. intros R. assert (K : NoDup (submitted h) /\ forall t, In t (used s) <-> In t (submitted h)).
  { induction R as [|h s e s' R [IH1 IH2] S]; [split; [constructor|simpl; tauto]|]. rewrite submitted_snoc.
    assert (D : (exists t, e = ESubmit t /\ ~ In t (used s) /\ used s' = t :: used s) \/ ((forall t, e <> ESubmit t) /\ used s' = used s)).
    { destruct S; simpl; try (left; eauto; fail); right; split; auto; try discriminate. intros t ->. eapply lstep_nosub; eassumption. }
    destruct D as [(t & -> & N & ->)|[N ->]].
    - split.
      + apply NoDup_Add with (a := t) (l := submitted h); [|split; [assumption|rewrite <- IH2; assumption]].
        rewrite <- (app_nil_r (submitted h)) at 1. apply Add_app.
      + intros u. simpl. rewrite in_app_iff, IH2. simpl. tauto.
    - destruct e; try (rewrite app_nil_r; auto; fail). exfalso. eapply N; reflexivity. }
  apply K. Qed.

Definition tA : task := mkTask (Ext 5) (OnLoop 1) 0.
Definition tB : task := mkTask (InLoop 1) (OnLoop 1) 1.
Definition tC : task := mkTask (InLoop 2) Anywhere 2.
Definition tD : task := mkTask (InLoop 3) Anywhere 3.
Definition tE : task := mkTask (Ext 5) Anywhere 4.

(** A thread without a loop hands [tA] to loop 1, which runs it; [tA] hands over [tB], which runs in the next round. *)
Definition life1 : list ev :=
  [ESubmit tA; ETau; ETau; EDrained 1; EIter 1; ERunBegin 1; ETau; ETau; ETau; ETau; EStart 1 tA].
Definition life2 : list ev := [ESubmit tB; EFinish 1 tA; ETau; ETau; ETau; ERunEnd 1].
Definition life3 : list ev := [EIter 1; ETau; ERunBegin 1; ETau; ETau; ETau; ETau; EStart 1 tB; EFinish 1 tB; ETau; ETau; ETau; ERunEnd 1].

Lemma life_ok : exists s, steps sys0 (life1 ++ life2 ++ life3) s.
Proof. eexists. unfold sys0, life1, life2, life3. simpl app.
  eapply steps_cons; [eapply (s_goto _ tA 1); [discriminate|reflexivity|simpl; tauto]|cbv [gq rs used bg]].
  loc 1 l_drain_begin.
  locby 1 l_drain ltac:(first [left; reflexivity | apply (deq_intro [] (Ext 5) (PGo tA) []); simpl; tauto]).
  loc 1 l_drain_end. loc 1 l_nest_begin. loc 1 l_nest_run. loc 1 l_ready1_end. loc 1 l_remote_end.
  locby 1 uconstr:(l_spawn 1 _ _ 0) ltac:(first [solve [right; left; reflexivity] | vm_compute; lia]).
  loc 1 l_pop_batch. loc 1 l_start.
  eapply steps_cons; [eapply (s_goto_in _ tB 1); [reflexivity|reflexivity|simpl; intros [E|[]]; discriminate]|cbv [gq rs used bg]].
  loc 1 l_finish.
  locby 1 l_pop_none ltac:(first [left; reflexivity | simpl; tauto]).
  loc 1 l_sched_end. loc 1 l_global_end. loc 1 l_run_end.
  loc 1 l_nest_begin. loc 1 l_nest. loc 1 l_nest_run. loc 1 l_ready1_end. loc 1 l_remote_end.
  locby 1 uconstr:(l_spawn 1 _ _ 0) ltac:(first [solve [right; left; reflexivity] | vm_compute; lia]).
  loc 1 l_pop_batch. loc 1 l_start. loc 1 l_finish.
  locby 1 l_pop_none ltac:(first [left; reflexivity | simpl; tauto]).
  loc 1 l_sched_end. loc 1 l_global_end. loc 1 l_run_end.
  constructor. Qed.

Lemma run_of_steps h s : steps sys0 h s -> run h s.
Proof. intros S. change h with ([] ++ h). eapply run_steps; [constructor|assumption]. Qed.

Example C293_nonvacuous : exists h s, run h s /\ started h = [tA; tB].
Proof. destruct life_ok as [s S]. exists (life1 ++ life2 ++ life3), s. split; [apply run_of_steps; assumption|reflexivity]. Qed.

(** C294. A task for a loop is started by that loop within the next round: a task from another thread when the loop has
    looked at its queue and then completed a round, a task from the loop's own thread when the loop has completed an
    iteration. *)
Theorem C294_posted_task_starts h1 t h2 r h3 e h4 s :
  run (h1 ++ ESubmit t :: h2 ++ EDrained r :: h3 ++ e :: h4) s ->
  to_ t = OnLoop r -> by_ t <> InLoop r -> e = ERunEnd r \/ e = EDone r ->
  In (EStart r t) (h1 ++ ESubmit t :: h2 ++ EDrained r :: h3 ++ [e]).
Proof. exact (posted_starts h1 t h2 r h3 e h4 s). Qed.

Theorem C294_nested_task_starts h1 t h2 r h3 e h4 s :
  run (h1 ++ ESubmit t :: h2 ++ EIter r :: h3 ++ e :: h4) s ->
  to_ t = OnLoop r -> by_ t = InLoop r -> e = ERunEnd r \/ e = EDone r ->
  In (EStart r t) (h1 ++ ESubmit t :: h2 ++ EIter r :: h3 ++ [e]).
Proof. exact (nested_starts h1 t h2 r h3 e h4 s). Qed.

Theorem C294_scheduled_task_starts h1 t h2 r h3 e h4 s :
  run (h1 ++ ESubmit t :: h2 ++ EIter r :: h3 ++ e :: h4) s ->
  to_ t = Sched r -> by_ t = InLoop r -> e = ERunEnd r \/ e = EDone r ->
  In (EStart r t) (h1 ++ ESubmit t :: h2 ++ EIter r :: h3 ++ [e]).
Proof. exact (scheduled_starts h1 t h2 r h3 e h4 s). Qed.

Example C294_nonvacuous : exists s, run ([] ++ ESubmit tA :: [ETau; ETau] ++ EDrained 1 :: [EIter 1; ERunBegin 1; ETau; ETau; ETau; ETau; EStart 1 tA;
    ESubmit tB; EFinish 1 tA; ETau; ETau; ETau] ++ ERunEnd 1 :: life3) s /\ to_ tA = OnLoop 1 /\ by_ tA <> InLoop 1.
Proof. destruct life_ok as [s S]. exists s. split; [apply run_of_steps; exact S|split; [reflexivity|discriminate]]. Qed.
Example C294_nested_nonvacuous : exists s, run ((life1) ++ ESubmit tB :: [EFinish 1 tA; ETau; ETau; ETau; ERunEnd 1] ++ EIter 1 ::
    [ETau; ERunBegin 1; ETau; ETau; ETau; ETau; EStart 1 tB; EFinish 1 tB; ETau; ETau; ETau] ++ ERunEnd 1 :: []) s /\ to_ tB = OnLoop 1 /\ by_ tB = InLoop 1.
Proof. destruct life_ok as [s S]. exists s. split; [apply run_of_steps; exact S|split; reflexivity]. Qed.

(** C295. A task given to one loop runs in that loop, whatever the others do. *)
Theorem C295_right_loop h s q t r : run h s -> In (EStart q t) h -> to_ t = OnLoop r \/ to_ t = Sched r -> q = r.
Proof. intros R I T. pose proof (affinity _ _ _ _ R I) as A. unfold stays in A. destruct T as [T|T]; rewrite T in A; congruence. Qed.

Example C295_nonvacuous : exists h s, run h s /\ In (EStart 1 tA) h /\ to_ tA = OnLoop 1.
Proof. destruct life_ok as [s S]. exists (life1 ++ life2 ++ life3), s. split; [apply run_of_steps; exact S|split; [simpl; tauto|reflexivity]]. Qed.

(** C296. Tasks that one thread gives to one loop are started in the order given. *)
Theorem C296_loop_order h s r w : run h s -> begins (from w (OnLoop r) (started_on r h)) (from w (OnLoop r) (submitted h)).
Proof. exact (starts_in_order h s r w). Qed.

(** Tasks that one thread gives to all loops leave the queue in the order given, and each loop starts them in the order in
    which it takes them. *)
Theorem C296_shared_order h s w : run h s -> begins (from w Anywhere (taken h)) (from w Anywhere (submitted h)).
Proof. exact (taken_in_order h s w). Qed.

Theorem C296_taken_order h s r : run h s -> begins (via Anywhere (started_on r h)) (via Anywhere (taken_on r h)).
Proof. exact (starts_as_taken h s r). Qed.

Example C296_nonvacuous : exists h s, run h s /\ from (Ext 5) (OnLoop 1) (started_on 1 h) = [tA] /\ from (InLoop 1) (OnLoop 1) (started_on 1 h) = [tB].
Proof. destruct life_ok as [s S]. exists (life1 ++ life2 ++ life3), s. split; [apply run_of_steps; exact S|split; reflexivity]. Qed.

(** C297. Full statement: a task for any loop is taken by the time a runner has completed a whole Run(). *)
Definition C297_statement : Prop := forall h1 t h2 r h3 h4 s,
  run (h1 ++ ESubmit t :: h2 ++ ERunBegin r :: h3 ++ ERunEnd r :: h4) s -> to_ t = Anywhere ->
  exists q, In (ETake q t) (h1 ++ ESubmit t :: h2 ++ ERunBegin r :: h3 ++ [ERunEnd r]).

(** A runner is installed on loop 1; [tC] is submitted, and while the runner empties the queue [tD] from another thread comes
    and is taken in its place: the number of tasks to take was fixed before, and the queue has no order between threads. *)
Definition pre297 : list ev := [ESubmit tA; ETau; ETau; EDrained 1].
Definition mid297 : list ev := [ETau; ETau; ETau; ETau; EStart 1 tA; EFinish 1 tA; ETau; ETau; ESubmit tD; ETau; ETake 1 tD; EStart 1 tD; EFinish 1 tD; ETau; ETau].
Lemma unfair297 : exists s, steps sys0 (pre297 ++ ESubmit tC :: [EIter 1] ++ ERunBegin 1 :: mid297 ++ ERunEnd 1 :: []) s.
Proof. eexists. unfold sys0, pre297, mid297. simpl app.
  eapply steps_cons; [eapply (s_goto _ tA 1); [discriminate|reflexivity|simpl; tauto]|cbv [gq rs used bg]].
  loc 1 l_drain_begin.
  locby 1 l_drain ltac:(first [left; reflexivity | apply (deq_intro [] (Ext 5) (PGo tA) []); simpl; tauto]).
  loc 1 l_drain_end.
  eapply steps_cons; [eapply (s_go _ tC 2); [reflexivity|reflexivity|simpl; intros [E|[]]; discriminate]|cbv [gq rs used bg]].
  loc 1 l_nest_begin. loc 1 l_nest_run. loc 1 l_ready1_end. loc 1 l_remote_end.
  locby 1 uconstr:(l_spawn 1 _ _ 0) ltac:(first [solve [right; left; reflexivity] | vm_compute; lia]).
  loc 1 l_pop_batch. loc 1 l_start. loc 1 l_finish.
  locby 1 l_pop_none ltac:(first [left; reflexivity | simpl; tauto]).
  loc 1 l_sched_end.
  eapply steps_cons; [eapply (s_go _ tD 3); [reflexivity|reflexivity|simpl; intros [E|[E|[]]]; discriminate]|cbv [gq rs used bg]].
  locby 1 uconstr:(l_spawn 1 _ _ 0) ltac:(first [solve [right; right; reflexivity] | vm_compute; lia]).
  locby 1 l_pop_global ltac:(apply (deq_intro [(InLoop 2, tC)] (InLoop 3) tD []); simpl; intros y [E|[]]; discriminate).
  loc 1 l_start. loc 1 l_finish.
  locby 1 l_pop_none ltac:(first [left; reflexivity | simpl; tauto]).
  loc 1 l_global_end. loc 1 l_run_end. constructor. Qed.

Theorem C297_statement_refuted : ~ C297_statement.
Proof. intros H. destruct unfair297 as [s S]. destruct (H pre297 tC [EIter 1] 1 mid297 [] s (run_of_steps _ _ S) eq_refl) as [q I].
  simpl in I. repeat (destruct I as [I|I]; [discriminate|]). assumption. Qed.

(** Proved: if no other thread submits such tasks during that Run() (the same thread may), the task has been taken at its end,
    by this loop or another; and a loop that took a task has started it before its Run() ends. *)
Theorem C297_taken_partial h1 t h2 r h3 e h4 s : run (h1 ++ ESubmit t :: h2 ++ ERunBegin r :: h3 ++ e :: h4) s ->
  to_ t = Anywhere -> e = ERunEnd r \/ e = EDone r -> (forall u, In (ESubmit u) h3 -> to_ u = Anywhere -> by_ u = by_ t) ->
  exists q, In (ETake q t) (h1 ++ ESubmit t :: h2 ++ ERunBegin r :: h3 ++ [e]).
Proof. intros R T E. apply (run_takes h1 t h2 r h3 e h4 s R T). left. exact E. Qed.

Theorem C297_taken_starts_partial h1 r t h2 e h3 s : run (h1 ++ ETake r t :: h2 ++ e :: h3) s -> e = ERunEnd r \/ e = EDone r -> In (EStart r t) h2.
Proof. exact (taken_starts h1 r t h2 e h3 s). Qed.

Example C297_nonvacuous : exists s,
  run ((pre297 ++ [ESubmit tC; EIter 1; ERunBegin 1; ETau; ETau; ETau; ETau; EStart 1 tA; EFinish 1 tA; ETau; ETau; ESubmit tD; ETau]) ++ ETake 1 tD ::
    [EStart 1 tD; EFinish 1 tD; ETau; ETau] ++ ERunEnd 1 :: []) s.
Proof. destruct unfair297 as [s S]. exists s. apply run_of_steps. exact S. Qed.

(** C298. Full statement: a task for any loop, submitted on the thread of a loop, is taken after that loop has gone round a
    number of times. *)
Definition C298_statement : Prop := exists n, forall h1 t h2 s r,
  run (h1 ++ ESubmit t :: h2) s -> by_ t = InLoop r -> to_ t = Anywhere -> n <= count_iter r h2 -> exists q, In (ETake q t) h2.

Fixpoint rounds (n : nat) : list ev := match n with 0 => [] | S m => EIter 2 :: ETau :: rounds m end.

Definition idle2 (s : sys) : Prop :=
  ph (rs s 2) = Pump /\ inst (rs s 2) = false /\ fin (rs s 2) = false /\ running (rs s 2) = true /\ nest (rs s 2) = [].

Lemma rounds_ok n : forall s, idle2 s -> exists s', steps s (rounds n) s'.
Proof. induction n as [|n IH]; intros s (A & B & C & D & NE); [exists s; constructor|].
  set (x1 := set_ph (set_nest (rs s 2) []) (Nest [])).
  set (s2 := mkSys (gq s) (upd (upd (rs s) 2 x1) 2 (set_ph x1 (after_nested x1))) (used s) (bg s)).
  assert (I2 : idle2 s2). { unfold idle2, s2, x1, after_nested. unfold upd; simpl; rewrite C, D; auto 6. }
  destruct (IH s2 I2) as [s' S']. exists s'. simpl. econstructor.
  - apply (s_local _ 2). apply (l_nest_begin 2). assumption.
  - econstructor; [|exact S'].
    pose proof (l_nest_skip 2 (gq s) x1 eq_refl B) as L. replace (if fin x1 then EDone 2 else ETau) with ETau in L by (unfold x1; simpl; rewrite C; reflexivity).
    rewrite NE. unfold s2. apply (s_local (mkSys (gq s) (upd (rs s) 2 x1) (used s) (bg s)) 2). simpl. rewrite upd_same. exact L. Qed.

Lemma rounds_count n : count_iter 2 (rounds n) = n.
Proof. unfold count_iter. induction n as [|n IH]; [reflexivity|]. simpl. rewrite IH. reflexivity. Qed.
Lemma rounds_notake n q t : ~ In (ETake q t) (rounds n).
Proof. induction n as [|n IH]; simpl; [tauto|]. intros [E|[E|E]]; try discriminate. apply IH, E. Qed.

(** A process whose loops have no runner yet: the loop that submits the task goes round for ever and nobody takes it (only
    the background loop, and loops that were given a task of their own, have a runner). *)
Theorem C298_statement_refuted : ~ C298_statement.
Proof. intros [n H].
  set (s1 := mkSys ([] ++ [(by_ tC, tC)]) (rs sys0) [tC] false).
  assert (S1 : step sys0 (ESubmit tC) s1) by (apply (s_go sys0 tC 2); [reflexivity|reflexivity|simpl; tauto]).
  destruct (rounds_ok n s1) as [s' S']; [repeat split|].
  destruct (H [] tC (rounds n) s' 2) as [q I]; try reflexivity.
  - apply run_of_steps. simpl. econstructor; eassumption.
  - rewrite rounds_count. constructor.
  - exact (rounds_notake _ _ _ I). Qed.

(** Proved: a task from a thread without a loop has been taken once the background loop has looked at its queue and then gone
    round once (if no other thread submits such tasks in between). *)
Theorem C298_background_partial h1 t n h2 h3 h4 e h5 s :
  run (h1 ++ ESubmit t :: h2 ++ EDrained 0 :: h3 ++ EIter 0 :: h4 ++ e :: h5) s ->
  by_ t = Ext n -> to_ t = Anywhere -> e = ERunEnd 0 \/ e = EDone 0 \/ e = EIter 0 ->
  (forall u, In (ESubmit u) h4 -> to_ u = Anywhere -> by_ u = by_ t) ->
  exists q, In (ETake q t) (h1 ++ ESubmit t :: h2 ++ EDrained 0 :: h3 ++ EIter 0 :: h4 ++ [e]).
Proof. intros R B T E. apply (background_takes h1 t n h2 h3 h4 e h5 s R B T). unfold iter_end, round_end. tauto. Qed.

Example C298_nonvacuous : exists s, run ([] ++ ESubmit tE :: [ETau; ETau] ++ EDrained 0 :: [] ++ EIter 0 ::
    [ERunBegin 0; ETau; ETau; ETau; ETau; ETake 0 tE; EStart 0 tE; EFinish 0 tE; ETau; ETau] ++ ERunEnd 0 :: []) s /\ by_ tE = Ext 5 /\ to_ tE = Anywhere.
Proof. cut (exists s, steps sys0 ([] ++ ESubmit tE :: [ETau; ETau] ++ EDrained 0 :: [] ++ EIter 0 ::
    [ERunBegin 0; ETau; ETau; ETau; ETau; ETake 0 tE; EStart 0 tE; EFinish 0 tE; ETau; ETau] ++ ERunEnd 0 :: []) s).
  { intros [s S]. exists s. split; [apply run_of_steps; exact S|split; reflexivity]. }
  eexists. unfold sys0. simpl app.
  eapply steps_cons; [eapply (s_go_ext _ tE 5); [reflexivity|reflexivity|simpl; tauto]|cbv [gq rs used bg]].
  loc 0 l_drain_begin.
  locby 0 l_drain ltac:(first [left; reflexivity | apply (deq_intro [] (Ext 5) PReg []); simpl; tauto]).
  loc 0 l_drain_end. loc 0 l_nest_begin. loc 0 l_nest_run. loc 0 l_ready1_end. loc 0 l_remote_end. loc 0 l_sched_end.
  locby 0 uconstr:(l_spawn 0 _ _ 0) ltac:(first [solve [right; right; reflexivity] | vm_compute; lia]).
  locby 0 l_pop_global ltac:(apply (deq_intro [] (Ext 5) tE []); simpl; tauto).
  loc 0 l_start. loc 0 l_finish.
  locby 0 l_pop_none ltac:(first [left; reflexivity | simpl; tauto]).
  loc 0 l_global_end. loc 0 l_run_end. constructor. Qed.

(** C299. Full statement: when the thread of a loop is through, it has started every task given to that loop. *)
Definition C299_statement : Prop := forall h1 t h2 r h3 s,
  run (h1 ++ ESubmit t :: h2 ++ EDone r :: h3) s -> to_ t = OnLoop r -> In (EStart r t) (h1 ++ ESubmit t :: h2).

(** A task that arrives during the last round, here from the loop's own thread, is left. *)
Definition pre299 : list ev := [EQuit 1; EIter 1; ETau; EDrained 1; EIter 1].
Lemma late299 : exists s, steps sys0 (pre299 ++ ESubmit tB :: [] ++ EDone 1 :: []) s.
Proof. eexists. unfold sys0, pre299. simpl app.
  loc 1 l_quit. loc 1 l_nest_begin.
  eapply (steps_loc 1); [cbn; reflexivity|refine (l_nest_skip 1 _ _ _ _); reflexivity|norm|].
  loc 1 l_final_end. loc 1 l_nest_begin.
  eapply steps_cons; [eapply (s_goto_in _ tB 1); [reflexivity|reflexivity|simpl; tauto]|cbv [gq rs used bg]].
  eapply (steps_loc 1); [cbn; reflexivity|refine (l_nest_skip 1 _ _ _ _); reflexivity|norm|].
  constructor. Qed.

Theorem C299_statement_refuted : ~ C299_statement.
Proof. intros H. destruct late299 as [s S]. pose proof (H pre299 tB [] 1 [] s (run_of_steps _ _ S) eq_refl) as I.
  simpl in I. repeat (destruct I as [I|I]; [discriminate|]). assumption. Qed.

(** Proved: what other threads gave it before it was told to quit has been started. *)
Theorem C299_quit_partial h1 t h2 r h3 h4 s : run (h1 ++ ESubmit t :: h2 ++ EQuit r :: h3 ++ EDone r :: h4) s ->
  to_ t = OnLoop r -> by_ t <> InLoop r -> In (EStart r t) (h1 ++ ESubmit t :: h2 ++ EQuit r :: h3 ++ [EDone r]).
Proof. exact (quit_starts h1 t h2 r h3 h4 s). Qed.

Example C299_nonvacuous : exists s, run ([] ++ ESubmit tA :: [] ++ EQuit 1 :: [EIter 1; ETau; ETau; EDrained 1; EIter 1; ERunBegin 1; ETau; ETau;
    ETau; ETau; EStart 1 tA; EFinish 1 tA; ETau; ETau; ETau] ++ EDone 1 :: []) s /\ to_ tA = OnLoop 1 /\ by_ tA <> InLoop 1.
Proof. cut (exists s, steps sys0 ([] ++ ESubmit tA :: [] ++ EQuit 1 :: [EIter 1; ETau; ETau; EDrained 1; EIter 1; ERunBegin 1; ETau; ETau;
    ETau; ETau; EStart 1 tA; EFinish 1 tA; ETau; ETau; ETau] ++ EDone 1 :: []) s).
  { intros [s S]. exists s. split; [apply run_of_steps; exact S|split; [reflexivity|discriminate]]. }
  eexists. unfold sys0. simpl app.
  eapply steps_cons; [eapply (s_goto _ tA 1); [discriminate|reflexivity|simpl; tauto]|cbv [gq rs used bg]].
  loc 1 l_quit. loc 1 l_nest_begin.
  eapply (steps_loc 1); [cbn; reflexivity|refine (l_nest_skip 1 _ _ _ _); reflexivity|norm|].
  locby 1 l_drain ltac:(first [right; reflexivity | apply (deq_intro [] (Ext 5) (PGo tA) []); simpl; tauto]).
  loc 1 l_final_end. loc 1 l_nest_begin. loc 1 l_nest_run. loc 1 l_ready1_end. loc 1 l_remote_end.
  locby 1 uconstr:(l_spawn 1 _ _ 0) ltac:(first [solve [right; left; reflexivity] | vm_compute; lia]).
  loc 1 l_pop_batch. loc 1 l_start. loc 1 l_finish.
  locby 1 l_pop_none ltac:(first [left; reflexivity | simpl; tauto]).
  loc 1 l_sched_end. loc 1 l_global_end. loc 1 l_run_end_done. constructor. Qed.

(** C300. A coroutine that gives way with Sched() continues before the next whole Run() of its loop has ended. *)
Theorem C300_sched_returns h1 r c h2 h3 e h4 s : run (h1 ++ ESchedCall r c :: h2 ++ ERunBegin r :: h3 ++ e :: h4) s ->
  e = ERunEnd r \/ e = EDone r -> In (EWake r c) (h2 ++ ERunBegin r :: h3).
Proof. exact (sched_returns h1 r c h2 h3 e h4 s). Qed.

(** [tA] runs in coroutine 0 of loop 1 and calls Sched() while [tC] waits. *)
Definition pre300 : list ev := [ESubmit tA; ETau; ETau; EDrained 1; EIter 1; ERunBegin 1; ETau; ETau; ETau; ETau; EStart 1 tA; ESubmit tC].
Definition mid300 : list ev := [ETau; ETau; ETake 1 tC; EStart 1 tC; EFinish 1 tC; ETau; ETau; ERunEnd 1; EIter 1].
Definition fin300 : list ev := [ETau; ETau; ETau; ETau; ETau; ETau; ETau; ETau; EWake 1 0; EFinish 1 tA; ETau].
Example C300_nonvacuous : exists s, run (pre300 ++ ESchedCall 1 0 :: mid300 ++ ERunBegin 1 :: fin300 ++ ERunEnd 1 :: []) s.
Proof. cut (exists s, steps sys0 (pre300 ++ ESchedCall 1 0 :: mid300 ++ ERunBegin 1 :: fin300 ++ ERunEnd 1 :: []) s).
  { intros [s S]. exists s. apply run_of_steps; exact S. }
  eexists. unfold sys0, pre300, mid300, fin300. simpl app.
  eapply steps_cons; [eapply (s_goto _ tA 1); [discriminate|reflexivity|simpl; tauto]|cbv [gq rs used bg]].
  loc 1 l_drain_begin.
  locby 1 l_drain ltac:(first [left; reflexivity | apply (deq_intro [] (Ext 5) (PGo tA) []); simpl; tauto]).
  loc 1 l_drain_end. loc 1 l_nest_begin. loc 1 l_nest_run. loc 1 l_ready1_end. loc 1 l_remote_end.
  locby 1 uconstr:(l_spawn 1 _ _ 0) ltac:(first [solve [right; left; reflexivity] | vm_compute; lia]).
  loc 1 l_pop_batch. loc 1 l_start.
  eapply steps_cons; [eapply (s_go _ tC 2); [reflexivity|reflexivity|simpl; intros [E|[]]; discriminate]|cbv [gq rs used bg]].
  loc 1 l_sched. loc 1 l_sched_end.
  locby 1 uconstr:(l_spawn 1 _ _ 1) ltac:(first [solve [right; right; reflexivity] | vm_compute; lia]).
  locby 1 l_pop_global ltac:(apply (deq_intro [] (InLoop 2) tC []); simpl; tauto).
  loc 1 l_start. loc 1 l_finish.
  locby 1 l_pop_none ltac:(first [left; reflexivity | simpl; tauto]).
  loc 1 l_global_end. loc 1 l_run_end.
  loc 1 l_nest_begin. loc 1 l_nest_run. loc 1 l_ready1_end. loc 1 l_remote_end.
  locby 1 uconstr:(l_spawn 1 _ _ 1) ltac:(first [solve [right; left; reflexivity] | vm_compute; lia]).
  loc 1 l_pop_batch. loc 1 l_resume.
  locby 1 l_pop_none ltac:(first [left; reflexivity | simpl; intuition discriminate]).
  loc 1 l_sched_end. loc 1 l_global_end.
  locby 1 l_wake ltac:(right; reflexivity).
  loc 1 l_finish.
  locby 1 l_pop_none ltac:(first [left; reflexivity | simpl; tauto]).
  loc 1 l_run_end. constructor. Qed.

Print Assumptions C293_started_once.
Print Assumptions C293_submitted_once.
Print Assumptions C294_posted_task_starts.
Print Assumptions C294_nested_task_starts.
Print Assumptions C295_right_loop.
Print Assumptions C296_loop_order.
Print Assumptions C296_shared_order.
Print Assumptions C296_taken_order.
Print Assumptions C297_statement_refuted.
Print Assumptions C297_taken_partial.
Print Assumptions C297_taken_starts_partial.
Print Assumptions C298_statement_refuted.
Print Assumptions C298_background_partial.
Print Assumptions C299_statement_refuted.
Print Assumptions C299_quit_partial.
Print Assumptions C300_sched_returns.

Print Assumptions C294_scheduled_task_starts.
