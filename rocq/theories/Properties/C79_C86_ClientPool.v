(** C79-C86: the connection pool of a Client. *)
From Verif.Model Require Import Common FdEvents ClientPool.
From Verif.Spec Require Import PoolSpec.
From Verif.Proofs Require Import Tac FdProofs PoolProofs PoolBounds.
Open Scope Z_scope.

(** Runs for the examples. *)
Fixpoint pgo (l : list pact) (s : pool) : option (list (pact * list pev) * pool) :=
  match l with
  | [] => Some ([], s)
  | a :: l => match pstep s a with
      | Some (Ok (s', e)) => match pgo l s' with Some (h, s'') => Some ((a, e) :: h, s'') | None => None end
      | _ => None
      end
  end.
Lemma pgo_hist req iv l : forall h0 s h s', phist req iv h0 s -> pgo l s = Some (h, s') -> phist req iv (h0 ++ h) s'.
Proof.
  induction l as [|a l IH]; intros h0 s h s' H E; cbn in E; [inv E; now rewrite app_nil_r|].
  destruct (pstep s a) as [[[s1 e]| |]|] eqn:S; try discriminate. destruct (pgo l s1) as [[h1 s2]|] eqn:G; inv E.
  replace (h0 ++ (a, e) :: h1) with ((h0 ++ [(a, e)]) ++ h1) by (rewrite <- app_assoc; reflexivity).
  eapply IH; eauto. econstructor; eauto.
Qed.

(** ** C79: every connection attempt is reported exactly once *)
Theorem C79_reported_once req iv h s a : phist req iv h s ->
  (dialed a (pseen h) <= 1)%nat /\
  (reports a (pseen h) + cancels a (pseen h) + (if existsb (Nat.eqb a) (p_inprog s) then 1 else 0) = dialed a (pseen h))%nat.
Proof.
  intro H. destruct (phist_acc _ _ _ _ H a) as [A B]. split; [rewrite A; destruct (_ <? _)%nat; lia|exact B].
Qed.
(** An attempt is dropped without a report only by the connector's Stop, that is after Finalize. *)
Theorem C79_cancel_only_after_finalize req iv h s act s' l a :
  phist req iv h s -> pstep s act = Some (Ok (s', l)) -> In (PCancel a) l -> p_stopping s = true.
Proof.
  intros H E X. pose proof (pstep_effect _ _ _ _ E) as Ef. revert X.
  destruct Ef as [act s0 x s' l W Hx Al F|act s0 s' W Al Lc|act s0 W|d q Q|d q c s' l Q Al Lc B|b e s' Ia R Al Lc|b e self s' l Ia R Al F
    |b e peer self s' l Ia R Al F|c il s' l Sc Al Il Lc B|c Sc Al St0|Al|c Ic|Al]; intro X;
    try (destruct X as [X|[X|X]]; try discriminate; destruct F; try destruct X as [X|[]]; try discriminate; destruct X; fail);
    try (destruct X as [X|X]; try discriminate; destruct F; try destruct X as [X|[]]; try discriminate; destruct X; fail);
    try (destruct X as [X|[X|[]]]; discriminate); try (destruct X as [X|[]]; discriminate); try (destruct X; fail);
    try (destruct B as [-> | ->]; [destruct X|destruct X as [X|[]]; discriminate]).
  apply (tstop_inv _ _ _ _ H). rewrite Q. now left.
Qed.
Example C79_example : exists h s, phist 2 7 h s /\
  pseen h = [PDialed 0; PDialed 1; PFail 1; PDelay 17; PFail 0; PDelay 27; PDialed 2; POk 2; PDialed 3; PDialed 4; PCancel 3; PCancel 4].
Proof.
  destruct (pgo [ATask DProg; ATask DRefused; AEvent 0 EPOLLOUT true false; ADelayed DAtOnce; ADelayed DProg; AFinalize; ATask DProg; ATask DProg] (pinit 2 7)) as [[h s]|] eqn:E;
    [|vm_compute in E; discriminate].
  exists h, s. split; [exact (pgo_hist _ _ _ [] _ _ _ (ph_nil _ _) E)|]. vm_compute in E. inv E. reflexivity.
Qed.

(** ** C80: the report tells the truth *)
Definition C80_statement : Prop := forall req iv h s act s' l a,
  phist req iv h s -> pstep s act = Some (Ok (s', l)) -> In (POk a) l \/ In (PFail a) l -> (In (POk a) l <-> established act).
(** An asynchronous connect that succeeds is reported by the kernel as "writable" and by the connector as a failure; the good
    connection is closed. *)
Theorem C80_statement_refuted : ~ C80_statement.
Proof.
  intro H. destruct (pgo [ATask DProg] (pinit 1 0)) as [[h s]|] eqn:E; [|vm_compute in E; discriminate].
  pose proof (pgo_hist _ _ _ [] _ _ _ (ph_nil 1 0) E) as Hh. vm_compute in E. inv E.
  specialize (H 1 0 _ _ (AEvent 0 EPOLLOUT true false) _ _ 0%nat Hh eq_refl). destruct H as [_ H]; [right; now left|].
  destruct H as [H|[H|[]]]; [split; reflexivity| |]; discriminate.
Qed.
(** What holds: a success is never reported falsely; a connect that completes at once is reported truly; one that completes
    later is reported as a success exactly if the kernel also reports something besides writability. *)
Lemma some_inj {A} (x y : A) : Some x = Some y -> x = y.
Proof. congruence. Qed.
Theorem C80_report_partial req iv h s act s' l a :
  phist req iv h s -> pstep s act = Some (Ok (s', l)) -> In (POk a) l \/ In (PFail a) l ->
  (In (POk a) l <-> established act /\ match act with AEvent _ e _ _ => more_than_writable e = true | _ => True end).
Proof.
  intros H E X. assert (RW : forall e, more_than_writable e = hasb (to_lt_event e) EV_READ) by (intro e; rewrite to_lt_read; reflexivity).
  assert (FN : forall s0 s1 l0 z, failed_to s0 s1 l0 -> ~ In (POk z) l0) by (intros s0 s1 l0 z F; destruct F; cbn; intuition discriminate).
  pose proof E as E0. apply pstep_effect in E.
  destruct E as [act s0 x s' l W Hx Al F|act s0 s' W Al Lc|act s0 W|d q Q|d q c s' l Q Al Lc B|b e s' Ia R Al Lc|b e self s' l Ia R Al F
    |b e peer self s' l Ia R Al F|c il s' l Sc Al Il Lc B|c Sc Al St0|Al|c Ic|Al].
  - split.
    + intros [Y|[Y|Y]]; try discriminate. destruct (FN _ _ _ _ F Y).
    + intros [Y _]. exfalso. revert E0. clear - W Y. intro E0.
      assert (O : forall z s1 q, Dial DAtOnce z = Ok (s1, PDialed (p_next s) :: PFail (p_next s) :: q) -> False).
      { intros z s1 q D. unfold Dial, OnConnected in D. pj. destruct (negb (p_alive z)); cbn in D; discriminate. }
      destruct W as [(d & -> & q & Q & _)|(d & n & -> & Q & _)]; cbn in Y; subst d; unfold pstep in E0; rewrite Q in E0; apply some_inj in E0; exact (O _ _ _ E0).
  - split; [|intros _; destruct X as [X|[X|[X|[]]]]; [exact X|discriminate|discriminate]].
    intros _. revert E0. clear - W. intro E0.
    assert (O : forall d z s1 b, Dial d z = Ok (s1, [PDialed b; POk b]) -> d = DAtOnce).
    { intros d z s1 b D. unfold Dial in D. cbn zeta in D. destruct d; try reflexivity; try discriminate;
        (destruct (OnConnectFailed _ _) as [r| |] eqn:F; cbn in D; try discriminate; destruct (failed_inv _ _ _ F) as (_ & s2 & l2 & -> & _); discriminate). }
    destruct W as [(d & -> & q & Q & _)|(d & n & -> & Q & _)]; unfold pstep in E0; rewrite Q in E0; apply some_inj in E0; (split; [exact (O _ _ _ _ E0)|exact Logic.I]).
  - destruct X as [[X|[]]|[X|[]]]; discriminate.
  - destruct X as [X|X]; apply in_map_iff in X; destruct X as (y & Y & _); discriminate.
  - destruct B as [-> | ->]; cbn in X; intuition discriminate.
  - rewrite RW. split; [|intros _; destruct X as [X|X]; [exact X|destruct X as [X|[]]; discriminate]]. intros _. split; [split; reflexivity|exact R].
  - split; [|intros [[Y _] _]; discriminate]. intros [Y|Y]; [discriminate|]. destruct (FN _ _ _ _ F Y).
  - rewrite RW. split; [intros [Y|Y]; [discriminate|]; destruct (FN _ _ _ _ F Y)|]. intros [[Y Z] U]. exfalso. destruct R as [R|[_ R]]; congruence.
  - destruct B as [-> | ->]; cbn in X; intuition discriminate.
  - destruct X as [[]|[]].
  - destruct X as [[]|[]].
  - destruct X as [[]|[]].
  - destruct X as [[]|[]].
Qed.
Theorem C80_no_false_success_partial req iv h s act s' l a :
  phist req iv h s -> pstep s act = Some (Ok (s', l)) -> In (POk a) l -> established act.
Proof. intros H E X. apply (C80_report_partial _ _ _ _ _ _ _ a H E (or_introl X)) in X. tauto. Qed.

(** ** C81: no socket is lost *)
Definition C81_statement : Prop := forall req iv h s a, phist req iv h s -> p_socks s a <> SLeaked.
(** A connect that the peer refuses later: epoll reports an error, the socket is taken from its guard, getpeername fails. *)
Theorem C81_statement_refuted : ~ C81_statement.
Proof.
  intro H. destruct (pgo [ATask DProg; AEvent 0 (Z.lor EPOLLOUT (Z.lor EPOLLERR EPOLLHUP)) false false] (pinit 1 0)) as [[h s]|] eqn:E; [|vm_compute in E; discriminate].
  pose proof (pgo_hist _ _ _ [] _ _ _ (ph_nil 1 0) E) as Hh. vm_compute in E. inv E. apply (H _ _ _ _ 0%nat Hh). reflexivity.
Qed.
Theorem C81_owned_partial req iv h s a : phist req iv h s ->
  (p_socks s a = SOpen <-> In a (p_inprog s)) /\
  (p_socks s a = SHanded -> p_alive s = true -> In a (p_chans s)) /\
  (p_socks s a = SHanded -> In (POk a) (pseen h)) /\
  (p_socks s a = SLeaked -> exists e self l, In (AEvent a e false self, l) h /\ more_than_writable e = true).
Proof.
  intro H. destruct (phist_inv _ _ _ _ H) as [I C]. pose proof (phist_traced _ _ _ _ H a) as [T1 T2].
  split; [apply (v_open _ I)|]. split; [intros X; apply (v_hand _ I _ X)|]. split; [exact T2|].
  intro X. destruct (T1 X) as (e & self & l & A & B). exists e, self, l. split; [exact A|]. unfold more_than_writable. now rewrite <- to_lt_read.
Qed.
(** A failed attempt has no socket left, unless it was lost that way. *)
Theorem C81_failed_is_closed_partial req iv h s a : phist req iv h s -> In (PFail a) (pseen h) ->
  p_socks s a = SNone \/ p_socks s a = SClosed \/ p_socks s a = SLeaked.
Proof.
  intros H X. destruct (phist_inv _ _ _ _ H) as [I C]. pose proof (phist_traced _ _ _ _ H a) as [_ T].
  destruct (phist_acc _ _ _ _ H a) as [A B]. assert (D : (dialed a (pseen h) <= 1)%nat) by (rewrite A; destruct (_ <? _)%nat; lia).
  assert (R : (1 <= reports a (pseen h))%nat).
  { unfold reports. assert (Y : In (PFail a) (filter (fun e => match e with POk b | PFail b => Nat.eqb b a | _ => false end) (pseen h))) by (apply filter_In; split; [exact X|apply Nat.eqb_refl]).
    destruct (filter _ (pseen h)); [destruct Y|cbn; lia]. }
  destruct (p_socks s a) eqn:S; auto; exfalso.
  - apply (v_open _ I), existsb_In in S. unfold one in B. rewrite S in B. lia.
  - pose proof (reports_two a _ X (T eq_refl)). lia.
Qed.
Example C81_example : exists h s, phist 1 0 h s /\ In (PFail 0) (pseen h) /\ p_socks s 0%nat = SClosed.
Proof.
  destruct (pgo [ATask DProg; AEvent 0 EPOLLOUT true false] (pinit 1 0)) as [[h s]|] eqn:E; [|vm_compute in E; discriminate].
  exists h, s. split; [exact (pgo_hist _ _ _ [] _ _ _ (ph_nil _ _) E)|]. vm_compute in E. inv E. split; [right; now left|reflexivity].
Qed.

(** ** C82: the pool does not hold more connections than configured *)
Definition C82_statement : Prop := forall req iv h s, 1 <= req -> phist req iv h s -> Z.of_nat (length (p_chans s)) <= req.
(** Three connections wanted, five made: Initialize posts three dials, and each of the first two successes posts another. *)
Theorem C82_statement_refuted : ~ C82_statement.
Proof.
  intro H. destruct (pgo (repeat (ATask DAtOnce) 5) (pinit 3 0)) as [[h s]|] eqn:E; [|vm_compute in E; discriminate].
  pose proof (pgo_hist _ _ _ [] _ _ _ (ph_nil 3 0) E) as Hh. vm_compute in E. inv E. assert (X : 1 <= 3) by lia. specialize (H _ _ _ _ X Hh). vm_compute in H. apply H. reflexivity.
Qed.
(** There is no bound at all: two wanted, and a peer that closes each connection at once makes the number of dials grow. *)
Lemma dial_at_once s q : p_q s = TDial :: q -> p_alive s = true ->
  exists s' l r, pstep s (ATask DAtOnce) = Some (Ok (s', l)) /\ p_q s' = q ++ r /\ length (p_chans s') = S (length (p_chans s)) /\ p_alive s' = true.
Proof.
  intros Q Al. unfold pstep. rewrite Q. unfold Dial, OnConnected. pj. rewrite Al. cbn [negb]. cbv zeta. cbn [obind].
  unfold launch_next_if_need. pj. destruct (p_stopping s || _); do 2 eexists.
  - exists []. split; [reflexivity|]. pj. rewrite app_nil_r, app_length. cbn [length]. repeat split; [lia|assumption].
  - exists [TDial]. split; [reflexivity|]. pj. rewrite app_length. cbn [length]. repeat split; [lia|assumption].
Qed.
Lemma all_connect req iv k : forall h s r, phist req iv h s -> p_q s = repeat TDial k ++ r -> p_alive s = true ->
  exists h' s', phist req iv h' s' /\ length (p_chans s') = (k + length (p_chans s))%nat.
Proof.
  induction k as [|k IH]; intros h s r H Q Al; [eauto|].
  destruct (dial_at_once s _ Q Al) as (s1 & l & r1 & E & Q1 & L1 & A1).
  destruct (IH _ s1 (r ++ r1) (ph_snoc _ _ _ _ _ _ _ H E)) as (h' & s' & H' & L'); [rewrite Q1, <- app_assoc; reflexivity|exact A1|].
  exists h', s'. split; [exact H'|]. lia.
Qed.
Lemma flapping iv k : exists h s, phist 2 iv h s /\ p_q s = repeat TDial (S (S k)) /\ p_alive s = true /\ p_stopping s = false /\ p_chans s = [] /\ p_ccnt s = 0.
Proof.
  induction k as [|k (h & s & H & Q & Al & St & Ch & Cc)].
  - exists [], (pinit 2 iv). repeat split. constructor.
  - pose proof (phist_req _ _ _ _ H) as R.
    assert (E1 : exists s1 l1, pstep s (ATask DAtOnce) = Some (Ok (s1, l1)) /\ p_q s1 = repeat TDial (S k) ++ [TDial] /\ p_alive s1 = true /\ p_stopping s1 = false /\ p_chans s1 = [p_next s] /\
               p_ccnt s1 = 0 /\ p_socks s1 (p_next s) = SHanded).
    { unfold pstep. rewrite Q. cbn [repeat]. unfold Dial, OnConnected. pj. rewrite Al, Ch. cbn [negb]. cbv zeta. cbn [obind]. unfold launch_next_if_need. pj. rewrite St, R, Cc. cbn [app length orb].
      change (2 <=? Z.of_nat 1 + 0) with false. cbv iota. do 2 eexists. split; [reflexivity|]. pj. rewrite Nat.eqb_refl. repeat split; assumption. }
    destruct E1 as (s1 & l1 & E1 & Q1 & A1 & T1 & C1 & D1 & S1). pose proof (ph_snoc _ _ _ _ _ _ _ H E1) as H1. pose proof (phist_req _ _ _ _ H1) as R1.
    assert (E2 : exists s2 l2, pstep s1 (AClosed (p_next s) true) = Some (Ok (s2, l2)) /\ p_q s2 = p_q s1 ++ [TDial] /\ p_alive s2 = true /\ p_stopping s2 = false /\ p_chans s2 = [] /\ p_ccnt s2 = 0).
    { unfold pstep. rewrite S1. pj. rewrite A1. cbn [negb orb]. unfold OnClientChannelClosed. pj. rewrite A1, C1. cbn [negb]. cbv zeta. unfold launch_next_if_need, without. pj. rewrite T1, R1, D1.
      cbn [filter]. rewrite Nat.eqb_refl. cbn [negb length orb]. change (2 <=? Z.of_nat 0 + 0) with false. cbv iota. do 2 eexists. split; [reflexivity|]. pj. repeat split; assumption. }
    destruct E2 as (s2 & l2 & E2 & Q2 & A2 & T2 & C2 & D2). exists ((h ++ [(ATask DAtOnce, l1)]) ++ [(AClosed (p_next s) true, l2)]), s2.
    split; [exact (ph_snoc _ _ _ _ _ _ _ H1 E2)|]. split; [|repeat split; assumption]. rewrite Q2, Q1, <- app_assoc.
    change [TDial] with (repeat TDial 1). rewrite <- !repeat_app. f_equal. lia.
Qed.
Theorem C82_no_bound iv n : exists h s, phist 2 iv h s /\ (n <= length (p_chans s))%nat.
Proof.
  destruct (flapping iv n) as (h & s & H & Q & Al & _ & Ch & _). rewrite <- (app_nil_r (repeat _ _)) in Q.
  destruct (all_connect _ _ _ _ _ _ H Q Al) as (h' & s' & H' & L). exists h', s'. split; [exact H'|]. lia.
Qed.
(** What holds: a pool of one never has more than one connection or attempt; and as long as no peer closes a connection, connections
    and attempts together stay below the configured number plus the initial batch. *)
Theorem C82_single_partial iv h s : phist 1 iv h s -> Z.of_nat (length (p_chans s)) + attempts s <= 1.
Proof. apply single_bound. Qed.
Theorem C82_no_close_partial req iv h s : 1 <= req -> phist req iv h s -> (forall c il l, ~ In (AClosed c il, l) h) ->
  Z.of_nat (length (p_chans s)) + attempts s <= req - 1 + Z.min 10 req.
Proof. intros A B C. apply (noclose_bound req iv h s A B C). Qed.
Example C82_nonvacuous : exists h s, phist 3 0 h s /\ (forall c il l, ~ In (AClosed c il, l) h) /\ length (p_chans s) = 5%nat.
Proof.
  destruct (pgo (repeat (ATask DAtOnce) 5) (pinit 3 0)) as [[h s]|] eqn:E; [|vm_compute in E; discriminate].
  exists h, s. split; [exact (pgo_hist _ _ _ [] _ _ _ (ph_nil 3 0) E)|]. vm_compute in E. inv E. split; [|reflexivity].
  intros c il l X. cbn in X. repeat (destruct X as [X|X]; [discriminate|]). destruct X.
Qed.
Example C82_single_nonvacuous : exists h s, phist 1 0 h s /\ length (p_chans s) = 1%nat.
Proof.
  destruct (pgo [ATask DAtOnce; AClosed 0 false; ATask DProg; ATask DRefused; ADelayed DAtOnce] (pinit 1 0)) as [[h s]|] eqn:E; [|vm_compute in E; discriminate].
  exists h, s. split; [exact (pgo_hist _ _ _ [] _ _ _ (ph_nil 1 0) E)|]. vm_compute in E. inv E. reflexivity.
Qed.

(** ** C83: a pool that is short of connections keeps trying *)
Definition C83_statement : Prop := forall req iv h s,
  1 <= req -> phist req iv h s -> p_stopping s = false ->
  req <= Z.of_nat (length (p_chans s)) \/ 1 <= attempts s \/ exists c, In (TClosed c) (p_q s).
Definition half_open : Z := Z.lor EPOLLOUT EPOLLRDHUP.
Definition give_up : list pact :=
  [ATask DAtOnce; AClosed 0 true; ATask DProg; ATask DProg; ATask DProg; AEvent 1 EPOLLOUT true false;
   AEvent 2 half_open true false; AEvent 3 half_open true false; ADelayed DAtOnce; AClosed 2 true; AClosed 3 true; AClosed 4 true].
(** The count of attempts in progress is not updated when one of them succeeds; the stale count stops the pool for good: no
    connection, no attempt, and nothing can happen but Finalize or destruction. *)
Theorem C83_dead_pool : exists h s, phist 2 0 h s /\ p_stopping s = false /\ p_chans s = [] /\
  forall act, match act with AFinalize | ADestroy => True | AClosed c _ => (c < 5)%nat -> pstep s act = None | _ => pstep s act = None end.
Proof.
  destruct (pgo give_up (pinit 2 0)) as [[h s]|] eqn:E; [|vm_compute in E; discriminate].
  exists h, s. split; [exact (pgo_hist _ _ _ [] _ _ _ (ph_nil 2 0) E)|]. vm_compute in E. inv E. split; [reflexivity|]. split; [reflexivity|].
  intros [d|d|a e peer self|c il| |c|]; try reflexivity; try exact Logic.I. intro L. do 5 (destruct c as [|c]; [reflexivity|]). lia.
Qed.
Theorem C83_statement_refuted : ~ C83_statement.
Proof.
  intro H. destruct (pgo give_up (pinit 2 0)) as [[h s]|] eqn:E; [|vm_compute in E; discriminate].
  pose proof (pgo_hist _ _ _ [] _ _ _ (ph_nil 2 0) E) as Hh. vm_compute in E. inv E. assert (X : 1 <= 2) by lia.
  destruct (H _ _ _ _ X Hh eq_refl) as [Y|[Y|(c & [])]]; vm_compute in Y; apply Y; reflexivity.
Qed.
(** What holds: as long as no attempt in progress gets an event other than "writable". *)
Theorem C83_keeps_trying_partial req iv h s :
  1 <= req -> phist req iv h s -> p_stopping s = false ->
  (forall a e peer self l, In (AEvent a e peer self, l) h -> more_than_writable e = false) ->
  req <= Z.of_nat (length (p_chans s)) \/ 1 <= attempts s \/ exists c, In (TClosed c) (p_q s).
Proof.
  intros Hr H St N. destruct (phist_trying _ _ _ _ Hr H) as [_ T]; [|exact St|].
  - intros a e peer self l X. rewrite to_lt_read. exact (N _ _ _ _ _ X).
  - rewrite (phist_req _ _ _ _ H) in T. destruct T as [T|[T|T]]; auto. right. right. destruct (tcl (p_q s)) as [|c t] eqn:Tc; [now destruct T|].
    exists c. apply in_tcl. rewrite Tc. now left.
Qed.
Example C83_nonvacuous : exists h s, phist 2 0 h s /\ p_stopping s = false /\
  (forall a e peer self l, In (AEvent a e peer self, l) h -> more_than_writable e = false) /\ In (PFail 0) (pseen h) /\ length (p_chans s) = 1%nat.
Proof.
  destruct (pgo [ATask DProg; ATask DProg; AEvent 0 EPOLLOUT true false; ADelayed DAtOnce] (pinit 2 0)) as [[h s]|] eqn:E; [|vm_compute in E; discriminate].
  exists h, s. split; [exact (pgo_hist _ _ _ [] _ _ _ (ph_nil 2 0) E)|]. vm_compute in E. inv E. split; [reflexivity|]. split.
  - intros a e peer self l X. cbn in X. repeat (destruct X as [X|X]; [try discriminate; inv X; reflexivity|]). destruct X.
  - split; [|reflexivity]. cbn. tauto.
Qed.

(** ** C84: Finalize closes every connection, and destroying the client is safe *)
Definition C84_statement : Prop := forall req iv h s,
  phist req iv h s -> (p_stopping s = true -> all_done s -> forall a, p_socks s a <> SOpen /\ p_socks s a <> SHanded) /\
                      (forall act, pstep s act <> Some UB).
(** A dial still queued when Finalize is called connects afterwards, and nobody closes that connection. *)
Theorem C84_connection_survives : exists h s, phist 1 0 h s /\ p_stopping s = true /\ all_done s /\ p_socks s 0%nat = SHanded.
Proof.
  destruct (pgo [AFinalize; ATask DAtOnce; ATask DProg] (pinit 1 0)) as [[h s]|] eqn:E; [|vm_compute in E; discriminate].
  exists h, s. split; [exact (pgo_hist _ _ _ [] _ _ _ (ph_nil 1 0) E)|]. vm_compute in E. inv E. repeat split.
Qed.
Theorem C84_statement_refuted : ~ C84_statement.
Proof.
  intro H. destruct C84_connection_survives as (h & s & Hh & St & Q & S). destruct (H _ _ _ _ Hh) as [A _]. destruct (A St Q 0%nat) as [_ B]. contradiction.
Qed.
(** Destroying the client with a dial queued, or with a connection whose close is not yet processed: use after free. *)
Theorem C84_use_after_free : exists h s, phist 1 0 h s /\ pstep s (ATask DAtOnce) = Some UB.
Proof.
  destruct (pgo [ADestroy] (pinit 1 0)) as [[h s]|] eqn:E; [|vm_compute in E; discriminate].
  exists h, s. split; [exact (pgo_hist _ _ _ [] _ _ _ (ph_nil 1 0) E)|]. vm_compute in E. inv E. reflexivity.
Qed.
Theorem C84_use_after_free_connected : exists h s, phist 1 0 h s /\ attempts s = 0 /\ pstep s (AClosed 0 true) = Some UB.
Proof.
  destruct (pgo [ATask DAtOnce; ADestroy] (pinit 1 0)) as [[h s]|] eqn:E; [|vm_compute in E; discriminate].
  exists h, s. split; [exact (pgo_hist _ _ _ [] _ _ _ (ph_nil 1 0) E)|]. vm_compute in E. inv E. split; reflexivity.
Qed.
(** What holds: Finalize while no dial is queued, delayed or in progress; when the loops have nothing left to do, no connection is
    open, and the client may be destroyed: nothing more happens. *)
Theorem C84_finalize_partial req iv h0 s0 s1 l1 h s :
  phist req iv h0 s0 -> p_stopping s0 = false -> attempts s0 = 0 -> pstep s0 AFinalize = Some (Ok (s1, l1)) -> pruns s1 h s -> all_done s ->
  (forall a, p_socks s a <> SOpen /\ p_socks s a <> SHanded) /\
  (forall s2 l2, pstep s ADestroy = Some (Ok (s2, l2)) -> forall act, pstep s2 act = None).
Proof.
  intros H St At E R (Q1 & Q2 & Q3 & Q4). destruct (phist_inv _ _ _ _ H) as [I C].
  assert (Al : p_alive s0 = true) by (cbn in E; destruct (p_alive s0); [reflexivity|discriminate]).
  assert (Es : s1 = Finalize s0) by (cbn in E; rewrite Al in E; inv E; reflexivity).
  pose proof (effect_inv _ _ _ _ (pstep_effect _ _ _ _ E) I C) as [I1 C1]. destruct (pruns_inv _ _ _ R I1 C1) as [I2 _].
  assert (W : winding s) by (apply (pruns_wind _ _ _ R); rewrite Es; now apply wind_start). destruct W as (Sp & _ & W).
  assert (A : forall a, p_socks s a <> SOpen /\ p_socks s a <> SHanded).
  { intro a. split; intro X; [apply (v_open _ I2) in X; rewrite Q3 in X; destruct X|apply W in X; rewrite Q4 in X; destruct X]. }
  split; [exact A|]. intros s2 l2 E2 act. cbn in E2. destruct (p_alive s); [|discriminate]. unfold Finalize in E2. rewrite Sp in E2. inv E2.
  destruct act as [d|d|a e peer self|c il| |c|]; cbn; rewrite ?Q1, ?Q2, ?Q3, ?Q4; try reflexivity. destruct (A c) as [_ B]. destruct (p_socks s c); try reflexivity. contradiction.
Qed.
Example C84_nonvacuous : exists h0 s0 s1 l1 h s, phist 1 0 h0 s0 /\ p_stopping s0 = false /\ attempts s0 = 0 /\ p_socks s0 0%nat = SHanded /\
  pstep s0 AFinalize = Some (Ok (s1, l1)) /\ pruns s1 h s /\ all_done s /\ exists r, pstep s ADestroy = Some (Ok r).
Proof.
  destruct (pgo [ATask DAtOnce] (pinit 1 0)) as [[h s]|] eqn:E; [|vm_compute in E; discriminate].
  pose proof (pgo_hist _ _ _ [] _ _ _ (ph_nil 1 0) E) as Hh. vm_compute in E. inv E. do 6 eexists. split; [exact Hh|]. split; [reflexivity|]. split; [reflexivity|].
  split; [reflexivity|]. split; [reflexivity|]. split.
  - eapply (pr_cons _ (ATask DProg)); [reflexivity|]. eapply (pr_cons _ (ADetach 0)); [reflexivity|]. apply pr_nil.
  - split; [repeat split|eexists; reflexivity].
Qed.

(** ** C85: a request finds a ready connection if there is one *)
Definition C85_statement : Prop := forall ready size c0,
  0 <= c0 -> c0 + 11 < 2 ^ 32 -> (exists i, (i < size)%nat /\ ready i = true) ->
  get_ready_channel ready size (fun j => c0 + Z.of_nat j) <> None.
(** Twelve connections of which only the last is ready. *)
Theorem C85_statement_refuted : ~ C85_statement.
Proof.
  intro H. apply (H (fun i => Nat.eqb i 11) 12%nat 0); [lia|lia|exists 11%nat; split; [lia|reflexivity]|]. reflexivity.
Qed.
Lemma pick_none ready size tk left : forall j, pick_loop ready size tk j left = None ->
  forall i, (j <= i <= j + left)%nat -> ready (Z.to_nat (tk i mod Z.of_nat size)) = false.
Proof.
  induction left as [|l IH]; intros j H i Hi; cbn [pick_loop] in H; destruct (ready (Z.to_nat (tk j mod Z.of_nat size))) eqn:R; try discriminate.
  - assert (i = j) by lia. now subst.
  - destruct (Nat.eq_dec i j) as [->|X]; [exact R|]. apply (IH (S j) H). lia.
Qed.
Theorem C85_pick_partial ready size c0 :
  0 <= c0 -> (size <= 11)%nat -> (exists i, (i < size)%nat /\ ready i = true) ->
  get_ready_channel ready size (fun j => c0 + Z.of_nat j) <> None.
Proof.
  intros H0 Hs (t & Ht & Rt) X. unfold get_ready_channel in X. destruct (Nat.eqb_spec size 0) as [->|Z0]; [lia|].
  set (k := (Z.of_nat t - c0) mod Z.of_nat size) in *. assert (Hk : 0 <= k < Z.of_nat size) by (apply Z.mod_pos_bound; lia).
  pose proof (pick_none _ _ _ _ _ X (Z.to_nat k)) as P. cbv beta in P. rewrite Z2Nat.id in P by lia.
  assert (E : (c0 + k) mod Z.of_nat size = Z.of_nat t).
  { unfold k. rewrite Zplus_mod_idemp_r. replace (c0 + (Z.of_nat t - c0)) with (Z.of_nat t) by lia. apply Z.mod_small. lia. }
  rewrite E, Nat2Z.id in P. rewrite P in Rt; [discriminate|]. lia.
Qed.
(** Whatever other threads do to the counter, the channel returned is one of the pool's and was ready. *)
Theorem C85_sound_partial ready size tk i : get_ready_channel ready size tk = Some i -> (i < size)%nat /\ ready i = true.
Proof.
  unfold get_ready_channel. destruct (Nat.eqb_spec size 0) as [->|Z0]; [discriminate|]. generalize (Nat.min 10 size) as left. intro left. generalize 0%nat as j.
  induction left as [|l IH]; intros j H; cbn [pick_loop] in H; destruct (ready (Z.to_nat (tk j mod Z.of_nat size))) eqn:R.
  - inv H. split; [|exact R]. pose proof (Z.mod_pos_bound (tk j) (Z.of_nat size)). lia.
  - discriminate.
  - inv H. split; [|exact R]. pose proof (Z.mod_pos_bound (tk j) (Z.of_nat size)). lia.
  - exact (IH _ H).
Qed.
Example C85_example : get_ready_channel (fun i => Nat.eqb i 3) 4 (fun j => 9 + Z.of_nat j) = Some 3%nat.
Proof. reflexivity. Qed.

(** ** C86: redials wait 10 ms longer after each failure, at most 10 s *)
Definition C86_statement : Prop := forall req iv h s d,
  1 <= req -> 0 <= iv < 2 ^ 32 -> phist req iv h s -> pseen h = [PDialed 0; PFail 0; PDelay d] -> d = 10.
(** The interval is not initialised: the first redial of a new client may wait anything up to 10 s. *)
Theorem C86_statement_refuted : ~ C86_statement.
Proof.
  intro H. destruct (pgo [ATask DRefused] (pinit 1 7777)) as [[h s]|] eqn:E; [|vm_compute in E; discriminate].
  pose proof (pgo_hist _ _ _ [] _ _ _ (ph_nil 1 7777) E) as Hh. vm_compute in E. inv E.
  assert (A : 1 <= 1) by lia. assert (B : 0 <= 7777 < 2 ^ 32) by lia. pose proof (H _ _ _ _ 7787 A B Hh eq_refl). lia.
Qed.
Theorem C86_delay_partial req iv h s act s' l d : 0 <= iv -> phist req iv h s -> pstep s act = Some (Ok (s', l)) -> In (PDelay d) l ->
  0 <= d <= 10000 /\
  forall l1 a l2, pseen h ++ l = l1 ++ POk a :: l2 -> (forall b, ~ In (POk b) l2) -> 10 * fails l2 < 2 ^ 32 ->
  Z.min (10 * delays l2) 10000 <= d <= Z.min (10 * fails l2) 10000.
Proof.
  intros Hi H E X. destruct (phist_paced _ _ _ _ Hi H) as [P0 P].
  destruct (pace_step _ _ _ _ _ (pstep_effect _ _ _ _ E) P0 P) as (A & B & D). rewrite (D _ X). split; [lia|].
  intros l1 a l2 Es Q F. specialize (B _ _ _ Es Q F). lia.
Qed.
Example C86_nonvacuous : exists h s s' l, phist 1 7777 h s /\ pstep s (ADelayed DRefused) = Some (Ok (s', l)) /\ In (PDelay 30) l /\
  pseen h ++ l = [PDialed 0; POk 0] ++ [PBroken; PDialed 1; PFail 1; PDelay 10; PDialed 2; PFail 2; PDelay 20; PDialed 3; PFail 3; PDelay 30].
Proof.
  destruct (pgo [ATask DAtOnce; AClosed 0 true; ATask DRefused; ADelayed DRefused] (pinit 1 7777)) as [[h s]|] eqn:E; [|vm_compute in E; discriminate].
  pose proof (pgo_hist _ _ _ [] _ _ _ (ph_nil 1 7777) E) as Hh. vm_compute in E. inv E. do 4 eexists. split; [exact Hh|]. split; [reflexivity|]. split; [cbn; tauto|reflexivity].
Qed.

Print Assumptions C79_reported_once.
Print Assumptions C79_cancel_only_after_finalize.
Print Assumptions C80_statement_refuted.
Print Assumptions C80_report_partial.
Print Assumptions C80_no_false_success_partial.
Print Assumptions C81_statement_refuted.
Print Assumptions C81_owned_partial.
Print Assumptions C81_failed_is_closed_partial.
Print Assumptions C82_statement_refuted.
Print Assumptions C82_no_bound.
Print Assumptions C82_single_partial.
Print Assumptions C82_no_close_partial.
Print Assumptions C83_dead_pool.
Print Assumptions C83_statement_refuted.
Print Assumptions C83_keeps_trying_partial.
Print Assumptions C84_connection_survives.
Print Assumptions C84_statement_refuted.
Print Assumptions C84_use_after_free.
Print Assumptions C84_use_after_free_connected.
Print Assumptions C84_finalize_partial.
Print Assumptions C85_statement_refuted.
Print Assumptions C85_pick_partial.
Print Assumptions C85_sound_partial.
Print Assumptions C86_statement_refuted.
Print Assumptions C86_delay_partial.
