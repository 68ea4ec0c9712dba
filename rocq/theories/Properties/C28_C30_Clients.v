(** C28-C30, C47, C48: requests on client channels. *)
From Verif.Model Require Import Common ClientChan.
From Verif.Spec Require Import ClientSpec.
From Verif.Proofs Require Import Tac ClientProofs QueuedProofs.

(** C28.  In every history in which message objects and the ids the codec hands out are not reused,
    a request submitted before the channel is closed ends exactly as the first event that concerns
    it says: its response, its timeout or a disconnect; it ends once; and it is still open exactly
    when no such event has happened.  A request the codec refuses ends at once. *)
Theorem C28_exactly_once pre r id ok post :
  NoDup (requests (pre ++ ASend r id ok :: post)) ->
  NoDup (accepted_ids (pre ++ ASend r id ok :: post)) ->
  ~ In AClose pre ->
  exists c es, arun a_fresh (pre ++ ASend r id ok :: post) = Ok (c, es) /\
    completions_of r es = if ok then opt_list (fate r id post) else [RBroken].
Proof. apply async_exact. Qed.

(** Hence: at most one completion, and exactly one once its timeout task has run or the channel was
    closed, whatever else happened. *)
Theorem C28_completed_after_timeout pre r id ok post alive :
  NoDup (requests (pre ++ ASend r id ok :: post)) ->
  NoDup (accepted_ids (pre ++ ASend r id ok :: post)) ->
  ~ In AClose pre ->
  In (ATimeout r alive) post \/ In ACodecClosed post \/ In AClose post ->
  exists c es, arun a_fresh (pre ++ ASend r id ok :: post) = Ok (c, es) /\
    length (completions_of r es) = 1%nat.
Proof.
  intros H1 H2 H3 H4. destruct (async_exact pre r id ok post H1 H2 H3) as (c & es & E & C).
  exists c, es. split; [exact E|]. rewrite C. destruct ok; [|reflexivity].
  assert (F : exists x, fate r id post = Some x).
  { clear -H4. induction post as [|o post IH]; [destruct H4 as [[]|[[]|[]]]|].
    assert (D : (exists x, fate r id [o] = Some x) \/
                (In (ATimeout r alive) post \/ In ACodecClosed post \/ In AClose post)).
    { destruct H4 as [[->|I]|[[->|I]|[->|I]]]; auto; left; cbn; rewrite ?Nat.eqb_refl; eauto. }
    rewrite fate_cons. destruct (fate r id [o]) as [x|]; [eauto|].
    destruct D as [[x D]|D]; [discriminate|auto]. }
  destruct F as [x ->]. reflexivity.
Qed.

(** No history aborts the process: CHECK(request->AsyncId() == identify) never fails. *)
Theorem C28_never_aborts pre r id ok post :
  NoDup (requests (pre ++ ASend r id ok :: post)) ->
  NoDup (accepted_ids (pre ++ ASend r id ok :: post)) -> ~ In AClose pre ->
  arun a_fresh (pre ++ ASend r id ok :: post) <> CheckFail.
Proof. intros H1 H2 H3. destruct (async_exact pre r id ok post H1 H2 H3) as (c & es & E & _). congruence. Qed.

(** Concrete: three requests answered out of order, one duplicate answer, one unknown id, one
    timeout, one disconnect. *)
Definition c28_history :=
  [AHeartbeat 9%nat 100 true; ASend 1%nat 11 true; ASend 2%nat 12 true; ASend 3%nat 13 true; ASend 4%nat 14 false;
   AResponse 12 50%nat; AResponse 12 51%nat; AResponse 77 52%nat; ATimeout 2%nat true; ATimeout 1%nat false;
   AResponse 11 53%nat; ACodecClosed; ATimeout 3%nat true]%Z.
Example C28_nonvacuous : NoDup (requests c28_history) /\ NoDup (accepted_ids c28_history) /\
  match arun a_fresh c28_history with
  | Ok (_, es) => completions es = [(4%nat, RBroken); (2%nat, RResp 50); (1%nat, RTimeout); (3%nat, RBroken)]
  | _ => False
  end.
Proof.
  split; [|split].
  - repeat constructor; cbn; intuition congruence.
  - repeat constructor; cbn; intuition congruence.
  - vm_compute. reflexivity.
Qed.

(** C29.  Full statement: a request the codec accepted while another one with the same id is in
    flight still ends like any other request. *)
Definition C29_statement : Prop := forall pre r id post,
  NoDup (requests (pre ++ ASend r id true :: post)) -> ~ In AClose pre ->
  (exists alive, In (ATimeout r alive) post) ->
  exists c es, arun a_fresh (pre ++ ASend r id true :: post) = Ok (c, es) /\
    length (completions_of r es) = 1%nat.

(** False: [unordered_map::insert] keeps the first request, and the second one is tracked by
    nobody; if the first one is answered in time the second never ends although its own timeout
    task runs. *)
Theorem C29_statement_refuted : ~ C29_statement.
Proof.
  intro S. destruct (S [ASend 1%nat 0%Z true] 2%nat 0%Z [AResponse 0 7%nat; ATimeout 2%nat true]) as (c & es & E & L).
  - repeat constructor; cbn; intuition congruence.
  - cbn. intuition congruence.
  - exists true. cbn. auto.
  - cbn in E. inv E. cbn in L. discriminate.
Qed.

(** What holds: a request whose id is not in flight is tracked and gets its response. *)
Theorem C29_fresh_id_tracked_partial c r id m :
  prog_find id (a_prog c) = None -> a_del c = true -> a_hb c <> Some r ->
  exists c1 c2 e, astep c (ASend r id true) = Ok (c1, []) /\
    astep c1 (AResponse id m) = Ok (c2, [e]) /\ completions [e] = [(r, RResp m)].
Proof.
  intros F D H. cbn [astep]. unfold a_send. rewrite upd_same. unfold prog_insert. rewrite F.
  eexists _, _, _. split; [reflexivity|]. unfold a_response; cbn [a_prog a_aid a_hb a_del].
  assert (G : prog_find id (a_prog c ++ [(id, r)]) = Some r).
  { clear -F. induction (a_prog c) as [|[k q] p IH]; cbn in *.
    - now rewrite Z.eqb_refl.
    - destruct (k =? id)%Z; [discriminate|auto]. }
  rewrite G, upd_same, Z.eqb_refl, D, (hr_same _ _ _ H). split; reflexivity.
Qed.

(** C47.  Full statement: ids may be reused once the earlier request has ended. *)
Definition C47_statement : Prop := forall pre r id mid r' post,
  NoDup (requests (pre ++ ASend r id true :: mid ++ ASend r' id true :: post)) ->
  NoDup (accepted_ids (pre ++ ASend r id true :: mid)) ->
  NoDup (accepted_ids (pre ++ ASend r' id true :: post)) ->
  ~ In AClose (pre ++ mid) -> (exists m, In (AResponse id m) mid) ->
  exists c es, arun a_fresh (pre ++ ASend r id true :: mid ++ ASend r' id true :: post) = Ok (c, es) /\
    completions_of r' es = opt_list (fate r' id post).

(** False: the timeout task of the finished request erases the entry of the new one (and, if the
    caller kept the old message, ends the old request a second time). *)
Theorem C47_statement_refuted : ~ C47_statement.
Proof.
  intro S.
  destruct (S [] 1%nat 5%Z [AResponse 5 7%nat] 2%nat [ATimeout 1%nat true; AResponse 5 8%nat]) as (c & es & E & L).
  - repeat constructor; cbn; intuition congruence.
  - repeat constructor; cbn; intuition congruence.
  - repeat constructor; cbn; intuition congruence.
  - cbn. intuition congruence.
  - exists 7%nat. cbn. auto.
  - cbn in E. inv E. cbn in L. discriminate.
Qed.
(** The old request is ended twice in that history. *)
Example C47_old_request_ended_twice :
  match arun a_fresh [ASend 1%nat 5 true; AResponse 5 7%nat; ASend 2%nat 5 true; ATimeout 1%nat true; AResponse 5 8%nat]%Z with
  | Ok (_, es) => completions es = [(1%nat, RResp 7); (1%nat, RTimeout)]
  | _ => False
  end.
Proof. vm_compute. reflexivity. Qed.

(** What holds: if the old message object is gone (nobody else holds it) its late timeout task does
    nothing to any other request. *)
Theorem C47_dead_timer_harmless_partial c r :
  prog_holds r (a_prog c) = false -> a_hb c <> Some r ->
  exists c', astep c (ATimeout r false) = Ok (c', []) /\ a_prog c' = a_prog c.
Proof.
  intros P H. cbn [astep]. unfold a_timeout. destruct (existsb _ _); [|eauto].
  apply oeqb_false in H. rewrite P, H. cbn. eauto.
Qed.

(** C48.  Full statement: every request submitted ends, also when it reaches the channel after
    CloseClientChannel. *)
Definition C48_statement : Prop := forall pre r id ok post,
  NoDup (requests (pre ++ ASend r id ok :: post)) ->
  NoDup (accepted_ids (pre ++ ASend r id ok :: post)) ->
  (exists alive, In (ATimeout r alive) post) ->
  exists c es, arun a_fresh (pre ++ ASend r id ok :: post) = Ok (c, es) /\
    length (completions_of r es) = 1%nat.

(** False: CloseClientChannel drops the delegate, and with it the only way to resume the waiter. *)
Theorem C48_statement_refuted : ~ C48_statement.
Proof.
  intro S. destruct (S [AClose] 1%nat 5%Z false [ATimeout 1%nat true]) as (c & es & E & L).
  - repeat constructor; cbn; intuition congruence.
  - repeat constructor; cbn; intuition congruence.
  - exists true. cbn. auto.
  - cbn in E. inv E. cbn in L. discriminate.
Qed.

(** What holds: everything submitted before the close ends (C28), and closing ends every request
    still in flight at once. *)
Theorem C48_close_ends_everything_in_flight_partial pre r id :
  NoDup (requests (pre ++ [ASend r id true; AClose])) ->
  NoDup (accepted_ids (pre ++ [ASend r id true; AClose])) -> ~ In AClose pre ->
  exists c es, arun a_fresh (pre ++ [ASend r id true; AClose]) = Ok (c, es) /\
    completions_of r es = [RBroken].
Proof. intros. apply (async_exact pre r id true [AClose]); auto. Qed.

(** C30.  Full statement: for every codec behaviour and every history (without a final close) the
    channel runs, and what ended so far followed by what is pending is what users submitted, in
    order. *)
Definition C30_statement (intact : bool) : Prop := forall ok H os,
  NoDup (q_requests os) -> ~ In QClose os ->
  (forall r, (In (QSend r) os -> H r = false) /\ (In (QHeartbeat r) os -> H r = true)) ->
  exists c es, qrun ok intact q_fresh os = Ok (c, es) /\
    map fst (completions es) ++ filter (fun r => negb (H r)) (q_pending c) = q_submitted os.

(** False of the code as written: the very first send reads a destroyed list element. *)
Theorem C30_statement_refuted : ~ C30_statement false.
Proof.
  intro S. destruct (S (fun _ => true) (fun _ => false) [QSend 1%nat]) as (c & es & E & _).
  - repeat constructor; cbn; intuition congruence.
  - cbn. intuition congruence.
  - intro r. cbn. intuition congruence.
  - cbn in E. discriminate.
Qed.
Theorem C30_every_first_send_is_undefined ok c r :
  q_ing c = None -> q_send ok false c r = UB.
Proof.
  intro I. unfold q_send, try_send_next. cbn [q_ing q_wait q_hb q_del]. rewrite I.
  destruct (q_wait c); reflexivity.
Qed.

(** If the destroyed element's storage still holds the pointer (no reuse of the freed node before
    the next line) the statement holds: exactly once, in submission order. *)
Theorem C30_exactly_once_in_order_partial : C30_statement true.
Proof.
  intros ok H os ND NC CL.
  destruct (qrun_ok ok H os q_fresh (qi_fresh H) CL ND) as (c & es & E & _ & CV & _); auto.
  exists c, es. split; [exact E|]. exact CV.
Qed.

(** Under the same assumption, in every reachable state: a response ends the oldest pending request
    with it (then the requests the codec refuses), a timeout of the request in flight ends it and
    breaks all the others, a late timeout does nothing, a disconnect breaks exactly the pending
    ones. *)
Theorem C30_each_event_partial ok H os c es o :
  NoDup (q_requests (os ++ [o])) -> ~ In QClose os -> o <> QClose ->
  (forall r, (In (QSend r) (os ++ [o]) -> H r = false) /\ (In (QHeartbeat r) (os ++ [o]) -> H r = true)) ->
  qrun ok true q_fresh os = Ok (c, es) ->
  exists c' es', qstep ok true c o = Ok (c', es') /\
  match o with
  | QResponse m =>
      forall r rest, q_pending c = r :: rest ->
        completions es' = users H ((r, RResp m) :: all_broken (refused ok rest)) /\
        rest = refused ok rest ++ q_pending c'
  | QTimeout r _ =>
      (forall rest, q_pending c = r :: rest ->
        (completions es' = users H ((r, RTimeout) :: all_broken rest) /\ q_pending c' = [])) /\
      ((forall rest, q_pending c <> r :: rest) -> completions es' = [] /\ q_pending c' = q_pending c)
  | QCodecClosed => completions es' = users H (all_broken (q_pending c)) /\ q_pending c' = []
  | _ => True
  end.
Proof.
  intros ND NC NO CL R.
  assert (SUB : q_requests (os ++ [o]) = q_requests os ++ op_qreq o).
  { clear. induction os as [|x os IH]; [destruct o; reflexivity|]. cbn [app]. rewrite !q_requests_cons, IH. now rewrite app_assoc. }
  rewrite SUB in ND. apply NoDup_app_parts in ND as (N1 & N2 & N3).
  destruct (qrun_ok ok H os q_fresh (qi_fresh H)) as (c0 & es0 & E & Q & _ & PS); auto.
  { intro r. destruct (CL r) as [A B]. split; intro; [apply A|apply B]; apply in_or_app; auto. }
  rewrite R in E. inv E.
  destruct (qstep_ok ok H c0 o Q NO) as (c' & es' & E' & Q' & EF).
  { intros r I J. destruct (PS r J) as [[]|K]. eapply N3; eauto. }
  { intros r ->. apply (CL r). apply in_or_app. cbn. auto. }
  { intros r ->. apply (CL r). apply in_or_app. cbn. auto. }
  exists c', es'. split; [exact E'|]. destruct o as [r|r|r al|m| |]; auto; cbn [qeffect] in EF.
  - split.
    + intros rest P. rewrite P in EF. rewrite Nat.eqb_refl in EF.
      assert (IT : existsb (Nat.eqb r) (q_timers c0) = true).
      { apply existsb_In. apply (qi_tm _ _ Q). destruct Q as [_ _ QB _]. unfold q_pending in P.
        destruct (q_ing c0); cbn in P; [inv P; auto|]. rewrite (QB eq_refl) in P. discriminate. }
      rewrite IT in EF. exact EF.
    + intro NP. destruct (q_pending c0) as [|x l] eqn:P; [exact EF|].
      destruct (Nat.eqb_spec x r); [subst; exfalso; eapply NP; eauto|exact EF].
  - intros r rest P. rewrite P in EF. exact EF.
Qed.

(** No request is left waiting with nothing to end it: while something is pending, the oldest one is
    with the codec and has a timeout task. *)
Theorem C30_always_a_timer_partial ok H os c es r rest :
  NoDup (q_requests os) -> ~ In QClose os ->
  (forall r, (In (QSend r) os -> H r = false) /\ (In (QHeartbeat r) os -> H r = true)) ->
  qrun ok true q_fresh os = Ok (c, es) -> q_pending c = r :: rest ->
  q_ing c = Some r /\ In r (q_timers c).
Proof.
  intros ND NC CL R P.
  destruct (qrun_ok ok H os q_fresh (qi_fresh H) CL ND) as (c0 & es0 & E & Q & _); auto.
  rewrite R in E. inv E. destruct Q as [_ _ QB QT]. unfold q_pending in P.
  destruct (q_ing c0) as [x|]; cbn in P; [inv P; auto|]. rewrite (QB eq_refl) in P. discriminate.
Qed.

(** CloseClientChannel ends everything submitted before it; nothing is delivered afterwards. *)
Theorem C30_close_partial ok H pre post :
  NoDup (q_requests pre) -> ~ In QClose pre ->
  (forall r, (In (QSend r) pre -> H r = false) /\ (In (QHeartbeat r) pre -> H r = true)) ->
  exists c es, qrun ok true q_fresh (pre ++ QClose :: post) = Ok (c, es) /\
    map fst (completions es) = q_submitted pre.
Proof.
  intros ND NC CL.
  destruct (qrun_ok ok H pre q_fresh (qi_fresh H) CL ND) as (c0 & es0 & E & Q & CV & _); auto.
  rewrite qrun_app, E. cbn [obind qrun qstep].
  destruct (q_close c0) as [c1 e1] eqn:EC. cbn [obind].
  unfold q_close in EC. destruct (q_fail_all c0) as [ca ea] eqn:EA.
  destruct (q_fail_all {| q_wait := q_wait ca; q_ing := q_ing ca; q_del := false; q_hb := q_hb ca; q_timers := q_timers ca |}) as [cb eb] eqn:EB.
  inv EC. destruct (q_fail_nodel _ _ _ EB eq_refl) as [DB CB].
  destruct (qrun_nodel ok post c1 DB) as (c2 & e2 & E2 & C2). rewrite E2. cbn [obind].
  exists c2, (es0 ++ (ea ++ eb) ++ e2). split; [reflexivity|].
  rewrite !completions_app, CB, C2, !app_nil_r, map_app.
  destruct (qstep_ok ok H c0 QCodecClosed Q) as (c' & es' & E' & Q' & EF); try congruence.
  { intros r []. }
  cbn [qstep] in E'. rewrite EA in E'. inv E'. cbn [qeffect] in EF. destruct EF as [-> EP].
  rewrite users_fst, all_broken_fst. exact CV.
Qed.

Example C30_nonvacuous :
  match qrun (fun r => negb (Nat.eqb r 3)) true q_fresh
    [QSend 1%nat; QSend 2%nat; QHeartbeat 8%nat; QSend 3%nat; QSend 4%nat; QSend 5%nat;
     QResponse 51%nat; QTimeout 1%nat true; QResponse 52%nat; QResponse 58%nat; QTimeout 4%nat true; QResponse 99%nat] with
  | Ok (_, es) => completions es = [(1%nat, RResp 51); (2%nat, RResp 52); (3%nat, RBroken); (4%nat, RTimeout); (5%nat, RBroken)]
  | _ => False
  end.
Proof. vm_compute. reflexivity. Qed.

Print Assumptions C28_exactly_once.
Print Assumptions C28_completed_after_timeout.
Print Assumptions C28_never_aborts.
Print Assumptions C29_statement_refuted.
Print Assumptions C29_fresh_id_tracked_partial.
Print Assumptions C47_statement_refuted.
Print Assumptions C47_dead_timer_harmless_partial.
Print Assumptions C48_statement_refuted.
Print Assumptions C48_close_ends_everything_in_flight_partial.
Print Assumptions C30_statement_refuted.
Print Assumptions C30_every_first_send_is_undefined.
Print Assumptions C30_exactly_once_in_order_partial.
Print Assumptions C30_each_event_partial.
Print Assumptions C30_always_a_timer_partial.
Print Assumptions C30_close_partial.
