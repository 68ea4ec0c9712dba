(** C141-C148: an HTTP server connection from the requests delivered to the bytes on the wire and the close. *)
From Coq Require Import Sorted.
From Verif.Model Require Import Common HttpConn.
From Verif.Spec Require Import HttpConnSpec.
From Verif.Proofs Require Import Tac HttpConnProofs HttpConnProofs2 HttpConnProofs3 HttpConnProofs4.
Open Scope nat_scope.

Lemma all_true (os : list op) : Forall (fun _ => True) os.
Proof. induction os; auto. Qed.
Ltac evalrun E t :=
  let r := eval vm_compute in t in
  match r with Some (Ok (?c, ?es)) => assert (E : t = Some (Ok (c, es))) by (vm_compute; reflexivity) end.

(** C141. Whatever the schedule, the kernel, and the uninitialised flag: the bytes on the wire followed by the buffered
    ones are exactly the responses in the order in which they were given, as long as no write failed; and also when
    writes fail, unless the failed write was that of a 400. *)
Theorem C141_in_order same fl os c es :
  run same (conn0 fl) [] os = Some (Ok (c, es)) -> c_fail c = false \/ ~ In VBad es ->
  c_wire c ++ c_out c = stream es.
Proof.
  intros R [F|F].
  - revert F. eapply (run_inv same I1 (fun _ => True)); [| |apply all_true|exact R].
    + intros; eapply I1_step; eauto.
    + now intros _.
  - revert F. eapply (run_inv same I1b (fun _ => True)); [| |apply all_true|exact R].
    + intros; eapply I1b_step; eauto.
    + now intros _.
Qed.

(** Answers given in other threads enter the stream in the order in which they were given, each at most once; none is
    lost while the connection is not removed and the application does not use the guarded calls. *)
Lemma subseq_snoc_drop {A} (a b : list A) x : subseq a b -> subseq a (b ++ [x]).
Proof. induction 1; cbn; repeat (constructor; auto). Qed.
Lemma subseq_snoc_keep {A} (a b : list A) x : subseq a b -> subseq (a ++ [x]) (b ++ [x]).
Proof. induction 1; cbn; repeat (constructor; auto). Qed.
Lemma write_keeps c n e c1 r : handle_write c n e = (c1, r) -> c_cross c1 = c_cross c /\ c_stored c1 = c_stored c.
Proof. unfold handle_write. destruct (c_out c); [intros [= <- <-]; auto|]. destruct (skipn n _); [intros [= <- <-]; auto|]. destruct e; intros [= <- <-]; auto. Qed.
Lemma send_keeps c b n e : c_cross (chan_send c b n e) = c_cross c /\ c_stored (chan_send c b n e) = c_stored c.
Proof.
  unfold chan_send. destruct (c_out c).
  - destruct (skipn n b); [auto|]. destruct e; auto.
  - destruct (handle_write (append_out c b) n e) as [c1 r] eqn:E. apply write_keeps in E. exact E.
Qed.
Lemma respond_keeps same c id b k c1 es : respond same c id b k = (c1, es) -> c_cross c1 = c_cross c /\ c_stored c1 = c_stored c /\ answers_given es = [(id, b)].
Proof.
  unfold respond, send_response. destruct k; [|unfold close_service]; intros [= <- <-]; cbn [answers_given map concat app];
    (split; [|split; [|reflexivity]]); cbn; destruct (c_flag c); reflexivity.
Qed.
Lemma posted_step same c o c1 e1 : direct_op o = false -> step same c o = Ok (c1, e1) ->
  (answers_given e1 ++ waiting c1 = waiting c ++ posted [o] \/ answers_given e1 ++ waiting c1 = waiting c) /\
  (c_stored c1 = true -> c_stored c = true) /\
  (c_stored c = true -> guarded_op o = false \/ posted [o] = [] -> answers_given e1 ++ waiting c1 = waiting c ++ posted [o]).
Proof.
  intros D S.
  assert (Q : forall c1 e1, c_cross c1 = c_cross c -> (c_stored c1 = true -> c_stored c = true) -> answers_given e1 = [] -> posted [o] = [] ->
    (answers_given e1 ++ waiting c1 = waiting c ++ posted [o] \/ answers_given e1 ++ waiting c1 = waiting c) /\
    (c_stored c1 = true -> c_stored c = true) /\
    (c_stored c = true -> guarded_op o = false \/ posted [o] = [] -> answers_given e1 ++ waiting c1 = waiting c ++ posted [o])).
  { clear. intros c1 e1 X1 X2 X3 X4. unfold waiting. rewrite X1, X3, X4, app_nil_r. cbn [app]. auto. }
  destruct o; try discriminate D; cbn [step] in S; unfold with_this in S.
  - destruct (alive c); [|discriminate S]. destruct (if w then handle_write c n err else (c, WNone)) as [c2 res] eqn:E.
    assert (K : c_cross c2 = c_cross c /\ c_stored c2 = c_stored c) by (destruct w; [exact (write_keeps _ _ _ _ _ E)|inv E; auto]). destruct K as [K1 K2].
    destruct res.
    + inv S. apply Q; cbn; auto; congruence.
    + unfold close_service in S. destruct (c_sched c2); inv S; apply Q; cbn; auto; congruence.
    + inv S. apply Q; cbn; auto; congruence.
  - destruct (alive c); [|discriminate S]. destruct (c_phase c); inv S; apply Q; cbn; auto.
  - destruct (alive c); [|discriminate S]. inv S; apply Q; cbn; auto.
  - destruct (alive c); [|discriminate S]. destruct (send_keeps c bad_request n err) as [K1 K2]. unfold close_service in S.
    destruct (c_phase c); inv S; apply Q; cbn; auto; congruence.
  - destruct (alive c); [|discriminate S]. unfold close_service in S. destruct (match c_phase c with PParse ok | PTail ok => ok | _ => true end && _); inv S; apply Q; cbn; auto.
  - change (posted [OPostReply id b guarded]) with [(id, b)]. destruct (guarded && answered c id) eqn:G.
    + inv S. cbn [app answers_given map concat]. split; [auto|]. split; [auto|]. intros _ [X|X]; [|discriminate X]. cbn in X. subst guarded. discriminate G.
    + change (alive (mark_replied c id)) with (alive c) in S. destruct (alive c) eqn:A; inv S.
      * unfold waiting, answers_given. cbn. rewrite map_app. cbn. auto.
      * unfold waiting, answers_given. cbn. split; [auto|]. split; [auto|]. intros T _. exfalso. rewrite (alive_stored c T) in A. discriminate A.
  - destruct (c_cross c) as [|p q] eqn:X; [inv S; apply Q; cbn; auto|]. destruct (respond same c (p_id p) (p_bytes p) (p_keep p)) as [c2 es] eqn:R.
    inv S. destruct (respond_keeps _ _ _ _ _ _ _ R) as (R1 & R2 & R3). unfold waiting. rewrite R3, X. cbn. rewrite R2, app_nil_r. auto.
  - inv S. apply Q; cbn; auto.
  - destruct (c_phase c) as [| | | |ts d| |]; try (inv S; apply Q; cbn; auto; fail). destruct ts as [|[] ts]; [inv S; apply Q; cbn; auto| |].
    + destruct (alive c); [|discriminate S]. destruct (handle_write c n err) as [c2 res] eqn:E. destruct (write_keeps _ _ _ _ _ E) as [K1 K2].
      unfold close_service in S. destruct res; [|destruct (c_sched c2)|]; inv S; apply Q; cbn; auto; congruence.
    + inv S. apply Q; cbn; auto. discriminate.
  - destruct (alive c); [|discriminate S]. destruct (c_phase c); inv S; apply Q; cbn; auto.
  - destruct (c_phase c); inv S; apply Q; cbn; auto.
  - inv S. apply Q; cbn; auto.
  - inv S. apply Q; cbn; auto. discriminate.
Qed.
Lemma posted_cons o os : posted (o :: os) = posted [o] ++ posted os.
Proof. unfold posted. cbn [map concat]. now rewrite app_nil_r. Qed.
Lemma given_app a b : answers_given (a ++ b) = answers_given a ++ answers_given b.
Proof. unfold answers_given. now rewrite map_app, concat_app. Qed.
Lemma posted_one o : posted [o] = [] \/ exists x, posted [o] = [x].
Proof. destruct o; cbn; eauto. Qed.
Theorem C141_posted_in_order same fl os c es :
  run same (conn0 fl) [] os = Some (Ok (c, es)) -> forallb (fun o => negb (direct_op o)) os = true ->
  subseq (answers_given es ++ waiting c) (posted os) /\
  (c_stored c = true -> forallb (fun o => negb (answer_op o) || negb (guarded_op o)) os = true -> answers_given es ++ waiting c = posted os).
Proof.
  assert (G : forall os c0 es0 done, run same c0 es0 os = Some (Ok (c, es)) -> forallb (fun o => negb (direct_op o)) os = true ->
    subseq (answers_given es0 ++ waiting c0) done ->
    subseq (answers_given es ++ waiting c) (done ++ posted os) /\ (c_stored c = true -> c_stored c0 = true) /\
    (c_stored c = true -> forallb (fun o => negb (answer_op o) || negb (guarded_op o)) os = true -> answers_given es0 ++ waiting c0 = done ->
     answers_given es ++ waiting c = done ++ posted os)).
  { clear os. induction os as [|o os IH]; intros c0 es0 done R D S.
    - inv R. cbn. rewrite app_nil_r. auto.
    - cbn [run] in R. destruct (possible same c0 o); [|discriminate R]. destruct (step same c0 o) as [[c1 e1]| |] eqn:E; try discriminate R.
      cbn [forallb] in D. apply andb_prop in D. destruct D as [D1 D2]. apply negb_true_iff in D1.
      destruct (posted_step same c0 o c1 e1 D1 E) as (P1 & P2 & P3).
      assert (S1 : subseq (answers_given (es0 ++ e1) ++ waiting c1) (done ++ posted [o])).
      { rewrite given_app, <- app_assoc. destruct P1 as [->| ->].
        - rewrite app_assoc. destruct (posted_one o) as [->|[x ->]]; [rewrite !app_nil_r; exact S|now apply subseq_snoc_keep].
        - destruct (posted_one o) as [->|[x ->]]; [rewrite app_nil_r; exact S|now apply subseq_snoc_drop]. }
      destruct (IH c1 (es0 ++ e1) (done ++ posted [o]) R D2 S1) as (A1 & A2 & A3). rewrite posted_cons, app_assoc.
      split; [exact A1|]. split; [auto|]. intros T F Ed. cbn [forallb] in F. apply andb_prop in F. destruct F as [F1 F2].
      apply A3; auto. rewrite given_app, <- app_assoc, P3.
      + rewrite app_assoc, Ed. reflexivity.
      + auto.
      + destruct o; cbn in F1 |- *; try (right; reflexivity); left; now apply negb_true_iff. }
  intros R D. destruct (G os (conn0 fl) [] [] R D) as (A1 & _ & A3); [constructor|]. split; [exact A1|]. intros T F. now apply A3.
Qed.
Example C141_posted_nonvacuous : exists c es,
  let os := [OEvent false true 0 false; ORead false; ODeliver true; ODeliver true; OEventEnd; OPostReply 1 [8]%Z false; OPostReply 0 [7]%Z false; OCross] in
  run true (conn0 false) [] os = Some (Ok (c, es)) /\ forallb (fun o => negb (direct_op o)) os = true /\ c_stored c = true /\
  answers_given es = [(1, [8]%Z)] /\ waiting c = [(0, [7]%Z)].
Proof. eexists _, _. cbv zeta. split; [vm_compute; reflexivity|]. cbn. auto. Qed.

(** C142. Full statement: when the loop has run what was posted, the bytes not yet sent wait for a socket that refused
    them (and its write event is asked for), or a write failed. *)
Definition C142_statement : Prop := forall same fl os c es,
  run same (conn0 fl) [] os = Some (Ok (c, es)) -> c_phase c = PIdle -> c_nested c = [] -> c_out c <> [] ->
  c_fail c = true \/ (c_blk c = true /\ c_wr c = true).

(** One keep-alive request, answered by its handler. *)
Definition req_ops (keep : bool) (b : list Z) : list op :=
  [OEvent false true 0 false; ORead false; ODeliver keep; OReply 0 b true; OEventEnd].
Definition flush_ops (n : nat) : list op := [OBatch; OTask n false; OFlushTail; ORunner; OBatchEnd].

(** False: flush_scheduled_ has no initial value. If it happens to be true, no flush is ever posted and the response
    stays in the buffer. *)
Theorem C142_statement_refuted : ~ C142_statement.
Proof.
  intro S. evalrun E (run false (conn0 true) [] (req_ops true [7%Z] ++ [OBatch; ORunner; OBatchEnd])).
  destruct (S _ _ _ _ _ E eq_refl eq_refl ltac:(discriminate)) as [Y|[Y _]]; discriminate Y.
Qed.
(** ... and nothing the loop does by itself changes that: until the socket reports something or the application gives
    another answer, the wire stays as it is. *)
Theorem C142_stuck same c es os c' es' :
  settled c -> (forall o, In o os -> match o with OEvent _ _ _ _ => false | _ => negb (answer_op o) end = true) ->
  run same c es os = Some (Ok (c', es')) -> c_wire c' = c_wire c /\ c_out c' = c_out c.
Proof.
  intros (P & N & X & A) F R.
  assert (G : (c_wire c' = c_wire c /\ c_out c' = c_out c) /\ c_nested c' = [] /\ c_cross c' = [] /\ c_acc c' = 0 /\
    (c_phase c' = PIdle \/ c_phase c' = PBatch [] 0 \/ c_phase c' = PRunner 0)); [|tauto].
  refine (run_inv same (fun c' _ => (c_wire c' = c_wire c /\ c_out c' = c_out c) /\ c_nested c' = [] /\ c_cross c' = [] /\ c_acc c' = 0 /\
    (c_phase c' = PIdle \/ c_phase c' = PBatch [] 0 \/ c_phase c' = PRunner 0))
    (fun o => match o with OEvent _ _ _ _ => false | _ => negb (answer_op o) end = true) _ os c es c' es' _ _ R).
  - clear. intros c1 es o c2 e1 (W & N & X & A & P) G Po S. unfold possible in Po.
    destruct o; try discriminate G; cbn [step] in S.
    1-4,7,8: destruct P as [P|[P|P]]; rewrite P in Po; discriminate.
    + rewrite X in S, Po. cbn in Po. destruct (c_phase c1); discriminate.
    + inv S. fields. rewrite N. auto 10.
    + destruct P as [P|[P|P]]; rewrite P in S, Po; try discriminate; inv S; fields; auto 10.
    + destruct P as [P|[P|P]]; rewrite P in Po; try discriminate; inv S; fields; auto 10.
    + exfalso. rewrite A in Po. cbn in Po. rewrite andb_false_r in Po. destruct (c_phase c1); discriminate.
  - auto 10.
  - now apply Forall_forall.
Qed.
(** With the flag initially false it holds. *)
Theorem C142_unsent_waits_partial same os c es :
  run same (conn0 false) [] os = Some (Ok (c, es)) -> c_phase c = PIdle -> c_nested c = [] -> c_out c <> [] ->
  c_fail c = true \/ (c_blk c = true /\ c_wr c = true).
Proof.
  intros R P N O.
  assert (I : I2 c).
  { eapply (run_inv same (fun c _ => I2 c) (fun _ => True)); [| |apply all_true|exact R].
    - intros; eapply I2_step; eauto.
    - apply I2_init. }
  destruct I as (A & B & C). rewrite N, P in B. destruct (B O) as [X|[X|X]]; auto. cbn in X. lia.
Qed.
Example C142_nonvacuous : exists c es,
  run true (conn0 false) [] (req_ops true [7;8;9]%Z ++ flush_ops 2) = Some (Ok (c, es)) /\
  c_phase c = PIdle /\ c_nested c = [] /\ c_out c = [9]%Z /\ c_wire c = [7;8]%Z /\ c_blk c = true /\ c_fail c = false /\
  stream es = [7;8;9]%Z.
Proof. eexists _, _. split; [vm_compute; reflexivity|]. cbn. auto 10. Qed.

(** C143. Full statement: when everything has run and no write failed, a connection whose close has been reported has sent
    all its answers. *)
Definition C143_statement : Prop := forall same os c es,
  run same (conn0 false) [] os = Some (Ok (c, es)) -> settled c -> c_fail c = false -> 1 <= closes es ->
  c_wire c = stream es.
(** False: a request that asks for a close is answered by SendResponse, which only buffers, and CloseService, which
    unregisters the socket. The flush that follows sends what the socket takes at once; the rest is never sent. *)
Theorem C143_statement_refuted : ~ C143_statement.
Proof.
  intro S. evalrun E (run true (conn0 false) [] (req_ops false [7;8;9]%Z ++ [OBatch; OTask 2 false; OFlushTail; OTask 0 false; ORunner; OBatchEnd])).
  assert (X := S _ _ _ _ E ltac:(repeat split) eq_refl ltac:(cbn; lia)). discriminate X.
Qed.
(** If the socket was not full at the last attempt, everything is sent. *)
Theorem C143_all_sent_partial same os c es :
  run same (conn0 false) [] os = Some (Ok (c, es)) -> settled c -> c_fail c = false -> c_blk c = false ->
  c_wire c = stream es.
Proof.
  intros R (P & N & _) F B. rewrite <- (C141_in_order same false os c es R (or_introl F)).
  destruct (c_out c) eqn:O; [now rewrite app_nil_r|].
  destruct (C142_unsent_waits_partial same os c es R P N) as [X|[X _]]; congruence.
Qed.
Example C143_nonvacuous : exists c es,
  run true (conn0 false) [] (req_ops false [7;8;9]%Z ++ [OBatch; OTask 3 false; OFlushTail; OTask 0 false; ORunner; OBatchEnd] ++
                             [OBatch; OTask 0 false; ORunner; OBatchEnd]) = Some (Ok (c, es)) /\
  settled c /\ c_fail c = false /\ c_blk c = false /\ closes es = 2 /\ c_wire c = [7;8;9]%Z /\ alive c = false.
Proof. eexists _, _. split; [vm_compute; reflexivity|]. cbn. repeat split. Qed.

(** C144. Full statement: a connection is never used after it was freed. *)
Definition C144_statement : Prop := forall same os, run same (conn0 false) [] os <> Some UB.
(** False. With several loops, a plain "Connection: close" request: the acceptor's thread drops the last reference
    before the connection's loop runs the flush, which captured the raw pointer, ... *)
Theorem C144_flush_after_free :
  run false (conn0 false) [] (req_ops false [7]%Z ++ [OAcc; OBatch; OTask 1 false]) = Some UB.
Proof. vm_compute. reflexivity. Qed.
(** ... or before HandleEvent, from which the answer was given, has returned, ... *)
Theorem C144_event_after_free :
  run false (conn0 false) [] [OEvent false true 0 false; ORead false; ODeliver false; OReply 0 [7]%Z true; OAcc; OEventEnd] = Some UB.
Proof. vm_compute. reflexivity. Qed.
(** ... or between the two statements of the flush itself (an event-driven close keeps the service until here). *)
Theorem C144_flush_tail_after_free :
  run false (conn0 false) [] (req_ops false [7]%Z ++ [OBatch; OTask 1 false; OAcc; OAcc; OFlushTail]) = Some UB.
Proof. vm_compute. reflexivity. Qed.
(** With a single loop: the peer disconnects, and in the same round of the loop a coroutine answers its request. *)
Theorem C144_coroutine_after_disconnect :
  run true (conn0 false) []
    ([OEvent false true 0 false; ORead false; ODeliver true; OEventEnd] ++       (* a request, not answered yet *)
     [OEvent false true 0 false; ORead true; OEventEnd] ++                       (* the peer closes: reported, removal posted *)
     [OBatch; OTask 0 false; ORunner; OReply 0 [7]%Z true; OBatchEnd] ++         (* removal; the coroutine answers; round ends *)
     [OBatch; OTask 1 false]) = Some UB.
Proof. vm_compute. reflexivity. Qed.
Theorem C144_statement_refuted : ~ C144_statement.
Proof. intro S. exact (S _ _ C144_flush_after_free). Qed.
(** Never before the first close ... *)
Theorem C144_open_is_safe_partial same fl os :
  run same (conn0 fl) [] os = Some UB ->
  exists os1 os2 c es, os = os1 ++ os2 /\ run same (conn0 fl) [] os1 = Some (Ok (c, es)) /\ In VClosed es.
Proof.
  intro R. destruct (run_ub_split _ _ _ _ R) as (os1 & o & os2 & c & es & -> & R1 & P & U).
  exists os1, (o :: os2), c, es. split; [auto|]. split; [auto|].
  assert (I : I3 c es).
  { eapply (run_inv same I3 (fun _ => True)); [| |apply all_true|exact R1].
    - intros; eapply I3_step; eauto.
    - split; cbn; auto. }
  assert (C : closes es <> 0) by (intro C; exact (I3_no_ub same c es o I C U)).
  unfold closes in C. destruct (filter _ es) as [|x l] eqn:E; [cbn in C; congruence|].
  assert (X : In x (filter (fun e => match e with VClosed => true | _ => false end) es)) by (rewrite E; now left).
  apply filter_In in X. destruct X as [X Y]. destruct x; try discriminate. auto.
Qed.
(** ... and with a single loop never unless an answer was given after the close. *)
Theorem C144_one_loop_partial os :
  run true (conn0 false) [] os = Some UB ->
  exists os1 os2 c es, os = os1 ++ os2 /\ run true (conn0 false) [] os1 = Some (Ok (c, es)) /\ answer_after_close es = true.
Proof.
  intro R. destruct (run_ub_split _ _ _ _ R) as (os1 & o & os2 & c & es & -> & R1 & P & U).
  exists os1, (o :: os2), c, es. split; [auto|]. split; [auto|].
  assert (I : I3 c es /\ (answer_after_close es = false -> I4 c es)).
  { refine (run_inv true (fun c es => I3 c es /\ (answer_after_close es = false -> I4 c es)) (fun _ => True) _ os1 (conn0 false) [] c es _ (all_true _) R1).
    - intros c0 es0 o0 c1 e1 [A B] _ Po S. split; [eapply I3_step; eauto|]. intro Q. eapply I4_step; eauto using aac_app.
    - split; [split; cbn; auto|]. intros _. repeat split; auto. }
  destruct I as [I J]. destruct (answer_after_close es) eqn:Q; auto. exfalso. exact (I4_no_ub c es o I (J eq_refl) P U).
Qed.

(** C145. Full statement: the close of a connection is reported once. *)
Definition C145_statement : Prop := forall same os c es,
  run same (conn0 false) [] os = Some (Ok (c, es)) -> closes es <= 1.
(** False, and not only sometimes: whenever a request that asked for a close has been answered and the answer is sent
    completely, the close has been reported at least twice. *)
Theorem C145_reported_twice same fl os c es id b :
  run same (conn0 fl) [] os = Some (Ok (c, es)) -> Forall (fun o => nonempty_op o = true) os ->
  In (VEncoded id b) es -> req_keep c id = false -> c_out c = [] -> 2 <= closes es.
Proof.
  intros R NE A K O.
  assert (I : I5 c es).
  { eapply (run_inv same I5 (fun o => nonempty_op o = true)); [| |exact NE|exact R].
    - intros; eapply I5_step; eauto.
    - split; cbn; [tauto|discriminate]. }
  assert (J : I6 c es).
  { eapply (run_inv same I6 (fun _ => True)); [| |apply all_true|exact R].
    - intros; eapply I6_step; eauto.
    - split; cbn; tauto. }
  destruct I as [_ I]. destruct J as [_ J]. destruct (J id b A) as [_ SC]. destruct (I (SC K)) as [[X _]|]; auto; congruence.
Qed.
Theorem C145_statement_refuted : ~ C145_statement.
Proof.
  intro S. evalrun E (run true (conn0 false) [] (req_ops false [7]%Z ++ [OBatch; OTask 1 false])).
  assert (X := S _ _ _ _ E). cbn in X. lia.
Qed.
Example C145_nonvacuous : exists c es,
  run true (conn0 false) [] (req_ops false [7]%Z ++ [OBatch; OTask 1 false]) = Some (Ok (c, es)) /\
  In (VEncoded 0 [7]%Z) es /\ req_keep c 0 = false /\ c_out c = [] /\ closes es = 2.
Proof. eexists _, _. split; [vm_compute; reflexivity|]. cbn. auto 10. Qed.
(** It is reported at most once if all requests are keep-alive and none is malformed. *)
Theorem C145_keep_alive_partial same fl os c es :
  run same (conn0 fl) [] os = Some (Ok (c, es)) -> Forall (fun o => keep_op o = true /\ bad_op o = false) os -> closes es <= 1.
Proof.
  intros R F.
  assert (I : I6 c es /\ I7 c es); [|destruct I as (_ & _ & _ & X & _); exact X].
  refine (run_inv same (fun c es => I6 c es /\ I7 c es) (fun o => keep_op o = true /\ bad_op o = false) _ os (conn0 fl) [] c es _ F R).
  - intros c0 es0 o c1 e1 [A B] [K X] Po S. split; [eapply I6_step; eauto|eapply I7_step; eauto].
  - split; [split; cbn; tauto|]. repeat split; cbn; auto; tauto.
Qed.
Example C145_keep_alive_nonvacuous : exists c es,
  run true (conn0 false) [] (req_ops true [7]%Z ++ flush_ops 1 ++ [OEvent true true 0 false; ORead true; OEventEnd]) = Some (Ok (c, es)) /\
  closes es = 1 /\ c_wire c = [7]%Z.
Proof. eexists _, _. split; [vm_compute; reflexivity|]. cbn. auto 10. Qed.

(** C146. Full statement: pipelined requests are answered in the order in which they came. *)
Definition C146_statement : Prop := forall same os c es,
  run same (conn0 false) [] os = Some (Ok (c, es)) -> Forall (fun o => guarded_op o = true) os -> Sorted le (answers es).
(** False: answers are sent in the order in which the handlers give them. *)
Theorem C146_statement_refuted : ~ C146_statement.
Proof.
  intro S. evalrun E (run true (conn0 false) [] [OEvent false true 0 false; ORead false; ODeliver true; ODeliver true; OEventEnd;
    OReply 1 [8]%Z true; OReply 0 [7]%Z true]).
  assert (X := S _ _ _ _ E ltac:(repeat constructor)). cbn in X. inv X. inv H2. lia.
Qed.
(** In order if every handler answers before it returns. *)
Theorem C146_at_once_partial same fl os c es :
  run same (conn0 fl) [] os = Some (Ok (c, es)) -> answered_at_once es -> Sorted le (answers es).
Proof.
  intros R A. eapply (at_once_sorted es (length (c_reqs c))); auto.
  eapply (run_inv same (fun c es => requests es = seq 0 (length (c_reqs c))) (fun _ => True)); [| |apply all_true|exact R].
  - intros; eapply reqs_step; eauto.
  - reflexivity.
Qed.
Example C146_nonvacuous : exists c es,
  run true (conn0 false) [] [OEvent false true 0 false; ORead false; ODeliver true; OReply 0 [7]%Z true; ODeliver true; OReply 1 [8]%Z true] = Some (Ok (c, es)) /\
  answered_at_once es /\ answers es = [0; 1].
Proof.
  eexists _, _. split; [vm_compute; reflexivity|]. split; [|reflexivity]. cbn.
  intros e1 id b e2 E. destruct e1 as [|x1 [|x2 [|x3 [|x4 [|x5 e1]]]]]; inv E; cbn; try (exists []; reflexivity); try (exists [0]; reflexivity).
Qed.

(** C147. Full statement: a request is answered at most once. *)
Definition C147_statement : Prop := forall same os c es,
  run same (conn0 false) [] os = Some (Ok (c, es)) -> NoDup (answers es).
(** False: Response does not look whether the request has been answered. *)
Theorem C147_statement_refuted : ~ C147_statement.
Proof.
  intro S. evalrun E (run true (conn0 false) [] [OEvent false true 0 false; ORead false; ODeliver true; OReply 0 [7]%Z true; OReply 0 [7]%Z false]).
  assert (X := S _ _ _ _ E). cbn in X. inv X. cbn in H1. tauto.
Qed.
(** String and Json do, also when the answer is still on its way from another thread. *)
Theorem C147_guarded_partial same fl os c es :
  run same (conn0 fl) [] os = Some (Ok (c, es)) -> Forall (fun o => guarded_op o = true) os -> NoDup (answers es).
Proof.
  intros R G.
  assert (I : I8 c es).
  { eapply (run_inv same I8 (fun o => guarded_op o = true)); [| |exact G|exact R].
    - intros; eapply I8_step; eauto.
    - split; cbn; [constructor|tauto]. }
  destruct I as [I _]. clear -I. revert I. generalize (map p_id (c_cross c)). induction (answers es) as [|x l IH]; intros m I; [constructor|].
  inv I. constructor; [|eauto]. intro X. apply H1. apply in_or_app. auto.
Qed.
Example C147_nonvacuous : exists c es,
  run false (conn0 false) [] [OEvent false true 0 false; ORead false; ODeliver true; OPostReply 0 [7]%Z true; OReply 0 [8]%Z true; OEventEnd; OCross] = Some (Ok (c, es)) /\
  answers es = [0] /\ stream es = [7]%Z.
Proof. eexists _, _. split; [vm_compute; reflexivity|]. cbn. auto. Qed.

(** C148. After a malformed request nothing more is delivered, and the close has been reported. *)
Theorem C148_bad_request_is_final same fl os c es :
  run same (conn0 fl) [] os = Some (Ok (c, es)) ->
  requests_after_bad es = [] /\ (In VBad es -> 1 <= closes es).
Proof.
  intro R.
  assert (I : I9 c es).
  { eapply (run_inv same I9 (fun _ => True)); [| |apply all_true|exact R].
    - intros; eapply I9_step; eauto.
    - split; cbn; tauto. }
  destruct I as [A B]. split; auto. intro X. now destruct (A X) as (_ & _ & ?).
Qed.
(** The 400 is sent after the answers given before, completely if the socket takes everything. *)
Theorem C148_answer_400 same c es n c1 e1 :
  step same c (OParseError n false) = Ok (c1, e1) -> length (c_out c) + length bad_request <= n ->
  c_wire c1 = c_wire c ++ c_out c ++ bad_request /\ c_out c1 = [] /\ stream (es ++ e1) = stream es ++ bad_request.
Proof.
  intros S L. cbn [step] in S. unfold with_this in S. destruct (alive c); [|discriminate].
  assert (X : c_wire (chan_send c bad_request n false) = c_wire c ++ c_out c ++ bad_request /\ c_out (chan_send c bad_request n false) = []).
  { unfold chan_send. destruct (c_out c) as [|z l] eqn:O.
    - rewrite (firstn_all2 bad_request) by (cbn [length] in L; lia). rewrite (skipn_all2 bad_request) by (cbn [length] in L; lia). cbn. auto.
    - unfold handle_write. cbn [append_out set_chan c_out c_wire]. rewrite O. cbn [app].
      assert (LL : length (z :: l ++ bad_request) <= n) by (change (z :: l ++ bad_request) with ((z :: l) ++ bad_request); rewrite app_length; lia).
      rewrite firstn_all2, skipn_all2 by exact LL. cbn. auto. }
  destruct X as [X Y]. unfold close_service in S.
  assert (E : c_wire c1 = c_wire (chan_send c bad_request n false) /\ c_out c1 = c_out (chan_send c bad_request n false) /\ e1 = [VBad; VClosed]).
  { destruct (c_phase c); injection S as <- <-; auto. }
  destruct E as (-> & -> & ->). split; [auto|]. split; [auto|]. rewrite stream_app. f_equal.
Qed.
Example C148_nonvacuous : exists c es,
  run true (conn0 false) [] [OEvent false true 0 false; ORead false; ODeliver true; OReply 0 [7]%Z true; OParseError 100 false; OEventEnd] = Some (Ok (c, es)) /\
  In VBad es /\ closes es = 1 /\ c_wire c = [7%Z] ++ bad_request.
Proof. eexists _, _. split; [vm_compute; reflexivity|]. cbn. auto 10. Qed.

Print Assumptions C141_in_order.
Print Assumptions C141_posted_in_order.
Print Assumptions C142_statement_refuted.
Print Assumptions C142_stuck.
Print Assumptions C142_unsent_waits_partial.
Print Assumptions C143_statement_refuted.
Print Assumptions C143_all_sent_partial.
Print Assumptions C144_flush_after_free.
Print Assumptions C144_event_after_free.
Print Assumptions C144_flush_tail_after_free.
Print Assumptions C144_coroutine_after_disconnect.
Print Assumptions C144_statement_refuted.
Print Assumptions C144_open_is_safe_partial.
Print Assumptions C144_one_loop_partial.
Print Assumptions C145_reported_twice.
Print Assumptions C145_statement_refuted.
Print Assumptions C145_keep_alive_partial.
Print Assumptions C146_statement_refuted.
Print Assumptions C146_at_once_partial.
Print Assumptions C147_statement_refuted.
Print Assumptions C147_guarded_partial.
Print Assumptions C148_bad_request_is_final.
Print Assumptions C148_answer_400.
