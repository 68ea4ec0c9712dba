(** C287-C292, C210: the context an HTTP handler answers through (net_io/server/http_server/http_context.cc). *)
From Coq Require Import String.
From Verif.Model Require Import Common Http H2Conn HttpCtx.
From Verif.Spec Require Import HttpCtxSpec.
From Verif.Proofs Require Import Tac HttpCtxProofs.
Open Scope nat_scope.

Definition hello : list Z := bs "hello"%string.
Definition bye : list Z := bs "bye"%string.

(** * C287: one request, one answer, whichever threads call Json and String (File never answers). *)
Definition C287_statement : Prop := forall keep es w, all_guarded es -> run keep new_ctx es = Ok w -> List.length (answers (acts w)) <= 1.
Theorem C287_statement_refuted : ~ C287_statement.
Proof.
  intros H.
  pose (es := [ECall 1 (KString hello 200); ECall 2 (KString bye 200); ERespond 1 true; ERespond 2 true; ERun true; ERun true]).
  assert (G : all_guarded es) by (intros t c Hi; cbn in Hi; repeat destruct Hi as [Hi|Hi]; try discriminate; try (injection Hi as <- <-; exact I); destruct Hi).
  destruct (run true new_ctx es) as [w| |] eqn:R; [|vm_compute in R; discriminate|vm_compute in R; discriminate].
  specialize (H true es w G R). vm_compute in R. injection R as <-. cbn in H. lia.
Qed.
(** Each calling thread gets at most one answer out, in any interleaving. *)
Theorem C287_once_per_thread_partial : forall keep es w, all_guarded es -> run keep new_ctx es = Ok w ->
  NoDup (map (fun x => snd (fst x)) (answers (acts w)) ++ map fst (queue w)).
Proof. intros keep es w G H. destruct (oinv_run keep es w G H) as [N _]. exact N. Qed.
(** Calls that do not overlap: at most one, sent or waiting. *)
Theorem C287_serial_partial : forall keep es w, serial es -> all_guarded es -> run keep new_ctx es = Ok w ->
  List.length (answers (acts w)) + List.length (queue w) <= 1.
Proof.
  intros keep es w Hs G H.
  assert (K : sinv w).
  { apply (sinv_serial keep es Hs new_ctx w G); [|exact H]. split; [reflexivity|]. cbn. split; [lia|]. intros F. destruct F. reflexivity. }
  destruct K as (_ & L & _). unfold origins in L. rewrite app_length, !map_length in L. exact L.
Qed.
Example C287_case : exists w, run true new_ctx [ECall 3 (KString hello 200); ERespond 3 true; ECall 0 (KJson bye 500); ERespond 0 true; ERun true] = Ok w /\
  answers (acts w) = [(0, 3, RSP 200 [] hello true)] /\ replied w = true.
Proof. eexists. repeat split. Qed.

(** * C288: what is sent is what a call of that thread asked for: code, headers, body, and the request's keep-alive. *)
Theorem C288_as_asked : forall keep es w b f r, unchanged es -> run keep new_ctx es = Ok w -> In (b, f, r) (answers (acts w)) ->
  exists c, In (ECall f c) es /\ wanted keep (made es) c r.
Proof.
  intros keep es w b f r U H Hi. destruct (ci_ans _ _ _ (cinv_run keep es w H) b f r Hi) as (_ & c & Ic & Wn). exists c. auto.
Qed.
(** For Json and String this holds even if the application changes its own objects meanwhile. *)
Theorem C288_strings : forall keep es w b f r, all_guarded es -> run keep new_ctx es = Ok w -> In (b, f, r) (answers (acts w)) ->
  exists c, In (ECall f c) es /\ wanted keep (made es) c r.
Proof.
  intros keep es w b f r G H Hi. destruct (ci_ans _ _ _ (cinv_run keep es w H) b f r Hi) as (_ & c & Ic & Wn). exists c. split; [exact Ic|]. apply Wn. left. apply (G f c Ic).
Qed.
(** The first completed call decides, if calls do not overlap: nothing later changes or replaces it. *)
Theorem C288_first_wins : forall keep t c ok es w r, guarded c -> serial es -> all_guarded es -> c <> KFile ->
  run keep new_ctx (ECall t c :: ERespond t ok :: es) = Ok w -> In r (answers (acts w)) -> snd (fst r) = t /\ wanted keep [] c (snd r).
Proof.
  intros keep t c ok es w [[b f] r] Gc Hs G Nf H Hi.
  assert (G' : all_guarded (ECall t c :: ERespond t ok :: es)).
  { intros u d [Hd|[Hd|Hd]]; [inv Hd; exact Gc|discriminate|apply (G u d Hd)]. }
  assert (E : forall es w0 w, serial es -> all_guarded es -> (forall u, pend w0 u = None) -> replied w0 = true ->
            (forall u x, In (u, x) (queue w0) -> u = t /\ exists r, x = Own r /\ wanted keep [] c r) ->
            (forall x, In x (answers (acts w0)) -> snd (fst x) = t /\ wanted keep [] c (snd x)) ->
            run keep w0 es = Ok w -> (forall x, In x (answers (acts w)) -> snd (fst x) = t /\ wanted keep [] c (snd x))).
  { clear. intros es w0 w Hs. revert w0 w. induction Hs as [|u d ok es Hs IH|e es He Hs IH]; intros w0 w G P R Q A H.
    - inv H. exact A.
    - assert (Gd : guarded d) by (apply (G u d); cbn; auto).
      cbn [run step] in H. rewrite (P u) in H.
      assert (En : enter w0 u d = Ok w0) by (unfold enter; destruct d; cbn in Gd; try destruct Gd; rewrite R; reflexivity).
      rewrite En in H. cbn [obind] in H. rewrite (P u) in H. cbn [obind] in H. apply (IH w0 w); auto. intros v d' Hd. apply (G v d'). cbn. auto.
    - cbn [run] in H. destruct (step keep w0 e) as [w1| |] eqn:St; cbn [obind] in H; try discriminate.
      assert (G1 : all_guarded es) by (intros v d' Hd; apply (G v d'); cbn; auto).
      destruct e as [r|o r|u d|u ok|ok|]; try destruct He; cbn [step] in St.
      + inv St. eapply IH; [exact G1| | | | |exact H]; cbn; auto.
      + inv St. eapply IH; [exact G1| | | | |exact H]; cbn; auto.
      + rewrite (P 0) in St. destruct (queue w0) as [|[u x] q] eqn:Eq.
        * inv St. eapply IH; [exact G1| | | | |exact H]; cbn; auto. rewrite Eq. intros ? ? [].
        * destruct (Q u x (or_introl eq_refl)) as (-> & r & -> & Wr). cbn [deref] in St. inv St.
          eapply IH; [exact G1| | | | |exact H]; cbn [pend replied queue acts]; auto.
          -- intros v y Hv. apply Q. cbn. auto.
          -- intros y. rewrite answers_app, answers_deliver. intros Hy. apply in_app_iff in Hy. destruct Hy as [Hy|[Hy|[]]]; [apply A, Hy|]. subst. cbn. auto.
      + destruct (queue w0) eqn:Eq; inv St.
        * eapply IH; [exact G1| | | | |exact H]; cbn; auto; try (intros ? ? []).
        * eapply IH; [exact G1| | | | |exact H]; auto. rewrite Eq. exact Q. }
  cbn [run step pend new_ctx] in H.
  assert (En : exists r0, build c = Some r0 /\ enter new_ctx t c = Ok (W [] false true [] (upd (fun _ => None) t (Some (Own r0))) [])).
  { destruct c; cbn in Gc; try destruct Gc; [congruence| | |]; eexists; split; reflexivity. }
  destruct En as (r0 & B & En). rewrite En in H. cbn [obind pend] in H. unfold upd in H at 1. rewrite Nat.eqb_refl in H.
  unfold respond in H. cbn [alive heap pend queue acts keep_heap keep_ref deref] in H.
  assert (Pu : forall u, upd (upd (fun _ => None) t (Some (Own r0))) t None u = None) by (intros u; unfold upd; destruct (u =? t); reflexivity).
  destruct (negb (t =? 0)); cbn [obind] in H.
  - refine (E es _ w Hs G _ _ _ _ H _ Hi); cbn [pend replied queue acts].
    + exact Pu.
    + reflexivity.
    + intros u x [Hx|[]]. inv Hx. split; [reflexivity|]. eexists. split; [reflexivity|]. apply build_wanted, B.
    + intros x [].
  - refine (E es _ w Hs G _ _ _ _ H _ Hi); cbn [pend replied queue acts].
    + exact Pu.
    + reflexivity.
    + intros u x [].
    + intros x. rewrite answers_app, answers_deliver. intros [Hx|[]]. subst. cbn. split; [reflexivity|]. apply build_wanted, B.
Qed.
Example C288_case : exists w, run false new_ctx [ENew (RSP 404 [] hello true); ECall 7 (KResponse 0); ERespond 7 true; ERun true] = Ok w /\
  answers (acts w) = [(0, 7, RSP 404 [] hello false)] /\ acts w = [Send 0 7 (RSP 404 [] hello false) true; Close 0].
Proof. eexists. repeat split. Qed.
Example C288_json : exists w, run true new_ctx [ECall 0 (KJson hello 200); ERespond 0 true] = Ok w /\
  answers (acts w) = [(0, 0, RSP 200 [(bs "content-type"%string, bs "application/json;utf-8"%string)] hello true)].
Proof. eexists. split; reflexivity. Qed.

(** * C289: Response() sends the response as it was when it was passed. *)
Definition C289_statement : Prop := forall keep es1 t o ok r0 es2 w1 w,
  run keep new_ctx es1 = Ok w1 -> alive w1 = true -> pend w1 t = Some (App o) -> nth_error (heap w1) o = Some r0 ->
  run keep w1 (ERespond t ok :: es2) = Ok w -> queue w = [] ->
  exists b, In (b, t, RSP (s_code r0) (s_headers r0) (s_body r0) keep) (answers (acts w)).
Theorem C289_statement_refuted : ~ C289_statement.
Proof.
  intros H. pose (r0 := RSP 200 [] hello true). pose (r1 := RSP 200 [] bye true).
  destruct (run true new_ctx [ENew r0; ECall 1 (KResponse 0)]) as [w1| |] eqn:R1; [|vm_compute in R1; discriminate|vm_compute in R1; discriminate].
  destruct (run true w1 [ERespond 1 true; EMutate 0 r1; ERun true]) as [w| |] eqn:R2.
  - specialize (H true _ 1 0 true r0 [EMutate 0 r1; ERun true] w1 w R1).
    vm_compute in R1. injection R1 as <-. specialize (H eq_refl eq_refl eq_refl R2). vm_compute in R2. injection R2 as <-. destruct (H eq_refl) as [b Hi]. cbn in Hi.
    destruct Hi as [Hi|[]]. injection Hi as _ E. discriminate.
  - vm_compute in R1. injection R1 as <-. vm_compute in R2. discriminate.
  - vm_compute in R1. injection R1 as <-. vm_compute in R2. discriminate.
Qed.
(** From the loop's own thread it is sent before Response() returns. *)
Theorem C289_in_loop_partial : forall keep w1 o ok r0 w, alive w1 = true -> pend w1 0 = Some (App o) -> nth_error (heap w1) o = Some r0 ->
  run keep w1 [ERespond 0 ok] = Ok w -> In (0, 0, RSP (s_code r0) (s_headers r0) (s_body r0) keep) (answers (acts w)).
Proof.
  intros keep w1 o ok r0 w A P N H. cbn [run step] in H. rewrite P in H. unfold respond in H. rewrite A in H. cbn [negb Nat.eqb keep_ref deref] in H.
  rewrite keep_heap_nth, N, Nat.eqb_refl in H. cbn [obind] in H. inv H. cbn [acts]. rewrite answers_app, answers_deliver. apply in_app_iff. cbn. auto.
Qed.
Example C289_case : exists w1 w, run true new_ctx [ENew (RSP 200 [] hello false); ECall 0 (KResponse 0)] = Ok w1 /\ pend w1 0 = Some (App 0) /\
  run true w1 [ERespond 0 true; EMutate 0 (RSP 500 [] bye true)] = Ok w /\ answers (acts w) = [(0, 0, RSP 200 [] hello true)].
Proof. eexists _, _. repeat split. Qed.

(** * C290: only the loop's thread touches the connection; it closes it after an answer if and only if the request was not keep-alive or sending failed;
    answers from other threads go out in the order in which they were given. *)
Theorem C290_loop_thread : forall keep es w, run keep new_ctx es = Ok w -> proper keep (acts w).
Proof. intros keep es w H. apply (acts_proper keep es new_ctx w); [constructor|exact H]. Qed.
Theorem C290_fifo : forall keep es1 t ok es2 w1 x w, run keep new_ctx es1 = Ok w1 -> alive w1 = true -> t <> 0 -> pend w1 t = Some x ->
  run keep w1 (ERespond t ok :: es2) = Ok w ->
  exists later, filter (fun t => negb (t =? 0)) (map (fun x => snd (fst x)) (answers (acts w))) ++ map fst (queue w)
    = (filter (fun t => negb (t =? 0)) (map (fun x => snd (fst x)) (answers (acts w1))) ++ map fst (queue w1)) ++ t :: later.
Proof.
  intros keep es1 t ok es2 w1 x w R1 A T P H.
  assert (Q : qinv w1) by (apply (qinv_run keep es1 new_ctx w1); [intros ? ? []|exact R1]).
  cbn [run] in H. destruct (step keep w1 (ERespond t ok)) as [w2| |] eqn:St; cbn [obind] in H; try discriminate.
  pose proof (off_step keep w1 _ w2 Q St) as E. cbn beta iota in E. apply Nat.eqb_neq in T. rewrite T, A, P in E. cbn in E.
  destruct (off_run keep es2 w2 w (qinv_step _ _ _ _ Q St) H) as [l El]. exists l. unfold off in E, El. rewrite El, E, <- !app_assoc. reflexivity.
Qed.
Example C290_case : exists w, run true new_ctx [ENew (RSP 200 [] hello true); ECall 1 (KResponse 0); ECall 2 (KString bye 500); ERespond 2 true; ERespond 1 true; ERun true; ERun false] = Ok w /\
  acts w = [Send 0 2 (RSP 500 [] bye true) true; Send 0 1 (RSP 200 [] hello true) false; Close 0].
Proof. eexists. split; reflexivity. Qed.

(** * C291: while the connection lives, Responsed() is true exactly when an answer was sent or waits for the loop; after it is gone nothing is sent
    (and Responsed() may be true all the same). *)
Theorem C291_responsed : forall keep es w, run keep new_ctx es = Ok w -> alive w = true -> (replied w = true <-> answers (acts w) <> [] \/ queue w <> []).
Proof.
  intros keep es w H A. destruct (rinv_run keep es new_ctx w rinv0 H) as (K & _ & _). rewrite (K A). unfold origins. clear.
  destruct (answers (acts w)), (queue w); cbn; split; intros; try tauto; try discriminate; auto; try (left; discriminate); try (right; discriminate); destruct H; auto.
Qed.
Theorem C291_sent : forall keep es w, run keep new_ctx es = Ok w -> alive w = true -> replied w = true -> queue w = [] -> answers (acts w) <> [].
Proof. intros keep es w H A R Q. apply (C291_responsed keep es w H A) in R. rewrite Q in R. tauto. Qed.
Theorem C291_call_completes : forall keep w t c ok w', alive w = true -> replied w = false -> pend w t = None -> guarded c ->
  run keep w [ECall t c; ERespond t ok] = Ok w' -> replied w' = true /\ pend w' t = None /\ alive w' = true.
Proof.
  intros keep w t c ok w' A R P G H. cbn [run step] in H. rewrite P in H. unfold enter in H. rewrite R in H.
  destruct c; cbn in G; try destruct G; cbn [obind] in H; try discriminate; cbn [build obind pend] in H; unfold upd in H at 1; rewrite Nat.eqb_refl in H; unfold respond in H; cbn [alive] in H;
    rewrite A in H; destruct (negb (t =? 0)); cbn [deref keep_ref keep_heap heap obind] in H; inv H; cbn; unfold upd; rewrite Nat.eqb_refl; auto.
Qed.
Theorem C291_broken : forall keep es1 es2 w1 w2, run keep new_ctx es1 = Ok w1 -> alive w1 = false -> run keep w1 es2 = Ok w2 -> acts w2 = acts w1.
Proof.
  intros keep es1 es2 w1 w2 R1 A R2. destruct (rinv_run keep es1 new_ctx w1 rinv0 R1) as (_ & B & _). apply (dead_run keep es2 w1 w2 A (B A) R2).
Qed.
Example C291_case : exists w, run true new_ctx [EDie; ECall 1 (KString hello 200); ERespond 1 true; ERun true] = Ok w /\ acts w = [] /\ replied w = true /\ queue w = [].
Proof. eexists. repeat split. Qed.

(** * C292: no call on a context ends the process. *)
Definition C292_statement : Prop := forall keep es, run keep new_ctx es <> CheckFail.
Theorem C292_statement_refuted : ~ C292_statement.
Proof. intros H. apply (H true [ECall 0 KFile]). reflexivity. Qed.
(** It ends exactly when File is called before an answer was given. *)
Theorem C292_file_partial : forall keep es, run keep new_ctx es = CheckFail <->
  exists es1 t es2 w, es = es1 ++ ECall t KFile :: es2 /\ run keep new_ctx es1 = Ok w /\ replied w = false /\ pend w t = None.
Proof.
  intros keep es. split; [apply run_abort|]. intros (es1 & t & es2 & w & -> & R & Rp & P). rewrite run_app, R. cbn [obind run].
  replace (step keep w (ECall t KFile)) with (@CheckFail world); [reflexivity|]. symmetry. apply step_abort. exists t. auto.
Qed.
Example C292_case : exists w, run true new_ctx [ECall 1 (KString hello 200); ERespond 1 true; ECall 0 KFile; ERun true] = Ok w /\ List.length (answers (acts w)) = 1.
Proof. eexists. split; reflexivity. Qed.

(** * C210, full: every Push notifies its callback exactly once. *)
Definition C210_statement : Prop := forall connected here c sid pid m p r lim c', Push connected here c sid pid m p r lim = Ok c' ->
  exists n, pushed c' = pushed c ++ [n].
Theorem C210_statement_refuted : ~ C210_statement.
Proof.
  intros H. specialize (H true false new_h2 1%Z None [] [] (Resp 200 [] []) 0 new_h2 eq_refl). destruct H as [n E]. cbn in E. discriminate E.
Qed.
(** From another thread or after the connection broke: no callback, no effect. From the loop: PushPromise (the other theorems of C210). *)
Theorem C210_dropped_partial : forall connected here c sid pid m p r lim, connected = false \/ here = false -> Push connected here c sid pid m p r lim = Ok c.
Proof. intros [|] [|] c sid pid m p r lim [H|H]; try discriminate; reflexivity. Qed.
Theorem C210_notified_partial : forall c sid pid m p r lim c', Push true true c sid pid m p r lim = Ok c' -> exists n, pushed c' = pushed c ++ [n].
Proof.
  intros c sid pid m p r lim c' H. unfold Push, PushPromise in H. cbn in H.
  destruct (find sid (ctxs c)); [|inv H; eexists; reflexivity]. destruct pid as [pid|]; [|inv H; eexists; reflexivity].
  destruct (find pid (ctxs c)); [discriminate|]. destruct (SendResponse _ _ _ _) as [[c1 ok]| |] eqn:S1; cbn in H; try discriminate. inv H.
  assert (P1 : pushed c1 = pushed c).
  { unfold SendResponse in S1. destruct (nvs (r_headers r)); cbn [obind] in S1; try discriminate. repeat (cbn in S1; match type of S1 with
      | Ok _ = Ok _ => inv S1
      | context [match ?x with _ => _ end] => destruct x eqn:?; try discriminate
      end); reflexivity. }
  cbn. rewrite P1. eexists. reflexivity.
Qed.

Print Assumptions C287_statement_refuted.
Print Assumptions C287_once_per_thread_partial.
Print Assumptions C287_serial_partial.
Print Assumptions C288_as_asked.
Print Assumptions C288_strings.
Print Assumptions C288_first_wins.
Print Assumptions C289_statement_refuted.
Print Assumptions C289_in_loop_partial.
Print Assumptions C290_loop_thread.
Print Assumptions C290_fifo.
Print Assumptions C291_responsed.
Print Assumptions C291_sent.
Print Assumptions C291_call_completes.
Print Assumptions C291_broken.
Print Assumptions C292_statement_refuted.
Print Assumptions C292_file_partial.
Print Assumptions C210_statement_refuted.
Print Assumptions C210_dropped_partial.
Print Assumptions C210_notified_partial.
