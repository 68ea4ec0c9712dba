(** C52-C54: the server's connection count, stop notification and close notifications. *)
From Coq Require Import List Arith Bool Lia.
From Verif.Model Require Import Common IOService.
From Verif.Spec Require Import ServerSpec.
From Verif.Proofs Require Import Tac IOServiceProofs.
Import ListNotations.

(** C52.  Whatever the interleaving of arrivals, closes and a stop: the number the server counts is
    the number of connections it holds, each is held once, and the configured limit is never
    exceeded. *)
Theorem C52_count_and_limit limit os s es :
  iorun limit io_init os = Some (s, es) ->
  io_count s = length (io_codecs s) /\ NoDup (io_codecs s) /\ io_count s <= limit.
Proof.
  intro E. destruct (iorun_inv limit os _ _ _ _ (ioinv_init limit) E) as [ND CN LM _ _ _ _ _ _].
  rewrite CN. auto.
Qed.

(** An arrival is turned away only when the limit is reached, and the count can be used again after a
    close. *)
Theorem C52_rejected_only_at_limit limit os s es c s' :
  iorun limit io_init os = Some (s, es) ->
  iostep limit s (IAccept c) = Some (s', [ORejected c]) -> length (io_codecs s) = limit /\ s' = s.
Proof.
  intros E R. destruct (iorun_inv limit os _ _ _ _ (ioinv_init limit) E) as [ND CN LM _ _ _ _ _ _].
  unfold iostep in R. destruct (_ || _ || _ || _); [discriminate|].
  destruct (Nat.ltb_spec (io_count s) limit); inv R. split; auto. lia.
Qed.

Example C52_nonvacuous :
  match iorun 2 io_init [IAccept 1; IAccept 2; IAccept 3; IPeerClose 1; IRemove; IAccept 4] with
  | Some (s, es) => io_codecs s = [2; 4] /\ io_count s = 2 /\ es = [ORejected 3; OConnClose 1]
  | None => False
  end.
Proof. vm_compute. auto. Qed.

(** C53.  Full statement: once a stop has run its course the callback has run exactly once. *)
Definition C53_statement : Prop := forall limit os s es,
  iorun limit io_init os = Some (s, es) -> drained s -> stops es = 1.

(** False: a connection that closes just before Stop is removed twice (its own removal and the one
    of Stop's task); both find the set empty, so the callback runs twice. *)
Definition c53_history : list ioop := [IAccept 1; IPeerClose 1; IStop; IRemove; IStopTask 1; IRemove].
Example C53_history_events :
  match iorun 1 io_init c53_history with
  | Some (s, es) => es = [OConnClose 1; OStopped; OConnClose 1; OStopped] /\ io_stop_tasks s = [] /\ io_removals s = []
  | None => False
  end.
Proof. vm_compute. auto. Qed.
Theorem C53_statement_refuted : ~ C53_statement.
Proof.
  intro S. specialize (S 1 c53_history). vm_compute in S.
  specialize (S _ _ eq_refl (conj eq_refl (conj eq_refl eq_refl))). discriminate.
Qed.

(** What holds: at least once, in every history; *)
Theorem C53_at_least_once_partial limit os s es :
  iorun limit io_init os = Some (s, es) -> drained s -> 1 <= stops es.
Proof.
  intros E (SP & T & R). destruct (iorun_inv limit os _ _ _ _ (ioinv_init limit) E) as [_ _ _ _ _ ST _ _ _].
  destruct (ST SP) as (_ & C & D). apply D. rewrite T, R in C.
  destruct (io_codecs s) as [|c l]; auto. exfalso. destruct (C c) as [[]|[]]. left; auto.
Qed.
(** never before the stop was asked for and every connection is gone, after which none is accepted; *)
Theorem C53_never_early_partial limit os s es :
  iorun limit io_init os = Some (s, es) -> 1 <= stops es ->
  io_stopping s = true /\ io_codecs s = [] /\ io_listening s = false.
Proof.
  intros E N. destruct (iorun_inv limit os _ _ _ _ (ioinv_init limit) E) as [_ _ _ _ _ ST _ RN GN]. cbn in *.
  destruct (io_stopping s); [|destruct (RN eq_refl); lia]. destruct (ST eq_refl). auto.
Qed.
(** and exactly once when no removal is pending at the stop and no connection closes on its own
    after it. *)
Theorem C53_exactly_once_partial limit os1 os2 s1 es1 s es :
  iorun limit io_init os1 = Some (s1, es1) -> io_removals s1 = [] -> io_stopping s1 = false ->
  (forall c, ~ In (IPeerClose c) os2) ->
  iorun limit io_init (os1 ++ IStop :: os2) = Some (s, es) -> drained s -> stops es = 1.
Proof.
  intros E1 R1 S1 NP E D. rewrite iorun_app, E1 in E. cbn [iorun] in E.
  pose proof (iorun_inv limit os1 _ _ _ _ (ioinv_init limit) E1) as [ND _ _ _ _ _ _ RN _].
  destruct (RN S1) as [N0 T0]. cbn in N0.
  unfold iostep in E. rewrite S1, R1, T0 in E. cbn [app] in E.
  destruct (iorun limit _ os2) as [[s2 e2]|] eqn:E2; [|discriminate]. inv E.
  rewrite !stops_app, N0. cbn [Nat.add].
  match type of E2 with iorun _ ?s0 _ = _ => assert (J : stopinv s0 (stops (if length (io_codecs s1) =? 0 then [OStopped] else []))) end.
  { constructor; cbn [io_stopping io_listening io_stop_tasks io_removals io_codecs]; auto.
    - rewrite app_nil_r. auto.
    - intro. now rewrite app_nil_r.
    - destruct (length (io_codecs s1) =? 0); reflexivity. }
  pose proof (stopinv_run limit os2 _ _ _ _ J NP E2) as [_ _ _ ST NN]. rewrite NN. destruct D as (_ & T & R). rewrite T, R in ST.
  destruct (io_codecs s) as [|c l]; auto. exfalso. apply (ST c). left; auto.
Qed.
Example C53_nonvacuous :
  match iorun 5 io_init ([IAccept 1; IAccept 2; IPeerClose 1; IRemove; IAccept 3] ++ IStop ::
      [IStopTask 3; IRemove; IStopTask 2; IRemove]) with
  | Some (s, es) => drained s /\ es = [OConnClose 1; OConnClose 3; OConnClose 2; OStopped]
  | None => False
  end.
Proof. vm_compute. auto. Qed.

(** C54.  Full statement: when the server has stopped, OnConnectionClose was called exactly once for
    every connection it had taken. *)
Definition C54_statement : Prop := forall limit os s es c,
  iorun limit io_init os = Some (s, es) -> drained s -> NoDup (arrivals os) ->
  In c (arrivals os) -> ~ rejected c es -> conn_closes c es = 1.
Theorem C54_statement_refuted : ~ C54_statement.
Proof.
  intro S. specialize (S 1 c53_history). vm_compute in S.
  specialize (S _ _ 1 eq_refl (conj eq_refl (conj eq_refl eq_refl))).
  assert (X : 2 = 1); [apply S|discriminate].
  - repeat constructor; auto.
  - auto.
  - unfold rejected. cbn. intuition discriminate.
Qed.
(** What holds: at least once for each, in every history; *)
Theorem C54_at_least_once_partial limit os s es c :
  iorun limit io_init os = Some (s, es) -> drained s ->
  In c (arrivals os) -> ~ rejected c es -> 1 <= conn_closes c es.
Proof.
  intros E D A N.
  destruct (told_run limit os io_init [] (fun _ => 0) _ _ (fun _ F => match F with end) E c) as [O|O]; auto.
  pose proof (C53_at_least_once_partial _ _ _ _ E D) as S1.
  destruct (C53_never_early_partial _ _ _ _ E S1) as (_ & CD & _).
  destruct (iorun_inv limit os _ _ _ _ (ioinv_init limit) E) as [_ _ _ OP _ _ _ _ _].
  apply OP in O. rewrite CD in O. destruct O.
Qed.
(** exactly once when no removal is pending at the stop and nothing closes on its own after it; and
    before a stop never more than once. *)
Theorem C54_at_most_once_before_stop_partial limit os s es c :
  iorun limit io_init os = Some (s, es) -> ~ In IStop os -> NoDup (arrivals os) -> conn_closes c es <= 1.
Proof.
  intros E NS ND.
  destruct (onceinv_prerun limit os io_init [] (fun _ => 0) s es) as (u & [_ _ _ _ _ G] & _); auto.
  { constructor; cbn; auto; try tauto. }
  apply G.
Qed.
Theorem C54_exactly_once_partial limit os1 os2 s1 es1 s es c :
  iorun limit io_init os1 = Some (s1, es1) -> ~ In IStop os1 -> io_removals s1 = [] ->
  (forall c, ~ In (IPeerClose c) os2) -> NoDup (arrivals os1) ->
  iorun limit io_init (os1 ++ IStop :: os2) = Some (s, es) -> drained s ->
  In c (arrivals os1) -> ~ rejected c es -> conn_closes c es = 1.
Proof.
  intros E1 NS R1 NP ND E D A N.
  assert (L : 1 <= conn_closes c es).
  { eapply C54_at_least_once_partial; eauto. clear - A. induction os1 as [|[]]; cbn in *; tauto. }
  destruct (onceinv_prerun limit os1 io_init [] (fun _ => 0) s1 es1) as (u & [AA B C _ _ G] & S1); auto.
  { constructor; cbn; auto; try tauto. }
  rewrite iorun_app, E1 in E. cbn [iorun] in E.
  pose proof (iorun_inv limit os1 _ _ _ _ (ioinv_init limit) E1) as [_ _ _ _ CV _ _ _ _].
  unfold iostep in E. rewrite S1 in E. specialize (AA S1). rewrite AA, R1 in *. cbn [app] in E.
  destruct (iorun limit _ os2) as [[s2 e2]|] eqn:E2; [|discriminate]. inv E.
  match type of E2 with iorun _ ?s0 _ = _ => assert (J : lateinv s0 (fun c => conn_closes c es1)) end.
  { constructor; cbn [io_stopping io_listening io_stop_tasks io_removals io_codecs]; auto.
    intros x I. destruct (CV x I) as [O|[[]|[]]]. apply (B x O). }
  pose proof (lateinv_run limit os2 _ _ _ _ J NP E2) as [_ _ _ ON]. specialize (ON c). cbn in ON.
  rewrite !conn_closes_app in *. cbn [Nat.add] in *.
  assert (conn_closes c (if length (io_codecs s1) =? 0 then [OStopped] else []) = 0) by (destruct (_ =? 0); reflexivity).
  lia.
Qed.

Print Assumptions C52_count_and_limit.
Print Assumptions C52_rejected_only_at_limit.
Print Assumptions C53_statement_refuted.
Print Assumptions C53_at_least_once_partial.
Print Assumptions C53_never_early_partial.
Print Assumptions C53_exactly_once_partial.
Print Assumptions C54_statement_refuted.
Print Assumptions C54_at_least_once_partial.
Print Assumptions C54_at_most_once_before_stop_partial.
Print Assumptions C54_exactly_once_partial.
