(** C221-C223: tasks with replies (base/message_loop/message_loop.h). *)
From Coq Require Import Permutation.
From Verif.Model Require Import Common TaskReply.
From Verif.Spec Require Import ReplySpec.
From Verif.Proofs Require Import Tac ReplyProofs.

(** C221 (refuted). "reply will run in Current() loop if it exist, otherwise the reply task run in target loop thread too"
    (message_loop.h:83-85). *)
Definition C221_statement : Prop := forall n cur l t r os w x, NoDup (flat_map asked (OReply cur l t r :: os)) -> run (boot n) (OReply cur l t r :: os) = Ok w ->
  (forall l', ~ In (l', r) (flat_map asked os)) -> In (x, r) (log w) -> t <> r -> x = match cur with Some c => c | None => l end.
Theorem C221_statement_refuted : ~ C221_statement.
Proof.
  intros H. enough (X : 0 = 1) by discriminate X.
  apply (H 2 (Some 1) 0 7 8 [OSched 0; OTake 0; ONested 0] (World [started; started] [(0, 7); (0, 8)])).
  - repeat constructor; cbn; intuition discriminate.
  - reflexivity.
  - intros l' [].
  - right. left. reflexivity.
  - discriminate.
Qed.
(** It always runs in the target loop. *)
Theorem C221_target_partial : forall n os cur l t r os' w x, run (boot n) (os ++ OReply cur l t r :: os') = Ok w ->
  (forall l', ~ In (l', r) (flat_map asked (os ++ os'))) -> t <> r -> In (x, r) (log w) -> x = l.
Proof.
  intros n os cur l t r os' w x E Hf Hne Hi. pose proof (boot_count (x, r) n _ w E) as Hc. apply c_in in Hi.
  assert (Hin : In (x, r) (flat_map asked (os ++ OReply cur l t r :: os'))) by (apply c_in; lia).
  rewrite flat_map_app in Hin. apply in_app_iff in Hin. cbn in Hin. specialize (Hf x). rewrite flat_map_app, in_app_iff in Hf.
  destruct Hin as [Hin|[Hin|[Hin|Hin]]]; try tauto; congruence.
Qed.

(** C222. As long as nothing aborts: every closure runs at most once, only where it was asked for; a reply runs after its task; and once all
    loops are idle every task and every reply has run exactly once. *)
Theorem C222_once_in_order : forall n os w, NoDup (flat_map asked os) -> run (boot n) os = Ok w ->
  NoDup (log w) /\ incl (log w) (flat_map asked os) /\
  (forall a b, In (a, b) (flat_map pair os) -> In b (log w) -> before (log w) a b) /\
  ((forall L, In L (loops w) -> idle L) -> Permutation (log w) (flat_map asked os)).
Proof.
  intros n os w Hn E. rewrite (NoDup_count_occ dec) in Hn. change (forall x, c x (flat_map asked os) <= 1) in Hn.
  assert (Hc : forall x, c x (log w) + c x (owed w) = c x (flat_map asked os)) by (intros x; apply (boot_count x n os w E)).
  split; [ | split; [ | split ] ].
  - apply (NoDup_count_occ dec). intros x. specialize (Hc x). specialize (Hn x). fold (c x (log w)). lia.
  - intros x Hx. apply c_in in Hx. apply c_in. specialize (Hc x). lia.
  - intros a b Hp Hb. pose proof (ordered_run os (boot n) [] w E) as Ho. cbn [app] in Ho.
    assert (H : ordered w (flat_map pair os)).
    { apply Ho; try (intros p []). intros x. unfold owed, boot. cbn [log loops]. rewrite owed_boot. specialize (Hn x). cbn. lia. }
    exact (proj2 (H (a, b) Hp) Hb).
  - intros Hi. apply (Permutation_count_occ dec). intros x. specialize (Hc x). unfold owed in Hc. rewrite (idle_owed _ 0 Hi) in Hc. cbn in Hc. unfold c in Hc. lia.
Qed.
Definition busy : list op := [OReplyTo None 0 1 2 (Some 1); OReply (Some 1) 0 3 4; OPost (Some 0) 0 5; OReplyTo (Some 1) 1 6 7 None;
  OSched 0; OSched 1; OSched 0; OTake 0; ONested 0; ONested 0; OTake 1; ONested 1].
Example C222_nonvacuous : NoDup (flat_map asked busy) /\ run (boot 2) busy = Ok (World [started; started] [(0, 1); (1, 2); (0, 3); (0, 5); (0, 4); (1, 6); (1, 7)]).
Proof. split; [ repeat constructor; cbn; intuition discriminate | reflexivity ]. Qed.

(** C223 (refuted). Posting to a running loop is safe. *)
Definition C223_statement : Prop := forall n cur l t r rest, l < n -> (forall o, In o rest -> asked o = []) -> exists w, run (boot n) (OReply cur l t r :: rest) = Ok w.
(** If the loop is told to quit before it gets to the task, the reply is posted to a loop that does not run any more. *)
Theorem C223_statement_refuted : ~ C223_statement.
Proof.
  intros H. destruct (H 1 None 0 1 2 [OQuit 0; OSched 0]) as [w E]; [ lia | intros o [<-|[<-|[]]]; reflexivity | discriminate E ].
Qed.
Theorem C223_without_quit_partial : forall n os, (forall o, In o os -> known n o /\ quits o = false) -> exists w, run (boot n) os = Ok w.
Proof. intros n os Ho. destruct (run_fine n os _ (fine_boot n) Ho) as (w & E & _). eauto. Qed.
Example C223_nonvacuous : forall o, In o busy -> known 2 o /\ quits o = false.
Proof. intros o Ho. cbn in Ho. repeat (destruct Ho as [<-|Ho]; [ cbn; split; [ auto; lia | reflexivity ] | ]). destruct Ho. Qed.

Print Assumptions C221_statement_refuted.
Print Assumptions C221_target_partial.
Print Assumptions C222_once_in_order.
Print Assumptions C223_statement_refuted.
Print Assumptions C223_without_quit_partial.
