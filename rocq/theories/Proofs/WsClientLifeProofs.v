From Verif.Model Require Import Common WsClientLife.
From Verif.Proofs Require Import Tac.

Definition is_task (o : cop) : bool := match o with LTask _ | KEvent false _ => true | _ => false end.
Lemma crun_app a b c : crun c (a ++ b) = obind (crun c a) (fun c' => crun c' b).
Proof. revert c; induction a as [|o a IH]; intro c; cbn; [auto|]. destruct (cstep c o); cbn; auto. Qed.

Definition done (c : wcl) : Prop := w_alive c = false /\ w_queue c = [] /\ w_inprog c = false /\ w_reg c = false.
Lemma done_step c o : done c -> cstep c o = Ok c.
Proof.
  intros (A & Q & I & R). destruct o; cbn; rewrite ?A, ?Q, ?I, ?R; auto.
Qed.
Lemma done_run os : forall c, done c -> crun c os = Ok c.
Proof. induction os as [|o os IH]; intros c D; cbn; [auto|]. rewrite done_step by auto. cbn. auto. Qed.
Lemma destroy_connected pre post c r1 r2 : crun wcl0 pre = Ok c -> w_alive c = true -> w_queue c = [] -> w_transport c = true ->
  crun wcl0 (pre ++ [UDestroy; LTask r1; LTask r2] ++ post) <> UB.
Proof.
  intros H A Q T. rewrite crun_app, H. cbn [obind app crun cstep]. rewrite A, Q, T. cbn [app obind cstep w_queue].
  rewrite done_run; [discriminate|]. repeat split.
Qed.
(** While the client exists nothing goes wrong. *)
Lemma alive_ok os : (forall o, In o os -> o <> UDestroy) -> exists c, crun wcl0 os = Ok c /\ w_alive c = true.
Proof.
  intro N. assert (K : forall c, w_alive c = true /\ (forall t, In t (w_queue c) -> t = TDial) ->
    exists c', crun c os = Ok c' /\ w_alive c' = true /\ (forall t, In t (w_queue c') -> t = TDial)).
  { induction os as [|o os IH]; intros c (A & Q); cbn [crun]; [exists c; auto|].
    assert (S : exists c', cstep c o = Ok c' /\ w_alive c' = true /\ (forall t, In t (w_queue c') -> t = TDial)).
    { destruct o; cbn [cstep]; rewrite ?A.
      - eexists. split; [reflexivity|]. split; [auto|]. cbn. intros t X. apply in_app_iff in X. destruct X as [X|[X|[]]]; auto.
      - exfalso. apply (N UDestroy); [now left|auto].
      - destruct (w_queue c) as [|t q] eqn:E; [exists c; rewrite E; auto|]. assert (t = TDial) by (apply Q; now left). subst.
        assert (forall t, In t q -> t = TDial) by (intros; apply Q; now right).
        unfold report. destruct r; cbn; rewrite ?A; eexists; (split; [reflexivity|]); cbn; auto.
      - unfold report. destruct (w_inprog c); [|exists c; auto]. cbn. rewrite ?A. destruct ok; eexists; (split; [reflexivity|]); cbn; auto.
      - destruct (w_reg c); [|exists c; auto]. rewrite andb_false_r. destruct close; eexists; (split; [reflexivity|]); cbn; auto. }
    destruct S as (c' & -> & A' & Q'). cbn. apply IH; auto. intros; apply N; now right. }
  destruct (K wcl0) as (c & A & B & _); [split; [auto|intros ? []]|]. eauto.
Qed.
