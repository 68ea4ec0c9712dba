(** C211-C213: waiting for a descriptor in a coroutine (base/coroutine/io_event.cc). *)
From Verif.Model Require Import Common IoWait.
From Verif.Spec Require Import WaitSpec.
From Verif.Proofs Require Import Tac IoWaitProofs.
Local Open Scope Z_scope.

(** C211. Wait returns exactly what the first notification after the call said: Ok when an event asked for fired, Error when another did,
    Timeout when a positive time limit passed first; until then the coroutine stays suspended; later notifications change nothing. *)
Theorem C211_first_notification : forall mon before t during s0, run (create mon) before = Ok s0 -> at_ s0 = Elsewhere ->
  let m := if mon =? 0 then 3 else mon in
  (forall a b, during = a ++ ORun :: b -> verdict m (0 <? t) a = None) ->
  exists s1, run s0 (OWait t :: during) = Ok s1 /\
  match verdict m (0 <? t) during with
  | None => at_ s1 = Suspended /\ got s1 = got s0 /\ step s1 ORun = Ok s1
  | Some r => at_ s1 = Runnable /\ got s1 = got s0 /\ exists s2, step s1 ORun = Ok s2 /\ at_ s2 = Elsewhere /\ got s2 = got s0 ++ [r]
  end.
Proof.
  intros mon pre t during s0 E Ha m Hq. pose proof (shape_run m pre _ _ (shape_create mon) E) as Hs.
  cbn [run step]. rewrite Ha. cbn [obind].
  destruct (wait_run m (0 <? t) during (Wait s0 t)) as (s1 & E1 & H1 & H2 & H3).
  - split; [ exact (proj1 Hs) | ]. cbn. auto.
  - reflexivity.
  - exact Hq.
  - exists s1. split; [ exact E1 | ]. cbn [at_ Wait] in H3. cbn [got Wait] in H2.
    destruct (verdict m (0 <? t) during) as [r|].
    + destruct H3 as [Hr Hv]. destruct H1 as [_ H1]. rewrite Hr in H1. destruct H1 as [_ Hn]. split; [ exact Hr | split; [ exact H2 | ] ].
      cbn [step]. rewrite Hr. unfold resume. destruct (res s1); try (now destruct Hn); eexists; (split; [ reflexivity | ]); cbn; rewrite H2, <- Hv; auto.
    + split; [ exact H3 | split; [ exact H2 | ] ]. cbn [step]. rewrite H3. reflexivity.
Qed.
(** Both bits are asked for when none was; an error event, a timeout, then a late event. *)
Example C211_nonvacuous :
  run (create 0) [OWait 100; OExpire; OFire 1; ORun; OWait (-1); OExpire; OFire 4; OFire 1; ORun; OWait 5; OFire 2; OExpire; ORun]
  = Ok (Io 3 ROk false false Elsewhere [RTimeout; RError; ROk]).
Proof. reflexivity. Qed.

(** C212 (refuted). Events of the descriptor are harmless at any time. *)
Definition C212_statement : Prop := forall mon os, exists s, run (create mon) os = Ok s.
Theorem C212_statement_refuted : ~ C212_statement.
Proof. intros H. destruct (H 1 [OFire 1]) as [s Hs]. discriminate Hs. Qed.
(** Also after a Wait has returned: a peer that sends again while the coroutine does something else. *)
Theorem C212_after_wait_refuted : forall mon ev t, run (create mon) [OWait t; OFire ev; ORun; OFire ev] = CheckFail.
Proof.
  intros mon ev t. unfold create. cbn. unfold HandleEvent, call_resumer, set_result; cbn.
  set (m := if mon =? 0 then 3 else mon). destruct (Z.land m ev =? 0); cbn; reflexivity.
Qed.
(** Events that arrive only while the coroutine is inside Wait. *)
Fixpoint heard (s : io) (os : list op) : Prop :=
  match os with
  | [] => True
  | o :: os => (match o with OFire _ => at_ s <> Elsewhere | _ => True end) /\ match step s o with Ok s' => heard s' os | _ => True end
  end.
Theorem C212_while_waiting_partial : forall mon os, heard (create mon) os -> exists s, run (create mon) os = Ok s.
Proof.
  intros mon os. pose proof (shape_create mon) as Hs. revert Hs. generalize (create mon) as s. set (m := if mon =? 0 then 3 else mon).
  induction os as [|o os IH]; cbn [run heard]; intros s Hs Hh; [ eauto | ]. destruct Hh as [Hf Hh].
  destruct (shape_step m s o Hs) as (s' & E & Hs'); [ destruct o; auto | ]. rewrite E in Hh |- *. cbn. apply IH; assumption.
Qed.
Example C212_nonvacuous : heard (create 1) [OWait 5; OFire 1; OFire 4; OExpire; ORun; OExpire; OWait 0; OFire 2; ORun].
Proof. cbn. repeat split; discriminate. Qed.

(** C213 (refuted). Wait(ms) with ms >= 0 returns when the time limit passes. *)
Definition C213_statement : Prop := forall mon before t s0, run (create mon) before = Ok s0 -> at_ s0 = Elsewhere -> 0 <= t ->
  exists s1, run s0 [OWait t; OExpire; ORun] = Ok s1 /\ at_ s1 = Elsewhere /\ got s1 = got s0 ++ [RTimeout].
Theorem C213_statement_refuted : ~ C213_statement.
Proof. intros H. destruct (H 1 [] 0 (create 1) eq_refl eq_refl (Z.le_refl 0)) as (s1 & E & Ha & _). cbn in E. injection E as <-. discriminate Ha. Qed.
(** With 0 (or a negative number) time never ends the wait. *)
Theorem C213_zero_waits_forever : forall mon before t n s0, run (create mon) before = Ok s0 -> at_ s0 = Elsewhere -> t <= 0 ->
  exists s1, run s0 (OWait t :: repeat OExpire n ++ [ORun]) = Ok s1 /\ at_ s1 = Suspended.
Proof.
  intros mon pre t n s0 E Ha Ht. assert (Hv : forall k, verdict (if mon =? 0 then 3 else mon) (0 <? t) (repeat OExpire k) = None).
  { intros k. replace (0 <? t) with false by (symmetry; apply Z.ltb_ge; exact Ht). unfold verdict. induction k; cbn; auto. }
  destruct (C211_first_notification mon pre t (repeat OExpire n ++ [ORun]) s0 E Ha) as (s1 & E1 & H1).
  - intros a b Hab. assert (a = repeat OExpire n) as ->.
    { clear -Hab. revert a b Hab. induction n as [|n IH]; intros [|x a] b H; cbn in *.
      - reflexivity.
      - injection H as <- H. destruct a; discriminate H.
      - discriminate H.
      - injection H as <- H. f_equal. exact (IH a b H). }
    apply Hv.
  - exists s1. split; [ exact E1 | ]. assert (Hw : verdict (if mon =? 0 then 3 else mon) (0 <? t) (repeat OExpire n ++ [ORun]) = None).
    { specialize (Hv n). unfold verdict in *. rewrite flat_map_app. cbn. rewrite app_nil_r. exact Hv. }
    rewrite Hw in H1. apply H1.
Qed.
Theorem C213_positive_limit_partial : forall mon before t s0, run (create mon) before = Ok s0 -> at_ s0 = Elsewhere -> 0 < t ->
  exists s1, run s0 [OWait t; OExpire; ORun] = Ok s1 /\ at_ s1 = Elsewhere /\ got s1 = got s0 ++ [RTimeout].
Proof.
  intros mon pre t s0 E Ha Ht. cbn [run step]. rewrite Ha. cbn [obind]. unfold Wait. replace (0 <? t) with true by (symmetry; apply Z.ltb_lt; exact Ht).
  cbn. eexists. split; [ reflexivity | ]. cbn. auto.
Qed.
Example C213_nonvacuous : run (create 2) [OWait 9; OFire 2; ORun] = Ok (Io 2 ROk false false Elsewhere [ROk]) /\
  run (create 2) [OWait 9; OFire 2; ORun; OWait 3; OExpire; ORun] = Ok (Io 2 RTimeout false false Elsewhere [ROk; RTimeout]).
Proof. split; reflexivity. Qed.

Print Assumptions C211_first_notification.
Print Assumptions C212_statement_refuted.
Print Assumptions C212_after_wait_refuted.
Print Assumptions C212_while_waiting_partial.
Print Assumptions C213_statement_refuted.
Print Assumptions C213_zero_waits_forever.
Print Assumptions C213_positive_limit_partial.
