From Verif.Model Require Import Common RepTimer.
From Verif.Spec Require Import RepTimerSpec.
From Verif.Proofs Require Import Tac.

Definition waiting_c (p : ropc) : bool := match p with OCheck _ | OSleep _ | OBlocked _ => true | _ => false end.

(** [a]: the active task. *)
Record rinv (a : option nat) (s : rst) : Prop := {
  i_att : forall e, r_att s e = true -> r_ev s = Some e;
  i_evf : forall e, r_ev s = Some e -> r_freed s e = false /\ e < r_next s;
  i_add : forall e, In (TAdd e) (r_q s) -> e < r_next s /\ (r_freed s e = false -> r_ev s = Some e);
  i_act : forall e, r_ev s = Some e -> a = Some (r_user s) /\ r_running s = true;
  i_new : forall e, r_next s <= e -> r_freed s e = false /\ r_att s e = false;
  i_wait : waiting_c (r_opc s) = true -> (r_removed s = true -> r_ev s = None /\ forall e, r_lpc s <> RInvoke e);
  i_dead : r_opc s = ODead -> r_ev s = None;
  i_inv : forall e, r_lpc s = RInvoke e -> e < r_next s /\ (r_freed s e = true \/ r_ev s = Some e) }.
Lemma fset_eq {A} (f : nat -> A) t x : fset f t x t = x.
Proof. unfold fset. now rewrite Nat.eqb_refl. Qed.
Lemma fset_ne {A} (f : nat -> A) t x j : j <> t -> fset f t x j = f j.
Proof. unfold fset. intro. destruct (Nat.eqb_spec j t); congruence. Qed.

Lemma rinv_init : rinv None rinit.
Proof. constructor; cbn; intros; try discriminate; try contradiction; auto. Qed.

Ltac fs :=
  repeat match goal with
  | H : context[fset ?f ?t ?x ?j] |- _ =>
      unfold fset in H; destruct (Nat.eqb_spec j t); [subst|]
  | |- context[fset ?f ?t ?x ?j] => unfold fset; destruct (Nat.eqb_spec j t); [subst|]
  end.

Definition proj_simpl := tt.
Ltac ps := cbn [r_on r_q r_ev r_next r_freed r_att r_user r_running r_removed r_opc r_lpc with_opc with_lpc with_q with_att with_running with_removed drop_ev waiting_c] in *.

Lemma rinv_drop a b s e : rinv a s -> r_ev s = Some e -> rinv b (drop_ev s e).
Proof.
  intros I E. destruct I as [Ia Ie Iq Ic In_ Iw Id Ii]. destruct (Ie _ E) as (F & L).
  constructor; ps.
  - intros j H. fs; [discriminate|]. apply Ia in H. congruence.
  - discriminate.
  - intros j H. destruct (Iq j H) as (A & B). split; [assumption|]. intro X. fs; [discriminate|]. apply B in X. congruence.
  - discriminate.
  - intros j H. pose proof (In_ j H). fs; [lia|]. assumption.
  - intros H R. split; [reflexivity|]. apply (Iw H R).
  - reflexivity.
  - intros j H. destruct (Ii j H) as (A & B). split; [assumption|]. fs; [tauto|].
    destruct B as [B|B]; [tauto|]. congruence.
Qed.
Lemma rinv_running a s b : rinv a s -> r_ev s = None -> rinv a (with_running s b).
Proof. intros [Ia Ie Iq Ic In_ Iw Id Ii] E. constructor; ps; auto. intros e X. congruence. Qed.
Lemma rinv_forget a b s : rinv a s -> r_ev s = None -> rinv b s.
Proof. intros [Ia Ie Iq Ic In_ Iw Id Ii] E. constructor; auto. intros e X. congruence. Qed.

Lemma start_inv a inloop k s s' l :
  rinv a s -> r_opc s = OIdle -> start_fin inloop k s = Ok (s', l) -> rinv (fold_left active_step l a) s' /\ forall l1 j l2, l = l1 ++ ERun j :: l2 -> False.
Proof.
  intros I O H. unfold start_fin in H. destruct (r_ev s) as [e0|] eqn:E; [discriminate|].
  assert (J : forall b q, (b = true \/ q = r_q s ++ [TAdd (r_next s)]) -> (b = true -> q = r_q s) ->
     rinv (Some k) (mkR (r_on s) q (Some (r_next s)) (S (r_next s)) (r_freed s) (if b then fset (r_att s) (r_next s) true else r_att s) k true (r_removed s) (r_opc s) (r_lpc s))).
  { intros b q Hb Hq. destruct I as [Ia Ie Iq Ic In_ Iw Id Ii]. constructor; ps.
    - intros e X. destruct b; [fs; [reflexivity|]|]; apply Ia in X; congruence.
    - intros e X. inv X. split; [apply In_; lia|lia].
    - intros e X. assert (Y : In (TAdd e) (r_q s) \/ e = r_next s).
      { destruct b; [rewrite (Hq eq_refl) in X; tauto|]. destruct Hb as [Hb|Hb]; [discriminate|]. subst q.
        apply in_app_or in X. destruct X as [X|[X|[]]]; [tauto|]. inv X. tauto. }
      destruct Y as [Y|Y]; [|subst; split; [lia|reflexivity]]. destruct (Iq e Y) as (A & B). split; [lia|]. intro F. apply B in F. congruence.
    - intros e X. inv X. auto.
    - intros e X. split; [apply In_; lia|]. destruct b; [fs; [lia|]|]; apply In_; lia.
    - intros H0. rewrite O in H0. discriminate.
    - rewrite O. discriminate.
    - intros e X. destruct (Ii e X) as (A & B). split; [lia|]. destruct B as [B|B]; [tauto|congruence]. }
  destruct inloop.
  - inv H. split; [exact (J true (r_q s) (or_introl eq_refl) (fun _ => eq_refl))|]. intros [|x [|]] j l2 X; discriminate.
  - destruct (r_on s) eqn:On; [|discriminate]. inv H. split; [|intros [|x [|]] j l2 X; discriminate].
    apply (J false (r_q s ++ [TAdd (r_next s)]) (or_intror eq_refl)). discriminate.
Qed.

Lemma dead_inv a s s' l :
  rinv a s -> r_opc s = OIdle -> dead_fin s = Ok (s', l) -> rinv (fold_left active_step l a) s' /\ forall l1 j l2, l = l1 ++ ERun j :: l2 -> False.
Proof.
  intros I O H. unfold dead_fin in H.
  assert (J : forall s0, rinv None s0 -> r_ev s0 = None -> rinv None (with_opc s0 ODead)).
  { intros s0 [Ia Ie Iq Ic In_ Iw Id Ii] E. constructor; ps; auto. discriminate. }
  destruct (r_ev s) as [e|] eqn:E.
  - destruct (r_att s e); [discriminate|]. inv H. split; [|intros [|x [|]] j l2 X; discriminate].
    cbn [fold_left active_step]. apply J; [|reflexivity]. eapply rinv_drop; eauto.
  - inv H. split; [|intros [|x [|]] j l2 X; discriminate]. cbn [fold_left active_step]. apply J; [|assumption]. eapply rinv_forget; eauto.
Qed.

Lemma norun_cons x (l : list rtev) : (forall j, x <> ERun j) -> (forall l1 j l2, l = l1 ++ ERun j :: l2 -> False) -> forall l1 j l2, x :: l = l1 ++ ERun j :: l2 -> False.
Proof. intros A B [|y l1] j l2 E; cbn in E; inv E; [now apply (A j)|]. now apply (B l1 j l2). Qed.

Lemma after_inv a inloop c s s' l :
  rinv a s -> r_opc s = OIdle -> r_ev s = None -> after_stop inloop c s = Ok (s', l) ->
  rinv (fold_left active_step l a) s' /\ forall l1 j l2, l = l1 ++ ERun j :: l2 -> False.
Proof.
  intros I O E H. pose proof (rinv_forget _ None _ I E) as I0. destruct c as [|k|]; cbn in H.
  - inv H. split; [exact I0|]. intros [|x [|]] j l2 X; discriminate.
  - destruct (start_fin inloop k s) as [[s1 l1]| |] eqn:F; cbn in H; inv H.
    destruct (start_inv _ _ _ _ _ _ I0 O F) as (A & B). split; [exact A|]. apply norun_cons; [discriminate|assumption].
  - destruct (dead_fin s) as [[s1 l1]| |] eqn:F; cbn in H; inv H.
    destruct (dead_inv _ _ _ _ I0 O F) as (A & B). split; [exact A|]. apply norun_cons; [discriminate|assumption].
Qed.

Lemma stop_inv a inloop c s s' l :
  rinv a s -> r_opc s = OIdle -> do_stop inloop c s = Ok (s', l) -> rinv (fold_left active_step l a) s' /\ forall l1 j l2, l = l1 ++ ERun j :: l2 -> False.
Proof.
  intros I O H. destruct inloop; cbn in H.
  - unfold stop_in in H. destruct (r_ev s) as [e|] eqn:E.
    + apply after_inv with (a := a) in H; [assumption| |assumption|reflexivity].
      apply rinv_running; [|reflexivity]. eapply rinv_drop; eauto.
    + inv H. split; [|intros [|? ?] ? ? X; discriminate]. cbn. destruct I as [Ia Ie Iq Ic In_ Iw Id Ii]. constructor; ps; auto; try discriminate.
      intro. rewrite O in H. discriminate.
  - unfold stop_off in H. destruct (r_on s) eqn:On; [|discriminate]. inv H. split; [|intros [|? ?] ? ? X; discriminate].
    cbn [fold_left]. destruct I as [Ia Ie Iq Ic In_ Iw Id Ii]. constructor; ps; auto; try discriminate.
    intros e X. apply in_app_or in X. destruct X as [X|[X|[]]]; [auto|discriminate].
Qed.

Lemma rstep_inv a s x s' l :
  rinv a s -> rstep s x = Some (Ok (s', l)) ->
  rinv (fold_left active_step l a) s' /\ forall l1 j l2, l = l1 ++ ERun j :: l2 -> fold_left active_step l1 a = Some j.
Proof.
  intros I H.
  assert (N : forall l, (forall l1 j l2, l = l1 ++ ERun j :: l2 -> False) -> forall l1 j l2, l = l1 ++ ERun j :: l2 -> fold_left active_step l1 a = Some j).
  { intros l0 X l1 j l2 E. destruct (X _ _ _ E). }
  assert (N0 : forall l1 j l2, [] = l1 ++ ERun j :: l2 -> fold_left active_step l1 a = Some j) by (intros [|? ?] j l2 E; discriminate).
  destruct x as [inloop c| | | |e| |]; cbn in H.
  - destruct (r_opc s) eqn:O; try discriminate.
    assert (H' : do_call inloop c s = Ok (s', l)).
    { destruct inloop; [|congruence]. destruct (r_lpc s); try discriminate; destruct (r_on s); try discriminate; congruence. }
    clear H. enough (rinv (fold_left active_step l a) s' /\ forall l1 j l2, l = l1 ++ ERun j :: l2 -> False) as (A & B) by (split; [assumption|apply N; assumption]).
    unfold do_call in H'. destruct c as [k| |].
    + destruct (r_running s); [eapply stop_inv; eauto|eapply start_inv; eauto].
    + eapply stop_inv; eauto.
    + destruct (r_running s); [eapply stop_inv; eauto|eapply dead_inv; eauto].
  - destruct (r_opc s) as [|c|c|c|] eqn:O; try discriminate.
    + destruct (r_removed s) eqn:R.
      * assert (E : r_ev s = None) by (apply (i_wait _ _ I); [now rewrite O|assumption]).
        assert (H' : after_stop false c (with_running (with_opc s OIdle) false) = Ok (s', l)) by congruence. clear H.
        apply after_inv with (a := a) in H'; [destruct H' as (A & B); split; [assumption|apply N; assumption]| |reflexivity|assumption].
        apply rinv_running; [|assumption]. destruct I as [Ia Ie Iq Ic In_ Iw Id Ii]. constructor; ps; auto; discriminate.
      * inv H. split; [|assumption]. destruct I as [Ia Ie Iq Ic In_ Iw Id Ii]. constructor; ps; auto; try discriminate. intros. congruence.
    + inv H. split; [|assumption]. destruct I as [Ia Ie Iq Ic In_ Iw Id Ii]. rewrite O in Iw. constructor; ps; auto; try discriminate.
  - destruct (r_opc s) as [|c|c|c|] eqn:O; try discriminate. inv H. split; [|assumption].
    destruct I as [Ia Ie Iq Ic In_ Iw Id Ii]. rewrite O in Iw. constructor; ps; auto; try discriminate.
  - destruct (r_on s) eqn:On; [|discriminate]. destruct (r_lpc s) eqn:L; try discriminate. destruct (r_q s) as [|[e|] q] eqn:Q; try discriminate.
    + destruct (r_freed s e) eqn:F; [discriminate|]. inv H. split; [|assumption].
      destruct I as [Ia Ie Iq Ic In_ Iw Id Ii]. rewrite Q in Iq. destruct (Iq e (or_introl eq_refl)) as (Le & Ee). specialize (Ee F).
      constructor; ps; auto; try (rewrite L; discriminate).
      * intros j X. fs; auto.
      * intros j X. apply Iq. now right.
      * intros j X. fs; [lia|]. auto.
    + destruct (r_ev s) as [e|] eqn:E; [|discriminate]. inv H. split; [|assumption].
      assert (I1 : rinv a (drop_ev (with_q s q) e)).
      { apply rinv_drop with (a := a); [|exact E]. destruct I as [Ia Ie Iq Ic In_ Iw Id Ii]. rewrite Q in Iq. constructor; ps; auto. intros j X. apply Iq. now right. }
      destruct I1 as [Ia Ie Iq Ic In_ Iw Id Ii]. constructor; ps; auto; try discriminate.
      intros _ _. split; [reflexivity|discriminate].
  - destruct (r_on s) eqn:On; [|discriminate]. destruct (r_lpc s) eqn:L; try discriminate. destruct (r_att s e) eqn:A; [|discriminate].
    assert (X : s' = with_lpc s (RInvoke e) /\ l = [ERun (r_user s)] /\ r_opc s <> ODead).
    { destruct (r_opc s) eqn:O; try discriminate; destruct (r_freed s e); try discriminate; inv H; repeat split; congruence. }
    destruct X as (-> & -> & D). pose proof (i_att _ _ I _ A) as E. destruct (i_act _ _ I _ E) as (Ea & _). subst a. split.
    + cbn [fold_left active_step]. pose proof (i_evf _ _ I _ E) as (_ & Lt). destruct I as [Ia Ie Iq Ic In_ Iw Id Ii]. constructor; ps; auto.
      * intros W R. destruct (Iw W R). congruence.
      * intros j X. inv X. auto.
    + intros [|x l1] j l2 X; cbn in X; inv X; [reflexivity|]. destruct l1; discriminate.
  - destruct (r_lpc s) as [|e| |] eqn:L; try discriminate.
    + destruct (r_freed s e) eqn:F; [discriminate|]. inv H. split; [|assumption].
      destruct I as [Ia Ie Iq Ic In_ Iw Id Ii]. constructor; ps; auto; try discriminate. intros W R. split; [apply (Iw W R)|discriminate].
    + assert (X : l = [] /\ (s' = with_lpc s RIdle /\ r_opc s <> ODead \/ exists c, r_opc s = OBlocked c /\ s' = with_opc (with_lpc s RIdle) (OCheck c))).
      { destruct (r_opc s) eqn:O; try discriminate; inv H; split; auto; try (left; split; [reflexivity|congruence]). right; eauto. }
      destruct X as (-> & X). split; [|assumption]. destruct I as [Ia Ie Iq Ic In_ Iw Id Ii].
      destruct X as [(-> & _)|(c & O & ->)]; constructor; ps; auto; try discriminate.
      * intros W R. split; [apply (Iw W R)|discriminate].
      * intros W R. rewrite O in Iw. split; [apply (Iw eq_refl R)|discriminate].
  - destruct (r_on s); [|discriminate]. destruct (r_lpc s) eqn:L; try discriminate. destruct (r_q s) eqn:Q; try discriminate. inv H.
    split; [|assumption]. destruct I as [Ia Ie Iq Ic In_ Iw Id Ii]. rewrite Q in Iq. constructor; ps; auto.
    + intros W R. split; [apply (Iw W R)|discriminate].
    + discriminate.
Qed.

Lemma seen_snoc h a l : seen (h ++ [(a, l)]) = seen h ++ l.
Proof. unfold seen. rewrite map_app, concat_app. cbn. now rewrite app_nil_r. Qed.
Lemma app_mid {A} (a b l1 : list A) x l2 : a ++ b = l1 ++ x :: l2 ->
  (exists m, a = l1 ++ x :: m) \/ (exists m, l1 = a ++ m /\ b = m ++ x :: l2).
Proof.
  revert l1. induction a as [|y a IH]; intros l1 E; cbn in E; [right; exists l1; auto|].
  destruct l1 as [|z l1]; cbn in E; inv E; [left; exists a; reflexivity|].
  destruct (IH _ H1) as [(m & ->)|(m & -> & ->)]; [left; exists m; reflexivity|right; exists m; auto].
Qed.
Lemma rhist_inv h s : rhist h s -> rinv (active (seen h)) s /\ runs_ok (seen h).
Proof.
  induction 1 as [|h s a s' l H (I & R) S].
  - split; [apply rinv_init|]. intros [|? ?] k l2 X; discriminate.
  - rewrite seen_snoc. unfold active. rewrite fold_left_app. destruct (rstep_inv _ _ _ _ _ I S) as (A & B). split; [exact A|].
    intros l1 k l2 E. destruct (app_mid _ _ _ _ _ E) as [(m & X)|(m & -> & X)]; [now apply (R l1 k m)|].
    unfold active. rewrite fold_left_app. eapply B; eauto.
Qed.

Lemma chist_hist b h s : chist b h s -> rhist h s.
Proof. induction 1; econstructor; eauto. Qed.

(** Invariant of careful use. *)
Record cinv (b : bool) (s : rst) : Prop := {
  c_on : r_on s = true;
  c_run : waiting_c (r_opc s) = false -> r_running s = true -> r_ev s <> None;
  c_add : forall e, In (TAdd e) (r_q s) -> r_ev s = Some e;
  c_att : forall e, r_ev s = Some e -> r_att s e = true \/ In (TAdd e) (r_q s);
  c_rem : waiting_c (r_opc s) = true -> r_removed s = false -> r_ev s <> None /\ exists q, r_q s = q ++ [TRemove] /\ ~ In TRemove q;
  c_norem : waiting_c (r_opc s) = false \/ r_removed s = true -> ~ In TRemove (r_q s);
  c_inv : forall e, r_lpc s = RInvoke e -> r_freed s e = false;
  c_stuck : r_lpc s <> RStuck;
  c_in : b = true -> waiting_c (r_opc s) = false /\ r_lpc s <> RNotify /\ r_q s = [] }.

Lemma cinv_init b : cinv b rinit.
Proof. constructor; cbn; intros; try discriminate; try tauto. intuition discriminate. Qed.

Lemma cstart b k s a : rinv a s -> cinv b s -> r_opc s = OIdle -> r_ev s = None ->
  exists s' l, start_fin b k s = Ok (s', l) /\ cinv b s' /\ waiting_c (r_opc s') = false.
Proof.
  intros I C O E. unfold start_fin. rewrite E, (c_on _ _ C).
  assert (Q : forall x, In x (r_q s) -> False).
  { intros [e|] X; [apply (c_add _ _ C) in X; congruence|]. revert X. apply (c_norem _ _ C). left. now rewrite O. }
  assert (Qn : r_q s = []) by (destruct (r_q s) as [|x q]; [reflexivity|destruct (Q x (or_introl eq_refl))]).
  destruct C as [Con Crun Cadd Catt Crem Cno Ci Cs Cin]. rewrite O in *.
  destruct b; eexists; eexists; (split; [reflexivity|]); (split; [|reflexivity]); constructor; ps; auto; try discriminate; rewrite ?Qn in *; cbn [app In] in *; try tauto.
  - intros e X. inv X. left. apply fset_eq.
  - intros e [X|[]]. inv X. reflexivity.
  - intros e X. inv X. auto.
  - intros _ [X|[]]. discriminate.
Qed.
Lemma cdead b s a : rinv a s -> cinv b s -> r_opc s = OIdle -> r_ev s = None ->
  r_running s = false -> exists s' l, dead_fin s = Ok (s', l) /\ cinv b s' /\ waiting_c (r_opc s') = false.
Proof.
  intros I C O E R. unfold dead_fin. rewrite E. eexists; eexists. split; [reflexivity|]. split; [|reflexivity].
  destruct C as [Con Crun Cadd Catt Crem Cno Ci Cs Cin]. rewrite O in *. constructor; ps; auto; try discriminate; try tauto.
Qed.
Lemma cafter b c s a : rinv a s -> cinv b s -> r_opc s = OIdle -> r_ev s = None -> r_running s = false ->
  exists s' l, after_stop b c s = Ok (s', l) /\ cinv b s' /\ waiting_c (r_opc s') = false.
Proof.
  intros I C O E R. destruct c as [|k|]; cbn.
  - eexists; eexists. split; [reflexivity|]. split; [assumption|]. now rewrite O.
  - destruct (cstart b k s a I C O E) as (s' & l & -> & A & B). cbn. eauto.
  - destruct (cdead b s a I C O E R) as (s' & l & -> & A & B). cbn. eauto.
Qed.
Lemma cstop b c s a : rinv a s -> cinv b s -> r_opc s = OIdle -> (b = true -> r_lpc s = RIdle) -> r_running s = true ->
  exists s' l, do_stop b c s = Ok (s', l) /\ cinv b s'.
Proof.
  intros I C O Hl R. assert (W : waiting_c (r_opc s) = false) by now rewrite O. pose proof (c_run _ _ C W R) as Ne.
  destruct b; cbn.
  - unfold stop_in. destruct (r_ev s) as [e|] eqn:E; [|congruence].
    assert (Hq : r_q s = []) by (apply (c_in _ _ C); reflexivity).
    assert (C1 : cinv true (with_running (drop_ev s e) false)).
    { pose proof (Hl eq_refl) as Hl'. destruct C as [Con Crun Cadd Catt Crem Cno Ci Cs Cin]. constructor; ps; auto; try discriminate; rewrite ?Hq, ?Hl' in *; cbn in *; try tauto; try congruence; try discriminate.
      all: try (intros; congruence). }
    destruct (cafter true c _ None (rinv_running _ _ false (rinv_drop a None s e I E) eq_refl) C1 O eq_refl eq_refl) as (s' & l & X & Y & _).
    eauto.
  - unfold stop_off. rewrite (c_on _ _ C). eexists; eexists. split; [reflexivity|].
    destruct C as [Con Crun Cadd Catt Crem Cno Ci Cs Cin]. constructor; ps; auto; try discriminate.
    + intros e X. apply in_app_or in X. destruct X as [X|[X|[]]]; [auto|discriminate].
    + intros e X. destruct (Catt e X) as [Y|Y]; [auto|]. right. apply in_or_app. auto.
    + intros _ _. split; [assumption|]. exists (r_q s). split; [reflexivity|]. apply Cno. auto.
    + intros [X|X]; discriminate.
Qed.

(** No crash but one: the remover notifies a condition variable that is gone. *)
Definition dead_notify (s : rst) (a : ract) : Prop := a = ALoop /\ r_lpc s = RNotify /\ r_opc s = ODead.

Lemma cstep b s act x a : rinv a s -> cinv b s -> careful b s act -> rstep s act = Some x ->
  (exists s' l, x = Ok (s', l) /\ cinv b s') \/ (x = UB /\ dead_notify s act).
Proof.
  intros I C K H. destruct act as [il c| | | |e| |]; cbn in H, K.
  - left. destruct (r_opc s) eqn:O; try discriminate. destruct K as (-> & Ks & Kl).
    assert (H' : x = do_call b c s).
    { destruct b; [|congruence]. destruct (r_lpc s); try discriminate; destruct (r_on s); try discriminate; congruence. }
    subst x. clear H. unfold do_call. assert (W : waiting_c (r_opc s) = false) by now rewrite O. destruct c as [k| |].
    + destruct (r_running s) eqn:R.
      * destruct (cstop b (KStart k) s a I C O Kl R) as (s' & l & -> & X). eauto.
      * assert (E : r_ev s = None). { destruct (r_ev s) eqn:E; [|reflexivity]. destruct (i_act _ _ I _ E). congruence. }
        destruct (cstart b k s a I C O E) as (s' & l & -> & X & _). eauto.
    + specialize (Ks eq_refl). destruct (cstop b KNone s a I C O Kl Ks) as (s' & l & -> & X). eauto.
    + destruct (r_running s) eqn:R.
      * destruct (cstop b KDead s a I C O Kl R) as (s' & l & -> & X). eauto.
      * assert (E : r_ev s = None). { destruct (r_ev s) eqn:E; [|reflexivity]. destruct (i_act _ _ I _ E). congruence. }
        destruct (cdead b s a I C O E R) as (s' & l & -> & X & _). eauto.
  - left. destruct (r_opc s) as [|c|c|c|] eqn:O; try discriminate.
    + destruct (r_removed s) eqn:R.
      * assert (b = false) by (destruct b; [destruct (c_in _ _ C eq_refl) as (X & _); rewrite O in X; discriminate|reflexivity]). subst b.
        assert (E : r_ev s = None) by (apply (i_wait _ _ I); [now rewrite O|assumption]).
        assert (C1 : cinv false (with_running (with_opc s OIdle) false)).
        { destruct C as [Con Crun Cadd Catt Crem Cno Ci Cs Cin]. rewrite O in *. constructor; ps; auto; try discriminate. }
        assert (I1 : rinv a (with_running (with_opc s OIdle) false)).
        { apply rinv_running; [|assumption]. destruct I as [Ia Ie Iq Ic In_ Iw Id Ii]. constructor; ps; auto; discriminate. }
        destruct (cafter false c _ a I1 C1 eq_refl E eq_refl) as (s' & l & X & Y & _). rewrite X in H. inv H. eauto.
      * inv H. eexists; eexists. split; [reflexivity|]. destruct C as [Con Crun Cadd Catt Crem Cno Ci Cs Cin]. rewrite O in *. constructor; ps; auto.
    + inv H. eexists; eexists. split; [reflexivity|]. destruct C as [Con Crun Cadd Catt Crem Cno Ci Cs Cin]. rewrite O in *. constructor; ps; auto.
  - left. destruct (r_opc s) as [|c|c|c|] eqn:O; try discriminate. inv H. eexists; eexists. split; [reflexivity|].
    destruct C as [Con Crun Cadd Catt Crem Cno Ci Cs Cin]. rewrite O in *. constructor; ps; auto.
  - left. rewrite (c_on _ _ C) in H. destruct (r_lpc s) eqn:L; try discriminate. destruct (r_q s) as [|[e|] q] eqn:Q; try discriminate.
    + assert (E : r_ev s = Some e) by (apply (c_add _ _ C); rewrite Q; left; reflexivity).
      destruct (i_evf _ _ I _ E) as (F & _). rewrite F in H. inv H. eexists; eexists. split; [reflexivity|].
      destruct C as [Con Crun Cadd Catt Crem Cno Ci Cs Cin]. rewrite Q in *. constructor; ps; auto.
      * intros j X. apply Cadd. now right.
      * intros j X. rewrite E in X. inv X. left. apply fset_eq.
      * intros W R. destruct (Crem W R) as (A & q' & B & D). split; [assumption|]. destruct q' as [|y q']; [discriminate|]. cbn in B. inv B.
        exists q'. split; [reflexivity|]. intro X. apply D. now right.
      * intros W X. apply (Cno W). now right.
      * intro Y; destruct (Cin Y) as (_ & _ & Z); discriminate.
    + destruct (r_ev s) as [e|] eqn:E.
      * inv H. eexists; eexists. split; [reflexivity|].
        assert (W : waiting_c (r_opc s) = true /\ r_removed s = false).
        { destruct (waiting_c (r_opc s)) eqn:W; [destruct (r_removed s) eqn:R; [|auto]|]; exfalso; apply (c_norem _ _ C); rewrite ?Q; auto; now left. }
        destruct W as (W & R). destruct (c_rem _ _ C W R) as (_ & q' & B & D). rewrite Q in B.
        assert (q = []). { destruct q' as [|y q']; cbn in B; inv B; [reflexivity|]. destruct D. now left. }
        subst q. destruct C as [Con Crun Cadd Catt Crem Cno Ci Cs Cin]. constructor; ps; auto; try discriminate; try congruence.
        all: try (intros; contradiction). intro Y. destruct (Cin Y) as (Z & _). congruence.
      * exfalso. destruct (waiting_c (r_opc s)) eqn:W; [destruct (r_removed s) eqn:R|].
        -- apply (c_norem _ _ C); [auto|]. rewrite Q. now left.
        -- destruct (c_rem _ _ C W R) as (X & _). congruence.
        -- apply (c_norem _ _ C); [auto|]. rewrite Q. now left.
  - left. rewrite (c_on _ _ C) in H. destruct (r_lpc s) eqn:L; try discriminate. destruct (r_att s e) eqn:A; [|discriminate].
    pose proof (i_att _ _ I _ A) as E. destruct (i_evf _ _ I _ E) as (F & _). rewrite F in H.
    assert (X : x = Ok (with_lpc s (RInvoke e), [ERun (r_user s)])).
    { destruct (r_opc s) eqn:O; try congruence. rewrite (i_dead _ _ I O) in E. discriminate. }
    subst x. eexists; eexists. split; [reflexivity|]. destruct C as [Con Crun Cadd Catt Crem Cno Ci Cs Cin]. constructor; ps; auto; try discriminate.
    + intros j Y. inv Y. assumption.
    + intro Y. destruct (Cin Y) as (? & ? & ?). repeat split; auto. discriminate.
  - destruct (r_lpc s) as [|e| |] eqn:L; try discriminate.
    + rewrite (c_inv _ _ C _ L) in H. inv H. left. eexists; eexists. split; [reflexivity|].
      destruct C as [Con Crun Cadd Catt Crem Cno Ci Cs Cin]. constructor; ps; auto; try discriminate.
      intro Y. destruct (Cin Y) as (? & ? & ?). repeat split; auto. discriminate.
    + assert (b = false) by (destruct b; [destruct (c_in _ _ C eq_refl) as (_ & X & _); congruence|reflexivity]). subst b.
      destruct (r_opc s) as [|c|c|c|] eqn:O; inv H;
      try (left; eexists; eexists; split; [reflexivity|]; destruct C as [Con Crun Cadd Catt Crem Cno Ci Cs Cin]; rewrite O in *; constructor; ps; rewrite ?O in *; auto; discriminate).
      right. split; [reflexivity|]. repeat split; assumption.
  - contradiction.
Qed.

Lemma chist_inv b h s : chist b h s -> cinv b s.
Proof.
  induction 1 as [|h s a s' l H IH K S]; [apply cinv_init|].
  destruct (cstep _ _ _ _ _ (proj1 (rhist_inv _ _ (chist_hist _ _ _ H))) IH K S) as [(s1 & l1 & X & Y)|(X & _)]; inv X. assumption.
Qed.

(** *** Progress of Stop() *)
Definition lost (s : rst) : Prop := r_removed s = true /\ r_lpc s <> RNotify /\ exists c, r_opc s = OSleep c \/ r_opc s = OBlocked c.

Lemma goes_trans s1 s2 s3 : goes s1 s2 -> goes s2 s3 -> goes s1 s3.
Proof. induction 1; intros; [assumption|]. econstructor; eauto. Qed.
Lemma goes_one s a s1 l : In a [AOwner; ATask; ALoop] -> rstep s a = Some (Ok (s1, l)) -> goes s s1.
Proof. intros. econstructor; eauto. constructor. Qed.

Definition ret (s : rst) : Prop := exists s', goes s s' /\ in_call s' = false.

Lemma ret_step b s act s1 l a : In act [AOwner; ATask; ALoop] -> rinv a s -> cinv b s -> rstep s act = Some (Ok (s1, l)) ->
  (forall a1, rinv a1 s1 -> cinv b s1 -> ret s1) -> ret s.
Proof.
  intros Hin I C S K.
  assert (Kf : careful b s act) by (cbn in Hin; repeat destruct Hin as [<-|Hin]; cbn; auto; contradiction).
  destruct (cstep _ _ _ _ _ I C Kf S) as [(s' & l' & X & Y)|(X & _)]; inv X.
  destruct (rstep_inv _ _ _ _ _ I S) as (I' & _). destruct (K _ I' Y) as (s'' & G & E). exists s''. split; [|assumption]. econstructor; eauto.
Qed.

Lemma ret_check b s c a : rinv a s -> cinv b s -> r_opc s = OCheck c -> r_removed s = true -> ret s.
Proof.
  intros I C O R.
  assert (b = false) by (destruct b; [destruct (c_in _ _ C eq_refl) as (X & _); rewrite O in X; discriminate|reflexivity]). subst b.
  assert (E : r_ev s = None) by (apply (i_wait _ _ I); [now rewrite O|assumption]).
  assert (C1 : cinv false (with_running (with_opc s OIdle) false)).
  { destruct C as [Con Crun Cadd Catt Crem Cno Ci Cs Cin]. rewrite O in *. constructor; ps; auto; try discriminate. }
  assert (I1 : rinv a (with_running (with_opc s OIdle) false)).
  { apply rinv_running; [|assumption]. destruct I as [Ia Ie Iq Ic In_ Iw Id Ii]. constructor; ps; auto; discriminate. }
  destruct (cafter false c _ a I1 C1 eq_refl E eq_refl) as (s' & l & X & Y & Z).
  exists s'. split.
  - eapply (goes_one s AOwner s' l); [now left|]. cbn. now rewrite O, R, X.
  - unfold in_call. destruct (r_opc s'); try discriminate; destruct (r_lpc s') eqn:L; try reflexivity; destruct (c_stuck _ _ Y L).
Qed.

Lemma ret_notify b s c a : rinv a s -> cinv b s -> r_opc s = OCheck c \/ r_opc s = OBlocked c -> r_removed s = true -> r_lpc s = RNotify -> ret s.
Proof.
  intros I C [O|O] R L; [eapply ret_check; eauto|].
  apply ret_step with (b := b) (act := ALoop) (s1 := with_opc (with_lpc s RIdle) (OCheck c)) (l := []) (a := a); auto; [cbn; auto|cbn; rewrite L, O; reflexivity|].
  intros a1 I1 C1. eapply ret_check; eauto; reflexivity.
Qed.

Lemma ret_queue b n : forall s c a, rinv a s -> cinv b s -> r_opc s = OCheck c \/ r_opc s = OBlocked c -> r_removed s = false ->
  r_lpc s = RIdle -> length (r_q s) = n -> ret s.
Proof.
  induction n as [|n IH]; intros s c a I C O R L Q.
  - assert (W : waiting_c (r_opc s) = true) by (destruct O as [->| ->]; reflexivity).
    destruct (c_rem _ _ C W R) as (_ & q & B & _). rewrite B, app_length in Q. cbn in Q. lia.
  - assert (W : waiting_c (r_opc s) = true) by (destruct O as [->| ->]; reflexivity).
    destruct (c_rem _ _ C W R) as (Ne & q & B & D). destruct (r_q s) as [|[e|] q0] eqn:Eq; [discriminate| |].
    + assert (E : r_ev s = Some e) by (apply (c_add _ _ C); rewrite Eq; left; reflexivity).
      destruct (i_evf _ _ I _ E) as (F & _).
      apply ret_step with (b := b) (act := ATask) (s1 := with_att (with_q s q0) e true) (l := []) (a := a); auto.
      * cbn; auto.
      * cbn. rewrite (c_on _ _ C), L, Eq, F. reflexivity.
      * intros a1 I1 C1. apply (IH _ c a1 I1 C1); auto.
    + destruct (r_ev s) as [e|] eqn:E; [|congruence].
      apply ret_step with (b := b) (act := ATask) (s1 := with_lpc (with_removed (drop_ev (with_q s q0) e) true) RNotify) (l := []) (a := a); auto.
      * cbn; auto.
      * cbn. rewrite (c_on _ _ C), L, Eq, E. reflexivity.
      * intros a1 I1 C1. apply (ret_notify b _ c a1 I1 C1); auto.
Qed.

Lemma ret_wait b s c a : rinv a s -> cinv b s -> r_opc s = OCheck c \/ r_opc s = OBlocked c -> r_removed s = false -> ret s.
Proof.
  intros I C O R. destruct (r_lpc s) as [|e| |] eqn:L.
  - eapply ret_queue; eauto.
  - apply ret_step with (b := b) (act := ALoop) (s1 := with_lpc s RIdle) (l := []) (a := a); auto; [cbn; auto|cbn; rewrite L, (c_inv _ _ C _ L); reflexivity|].
    intros a1 I1 C1. eapply ret_queue with (c := c); eauto.
  - destruct O as [O|O].
    + apply ret_step with (b := b) (act := ALoop) (s1 := with_lpc s RIdle) (l := []) (a := a); auto; [cbn; auto|cbn; rewrite L, O; reflexivity|].
      intros a1 I1 C1. eapply ret_queue with (c := c); eauto.
    + apply ret_step with (b := b) (act := ALoop) (s1 := with_opc (with_lpc s RIdle) (OCheck c)) (l := []) (a := a); auto; [cbn; auto|cbn; rewrite L, O; reflexivity|].
      intros a1 I1 C1. eapply ret_queue with (c := c); eauto.
  - destruct (c_stuck _ _ C L).
Qed.

Lemma stop_returns b h s : chist b h s -> in_call s = true -> ret s \/ lost s.
Proof.
  intros H E. pose proof (chist_inv _ _ _ H) as C. destruct (rhist_inv _ _ (chist_hist _ _ _ H)) as (I & _).
  unfold in_call in E. destruct (r_opc s) as [|c|c|c|] eqn:O.
  - destruct (r_lpc s) eqn:L; try discriminate. destruct (c_stuck _ _ C L).
  - left. destruct (r_removed s) eqn:R; [eapply ret_check; eauto|eapply ret_wait; eauto].
  - destruct (r_removed s) eqn:R.
    + destruct (r_lpc s) eqn:L; try (right; repeat split; [assumption|congruence|eauto]; fail).
      left. apply ret_step with (b := b) (act := AOwner) (s1 := with_opc s (OBlocked c)) (l := []) (a := active (seen h)); auto; [cbn; auto|cbn; rewrite O; reflexivity|].
      intros a1 I1 C1. eapply ret_notify with (c := c); eauto.
    + left. apply ret_step with (b := b) (act := AOwner) (s1 := with_opc s (OBlocked c)) (l := []) (a := active (seen h)); auto; [cbn; auto|cbn; rewrite O; reflexivity|].
      intros a1 I1 C1. eapply ret_wait with (c := c); eauto.
  - destruct (r_removed s) eqn:R.
    + destruct (r_lpc s) eqn:L; try (right; repeat split; [assumption|congruence|eauto]; fail).
      left. eapply ret_notify with (c := c); eauto.
    + left. eapply ret_wait; eauto.
  - destruct (r_lpc s) eqn:L; try discriminate. destruct (c_stuck _ _ C L).
Qed.
