(** C65-C68: descriptor events. *)
From Verif.Model Require Import Common FdEvents.
From Verif.Spec Require Import FdSpec.
From Verif.Proofs Require Import Tac FdProofs.
Open Scope Z_scope.

(** ** C65: handlers run for installed events only, and every reported event of an installed one is handled once. *)

(** Dispatching never touches a destroyed object and never aborts; a handler that is called belongs to an object that is
    installed at that moment, even if the kernel reported the event before it was. *)
Theorem C65_only_installed : forall limit h s l, hist limit h s ->
  exists s' vs, step limit s (ODispatch l) = Ok (s', vs) /\
    forall l' o m g, In (VInvoke l' o m g) vs -> l' = l /\ installed h o <> None.
Proof.
  intros limit h s l H. destruct (dispatch_cases limit h s l H) as (s' & vs & E & C). exists s', vs. split; [exact E|].
  intros l' o m g Hv. apply hist_inv in H. destruct (fired s l) as [|[[fd m'] g'] r]; [destruct C as [-> _]; destruct Hv|].
  destruct C as (_ & [(o' & f & w & -> & C2 & C3 & C4 & _)|[[-> _]|[-> _]]]); destruct Hv as [Hv|[]]; inv Hv.
  split; [reflexivity|]. destruct (i_obj _ _ _ H _ _ C2) as (_ & X & _). congruence.
Qed.
Print Assumptions C65_only_installed.

(** Handlers run in no other way. *)
Theorem C65_only_dispatch : forall limit s x s' vs l o m g,
  step limit s x = Ok (s', vs) -> In (VInvoke l o m g) vs -> x = ODispatch l.
Proof. exact non_dispatch_silent. Qed.
Print Assumptions C65_only_dispatch.

(** The entries of a batch are handled one by one in the order reported, each once; those not handled yet are pending. *)
Theorem C65_batch_in_order : forall limit h1 l es vs0 h2 s,
  let h := h1 ++ (OPoll l es, vs0) :: h2 in
  hist limit h s -> Forall (fun e => ~ polls l e) h2 ->
  handled h l h2 ++ map (fun e => Some (fst (fst e))) (fired s l) = map (fun e => Some (fst e)) es.
Proof. intros. eapply batch_ok; eauto. Qed.
Print Assumptions C65_batch_in_order.

(** An object that was installed when its event was reported and is not removed since gets the event, in its own loop,
    no later than the end of the batch. *)
Theorem C65_delivered : forall limit h1 l es vs0 h2 s o fd e,
  let h := h1 ++ (OPoll l es, vs0) :: h2 in
  hist limit h s -> Forall (fun e => ~ polls l e) h2 -> Forall (fun e => ~ removes o e) h2 ->
  installed h1 o = Some l -> fd_of h1 o = Some fd -> In (fd, e) es -> fired s l = [] ->
  exists c g, In c h2 /\ In (VInvoke l o (to_lt_event e) g) (snd c).
Proof.
  intros limit h1 l es vs0 h2 s o fd e h H P R I F He Hf. destruct (delivered _ _ _ _ _ _ _ _ _ _ H P R I F He) as [_ [(g & D)|(g & c & D1 & D2)]].
  - rewrite Hf in D. destruct D.
  - eauto.
Qed.
Print Assumptions C65_delivered.

(** Install and Remove on a live object: refused (false) when it belongs to another loop / is not installed; Install aborts
    when the table has no room for the descriptor or another event of that descriptor is installed, Remove when called in
    another loop. *)
Theorem C65_install_remove : forall limit h s l o f k, hist limit h s -> objs s o = Some f -> f_alive f = true ->
  (match installed h o with
   | Some l' => if Nat.eqb l' l
       then step limit s (OInstall l o k) = CheckFail /\ exists s', step limit s (ORemove l o) = Ok (s', [VRet true])
       else step limit s (OInstall l o k) = Ok (s, [VRet false]) /\ step limit s (ORemove l o) = CheckFail
   | None => step limit s (ORemove l o) = Ok (s, [VRet false]) /\
       (0 <= f_fd f < limit -> evs s (f_fd f) = None -> exists s', step limit s (OInstall l o k) = Ok (s', [VRet true])) /\
       (~ (0 <= f_fd f < limit) \/ evs s (f_fd f) <> None -> step limit s (OInstall l o k) = CheckFail)
   end).
Proof.
  intros limit h s l o f k H Hf Ha. apply hist_inv in H as I. destruct (i_obj _ _ _ I o f Hf) as (X1 & X2 & X3). rewrite X2.
  cbn [step]. unfold with_obj. rewrite Hf, Ha.
  assert (RNG : ((f_fd f <? 0) || (limit <=? f_fd f)) = false <-> 0 <= f_fd f < limit)
    by (rewrite orb_false_iff, Z.ltb_ge, Z.leb_gt; lia).
  unfold mgr_add. set (b := (f_fd f <? 0) || (limit <=? f_fd f)) in *. clearbody b.
  destruct (f_watch f) as [w|] eqn:W.
  - destruct (Nat.eqb_spec w l) as [->|n]; cbn [negb].
    + split; [|eauto]. destruct (i_watch _ _ _ I o f l Hf W) as (Y & _). rewrite Y. destruct b; reflexivity.
    + auto.
  - split; [reflexivity|]. split.
    + intros R Y. apply RNG in R. subst b. rewrite Y. eauto.
    + intros R. destruct b; [reflexivity|]. destruct (evs s (f_fd f)); [reflexivity|].
      destruct R as [R|R]; [|congruence]. exfalso. apply R, RNG. reflexivity.
Qed.
Print Assumptions C65_install_remove.

(** ** C66: the kernel watches exactly what was asked for. *)
Definition C66_statement : Prop := forall limit h s o l fd, hist limit h s -> installed h o = Some l -> fd_of h o = Some fd ->
  exists m, ep s l fd = Some m /\ hasb m EPOLLIN = fst (asked h o) /\ hasb m EPOLLOUT = snd (asked h o).

(** InstallFdEvent returns true although the kernel refused the descriptor. *)
Theorem C66_statement_refuted : ~ C66_statement.
Proof.
  intro S.
  assert (H : exists s, hist 8 [(OOpen 5, []); (ONew 1%nat 5 EV_READ true, []); (OInstall 1%nat 1%nat false, [VRet true])] s /\ ep s 1%nat 5 = None).
  { eexists. split.
    - eapply (hist_snoc 8 [(OOpen 5, []); (ONew 1%nat 5 EV_READ true, [])]).
      + eapply (hist_snoc 8 [(OOpen 5, [])]).
        * eapply (hist_snoc 8 []); [apply hist_nil|cbn; auto with zarith|exact Logic.I|reflexivity].
        * cbn. auto.
        * exact Logic.I.
        * reflexivity.
      + exact Logic.I.
      + cbn. intros f E. injection E as <-. auto.
      + reflexivity.
    - reflexivity. }
  destruct H as (s & H & E). destruct (S 8 _ s 1%nat 1%nat 5 H eq_refl eq_refl) as (m & X & _). congruence.
Qed.
Print Assumptions C66_statement_refuted.

(** As long as the kernel refuses nothing it holds after every history, through any sequence of enabling and disabling,
    and the kernel watches nothing else. *)
Theorem C66_watch_as_asked_partial : forall limit h s o l fd, hist limit h s -> Forall accepted h ->
  installed h o = Some l -> fd_of h o = Some fd ->
  exists m, ep s l fd = Some m /\ hasb m EPOLLIN = fst (asked h o) /\ hasb m EPOLLOUT = snd (asked h o).
Proof.
  intros limit h s o l fd H A Hi Hfd. apply hist_inv in H as I. destruct (objs s o) as [f|] eqn:O.
  - destruct (i_obj _ _ _ I o f O) as (X1 & X2 & X3). assert (f_fd f = fd) by congruence. subst fd.
    rewrite X3. apply (i_mask _ _ _ I A o f l O). congruence.
  - destruct (i_none _ _ _ I o O) as (X & _). congruence.
Qed.
Print Assumptions C66_watch_as_asked_partial.
Theorem C66_nothing_else_watched_partial : forall limit h s l fd m, hist limit h s -> ep s l fd = Some m ->
  exists o, installed h o = Some l /\ fd_of h o = Some fd.
Proof.
  intros limit h s l fd m H E. apply hist_inv in H as I. destruct (i_ep _ _ _ I l fd m E) as (o & f & X1 & X2 & X3 & X4).
  destruct (i_obj _ _ _ I o f X2) as (Y1 & Y2 & _). exists o. split; congruence.
Qed.
Print Assumptions C66_nothing_else_watched_partial.

(** ** C67: a handler is called only with events it asked for. *)
Definition C67_statement : Prop := forall limit h s l s' vs o m g, hist limit h s ->
  step limit s (ODispatch l) = Ok (s', vs) -> In (VInvoke l o m g) vs ->
  (hasb m EV_READ = true -> fst (asked h o) = true) /\ (hasb m EV_WRITE = true -> snd (asked h o) = true).

Definition h67 : log :=
  [(OOpen 5, []); (ONew 1%nat 5 0 true, []); (OInstall 1%nat 1%nat true, [VRet true]); (OPoll 1%nat [(5, EPOLLHUP)], [])].
(** Nothing asked for, the peer hangs up: the handler is called with READ and WRITE. *)
Theorem C67_statement_refuted : ~ C67_statement.
Proof.
  intro S.
  assert (H : exists s, hist 8 h67 s /\ exists s', step 8 s (ODispatch 1%nat) = Ok (s', [VInvoke 1%nat 1%nat 3 0%nat])).
  { eexists. split.
    - eapply (hist_snoc 8 [(OOpen 5, []); (ONew 1%nat 5 0 true, []); (OInstall 1%nat 1%nat true, [VRet true])]).
      + eapply (hist_snoc 8 [(OOpen 5, []); (ONew 1%nat 5 0 true, [])]).
        * eapply (hist_snoc 8 [(OOpen 5, [])]).
          -- eapply (hist_snoc 8 []); [apply hist_nil|cbn; auto with zarith|exact Logic.I|reflexivity].
          -- cbn. auto.
          -- exact Logic.I.
          -- reflexivity.
        * exact Logic.I.
        * cbn. intros f E. injection E as <-. auto.
        * reflexivity.
      + cbn. split; [reflexivity|]. split; [constructor; [intros []|constructor]|]. constructor; [|constructor].
        eexists. split; [reflexivity|]. split; [reflexivity|discriminate].
      + exact Logic.I.
      + reflexivity.
    - eexists. reflexivity. }
  destruct H as (s & H & s' & E). destruct (S 8 _ s 1%nat s' _ 1%nat 3 0%nat H E (or_introl eq_refl)) as [X _].
  specialize (X eq_refl). discriminate.
Qed.
Print Assumptions C67_statement_refuted.

(** What the handler will be called with, for every report of the kernel on an installed object: reading if asked for and
    reported (EPOLLIN), or on half-close, hang-up or error; writing likewise; LtEv::ERROR never. *)
Theorem C67_what_is_delivered_partial : forall limit h s l es vs o fd e, hist limit (h ++ [(OPoll l es, vs)]) s -> Forall accepted h ->
  installed h o = Some l -> fd_of h o = Some fd -> In (fd, e) es ->
  let m := to_lt_event e in
  (hasb e EPOLLIN = true -> fst (asked h o) = true) /\ (hasb e EPOLLOUT = true -> snd (asked h o) = true) /\
  (hasb m EV_READ = true <-> hasb e EPOLLIN = true \/ hasb e EPOLLRDHUP = true \/ hasb e EPOLLHUP = true \/ hasb e EPOLLERR = true) /\
  (hasb m EV_WRITE = true <-> hasb e EPOLLOUT = true \/ hasb e EPOLLHUP = true \/ hasb e EPOLLERR = true) /\
  hasb m EV_ERROR = false.
Proof.
  intros limit h s l es vs o fd e H A Hi Hfd He m. apply hist_snoc_inv in H as (s0 & H & (_ & _ & P) & _ & _).
  rewrite Forall_forall in P. destruct (P _ He) as (w & W & D & _). cbn [fst snd] in W, D.
  destruct (C66_watch_as_asked_partial limit h s0 o l fd H A Hi Hfd) as (w' & W' & X1 & X2). rewrite W in W'. inv W'. rename w' into w.
  assert (SUB : forall n, 0 <= n -> n <> 3 -> n <> 4 -> Z.testbit e n = true -> Z.testbit w n = true).
  { intros n N0 N3 N4 B. apply (f_equal (fun z => Z.testbit z n)) in D. rewrite Z.ldiff_spec, !Z.lor_spec, B, Z.bits_0 in D.
    change EPOLLERR with (2 ^ 3) in D. change EPOLLHUP with (2 ^ 4) in D. rewrite !Z.pow2_bits_eqb in D by lia.
    destruct (Z.eqb_spec 3 n); [lia|]. destruct (Z.eqb_spec 4 n); [lia|]. cbn in D. rewrite orb_false_r in D. destruct (Z.testbit w n); [reflexivity|discriminate]. }
  split; [|split; [|split; [|split]]].
  - rewrite <- X1, !hasb_in. apply SUB; lia.
  - rewrite <- X2, !hasb_out. apply SUB; lia.
  - unfold m. rewrite to_lt_read, !orb_true_iff. tauto.
  - unfold m. rewrite to_lt_write, !orb_true_iff. tauto.
  - apply to_lt_error.
Qed.
Print Assumptions C67_what_is_delivered_partial.

(** ** C68: an event reaches the object it was reported for, in that object's loop. *)
Definition C68_statement : Prop := forall limit h s l s' vs o f m g, hist limit h s ->
  step limit s (ODispatch l) = Ok (s', vs) -> In (VInvoke l o m g) vs -> objs s o = Some f ->
  installed h o = Some l /\ f_gen f = g.

Definition h68a : log :=
  [(OOpen 5, []); (OOpen 6, []); (ONew 1%nat 5 1 true, []); (ONew 2%nat 6 1 true, []);
   (OInstall 1%nat 1%nat true, [VRet true]); (OInstall 1%nat 2%nat true, [VRet true]);
   (OPoll 1%nat [(6, EPOLLIN); (5, EPOLLIN)], []); (ODispatch 1%nat, [VInvoke 1%nat 2%nat 1 0%nat]);
   (ORemove 1%nat 1%nat, [VRet true]); (ODestroy 1%nat, []); (OOpen 5, []); (ONew 3%nat 5 1 true, [])].
Definition h68 : log := h68a ++ [(OInstall 2%nat 3%nat true, [VRet true])].

(** Running a concrete history. *)
Definition nx (s : st) (x : op) : st := match step 8 s x with Ok (s', _) => s' | _ => s end.
Definition obs (s : st) (x : op) : option (list ev) := match step 8 s x with Ok (_, vs) => Some vs | _ => None end.
Lemma nx_hist h s x vs : hist 8 h s -> possible s x -> legal s h x -> obs s x = Some vs -> hist 8 (h ++ [(x, vs)]) (nx s x).
Proof.
  intros H P L O. apply (hist_snoc 8 h s x _ vs H P L). unfold obs in O. unfold nx.
  destruct (step 8 s x) as [[s' v]| |]; congruence.
Qed.
Definition q1 := nx st0 (OOpen 5).
Definition q2 := nx q1 (OOpen 6).
Definition q3 := nx q2 (ONew 1%nat 5 1 true).
Definition q4 := nx q3 (ONew 2%nat 6 1 true).
Definition q5 := nx q4 (OInstall 1%nat 1%nat true).
Definition q6 := nx q5 (OInstall 1%nat 2%nat true).
Definition q7 := nx q6 (OPoll 1%nat [(6, EPOLLIN); (5, EPOLLIN)]).
Definition q8 := nx q7 (ODispatch 1%nat).
Definition q9 := nx q8 (ORemove 1%nat 1%nat).
Definition q10 := nx q9 (ODestroy 1%nat).
Definition q11 := nx q10 (OOpen 5).
Definition q12 := nx q11 (ONew 3%nat 5 1 true).
Definition q13 := nx q12 (OInstall 2%nat 3%nat true).
Lemma h68_ok : exists s, hist 8 h68 s /\ (exists s', step 8 s (ODispatch 1%nat) = Ok (s', [VInvoke 1%nat 3%nat 1 0%nat])) /\
  exists f, objs s 3%nat = Some f /\ f_gen f = 1%nat.
Proof.
  assert (D : forall o : nat, fd_of (firstn 9 h68a) o = Some 5 -> installed (firstn 9 h68a) o = None).
  { intros o Ho. vm_compute in Ho. destruct o as [|[|[|o]]]; try discriminate. reflexivity. }
  pose proof (hist_nil 8) as H.
  eapply (nx_hist _ _ (OOpen 5) _) in H; [|split; [lia|vm_compute; reflexivity]|exact Logic.I|vm_compute; reflexivity]. change (nx st0 (OOpen 5)) with q1 in H.
  eapply (nx_hist _ _ (OOpen 6) _) in H; [|split; [lia|vm_compute; reflexivity]|exact Logic.I|vm_compute; reflexivity]. fold q2 in H.
  eapply (nx_hist _ _ (ONew 1%nat 5 1 true) _) in H; [|split; vm_compute; reflexivity|exact Logic.I|vm_compute; reflexivity]. fold q3 in H.
  eapply (nx_hist _ _ (ONew 2%nat 6 1 true) _) in H; [|split; vm_compute; reflexivity|exact Logic.I|vm_compute; reflexivity]. fold q4 in H.
  eapply (nx_hist _ _ (OInstall 1%nat 1%nat true) _) in H; [|exact Logic.I|intros f E; vm_compute in E; injection E as <-; split; vm_compute; reflexivity|vm_compute; reflexivity]. fold q5 in H.
  eapply (nx_hist _ _ (OInstall 1%nat 2%nat true) _) in H; [|exact Logic.I|intros f E; vm_compute in E; injection E as <-; split; vm_compute; reflexivity|vm_compute; reflexivity]. fold q6 in H.
  eapply (nx_hist _ _ (OPoll 1%nat [(6, EPOLLIN); (5, EPOLLIN)]) _) in H; [|split; [vm_compute; reflexivity|]; split; [constructor; [intros [X|[]]; discriminate|constructor; [intros []|constructor]]|]; constructor; [|constructor; [|constructor]]; eexists; (split; [vm_compute; reflexivity|split; [vm_compute; reflexivity|discriminate]])|exact Logic.I|vm_compute; reflexivity]. fold q7 in H.
  eapply (nx_hist _ _ (ODispatch 1%nat) _) in H; [|exact Logic.I|exact Logic.I|vm_compute; reflexivity]. fold q8 in H.
  eapply (nx_hist _ _ (ORemove 1%nat 1%nat) _) in H; [|exact Logic.I|exact Logic.I|vm_compute; reflexivity]. fold q9 in H.
  eapply (nx_hist _ _ (ODestroy 1%nat) _) in H; [|exact Logic.I|split; [vm_compute; reflexivity|]; intros f E _; vm_compute in E; injection E as <-; split; [vm_compute; reflexivity|exact D]|vm_compute; reflexivity]. fold q10 in H.
  eapply (nx_hist _ _ (OOpen 5) _) in H; [|split; [lia|vm_compute; reflexivity]|exact Logic.I|vm_compute; reflexivity]. fold q11 in H.
  eapply (nx_hist _ _ (ONew 3%nat 5 1 true) _) in H; [|split; vm_compute; reflexivity|exact Logic.I|vm_compute; reflexivity]. fold q12 in H.
  eapply (nx_hist _ _ (OInstall 2%nat 3%nat true) _) in H; [|exact Logic.I|intros f E; vm_compute in E; injection E as <-; split; vm_compute; reflexivity|vm_compute; reflexivity]. fold q13 in H.
  cbn [app] in H. exists q13. split; [exact H|]. split.
  - exists (nx q13 (ODispatch 1%nat)).
    assert (E : obs q13 (ODispatch 1%nat) = Some [VInvoke 1%nat 3%nat 1 0%nat]) by (vm_compute; reflexivity).
    unfold obs in E. unfold nx. destruct (step 8 q13 (ODispatch 1%nat)) as [[s' v]| |]; congruence.
  - eexists. split; vm_compute; reflexivity.
Qed.

(** A handler earlier in the batch closes descriptor 5; the number is reused by a connection of another loop: the stale
    event is delivered to the new object, in the wrong thread. *)
Theorem C68_statement_refuted : ~ C68_statement.
Proof.
  intro S. destruct h68_ok as (s & H & (s' & E) & f & F & G).
  destruct (S 8 h68 s 1%nat s' _ 3%nat f 1 0%nat H E (or_introl eq_refl) F) as [X _]. vm_compute in X. discriminate.
Qed.
Print Assumptions C68_statement_refuted.

(** It is the right object as long as the descriptor was not closed since the report. *)
Theorem C68_same_descriptor_partial : forall limit h s l s' o f fd m g r vs, hist limit h s -> fired s l = (fd, m, g) :: r ->
  step limit s (ODispatch l) = Ok (s', vs) -> In (VInvoke l o m g) vs -> objs s o = Some f ->
  gen s fd = g -> f_gen f = g /\ f_fd f = fd.
Proof.
  intros limit h s l s' o f fd m g r vs H F E Hv Hf G. destruct (dispatch_cases limit h s l H) as (s1 & vs1 & E1 & C).
  rewrite E in E1. inv E1. rewrite F in C. apply hist_inv in H as I.
  destruct C as (_ & [(o' & f' & w & -> & C2 & C3 & C4 & _)|[[-> _]|[-> _]]]); destruct Hv as [Hv|[]]; inv Hv.
  assert (f' = f) by congruence. subst f'. destruct (i_watch _ _ _ I o f w Hf C4) as (_ & _ & X). split; congruence.
Qed.
Print Assumptions C68_same_descriptor_partial.

(** The hypotheses of C65 and C66 on a run with two live objects. *)
Example C65_example : exists h1 h2 s, hist 8 (h1 ++ (OPoll 1%nat [(6, EPOLLIN); (5, EPOLLIN)], []) :: h2) s /\
  installed h1 2 = Some 1%nat /\ fd_of h1 2 = Some 6 /\ Forall accepted h1 /\ Forall (fun e => ~ polls 1 e) h2 /\ Forall (fun e => ~ removes 2 e) h2 /\
  handled (h1 ++ (OPoll 1%nat [(6, EPOLLIN); (5, EPOLLIN)], []) :: h2) 1 h2 = [Some 6].
Proof.
  destruct h68_ok as (s & H & _). exists (firstn 6 h68), (skipn 7 h68), s. split; [exact H|].
  split; [reflexivity|]. split; [reflexivity|]. split; [repeat constructor|].
  split; [|split; [|reflexivity]]; unfold h68, h68a; cbn [app skipn]; repeat constructor; intros [x X]; discriminate.
Qed.
