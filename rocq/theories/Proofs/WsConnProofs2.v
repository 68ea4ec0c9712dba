From Verif.Model Require Import Common Bytes Websocket WsConn.
From Verif.Spec Require Import WsSpec WsConnSpec.
From Verif.Proofs Require Import Tac WsConnProofs.
From Verif.Proofs Require WsBuildProofs.
Open Scope Z_scope.

Lemma run_cons server registered s o os s' e : ws_run server registered s (o :: os) = Ok (s', e) ->
  exists s1 e1 e2, ws_step server registered s o = Ok (s1, e1) /\ ws_run server registered s1 os = Ok (s', e2) /\ e = e1 ++ e2.
Proof.
  cbn [ws_run]. destruct (ws_step server registered s o) as [[s1 e1]| |]; try discriminate. cbn.
  destruct (ws_run server registered s1 os) as [[s2 e2]| |] eqn:E; try discriminate. cbn. intro H. inv H. eauto 8.
Qed.
Lemma run_app server registered os1 : forall os2 s s' e, ws_run server registered s (os1 ++ os2) = Ok (s', e) <->
  exists s1 e1 e2, ws_run server registered s os1 = Ok (s1, e1) /\ ws_run server registered s1 os2 = Ok (s', e2) /\ e = e1 ++ e2.
Proof.
  induction os1 as [|o os1 IH]; intros os2 s s' e; cbn [app].
  - split.
    + intro H. exists s, [], e. auto.
    + intros (s1 & e1 & e2 & A & B & C). inv A. auto.
  - split.
    + intro H. apply run_cons in H. destruct H as (s1 & e1 & e2 & A & B & ->). apply IH in B.
      destruct B as (s2 & e3 & e4 & B1 & B2 & ->). exists s2, (e1 ++ e3), e4. cbn [ws_run]. rewrite A. cbn. rewrite B1. cbn.
      repeat split; auto. now rewrite app_assoc.
    + intros (s1 & e1 & e2 & A & B & ->). apply run_cons in A. destruct A as (s2 & e3 & e4 & A1 & A2 & ->).
      cbn [ws_run]. rewrite A1. cbn. assert (Q : ws_run server registered s2 (os1 ++ os2) = Ok (s', e4 ++ e2)) by (apply IH; eauto 8).
      rewrite Q. cbn. now rewrite app_assoc.
Qed.
Lemma conn_run server registered topic nonce os s tr : ws_conn server registered topic nonce os = Ok (s, tr) ->
  exists e, ws_run server registered (ws_start server topic) os = Ok (s, e) /\ tr = start_events server topic nonce ++ e.
Proof.
  unfold ws_conn. destruct (ws_run server registered (ws_start server topic) os) as [[s1 e]| |]; try discriminate. cbn. intro H. inv H. eauto.
Qed.
Lemma in_start_open server topic nonce p : ~ In (VOpen p) (start_events server topic nonce).
Proof. unfold start_events. destruct server; cbn; intuition congruence. Qed.

(** A step, seen from its parts. *)
Lemma step_cases server registered s o s' e : ws_step server registered s o = Ok (s', e) ->
  (exists opc pl fl, o = OSend opc pl fl) \/
  (exists ok a l ms err, o = OEvent ok a l ms err /\ k_reg s = false /\ s' = s /\ e = []) \/
  (exists ok a l ms err s1 e1, o = OEvent ok a l ms err /\ k_reg s = true /\
     (l = [] /\ s1 = s /\ e1 = [] \/
      l <> [] /\ k_hs s <> HsOk /\ on_handshake server registered s ms err = (s1, e1) \/
      l <> [] /\ k_hs s = HsOk /\ exists q es s2, ws_execute (k_wsp s) a l = Ok (q, es) /\
        on_frames server registered s es = (s2, e1) /\ s1 = mkws (k_hs s2) (k_st s2) (k_reg s2) q (k_cur s2) (k_path s2)) /\
     (ok = true /\ s' = s1 /\ e = e1 \/
      ok = false /\ s' = fst (close_service server registered s1 false) /\ e = e1 ++ notify_closed server registered s1)).
Proof.
  intro H. destruct o as [ok a l ms err|opc pl fl]; [right|left; eauto]. cbn [ws_step] in H.
  destruct (k_reg s) eqn:R; [right|left; inv H; eauto 12].
  assert (Q : exists s1 e1, (match l with [] => Ok (s, []) | _ => on_data server registered s a l ms err end) = Ok (s1, e1) /\
     (if ok then Ok (s1, e1) else let '(s2, e2) := close_service server registered s1 false in Ok (s2, e1 ++ e2)) = Ok (s', e)).
  { destruct (match l with [] => Ok (s, []) | _ => on_data server registered s a l ms err end) as [[s1 e1]| |]; try discriminate. eauto. }
  destruct Q as (s1 & e1 & Q1 & Q2). exists ok, a, l, ms, err, s1, e1. repeat split.
  - destruct l as [|l0 l]; [left; inv Q1; auto|right]. unfold on_data in Q1. destruct (k_hs s) eqn:Hs.
    + left. inv Q1. repeat split; congruence.
    + right. destruct (ws_execute (k_wsp s) a (l0 :: l)) as [[q es]| |]; try discriminate. cbn in Q1.
      destruct (on_frames server registered s es) as [s2 e2] eqn:F. inv Q1. repeat split; try congruence. exists q, es, s2. auto.
    + left. inv Q1. repeat split; congruence.
  - destruct ok; cbn in Q2; inv Q2; auto.
Qed.

(** *** C170: opening *)
Lemma commits_last ms : forall s, let '(s', e) := commits s ms in
  (ms = [] /\ s' = s) \/
  exists pre m, ms = pre ++ [m] /\
    match m with
    | HReq path up key cu sent => k_hs s' = HsOk -> up = s_websocket /\ sent = true /\ k_path s' = path
    | HRes acc up => k_hs s' = HsOk -> up = true /\ acc <> []
    end.
Proof.
  induction ms as [|m ms IH]; intro s; cbn [commits]; [left; auto|].
  destruct (commit s m) as [s1 e1] eqn:E. specialize (IH s1). destruct (commits s1 ms) as [s2 e2]. right.
  destruct IH as [[-> ->]|(pre & m' & -> & H)].
  - exists [], m. split; [auto|]. destruct m; cbn in E.
    + unfold bytes_eqb in E. destruct list_eq_dec; inv E; cbn; [|discriminate].
      destruct sent; [auto|discriminate].
    + inv E. cbn. destruct upgrade; rewrite ?andb_true_r, ?andb_false_r; [|discriminate].
      destruct accept; cbn; [discriminate|]. intros _. split; congruence.
  - exists (m :: pre), m'. auto.
Qed.
Lemma commits_events ms : forall s x, In x (snd (commits s ms)) -> exists k, x = VSent (I101 k).
Proof.
  induction ms as [|m ms IH]; intros s x H; cbn [commits] in H; [destruct H|].
  destruct (commit s m) as [s1 e1] eqn:E. specialize (IH s1). destruct (commits s1 ms) as [s2 e2]. cbn in *.
  apply in_app_iff in H. destruct H as [H|H]; [|auto]. destruct m; cbn in E; [destruct bytes_eqb|]; inv E; try destruct H.
  destruct sent; cbn in H; [destruct H as [H|[]]; eauto|destruct H].
Qed.
Lemma handshake_open server registered s ms err s' e p : on_handshake server registered s ms err = (s', e) -> k_hs s <> HsOk ->
  In (VOpen p) e ->
  err = false /\ exists pre m, ms = pre ++ [m] /\
    match m with
    | HReq path up key cu sent => up = s_websocket /\ sent = true /\ path = p
    | HRes acc up => up = true /\ acc <> []
    end.
Proof.
  unfold on_handshake. intros H Hs Hin. pose proof (commits_last ms s) as C. pose proof (commits_events ms s) as CE.
  destruct (commits s ms) as [s1 e1]. cbn in CE.
  assert (R : forall s2 e2, refuse server registered s1 = (s2, e2) -> ~ In (VOpen p) (e1 ++ e2)).
  { unfold refuse. cbn. intros s2 e2 R. inv R. rewrite in_app_iff. intros [X|X].
    - apply CE in X. destruct X. discriminate.
    - apply in_app_iff in X. unfold notify_closed in X. destruct X as [X|X]; [destruct server|destruct listening]; cbn in X; intuition discriminate. }
  destruct err. { destruct (refuse server registered s1) as [s2 e2] eqn:E. inv H. exfalso. eapply R; eauto. }
  split; [auto|]. destruct (k_hs s1) eqn:Hs1.
  - inv H. rewrite app_nil_r in Hin. apply CE in Hin. destruct Hin. discriminate.
  - destruct C as [[-> ->]|(pre & m & -> & C)]; [congruence|]. exists pre, m. split; [auto|].
    destruct m; [|now apply C]. destruct (C eq_refl) as (C1 & C2 & C3). repeat split; auto.
    unfold notify_ready in H. cbn in H. destruct listening; cbn in H; inv H; apply in_app_iff in Hin; destruct Hin as [X|X];
      try (apply CE in X; destruct X; discriminate).
    + destruct X as [X|[]]. inv X. congruence.
    + unfold notify_closed in X. destruct listening; cbn in X; intuition discriminate.
  - destruct (refuse server registered s1) as [s2 e2] eqn:E. inv H. exfalso. eapply R; eauto.
Qed.
Lemma frames_no_open server registered s es s' e p : on_frames server registered s es = (s', e) -> ~ In (VOpen p) e.
Proof.
  rewrite on_frames_codec. cbn zeta. generalize (set_cur s (wcur (fold_left codec_ev es {| wcur := k_cur s; wacts := [] |}))).
  generalize (wacts (fold_left codec_ev es {| wcur := k_cur s; wacts := [] |})). intro acts. revert s' e.
  induction acts as [|a acts IH]; intros s' e s0 H; cbn [do_acts] in H; [inv H; auto|].
  destruct (do_act server registered s0 a) as [s1 e1] eqn:E1. destruct (do_acts server registered s1 acts) as [s2 e2] eqn:E2. inv H.
  rewrite in_app_iff. intros [X|X]; [|eapply IH; eauto]. destruct a; cbn in E1; inv E1; unfold notify_closed in *;
    repeat match goal with H : context [if ?b then _ else _] |- _ => destruct b end; cbn in X; intuition discriminate.
Qed.
Lemma step_open server registered s o s' e p : ws_step server registered s o = Ok (s', e) -> In (VOpen p) e ->
  exists ok a l ms pre m, o = OEvent ok a l ms false /\ ms = pre ++ [m] /\
    match m with
    | HReq path up key cu sent => up = s_websocket /\ sent = true /\ path = p
    | HRes acc up => up = true /\ acc <> []
    end.
Proof.
  intros H Hin. destruct (step_cases _ _ _ _ _ _ H) as [(opc & pl & fl & ->)|[(ok & a & l & ms & err & -> & _ & _ & ->)|
    (ok & a & l & ms & err & s1 & e1 & -> & R & D & F)]].
  - exfalso. cbn in H. destruct server; [inv H; cbn in Hin; intuition discriminate|].
    destruct (k_st s); [inv H|destruct fl; inv H|inv H]; cbn in Hin; intuition discriminate.
  - destruct Hin.
  - assert (I1 : In (VOpen p) e1).
    { destruct F as [(_ & _ & ->)|(_ & _ & ->)]; [auto|]. apply in_app_iff in Hin. destruct Hin as [X|X]; [auto|].
      unfold notify_closed in X. destruct listening; cbn in X; intuition discriminate. }
    destruct D as [(_ & _ & ->)|[(_ & Hs & D)|(_ & Hs & q & es & s2 & _ & D & _)]].
    + destruct I1.
    + destruct (handshake_open _ _ _ _ _ _ _ _ D Hs I1) as (-> & pre & m & -> & M). exists ok, a, l, (pre ++ [m]), pre, m. auto.
    + exfalso. eapply frames_no_open; eauto.
Qed.
Lemma run_open server registered p os : forall s s' e, ws_run server registered s os = Ok (s', e) -> In (VOpen p) e ->
  exists ok a l ms pre m, In (OEvent ok a l ms false) os /\ ms = pre ++ [m] /\
    match m with
    | HReq path up key cu sent => up = s_websocket /\ sent = true /\ path = p
    | HRes acc up => up = true /\ acc <> []
    end.
Proof.
  induction os as [|o os IH]; intros s s' e H Hin; [inv H; destruct Hin|].
  apply run_cons in H. destruct H as (s1 & e1 & e2 & A & B & ->). apply in_app_iff in Hin. destruct Hin as [Hin|Hin].
  - destruct (step_open _ _ _ _ _ _ _ A Hin) as (ok & a & l & ms & pre & m & -> & C). exists ok, a, l, ms, pre, m. split; [now left|auto].
  - destruct (IH _ _ _ B Hin) as (ok & a & l & ms & pre & m & D & C). exists ok, a, l, ms, pre, m. split; [now right|auto].
Qed.
Lemma opened_by server registered topic nonce os s tr p : ws_conn server registered topic nonce os = Ok (s, tr) -> In (VOpen p) tr ->
  Forall (side_ok server) os ->
  exists ok a l ms, In (OEvent ok a l ms false) os /\
    if server then exists key cu, In (HReq p s_websocket key cu true) ms
    else exists acc, acc <> [] /\ In (HRes acc true) ms.
Proof.
  intros H Hin So. apply conn_run in H. destruct H as (e & H & ->). apply in_app_iff in Hin.
  destruct Hin as [X|Hin]; [exfalso; eapply in_start_open; eauto|].
  destruct (run_open _ _ _ _ _ _ _ H Hin) as (ok & a & l & ms & pre & m & A & -> & M). exists ok, a, l, (pre ++ [m]). split; [auto|].
  rewrite Forall_forall in So. specialize (So _ A). cbn in So. apply Forall_app in So. destruct So as [_ So]. inv So.
  destruct m; subst.
  - destruct M as (-> & -> & ->). exists key, connection_upgrade. apply in_app_iff. right. now left.
  - destruct M as (-> & M). exists accept. split; [auto|]. apply in_app_iff. right. now left.
Qed.
Lemma llhttp_opened server registered topic nonce os s tr p : ws_conn server registered topic nonce os = Ok (s, tr) -> In (VOpen p) tr ->
  Forall (side_ok server) os -> Forall llhttp_says os ->
  server = true /\ exists ok a l ms key, In (OEvent ok a l ms false) os /\ In (HReq p s_websocket key false true) ms.
Proof.
  intros H Hin So Ll. apply conn_run in H. destruct H as (e & H & ->). apply in_app_iff in Hin.
  destruct Hin as [X|Hin]; [exfalso; eapply in_start_open; eauto|].
  destruct (run_open _ _ _ _ _ _ _ H Hin) as (ok & a & l & ms & pre & m & A & -> & M).
  rewrite Forall_forall in So, Ll. specialize (So _ A). specialize (Ll _ A). cbn in So, Ll.
  assert (W : switches m = false).
  { destruct (switches m) eqn:W; [|auto]. destruct (Ll pre m [] eq_refl W). discriminate. }
  apply Forall_app in So. destruct So as [_ So]. inv So. destruct m; cbn in W.
  - destruct M as (-> & -> & ->). cbn in W. rewrite andb_true_r in W. subst. split; [auto|].
    exists ok, a, l, (pre ++ [HReq p s_websocket key false true]), key. split; [auto|]. apply in_app_iff. right. now left.
  - destruct M. congruence.
Qed.

(** *** C171: how often closing is reported *)
Definition ncl := how_many is_close.
Definition ncf := how_many is_close_frame.
Lemma hm_app f a b : how_many f (a ++ b) = (how_many f a + how_many f b)%nat.
Proof. unfold how_many. rewrite filter_app, app_length. lia. Qed.
Lemma frames_close_count server registered s es s' e : on_frames server registered s es = (s', e) -> (ncl e <= ncf e)%nat.
Proof.
  rewrite on_frames_codec. cbn zeta. generalize (set_cur s (wcur (fold_left codec_ev es {| wcur := k_cur s; wacts := [] |}))).
  generalize (wacts (fold_left codec_ev es {| wcur := k_cur s; wacts := [] |})). intro acts. revert s' e.
  induction acts as [|a acts IH]; intros s' e s0 H; cbn [do_acts] in H; [inv H; cbn; lia|].
  destruct (do_act server registered s0 a) as [s1 e1] eqn:E1. destruct (do_acts server registered s1 acts) as [s2 e2] eqn:E2. inv H.
  apply IH in E2. unfold ncl, ncf in *. rewrite !hm_app.
  assert (how_many is_close e1 <= how_many is_close_frame e1)%nat; [|lia].
  destruct a; cbn in E1; inv E1; unfold notify_closed; repeat match goal with |- context [if ?b then _ else _] => destruct b end; cbn; lia.
Qed.
Lemma commits_noclose ms s : ncl (snd (commits s ms)) = 0%nat.
Proof.
  pose proof (commits_events ms s) as C. destruct (commits s ms) as [s1 e1]. cbn in *. unfold ncl, how_many.
  induction e1 as [|x e1 IH]; [auto|]. destruct (C x) as [k ->]; [now left|]. cbn. apply IH. intros; apply C. now right.
Qed.
Lemma handshake_close_count server registered s ms err s' e : on_handshake server registered s ms err = (s', e) ->
  (ncl e <= 1)%nat /\ (k_reg s = true -> (ncl e = 0%nat) \/ k_reg s' = false).
Proof.
  unfold on_handshake. pose proof (commits_noclose ms s) as C. destruct (commits s ms) as [s1 e1]. cbn [snd] in C.
  assert (R : forall s2 e2, refuse server registered s1 = (s2, e2) -> (ncl (e1 ++ e2) <= 1)%nat /\ k_reg s2 = false).
  { unfold refuse. cbn. intros s2 e2 R. inv R. unfold ncl in *. rewrite !hm_app, C. unfold notify_closed.
    destruct server, listening; cbn; auto. }
  destruct err; [|destruct (k_hs s1)].
  - destruct (refuse server registered s1) as [s2 e2] eqn:E. intro H. inv H. destruct (R _ _ eq_refl). auto.
  - intro H. inv H. rewrite app_nil_r. unfold ncl in *. rewrite C. auto.
  - unfold notify_ready. cbn. destruct listening; cbn; intro H; inv H; unfold ncl in *; rewrite hm_app, C; unfold notify_closed; cbn; auto.
    destruct listening; cbn; auto.
  - destruct (refuse server registered s1) as [s2 e2] eqn:E. intro H. inv H. destruct (R _ _ eq_refl). auto.
Qed.
Lemma silent_noclose e : silent e -> ncl e = 0%nat.
Proof. induction e as [|x e IH]; intro H; [auto|]. unfold silent in H. cbn in H. b2p. destruct x; cbn in *; try discriminate; apply IH; auto. Qed.
Lemma run_close_count server registered os : forall s a s' e, Inv server registered s a -> no_failure os ->
  ws_run server registered s os = Ok (s', e) -> (ncl e <= Nat.max 1 (ncf e))%nat.
Proof.
  induction os as [|o os IH]; intros s a s' e I N H; [inv H; cbn; lia|].
  apply run_cons in H. destruct H as (s1 & e1 & e2 & A & B & ->). unfold no_failure in N. cbn in N. b2p.
  destruct (step_inv _ _ _ _ _ _ _ I A) as (b & B1 & B2). specialize (IH _ _ _ _ B2 H0 B).
  destruct (k_reg s1) eqn:R1.
  - assert (ncl e1 = 0%nat).
    { destruct (Nat.eq_dec (ncl e1) 0) as [|X]; [auto|]. exfalso.
      assert (exists p, In (VClose p) e1) as [p Hp].
      { clear - X. induction e1 as [|x e1 IH]; [cbn in X; lia|].
        destruct x as [i|t|t o d|t|]; [|  | |exists t; now left|]; (destruct IH as [p P]; [cbn in X; auto|exists p; now right]). }
      destruct (scan_closed _ _ _ _ B1 Hp) as [->|[q ->]]; destruct B2 as (_ & B2); [congruence|]. destruct B2 as (_ & _ & _ & _ & B2). specialize (B2 eq_refl). congruence. }
    unfold ncl, ncf in *. rewrite !hm_app. lia.
  - assert (ncl e2 = 0%nat) by (apply silent_noclose; eapply dead_run; eauto; apply B2).
    assert (ncl e1 <= Nat.max 1 (ncf e1))%nat; [|unfold ncl, ncf in *; rewrite !hm_app; lia].
    destruct (step_cases _ _ _ _ _ _ A) as [(opc & pl & fl & ->)|[(ok & ad & l & ms & err & -> & _ & _ & ->)|
      (ok & ad & l & ms & err & s2 & e3 & -> & R & D & F)]].
    + cbn in A. destruct server; [inv A; cbn; lia|]. destruct (k_st s); [inv A|destruct fl; inv A|inv A]; cbn; lia.
    + cbn; lia.
    + destruct F as [(_ & _ & ->)|(-> & _)]; [|discriminate].
      destruct D as [(_ & _ & ->)|[(_ & Hs & D)|(_ & Hs & q & es & s3 & _ & D & _)]].
      * cbn; lia.
      * apply handshake_close_count in D. lia.
      * apply frames_close_count in D. lia.
Qed.
Lemma close_count server registered topic nonce os s tr : ws_conn server registered topic nonce os = Ok (s, tr) -> no_failure os ->
  (how_many is_close tr <= Nat.max 1 (how_many is_close_frame tr))%nat.
Proof.
  intros H N. apply conn_run in H. destruct H as (e & H & ->).
  pose proof (run_close_count _ _ _ _ _ _ _ (start_inv server registered topic) N H) as C. unfold ncl, ncf in C. rewrite !hm_app.
  unfold start_events, how_many in *. destruct server; cbn in *; lia.
Qed.

(** Closing is always reported. *)
Definition told (tr : list wev) : Prop := In VBroken tr \/ exists p, In (VClose p) tr.
Lemma told_app a b : told (a ++ b) <-> told a \/ told b.
Proof. unfold told. rewrite in_app_iff. setoid_rewrite in_app_iff. firstorder. Qed.
Lemma notify_told server registered s : listening server registered s = true -> told (notify_closed server registered s).
Proof. unfold notify_closed. intros ->. right. eexists. now left. Qed.
Lemma acts_told server registered acts : forall s s' e, do_acts server registered s acts = (s', e) ->
  k_path s' = k_path s /\ (k_reg s = true -> k_reg s' = false -> listening server registered s = true -> told e).
Proof.
  induction acts as [|a acts IH]; intros s s' e H; cbn [do_acts] in H; [inv H; split; congruence|].
  destruct (do_act server registered s a) as [s1 e1] eqn:E1. destruct (do_acts server registered s1 acts) as [s2 e2] eqn:E2. inv H.
  destruct (IH _ _ _ E2) as [P T]. rewrite told_app. destruct a; cbn in E1; inv E1; cbn in P; split; auto.
  - intros. left. assert (listening server registered (mkws (k_hs s) Closed false (k_wsp s) (k_cur s) (k_path s)) = true) as L by (unfold listening in *; auto).
    apply notify_told in L. destruct L as [L|[p L]]; [left; now right|right; exists p; now right].
Qed.
Lemma step_told server registered s a o s' e : Inv server registered s a -> ws_step server registered s o = Ok (s', e) ->
  k_reg s = true -> k_reg s' = false -> listening server registered s' = true -> told e.
Proof.
  intros I H R R' L. destruct (step_cases _ _ _ _ _ _ H) as [(opc & pl & fl & ->)|[(ok & ad & l & ms & err & -> & R2 & _)|
    (ok & ad & l & ms & err & s1 & e1 & -> & _ & D & F)]].
  - cbn in H. destruct server; [inv H; congruence|]. destruct (k_st s); [inv H|destruct fl; inv H|inv H]; try congruence.
    left. right. now left.
  - congruence.
  - assert (Q : k_reg s1 = false -> listening server registered s1 = true -> told e1).
    { destruct D as [(_ & -> & ->)|[(_ & Hs & D)|(_ & Hs & q & es & s3 & _ & D & ->)]].
      - congruence.
      - unfold on_handshake in D. pose proof (commits_facts ms s) as C. destruct (commits s ms) as [s2 e2]. destruct C as (_ & C & _).
        assert (RF : forall s4 e4, refuse server registered s2 = (s4, e4) -> listening server registered s4 = true -> told (e2 ++ e4)).
        { unfold refuse. cbn. intros s4 e4 X. inv X. intro Y. rewrite !told_app. right. right. apply notify_told. exact Y. }
        intros X Y. destruct err; [|destruct (k_hs s2)].
        + destruct (refuse server registered s2) as [s4 e4]. inv D. eapply RF; eauto.
        + inv D. congruence.
        + unfold notify_ready in D. cbn in D. match type of D with context [if ?b then _ else _] => destruct b eqn:Z end; cbn in D; inv D.
          * cbn in X. congruence.
          * exfalso. unfold listening in *. cbn in *. congruence.
        + destruct (refuse server registered s2) as [s4 e4]. inv D. eapply RF; eauto.
      - rewrite on_frames_codec in D. cbn zeta in D. apply acts_told in D. destruct D as [D1 D2]. cbn. intros X Y. apply D2; auto.
        unfold listening in *. cbn in *. now rewrite <- D1. }
    destruct F as [(-> & -> & ->)|(-> & -> & ->)]; [auto|]. rewrite told_app. right. apply notify_told. exact L.
Qed.
Lemma dead_same server registered os : forall s s' e, k_reg s = false -> (k_reg s = false <-> k_st s = Closed) ->
  ws_run server registered s os = Ok (s', e) -> s' = s.
Proof.
  induction os as [|o os IH]; intros s s' e R I H; [inv H; auto|].
  apply run_cons in H. destruct H as (s1 & e1 & e2 & A & B & ->). destruct (dead_step _ _ _ _ _ _ R I A) as [_ ->]. eauto.
Qed.
Lemma run_told server registered os : forall s a s' e, Inv server registered s a -> ws_run server registered s os = Ok (s', e) ->
  k_reg s = true -> k_reg s' = false -> listening server registered s' = true -> told e.
Proof.
  induction os as [|o os IH]; intros s a s' e I H R R' L; [inv H; congruence|].
  apply run_cons in H. destruct H as (s1 & e1 & e2 & A & B & ->). rewrite told_app.
  destruct (step_inv _ _ _ _ _ _ _ I A) as (b & B1 & B2). destruct (k_reg s1) eqn:R1; [right; eapply (IH s1 b s' e2); eauto|left].
  assert (s' = s1) by (eapply dead_same; eauto; apply B2). subst s'. apply (step_told server registered s a o s1 e1); auto.
Qed.
Lemma closed_told server registered topic nonce os s tr : ws_conn server registered topic nonce os = Ok (s, tr) -> k_st s = Closed ->
  (server = true -> registered (k_path s) = true) -> In VBroken tr \/ exists p, In (VClose p) tr.
Proof.
  intros H C L. destruct (conn_inv _ _ _ _ _ _ _ H) as (b & _ & (I1 & _)). apply conn_run in H. destruct H as (e & H & ->).
  apply told_app. right. eapply run_told; [apply start_inv|exact H|reflexivity|now apply I1|].
  unfold listening. destruct server; cbn; auto.
Qed.
