From Verif.Model Require Import Common Bytes Websocket WsConn.
From Verif.Spec Require Import WsSpec WsConnSpec.
From Verif.Proofs Require Import Tac.
From Verif.Proofs Require WsBuildProofs.
Open Scope Z_scope.

Inductive ph := PNone | POpen (p : list Z) (closed : bool) | PDead.
Definition scan1 (a : ph) (e : wev) : option ph :=
  match e, a with
  | VSent _, _ | VBroken, _ => Some a
  | VOpen p, PNone => Some (POpen p false)
  | VOpen _, _ => None
  | VMsg p _ _, POpen q _ => if list_eq_dec Z.eq_dec p q then Some a else None
  | VMsg _ _ _, _ => None
  | VClose p, PNone => Some PDead
  | VClose p, POpen q _ => if list_eq_dec Z.eq_dec p q then Some (POpen q true) else None
  | VClose _, PDead => Some PDead
  end.
Fixpoint scan (a : ph) (tr : list wev) : option ph :=
  match tr with [] => Some a | e :: tr => match scan1 a e with Some b => scan b tr | None => None end end.
Lemma scan_app tr1 tr2 : forall a, scan a (tr1 ++ tr2) = match scan a tr1 with Some b => scan b tr2 | None => None end.
Proof. induction tr1 as [|e tr1 IH]; intro a; cbn; [auto|]. destruct (scan1 a e); auto. Qed.

Section P.
Variable server : bool.
Variable registered : list Z -> bool.
Notation listening := (listening server registered).
Notation close_service := (close_service server registered).
Notation do_act := (do_act server registered).
Notation do_acts := (do_acts server registered).
Notation on_frames := (on_frames server registered).
Notation on_handshake := (on_handshake server registered).
Notation ws_step := (ws_step server registered).
Notation ws_run := (ws_run server registered).

Definition silent (e : list wev) : Prop := forallb (fun x => negb (is_callback x)) e = true.
Lemma silent_app a b : silent (a ++ b) <-> silent a /\ silent b.
Proof. unfold silent. rewrite forallb_app, andb_true_iff. tauto. Qed.
Lemma silent_scan e : forall a, silent e -> scan a e = Some a.
Proof.
  induction e as [|x e IH]; intros a H; [auto|]. unfold silent in H. cbn in H. b2p.
  destruct x; cbn in *; try discriminate; apply IH; auto.
Qed.

(** *** frames *)
Lemma do_acts_facts acts : forall s, let '(s', e) := do_acts s acts in
  k_hs s' = k_hs s /\ k_path s' = k_path s /\ k_cur s' = k_cur s /\ k_wsp s' = k_wsp s /\
  (k_reg s' = k_reg s /\ k_st s' = k_st s \/ k_reg s' = false /\ k_st s' = Closed) /\
  (listening s = true -> forall c, (c = true -> k_reg s = false) ->
     exists c', scan (POpen (k_path s) c) e = Some (POpen (k_path s) c') /\ (c' = true -> k_reg s' = false)).
Proof.
  induction acts as [|a acts IH]; intro s; cbn.
  - repeat split; auto. intros. exists c. auto.
  - destruct (do_act s a) as [s1 e1] eqn:E1. specialize (IH s1).
    destruct (do_acts s1 acts) as [s2 e2] eqn:E2. destruct IH as (A & B & C & D & E & F).
    assert (G : k_hs s1 = k_hs s /\ k_path s1 = k_path s /\ k_cur s1 = k_cur s /\ k_wsp s1 = k_wsp s /\
      (k_reg s1 = k_reg s /\ k_st s1 = k_st s \/ k_reg s1 = false /\ k_st s1 = Closed) /\
      (listening s = true -> forall c, (c = true -> k_reg s = false) ->
         exists c', scan (POpen (k_path s) c) e1 = Some (POpen (k_path s) c') /\ (c' = true -> k_reg s1 = false))).
    { destruct a; cbn in E1.
      - inv E1. repeat split; auto.
        intros H c Hc. rewrite H. cbn. destruct list_eq_dec; [|congruence]. eauto.
      - inv E1. repeat split; auto. intros. cbn. eauto.
      - inv E1. cbn. repeat split; auto. intros H c Hc.
        unfold notify_closed, WsConn.listening in *. cbn. rewrite H. cbn. destruct list_eq_dec; [|congruence]. eauto. }
    destruct G as (A' & B' & C' & D' & E' & F').
    assert (L : listening s1 = listening s) by (unfold WsConn.listening; now rewrite B').
    repeat split; try congruence.
    + destruct E as [(X & Y)|X]; [|now right]. destruct E' as [(X' & Y')|(X' & Y')].
      * left. split; congruence.
      * right. split; congruence.
    + intros H c Hc. destruct (F' H c Hc) as (c1 & G1 & G2). rewrite scan_app, G1. rewrite <- B'.
      apply F; auto. congruence.
Qed.

Definition set_cur (s : ws) (c : option (Z * list Z)) : ws := mkws (k_hs s) (k_st s) (k_reg s) (k_wsp s) c (k_path s).
Lemma do_acts_cur acts : forall s c, do_acts (set_cur s c) acts = (set_cur (fst (do_acts s acts)) c, snd (do_acts s acts)).
Proof.
  induction acts as [|a acts IH]; intros s c; cbn [WsConn.do_acts]; [reflexivity|].
  assert (A : do_act (set_cur s c) a = (set_cur (fst (do_act s a)) c, snd (do_act s a))) by (destruct a; reflexivity).
  rewrite A. destruct (do_act s a) as [s1 e1]. cbn [fst snd]. rewrite IH. destruct (do_acts s1 acts). reflexivity.
Qed.
Lemma do_acts_app a b : forall s, do_acts s (a ++ b) =
  let '(s1, e1) := do_acts s a in let '(s2, e2) := do_acts s1 b in (s2, e1 ++ e2).
Proof.
  induction a as [|x a IH]; intro s; cbn [WsConn.do_acts app].
  - now destruct (do_acts s b).
  - destruct (do_act s x) as [s1 e1]. rewrite IH. destruct (do_acts s1 a) as [s2 e2]. destruct (do_acts s2 b) as [s3 e3].
    now rewrite app_assoc.
Qed.

Lemma codec_acts e c acts : codec_ev (mkcodec c acts) e =
  mkcodec (wcur (codec_ev (mkcodec c []) e)) (acts ++ wacts (codec_ev (mkcodec c []) e)).
Proof.
  destruct e; cbn.
  - unfold codec_header. cbn. destruct c as [[op d]|]; cbn; now rewrite app_nil_r.
  - unfold codec_body. cbn. destruct c as [[op d0]|]; cbn; now rewrite app_nil_r.
  - unfold codec_end. cbn. destruct (has_flag flags WS_FIN); cbn; [|now rewrite app_nil_r].
    destruct c as [[op d]|]; cbn; [|now rewrite app_nil_r]. destruct (op =? OP_CLOSE); cbn; auto.
Qed.
Lemma fold_acts es : forall c acts, fold_left codec_ev es (mkcodec c acts) =
  mkcodec (wcur (fold_left codec_ev es (mkcodec c []))) (acts ++ wacts (fold_left codec_ev es (mkcodec c []))).
Proof.
  induction es as [|e es IH]; intros c acts; cbn; [now rewrite app_nil_r|].
  rewrite codec_acts. rewrite IH. destruct (codec_ev (mkcodec c []) e) as [c1 a1]. cbn [wcur wacts].
  rewrite (IH c1 a1). cbn. now rewrite app_assoc.
Qed.

(** The connection does what the codec model does. *)
Lemma on_frames_codec es : forall s, on_frames s es =
  let c := fold_left codec_ev es (mkcodec (k_cur s) []) in do_acts (set_cur s (wcur c)) (wacts c).
Proof.
  induction es as [|e es IH]; intro s; cbn [WsConn.on_frames fold_left].
  - cbn. destruct s. reflexivity.
  - cbn zeta. destruct (codec_ev (mkcodec (k_cur s) []) e) as [c1 a1] eqn:E. cbn [wcur wacts].
    change (mkws (k_hs s) (k_st s) (k_reg s) (k_wsp s) c1 (k_path s)) with (set_cur s c1).
    rewrite do_acts_cur. rewrite IH. cbn [k_cur set_cur].
    rewrite (fold_acts es c1 a1). cbn [wcur wacts].
    set (c2 := wcur (fold_left codec_ev es (mkcodec c1 []))). set (a2 := wacts (fold_left codec_ev es (mkcodec c1 []))).
    rewrite do_acts_app, !do_acts_cur. destruct (do_acts s a1) as [s1 e1]. cbn [fst snd].
    change (set_cur (set_cur s1 c1) c2) with (set_cur s1 c2).
    rewrite ?do_acts_cur. destruct (do_acts s1 a2). reflexivity.
Qed.

(** *** the invariant *)
Definition Inv (s : ws) (a : ph) : Prop :=
  (k_reg s = false <-> k_st s = Closed) /\
  match a with
  | PNone => (k_reg s = true -> k_hs s <> HsOk) /\ k_st s <> Connected
  | POpen p c => k_hs s = HsOk /\ k_path s = p /\ listening s = true /\ (k_reg s = true -> k_st s = Connected) /\
                 (c = true -> k_reg s = false)
  | PDead => k_reg s = false
  end.

Lemma commits_facts ms : forall s, let '(s', e) := commits s ms in
  k_st s' = k_st s /\ k_reg s' = k_reg s /\ silent e.
Proof.
  induction ms as [|m ms IH]; intro s; cbn [commits]; [repeat split; auto|].
  destruct (commit s m) as [s1 e1] eqn:E. specialize (IH s1). destruct (commits s1 ms) as [s2 e2].
  destruct IH as (A & B & C). destruct m; cbn in E.
  - destruct (bytes_eqb upgrade s_websocket); inv E; cbn in *; repeat split; auto.
    apply silent_app. split; [destruct sent; reflexivity|auto].
  - inv E. cbn in *. repeat split; auto.
Qed.

Lemma refuse_facts s : let '(s', e) := refuse server registered s in
  k_hs s' = k_hs s /\ k_st s' = Closed /\ k_reg s' = false /\ k_path s' = k_path s /\
  scan PNone e = Some (if listening s then PDead else PNone).
Proof.
  unfold refuse. cbn. unfold notify_closed. repeat split. destruct (listening s), server; reflexivity.
Qed.

Lemma handshake_inv s ms err s' e : Inv s PNone -> k_reg s = true -> on_handshake s ms err = (s', e) ->
  exists a, scan PNone e = Some a /\ Inv s' a.
Proof.
  intros [I1 I2] R H. unfold WsConn.on_handshake in H. pose proof (commits_facts ms s) as C.
  destruct (commits s ms) as [s1 e1]. destruct C as (C1 & C2 & C3).
  assert (K : forall r, r = refuse server registered s1 -> exists a, scan PNone (e1 ++ snd r) = Some a /\ Inv (fst r) a).
  { intros r ->. pose proof (refuse_facts s1) as F. destruct (refuse server registered s1) as [s2 e2]. cbn.
    destruct F as (F1 & F2 & F3 & F4 & F5). eexists. rewrite scan_app, (silent_scan e1 PNone C3). split; [exact F5|].
    split; [split; congruence|]. destruct (listening s1); auto. split; congruence. }
  destruct err.
  { destruct (refuse server registered s1) as [s2 e2] eqn:E. inv H. apply (K _ eq_refl). }
  destruct (k_hs s1) eqn:Hs.
  - inv H. exists PNone. rewrite app_nil_r. split; [now apply silent_scan|].
    split; [rewrite C1, C2; auto|]. split; [intros _; congruence|]. destruct I2; congruence.
  - unfold notify_ready in H. cbn in H. unfold WsConn.listening in H. cbn in H.
    fold (listening s1) in H. destruct (listening s1) eqn:L; cbn in H.
    + inv H. exists (POpen (k_path s1) false). rewrite scan_app, (silent_scan e1 PNone C3). split; [reflexivity|].
      split; cbn.
      * rewrite C1, C2, R. destruct (k_st s) eqn:S; split; intro; try congruence.
        exfalso. destruct I1 as [_ I1]. rewrite I1 in R; congruence.
      * repeat split; auto; [|congruence]. rewrite C1. destruct (k_st s) eqn:S; auto. destruct I1 as [_ I1]. rewrite I1 in R; congruence.
    + inv H. unfold notify_closed. cbn. unfold WsConn.listening. cbn. fold (listening s1). rewrite L.
      exists PNone. rewrite app_nil_r. split; [now apply silent_scan|]. split; cbn; [tauto|]. split; congruence.
  - destruct (refuse server registered s1) as [s2 e2] eqn:E. inv H. apply (K _ eq_refl).
Qed.

Lemma frames_inv s es s' e p c : Inv s (POpen p c) -> on_frames s es = (s', e) ->
  exists c', scan (POpen p c) e = Some (POpen p c') /\ Inv s' (POpen p c').
Proof.
  intros (I1 & I2 & I3 & I4 & I5 & I6) H. rewrite on_frames_codec in H. cbn zeta in H. rewrite do_acts_cur in H.
  pose proof (do_acts_facts (wacts (fold_left codec_ev es (mkcodec (k_cur s) []))) s) as F.
  destruct (do_acts s (wacts (fold_left codec_ev es (mkcodec (k_cur s) [])))) as [s1 e1]. cbn [fst snd] in H. inv H.
  destruct F as (A & B & C & D & E & G). destruct (G I4 c I6) as (c' & G1 & G2). exists c'. split; [auto|].
  split; [|repeat split]; cbn.
  - destruct E as [(E1 & E2)|[E1 E2]]; [|tauto]. rewrite E1, E2. auto.
  - congruence.
  - auto.
  - unfold WsConn.listening in *. cbn. rewrite B. auto.
  - intro X. destruct E as [(E1 & E2)|[E1 E2]]; [|congruence]. rewrite E2. apply I5. congruence.
  - auto.
Qed.

Lemma close_inv s a : Inv s a -> exists b, scan a (notify_closed server registered s) = Some b /\ Inv (fst (close_service s false)) b.
Proof.
  intros [I1 I2]. unfold notify_closed. destruct a as [|p c|].
  - destruct (listening s) eqn:L; cbn; eexists; (split; [reflexivity|]); split; cbn; auto; try tauto; split; congruence.
  - destruct I2 as (A & B & C & D & E). rewrite C. cbn. destruct list_eq_dec; [|congruence].
    eexists; (split; [reflexivity|]). split; cbn; [tauto|]. repeat split; auto. congruence.
  - destruct (listening s) eqn:L; cbn; eexists; (split; [reflexivity|]); split; cbn; auto; try tauto; congruence.
Qed.

Lemma close_inv_true s a : Inv s a -> Inv (fst (close_service s true)) a.
Proof.
  intros [I1 I2]. split; cbn; [tauto|]. destruct a as [|p c|]; cbn; auto; [split; congruence|].
  destruct I2 as (A & B & C & D & E). repeat split; auto. congruence.
Qed.

Lemma data_inv s a addr data ms err s' e : Inv s a -> k_reg s = true -> on_data server registered s addr data ms err = Ok (s', e) ->
  exists b, scan a e = Some b /\ Inv s' b.
Proof.
  intros I R H. unfold on_data in H. destruct a as [|p c|]; [| |destruct I; congruence].
  - destruct (k_hs s) eqn:Hs; [|destruct I as (_ & I & _); now destruct I|]; inv H; eapply handshake_inv; eauto.
  - destruct I as (I1 & I2 & I3). rewrite I2 in H. destruct (ws_execute (k_wsp s) addr data) as [[q es]| |]; try discriminate.
    cbn in H. destruct (on_frames s es) as [s1 e1] eqn:F. inv H.
    destruct (frames_inv s es s1 e p c) as (c' & F1 & F2); [split; auto|auto|].
    exists (POpen p c'). split; [auto|]. destruct F2 as (F2 & F3 & F4 & F5 & F6). split; cbn; auto.
Qed.

Lemma step_inv s a o s' e : Inv s a -> ws_step s o = Ok (s', e) -> exists b, scan a e = Some b /\ Inv s' b.
Proof.
  intros I H. destruct o as [ok addr data ms err|opc pl fl]; cbn [WsConn.ws_step] in H.
  - destruct (k_reg s) eqn:R; [|inv H; exists a; auto].
    assert (Q : exists s1 e1 b, scan a e1 = Some b /\ Inv s1 b /\
       (if ok then Ok (s1, e1) else let '(s2, e2) := close_service s1 false in Ok (s2, e1 ++ e2)) = Ok (s', e)).
    { destruct data as [|d0 data].
      - exists s, [], a. repeat split; auto; apply I.
      - destruct (on_data server registered s addr (d0 :: data) ms err) as [[s1 e1]| |] eqn:D; try discriminate.
        destruct (data_inv _ _ _ _ _ _ _ _ I R D) as (b & B1 & B2). exists s1, e1, b. auto. }
    destruct Q as (s1 & e1 & b & Q1 & Q2 & Q3). destruct ok.
    + inv Q3. eauto.
    + destruct (close_inv s1 b Q2) as (b2 & C1 & C2). cbn in Q3. inv Q3. exists b2. rewrite scan_app, Q1. auto.
  - destruct server eqn:S; [inv H; exists a; auto|]. 
    destruct (k_st s) eqn:T; try (inv H; exists a; auto; fail).
    destruct fl; [inv H; exists a; auto|]. cbn in H. inv H. exists a. split; [reflexivity|]. exact (close_inv_true s a I).
Qed.

Lemma run_inv os : forall s a s' e, Inv s a -> ws_run s os = Ok (s', e) -> exists b, scan a e = Some b /\ Inv s' b.
Proof.
  induction os as [|o os IH]; intros s a s' e I H; cbn [WsConn.ws_run] in H; [inv H; exists a; auto|].
  destruct (ws_step s o) as [[s1 e1]| |] eqn:E; try discriminate. cbn in H.
  destruct (ws_run s1 os) as [[s2 e2]| |] eqn:E2; try discriminate. cbn in H. inv H.
  destruct (step_inv _ _ _ _ _ I E) as (b & B1 & B2). destruct (IH _ _ _ _ B2 E2) as (c & C1 & C2).
  exists c. rewrite scan_app, B1. auto.
Qed.
Lemma start_inv topic : Inv (ws_start server topic) PNone.
Proof. split; cbn; [split; congruence|split; congruence]. Qed.
Lemma conn_inv topic nonce os s tr : ws_conn server registered topic nonce os = Ok (s, tr) -> exists b, scan PNone tr = Some b /\ Inv s b.
Proof.
  unfold ws_conn. destruct (ws_run (ws_start server topic) os) as [[s1 e1]| |] eqn:E; cbn; try discriminate. intro H. inv H.
  destruct (run_inv _ _ _ _ _ (start_inv topic) E) as (b & B1 & B2). exists b. split; [|auto].
  rewrite scan_app. unfold start_events. destruct server; auto.
Qed.

(** *** a closed connection is silent *)
Lemma dead_step s o s' e : k_reg s = false -> (k_reg s = false <-> k_st s = Closed) -> ws_step s o = Ok (s', e) -> silent e /\ s' = s.
Proof.
  intros R I H. assert (k_st s = Closed) by now apply I. destruct o; cbn [WsConn.ws_step] in H.
  - rewrite R in H. inv H. split; reflexivity.
  - destruct server; [inv H; split; reflexivity|]. rewrite H0 in H. inv H. split; reflexivity.
Qed.
Lemma dead_run os : forall s s' e, k_reg s = false -> (k_reg s = false <-> k_st s = Closed) -> ws_run s os = Ok (s', e) -> silent e.
Proof.
  induction os as [|o os IH]; intros s s' e R I H; cbn [WsConn.ws_run] in H; [inv H; reflexivity|].
  destruct (ws_step s o) as [[s1 e1]| |] eqn:E; try discriminate. cbn in H.
  destruct (ws_run s1 os) as [[s2 e2]| |] eqn:E2; try discriminate. cbn in H. inv H.
  destruct (dead_step _ _ _ _ R I E) as [A ->]. apply silent_app. split; [auto|]. eapply IH; eauto.
Qed.
End P.

(** *** consequences of scan *)
Lemma scan_open_none tr : forall p c b, scan (POpen p c) tr = Some b -> how_many is_open tr = 0%nat.
Proof.
  induction tr as [|x tr IH]; intros p c b H; [auto|]. cbn in H. destruct x; cbn in H; try discriminate;
    try destruct list_eq_dec; try discriminate; unfold how_many in *; cbn; eapply IH; eauto.
Qed.
Lemma scan_dead_none tr : forall b, scan PDead tr = Some b -> how_many is_open tr = 0%nat.
Proof.
  induction tr as [|x tr IH]; intros b H; [auto|]. cbn in H. destruct x; cbn in H; try discriminate;
    unfold how_many in *; cbn; eapply IH; eauto.
Qed.
Lemma scan_open_once tr : forall b, scan PNone tr = Some b -> (how_many is_open tr <= 1)%nat.
Proof.
  induction tr as [|x tr IH]; intros b H; [cbn; lia|]. cbn in H. destruct x; cbn in H; try discriminate;
    unfold how_many in *; cbn; try solve [eapply IH; eauto].
  - apply scan_open_none in H. unfold how_many in H. lia.
  - apply scan_dead_none in H. unfold how_many in H. lia.
Qed.
Lemma scan_prefix a tr x post b : scan a (tr ++ x :: post) = Some b -> exists c d, scan a tr = Some c /\ scan1 c x = Some d /\ scan d post = Some b.
Proof.
  rewrite scan_app. destruct (scan a tr) as [c|] eqn:E; [|discriminate]. cbn. destruct (scan1 c x) as [d|] eqn:E2; [|discriminate]. eauto.
Qed.
Lemma scan_opened tr : forall p c, scan PNone tr = Some (POpen p c) -> In (VOpen p) tr.
Proof.
  induction tr as [|x tr IH]; intros p c H; [discriminate|]. cbn in H. destruct x; cbn in H; try discriminate;
    try (right; eapply IH; eauto; fail).
  - left. f_equal. clear IH. revert H. generalize false. induction tr as [|x tr IH]; intros b H; cbn in H; [congruence|].
    destruct x; cbn in H; try discriminate; try destruct list_eq_dec; try discriminate; eapply IH; eauto.
  - exfalso. clear IH. induction tr as [|x tr IH]; cbn in H; [congruence|]. destruct x; cbn in H; try discriminate; auto.
Qed.
Lemma scan_none tr : scan PNone tr = Some PNone -> silent tr.
Proof.
  induction tr as [|x tr IH]; intro H; [reflexivity|]. cbn in H. destruct x; cbn in H; try discriminate; try (apply IH; auto; fail).
  - exfalso. revert H. generalize false. clear. induction tr as [|x tr IH]; intros b H; cbn in H; [congruence|].
    destruct x; cbn in H; try discriminate; try destruct list_eq_dec; try discriminate; eapply IH; eauto.
  - exfalso. clear IH. induction tr as [|x tr IH]; cbn in H; [congruence|]. destruct x; cbn in H; try discriminate; auto.
Qed.
Lemma scan_closed tr p : forall a b, scan a tr = Some b -> In (VClose p) tr -> b = PDead \/ exists q, b = POpen q true.
Proof.
  assert (D : forall tr b, scan PDead tr = Some b -> b = PDead).
  { clear. induction tr as [|x tr IH]; intros b H; cbn in H; [congruence|]. destruct x; cbn in H; try discriminate; auto. }
  assert (O : forall tr q b, scan (POpen q true) tr = Some b -> b = POpen q true).
  { clear. induction tr as [|x tr IH]; intros q b H; cbn in H; [congruence|].
    destruct x; cbn in H; try discriminate; try destruct list_eq_dec; try discriminate; eapply IH; eauto. }
  induction tr as [|x tr IH]; intros a b H Hin; [destruct Hin|]. cbn in H. destruct (scan1 a x) as [d|] eqn:E; [|discriminate].
  destruct Hin as [->|Hin]; [|eapply IH; eauto]. cbn in E. destruct a as [|q c|].
  - inv E. left. eapply D; eauto.
  - destruct list_eq_dec; inv E. right. exists q. eapply O; eauto.
  - inv E. left. eapply D; eauto.
Qed.

(** C169 *)
Lemma callback_order server registered topic nonce os s tr : ws_conn server registered topic nonce os = Ok (s, tr) ->
  (how_many is_open tr <= 1)%nat /\
  (forall pre p op d post, tr = pre ++ VMsg p op d :: post -> In (VOpen p) pre) /\
  (forall pre p post, tr = pre ++ VOpen p :: post -> silent pre).
Proof.
  intro H. apply conn_inv in H. destruct H as (b & B & _). split; [eapply scan_open_once; eauto|]. split.
  - intros pre p op d post ->. apply scan_prefix in B. destruct B as (c & e & C1 & C2 & _). cbn in C2.
    destruct c as [|q cl|]; try discriminate. destruct list_eq_dec; [|discriminate]. subst. eapply scan_opened; eauto.
  - intros pre p post ->. apply scan_prefix in B. destruct B as (c & e & C1 & C2 & _). cbn in C2.
    destruct c as [|q cl|]; try discriminate. now apply scan_none.
Qed.
Lemma closed_silent server registered topic nonce os1 os2 s1 tr1 s2 tr2 p :
  ws_conn server registered topic nonce os1 = Ok (s1, tr1) -> In (VClose p) tr1 ->
  ws_run server registered s1 os2 = Ok (s2, tr2) -> silent tr2.
Proof.
  intros H Hin H2. apply conn_inv in H. destruct H as (b & B & I1 & I2).
  eapply dead_run; [| |exact H2]; auto.
  destruct (scan_closed _ _ _ _ B Hin) as [->|[q ->]]; [auto|]. now apply I2.
Qed.
