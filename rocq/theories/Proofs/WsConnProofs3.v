From Verif.Model Require Import Common Bytes Websocket WsConn.
From Verif.Spec Require Import WsSpec WsConnSpec.
From Verif.Proofs Require Import Tac WsConnProofs WsConnProofs2.
From Verif.Proofs Require WsBuildProofs.
Open Scope Z_scope.

(** *** C173: pings *)
Fixpoint pok (last : bool) (tr : list wev) : bool :=
  match tr with
  | [] => true
  | VMsg _ op _ :: tr => (negb (op =? 9) || last) && pok false tr
  | VSent (IFrame m op d) :: tr => pok (negb m && (op =? 10) && match d with [] => true | _ => false end) tr
  | _ :: tr => pok false tr
  end.
Lemma pok_weak tr : forall b, pok false tr = true -> pok b tr = true.
Proof.
  destruct tr as [|x tr]; intros b H; [auto|]. destruct x; cbn in *; auto. b2p. rewrite H0. rewrite orb_false_r in H. now rewrite H.
Qed.
Lemma pok_app a b : forall l, pok l a = true -> pok false b = true -> pok l (a ++ b) = true.
Proof.
  induction a as [|x a IH]; intros l A B; cbn [app]; [now apply pok_weak|].
  destruct x; cbn in *; auto.
  - destruct i; auto.
  - b2p. rewrite (IH false), H by auto. reflexivity.
Qed.
Lemma pok_sound tr : forall l pre p d post, pok l tr = true -> tr = pre ++ VMsg p 9 d :: post -> (pre = [] /\ l = true) \/ exists pre', pre = pre' ++ [VSent pong].
Proof.
  induction tr as [|x tr IH]; intros l pre p d post H E; [destruct pre; discriminate|].
  destruct pre as [|y pre]; cbn in E; inv E.
  - cbn in H. b2p. auto.
  - right. assert (Q : exists l', pok l' (pre ++ VMsg p 9 d :: post) = true /\ (l' = true -> y = VSent pong)).
    { destruct y; cbn in H.
      - destruct i; try solve [exists false; split; [exact H|discriminate]]. eexists. split; [exact H|]. intro X. b2p.
        destruct payload; [|discriminate]. destruct masked; [discriminate|]. subst. reflexivity.
      - exists false; split; [auto|discriminate].
      - b2p. exists false; split; [auto|discriminate].
      - exists false; split; [auto|discriminate].
      - exists false; split; [auto|discriminate]. }
    destruct Q as (l' & Q1 & Q2). destruct (IH l' pre p d post Q1 eq_refl) as [[-> ->]|[pre' ->]].
    + exists []. rewrite Q2; auto.
    + exists (y :: pre'). auto.
Qed.
(** What the codec does with one parser event. *)
Definition good_acts (acts : list ws_act) : Prop :=
  acts = [] \/ acts = [WClose] \/ (exists d, acts = [WPong; WDeliver 9 d]) \/ exists op d, op <> 9 /\ op <> 8 /\ acts = [WDeliver op d].
Lemma codec_good c e : good_acts (wacts (codec_ev (mkcodec c []) e)).
Proof.
  destruct e; cbn.
  - unfold codec_header. cbn. destruct c as [[op d]|]; cbn; now left.
  - unfold codec_body. cbn. destruct c as [[op d0]|]; cbn; now left.
  - unfold codec_end. cbn. destruct (has_flag flags WS_FIN); cbn; [|now left].
    destruct c as [[op d]|]; cbn; [|now left]. unfold OP_CLOSE, OP_PING. destruct (op =? 8) eqn:E; cbn; [right; now left|].
    right. right. destruct (op =? 9) eqn:E9; cbn; b2p; subst; [left; eauto|right]. exists op, d. auto.
Qed.
(** A property of traces closed under append that the events of good actions have, the frames of a read have. *)
Lemma frames_closed server registered (P : list wev -> Prop) : P [] -> (forall a b, P a -> P b -> P (a ++ b)) ->
  (forall s acts, good_acts acts -> listening server registered s = true -> P (snd (do_acts server registered s acts))) ->
  forall es s, listening server registered s = true -> P (snd (on_frames server registered s es)).
Proof.
  intros P0 PA PG. induction es as [|e es IH]; intros s L; cbn [on_frames]; [auto|].
  pose proof (codec_good (k_cur s) e) as G. set (c := codec_ev _ _) in *.
  specialize (PG (mkws (k_hs s) (k_st s) (k_reg s) (k_wsp s) (wcur c) (k_path s)) (wacts c) G L).
  pose proof (do_acts_facts server registered (wacts c) (mkws (k_hs s) (k_st s) (k_reg s) (k_wsp s) (wcur c) (k_path s))) as F.
  destruct (do_acts server registered _ (wacts c)) as [s1 e1]. destruct F as (_ & F & _). cbn in F.
  specialize (IH s1). destruct (on_frames server registered s1 es) as [s2 e2]. cbn in *. apply PA; auto. apply IH.
  unfold listening in *. cbn in *. now rewrite F.
Qed.
Lemma frames_pok server registered s es : listening server registered s = true -> pok false (snd (on_frames server registered s es)) = true.
Proof.
  apply (frames_closed server registered (fun e => pok false e = true)); [auto|intros; now apply pok_app|].
  clear s. intros s acts [->|[->|[[d ->]|(op & d & A & B & ->)]]] L; cbn; rewrite ?L; cbn; auto.
  - unfold notify_closed. destruct listening; reflexivity.
  - rewrite andb_true_r, orb_false_r. apply negb_true_iff. now apply Z.eqb_neq.
Qed.
Lemma pok_nomsg e : (forall x, In x e -> match x with VMsg _ _ _ => False | _ => True end) -> forall l, pok l e = true.
Proof.
  induction e as [|x e IH]; intros H l; [auto|]. assert (K : forall l, pok l e = true) by (apply IH; intros; apply H; now right).
  specialize (H x (or_introl eq_refl)). destruct x; cbn; auto; try (destruct i; auto); destruct H.
Qed.
Lemma closed_nomsg server registered s : forall x, In x (notify_closed server registered s) -> exists p, x = VClose p.
Proof. unfold notify_closed. destruct listening; cbn; intuition eauto. Qed.
Lemma handshake_events server registered s ms err s' e : on_handshake server registered s ms err = (s', e) ->
  forall x, In x e -> match x with VSent (I101 _) | VSent I400 | VOpen _ | VClose _ => True | _ => False end.
Proof.
  unfold on_handshake. pose proof (commits_events ms s) as C. destruct (commits s ms) as [s1 e1]. cbn in C.
  intros H x Hin.
  assert (Q : exists e2, e = e1 ++ e2 /\ forall y, In y e2 -> match y with VSent I400 | VOpen _ | VClose _ => True | _ => False end).
  { assert (R : forall s2 e2, refuse server registered s1 = (s2, e2) -> forall y, In y e2 -> match y with VSent I400 | VOpen _ | VClose _ => True | _ => False end).
    { unfold refuse. cbn. intros s2 e2 R. inv R. intros y Y. apply in_app_iff in Y. destruct Y as [Y|Y].
      - destruct server; cbn in Y; intuition subst; auto.
      - apply closed_nomsg in Y. destruct Y as [p ->]. auto. }
    destruct err; [|destruct (k_hs s1)].
    - destruct (refuse server registered s1) as [s2 e2]. inv H. exists e2. split; [reflexivity|]. apply (R s' e2 eq_refl).
    - inv H. exists []. rewrite app_nil_r. split; [auto|intros ? []].
    - unfold notify_ready in H. cbn in H. destruct listening; cbn in H; inv H; eexists; split; try reflexivity.
      + intros y [<-|[]]. auto.
      + intros y Y. apply closed_nomsg in Y. destruct Y as [p ->]. auto.
    - destruct (refuse server registered s1) as [s2 e2]. inv H. exists e2. split; [reflexivity|]. apply (R s' e2 eq_refl). }
  destruct Q as (e2 & -> & Q). apply in_app_iff in Hin. destruct Hin as [Hin|Hin].
  - apply C in Hin. destruct Hin as [k ->]. auto.
  - apply Q in Hin. destruct x; auto. destruct i; auto.
Qed.
(** Induction over the events of a run: frames reach an opened connection only. *)
Lemma run_closed server registered (P : list wev -> Prop) :
  P [] -> (forall a b, P a -> P b -> P (a ++ b)) ->
  (forall e, (forall x, In x e -> match x with VSent (I101 _) | VSent I400 | VOpen _ | VClose _ => True | _ => False end) -> P e) ->
  (forall s acts, good_acts acts -> listening server registered s = true -> P (snd (do_acts server registered s acts))) ->
  forall os, (forall s opc pl fl s' e, In (OSend opc pl fl) os -> ws_step server registered s (OSend opc pl fl) = Ok (s', e) -> P e) ->
  forall s a s' e, Inv server registered s a -> ws_run server registered s os = Ok (s', e) -> P e.
Proof.
  intros P0 PA PH PG. induction os as [|o os IH]; intros PS s a s' e I H; [inv H; auto|].
  apply run_cons in H. destruct H as (s1 & e1 & e2 & A & B & ->).
  destruct (step_inv _ _ _ _ _ _ _ I A) as (b & B1 & B2). apply PA; [|eapply IH; eauto; intros; eapply PS; eauto; now right].
  destruct (step_cases _ _ _ _ _ _ A) as [(opc & pl & fl & ->)|[(ok & ad & l & ms & err & -> & _ & _ & ->)|
      (ok & ad & l & ms & err & s2 & e3 & -> & R & D & F)]].
  - eapply PS; eauto. now left.
  - auto.
  - assert (K : P e3).
    { destruct D as [(_ & _ & ->)|[(_ & Hs & D)|(_ & Hs & q & es & s3 & _ & D & _)]].
      - auto.
      - apply PH. eapply handshake_events; eauto.
      - replace e3 with (snd (on_frames server registered s es)) by now rewrite D. apply frames_closed; auto.
        destruct a as [|p c|]; destruct I as (_ & I).
        + destruct I as (I & _). now destruct I.
        + apply I.
        + congruence. }
    destruct F as [(_ & _ & ->)|(_ & _ & ->)]; [auto|]. apply PA; [auto|]. apply PH. intros x X.
    apply closed_nomsg in X. destruct X as [p ->]. auto.
Qed.
Lemma conn_closed server registered (P : list wev -> Prop) :
  P [] -> (forall a b, P a -> P b -> P (a ++ b)) -> (forall t n, P [VSent (IReq t n)]) ->
  (forall e, (forall x, In x e -> match x with VSent (I101 _) | VSent I400 | VOpen _ | VClose _ => True | _ => False end) -> P e) ->
  (forall s acts, good_acts acts -> listening server registered s = true -> P (snd (do_acts server registered s acts))) ->
  forall os, (forall s opc pl fl s' e, In (OSend opc pl fl) os -> ws_step server registered s (OSend opc pl fl) = Ok (s', e) -> P e) ->
  forall topic nonce s tr, ws_conn server registered topic nonce os = Ok (s, tr) -> P tr.
Proof.
  intros P0 PA P1 PH PG os PS topic nonce s tr H. apply conn_run in H. destruct H as (e & H & ->).
  apply PA; [unfold start_events; destruct server; auto|]. eapply run_closed; eauto. apply start_inv.
Qed.
Lemma send_events server registered s opc pl fl s' e : ws_step server registered s (OSend opc pl fl) = Ok (s', e) ->
  forall x, In x e -> x = VBroken \/ x = VSent (IFrame (negb server) opc pl).
Proof.
  cbn. destruct server; [intro H; inv H; cbn; intuition|].
  destruct (k_st s); [intro H; inv H|destruct fl; intro H; inv H|intro H; inv H]; cbn; intuition.
Qed.
Lemma ping_pong server registered topic nonce os s tr p d pre post : ws_conn server registered topic nonce os = Ok (s, tr) ->
  tr = pre ++ VMsg p 9 d :: post -> exists pre', pre = pre' ++ [VSent pong].
Proof.
  intros H E. assert (K : pok false tr = true).
  { revert H. apply (conn_closed server registered (fun e => pok false e = true)); auto.
    - intros; now apply pok_app.
    - intros e He. apply pok_nomsg. intros x X. apply He in X. destruct x; auto.
    - intros s0 acts [->|[->|[[d' ->]|(op & d' & A & B & ->)]]] L; cbn; rewrite ?L; cbn; auto.
      + unfold notify_closed. destruct listening; reflexivity.
      + rewrite andb_true_r, orb_false_r. apply negb_true_iff. now apply Z.eqb_neq.
    - intros s0 opc pl fl s' e _ X. apply pok_nomsg. intros x Y. destruct (send_events _ _ _ _ _ _ _ _ X x Y) as [->| ->]; auto. }
  destruct (pok_sound tr false pre p d post K E) as [[_ X]|X]; [discriminate|auto].
Qed.
Definition is_pong (e : wev) : bool := match e with VSent (IFrame _ 10 _) => true | _ => false end.
Definition is_ping (e : wev) : bool := match e with VMsg _ 9 _ => true | _ => false end.
Lemma hm_zero f e : (forall x, In x e -> f x = false) -> how_many f e = 0%nat.
Proof. unfold how_many. induction e as [|x e IH]; intro H; [auto|]. cbn. rewrite H by now left. apply IH. intros; apply H; now right. Qed.
Lemma pong_count server registered topic nonce os s tr : ws_conn server registered topic nonce os = Ok (s, tr) -> no_sends os ->
  how_many is_pong tr = how_many is_ping tr.
Proof.
  intros H N. revert topic nonce s tr H. apply (conn_closed server registered (fun e => how_many is_pong e = how_many is_ping e)); auto.
  - intros a b A B. rewrite !hm_app. lia.
  - intros e He. rewrite !hm_zero; auto; intros x X; apply He in X; destruct x; try destruct i; cbn; auto; destruct X.
  - intros s acts [->|[->|[[d' ->]|(op & d' & A & B & ->)]]] L; cbn; rewrite ?L; cbn; auto.
    + unfold notify_closed. destruct listening; reflexivity.
    + unfold how_many. cbn. assert (is_ping (VMsg (k_path s) op d') = false) as X; [|cbn in X; rewrite X; auto].
      cbn. destruct op as [|q|q]; auto. do 4 (destruct q as [q|q|]; auto). congruence.
  - intros s opc pl fl s' e X. exfalso. unfold no_sends in N. rewrite forallb_forall in N. specialize (N _ X). discriminate.
Qed.

(** *** C174: masks *)
Lemma mask_rule server registered topic nonce os s tr m op d : ws_conn server registered topic nonce os = Ok (s, tr) ->
  In (VSent (IFrame m op d)) tr ->
  m = negb server \/ (m = false /\ (IFrame m op d = pong \/ IFrame m op d = close_frame)).
Proof.
  intro H. revert topic nonce s tr H.
  apply (conn_closed server registered (fun e => In (VSent (IFrame m op d)) e -> m = negb server \/ (m = false /\ (IFrame m op d = pong \/ IFrame m op d = close_frame)))).
  - intros [].
  - intros a b A B X. apply in_app_iff in X. intuition.
  - intros t n [X|[]]. discriminate.
  - intros e He X. destruct (He _ X).
  - intros s acts [->|[->|[[d' ->]|(op' & d' & A & B & ->)]]] L; cbn; rewrite ?L; cbn.
    + intros [].
    + rewrite app_nil_r. intros [X|X]; [inv X; auto|]. apply closed_nomsg in X. destruct X. discriminate.
    + intros [X|[X|[]]]; [inv X; auto|discriminate].
    + intros [X|[]]. discriminate.
  - intros s opc pl fl s' e _ X Y. destruct (send_events _ _ _ _ _ _ _ _ X _ Y) as [Z|Z]; inv Z; auto.
Qed.
(** Messages the application sends on a client are masked. *)

(** *** C176: nothing but the handshake before opening *)
Fixpoint fok (o : bool) (tr : list wev) : bool :=
  match tr with
  | [] => true
  | VOpen _ :: tr => fok true tr
  | VSent (IFrame _ _ _) :: tr => o && fok o tr
  | _ :: tr => fok o tr
  end.
Definition opened (a : ph) : bool := match a with POpen _ _ => true | _ => false end.
Lemma fok_true tr : fok true tr = true.
Proof. induction tr as [|x tr IH]; [auto|]. destruct x; cbn; auto. destruct i; auto. Qed.
Lemma fok_app a b : forall o, fok o (a ++ b) = fok o a && fok (o || existsb is_open a) b.
Proof.
  induction a as [|x a IH]; intro o; cbn [app fok existsb]; [now rewrite orb_false_r|].
  destruct x; cbn [is_open]; rewrite ?orb_false_l; auto.
  - destruct i; auto. rewrite IH. now rewrite andb_assoc.
  - rewrite IH. cbn [orb]. now rewrite orb_true_r.
Qed.
Lemma scan_opened_iff tr : forall a b, scan a tr = Some b -> opened b = opened a || existsb is_open tr.
Proof.
  induction tr as [|x tr IH]; intros a b H; cbn in *; [inv H; now rewrite orb_false_r|].
  destruct (scan1 a x) as [c|] eqn:E; [|discriminate]. rewrite (IH _ _ H).
  destruct x, a; cbn in *; try discriminate; try destruct list_eq_dec; inv E; cbn; auto.
Qed.
Lemma fok_noframe e : (forall x, In x e -> match x with VSent (IFrame _ _ _) => False | _ => True end) -> forall o, fok o e = true.
Proof.
  induction e as [|x e IH]; intros H o; [auto|]. assert (K : forall o, fok o e = true) by (apply IH; intros; apply H; now right).
  specialize (H x (or_introl eq_refl)). destruct x; cbn; auto. destruct i; auto.
Qed.
Lemma run_fok server registered os : forall s a s' e, Inv server registered s a -> (server = true -> no_sends os) ->
  ws_run server registered s os = Ok (s', e) -> fok (opened a) e = true.
Proof.
  induction os as [|o os IH]; intros s a s' e I N H; [inv H; auto|].
  apply run_cons in H. destruct H as (s1 & e1 & e2 & A & B & ->).
  destruct (step_inv _ _ _ _ _ _ _ I A) as (b & B1 & B2).
  assert (N2 : server = true -> no_sends os).
  { intro X. specialize (N X). unfold no_sends in *. cbn in N. b2p. auto. }
  specialize (IH _ _ _ _ B2 N2 B). rewrite (scan_opened_iff _ _ _ B1) in IH. rewrite fok_app, IH, andb_true_r.
  destruct (step_cases _ _ _ _ _ _ A) as [(opc & pl & fl & ->)|[(ok & ad & l & ms & err & -> & _ & _ & ->)|
      (ok & ad & l & ms & err & s2 & e3 & -> & R & D & F)]].
  - destruct server; [specialize (N eq_refl); unfold no_sends in N; cbn in N; b2p; discriminate|].
    destruct a as [|p c|]; [|apply fok_true|].
    + apply fok_noframe. cbn in A. destruct I as (_ & _ & I). destruct (k_st s); [inv A|congruence|inv A]; intros x [<-|[]]; auto.
    + apply fok_noframe. destruct I as (I1 & I2). apply I1 in I2. cbn in A. rewrite I2 in A. inv A. intros x [<-|[]]; auto.
  - auto.
  - destruct a as [|p c|]; [|apply fok_true|destruct I; congruence].
    apply fok_noframe. assert (K : forall x, In x e3 -> match x with VSent (IFrame _ _ _) => False | _ => True end).
    { destruct D as [(_ & _ & ->)|[(_ & Hs & D)|(_ & Hs & _)]].
      - intros x [].
      - intros x X. apply (handshake_events _ _ _ _ _ _ _ D) in X. destruct x; auto. destruct i; auto.
      - destruct I as (_ & I & _). now destruct I. }
    destruct F as [(_ & _ & ->)|(_ & _ & ->)]; [exact K|]. intros x X. apply in_app_iff in X. destruct X as [X|X]; [exact (K x X)|].
    apply closed_nomsg in X. destruct X as [q ->]. auto.
Qed.
Lemma fok_sound tr : forall pre m op d post, fok false tr = true -> tr = pre ++ VSent (IFrame m op d) :: post -> exists p, In (VOpen p) pre.
Proof.
  intros pre m op d post H ->. rewrite fok_app in H. b2p. cbn in H0. b2p.
  apply existsb_exists in H0. destruct H0 as (x & X & Y). destruct x; try discriminate. eauto.
Qed.
Lemma frames_after_open server registered topic nonce os s tr pre m op d post : ws_conn server registered topic nonce os = Ok (s, tr) ->
  (server = true -> no_sends os) -> tr = pre ++ VSent (IFrame m op d) :: post -> exists p, In (VOpen p) pre.
Proof.
  intros H N E. eapply fok_sound; [|exact E]. apply conn_run in H. destruct H as (e & H & ->).
  rewrite fok_app. pose proof (run_fok _ _ _ _ _ _ _ (start_inv server registered topic) N H) as K. cbn [opened] in K.
  unfold start_events. destruct server; cbn; exact K.
Qed.
Lemma client_send registered topic nonce os s tr op d fl : ws_conn false registered topic nonce os = Ok (s, tr) ->
  ((forall p, ~ In (VOpen p) tr) \/ (exists p, In (VClose p) tr) ->
     ws_step false registered s (OSend op d fl) = Ok (s, [VBroken])) /\
  (k_reg s = true -> (exists p, In (VOpen p) tr) ->
     exists s', ws_step false registered s (OSend op d fl) = Ok (s', VSent (IFrame true op d) :: if fl then [] else [VBroken])).
Proof.
  intro H. apply conn_inv in H. destruct H as (b & B & I). split.
  - intro C. assert (X : k_st s <> Connected).
    { destruct C as [C|[p C]].
      - pose proof (scan_opened_iff _ _ _ B) as O. cbn in O. assert (E : existsb is_open tr = false).
        { destruct (existsb is_open tr) eqn:E; [|auto]. apply existsb_exists in E. destruct E as (x & X & Y). destruct x; try discriminate.
          destruct (C _ X). }
        rewrite E in O. destruct b; try discriminate.
        + apply I.
        + destruct I as (I1 & I2). apply I1 in I2. congruence.
      - destruct I as (I1 & I2). destruct (scan_closed _ _ _ _ B C) as [->|[q ->]].
        + apply I1 in I2. congruence.
        + destruct I2 as (_ & _ & _ & _ & I2). specialize (I2 eq_refl). apply I1 in I2. congruence. }
    cbn. destruct (k_st s); congruence.
  - intros R [p O]. pose proof (scan_opened_iff _ _ _ B) as X. cbn in X.
    assert (E : existsb is_open tr = true) by (apply existsb_exists; exists (VOpen p); auto). rewrite E in X.
    destruct b; try discriminate. destruct I as (_ & _ & _ & _ & I & _). cbn. rewrite (I R). destruct fl; eauto.
Qed.

(** *** C180: messages end to end *)
Definition chunk_op (c : Z * list Z) : op := OEvent true (fst c) (snd c) [] false.
Definition act_event (path : list Z) (a : ws_act) : wev :=
  match a with WDeliver op d => VMsg path op d | WPong => VSent pong | WClose => VSent close_frame end.
Lemma do_acts_plain server registered acts : forall s, listening server registered s = true -> ~ In WClose acts ->
  do_acts server registered s acts = (s, map (act_event (k_path s)) acts).
Proof.
  induction acts as [|a acts IH]; intros s L N; cbn [do_acts map]; [auto|].
  assert (E : do_act server registered s a = (s, [act_event (k_path s) a])).
  { destruct a; cbn; rewrite ?L; auto. exfalso. apply N. now left. }
  rewrite E, IH; auto. intro X. apply N. now right.
Qed.
Lemma feed_run server registered cs : forall s q es, k_hs s = HsOk -> k_reg s = true -> listening server registered s = true ->
  Forall (fun c => snd c <> []) cs -> ws_feed (k_wsp s) cs = Ok (q, es) ->
  let c := fold_left codec_ev es (mkcodec (k_cur s) []) in ~ In WClose (wacts c) ->
  ws_run server registered s (map chunk_op cs) =
  Ok (mkws (k_hs s) (k_st s) (k_reg s) q (wcur c) (k_path s), map (act_event (k_path s)) (wacts c)).
Proof.
  induction cs as [|[a l] cs IH]; intros s q es Hs R L N H c NC.
  - cbn in H. inv H. cbn. destruct s; reflexivity.
  - cbn [ws_feed] in H. destruct (ws_execute (k_wsp s) a l) as [[q1 es1]| |] eqn:X; try discriminate. cbn in H.
    destruct (ws_feed q1 cs) as [[q2 es2]| |] eqn:Y; try discriminate. cbn in H. inv H. inv N.
    subst c. rewrite fold_left_app in *. destruct (fold_left codec_ev es1 (mkcodec (k_cur s) [])) as [c1 a1] eqn:F1.
    rewrite (fold_acts es2 c1 a1) in *. cbn [wcur wacts] in *.
    cbn [map ws_run]. unfold chunk_op at 1. cbn [fst snd ws_step]. rewrite R. destruct l as [|l0 l]; [cbn in H1; congruence|].
    unfold on_data. rewrite Hs, X. cbn [obind]. rewrite on_frames_codec. rewrite F1. cbn [wcur wacts].
    rewrite do_acts_plain; [|auto|intro Z; apply NC; apply in_app_iff; auto].
    cbn [obind k_hs k_st k_reg k_wsp k_cur k_path set_cur].
    specialize (IH (mkws (k_hs s) (k_st s) (k_reg s) q1 c1 (k_path s)) q es2). cbn [k_hs k_st k_reg k_wsp k_cur k_path] in IH.
    rewrite Hs in *. rewrite IH; auto.
    + cbn [obind]. rewrite map_app, R. reflexivity.
    + intro Z. apply NC. apply in_app_iff. auto.
Qed.
Definition msg_events (path : list Z) (g : message) : list wev :=
  (if g_op g =? 9 then [VSent pong] else []) ++ [VMsg path (g_op g) (g_payload g)].
Lemma msgs_plain gs : Forall (fun g => g_op g <> 0 /\ g_op g <> 8) gs ->
  ~ In WClose (concat (map (fun g => (if g_op g =? 9 then [WPong] else []) ++ [WDeliver (g_op g) (g_payload g)]) gs)).
Proof.
  intros _ X. apply in_concat in X. destruct X as (l & A & B). apply in_map_iff in A. destruct A as (g & <- & _).
  apply in_app_iff in B. destruct (g_op g =? 9); cbn in B; intuition discriminate.
Qed.
Lemma msgs_events path gs : map (act_event path) (concat (map (fun g => (if g_op g =? 9 then [WPong] else []) ++ [WDeliver (g_op g) (g_payload g)]) gs)) =
  concat (map (msg_events path) gs).
Proof.
  induction gs as [|g gs IH]; [auto|]. cbn [map concat]. rewrite map_app, IH. f_equal. unfold msg_events.
  destruct (g_op g =? 9); reflexivity.
Qed.
Lemma deliver server registered s cs gs : k_hs s = HsOk -> k_reg s = true -> listening server registered s = true ->
  k_wsp s = ws_init -> k_cur s = None ->
  Forall (fun c => snd c <> []) cs -> Forall addr_ok cs ->
  Forall frame_ok (concat (map msg_frames gs)) -> Forall (fun g => g_op g <> 0 /\ g_op g <> 8) gs ->
  concat (map snd cs) = concat (map frame_bytes (concat (map msg_frames gs))) ->
  exists s', ws_run server registered s (map chunk_op cs) = Ok (s', concat (map (msg_events (k_path s)) gs)) /\
    k_hs s' = HsOk /\ k_reg s' = true /\ k_path s' = k_path s /\ k_st s' = k_st s /\ k_cur s' = None /\
    exists es, ws_feed ws_init cs = Ok (k_wsp s', es).
Proof.
  intros Hs R L W C N A F G E. destruct (WsBuildProofs.reassembly cs gs F A G E) as (q & es & X & Y).
  unfold codec_init in Y. rewrite <- W in X.
  pose proof (feed_run server registered cs s q es Hs R L N X) as K. cbn zeta in K. rewrite C, Y in K. cbn [wcur wacts] in K.
  rewrite msgs_events in K. eexists. split; [apply K; now apply msgs_plain|]. cbn. repeat split; auto. rewrite <- W. eauto.
Qed.
Lemma feed_app cs1 : forall cs2 p, ws_feed p (cs1 ++ cs2) =
  obind (ws_feed p cs1) (fun '(q, es) => obind (ws_feed q cs2) (fun '(r, es') => Ok (r, es ++ es'))).
Proof.
  induction cs1 as [|[a l] cs1 IH]; intros cs2 p; cbn [app ws_feed obind].
  - now destruct (ws_feed p cs2) as [[q es]| |].
  - destruct (ws_execute p a l) as [[q es]| |]; cbn [obind]; auto. rewrite IH.
    destruct (ws_feed q cs1) as [[q1 es1]| |]; cbn [obind]; auto. destruct (ws_feed q1 cs2) as [[q2 es2]| |]; cbn [obind]; auto.
    now rewrite app_assoc.
Qed.
Lemma deliver_close server registered s cs gs a m d : k_hs s = HsOk -> k_reg s = true -> listening server registered s = true ->
  k_wsp s = ws_init -> k_cur s = None ->
  Forall (fun c => snd c <> []) cs -> Forall addr_ok cs -> addr_ok (a, frame_bytes (mkframe true 8 m d)) ->
  Forall frame_ok (concat (map msg_frames gs)) -> Forall (fun g => g_op g <> 0 /\ g_op g <> 8) gs -> frame_ok (mkframe true 8 m d) ->
  concat (map snd cs) = concat (map frame_bytes (concat (map msg_frames gs))) ->
  exists s', ws_run server registered s (map chunk_op cs ++ [chunk_op (a, frame_bytes (mkframe true 8 m d))]) =
    Ok (s', concat (map (msg_events (k_path s)) gs) ++ [VSent close_frame; VClose (k_path s)]) /\ k_st s' = Closed /\ k_reg s' = false.
Proof.
  intros Hs R L W C N A A2 F G F2 E.
  destruct (deliver server registered s cs gs Hs R L W C N A F G E) as (s1 & X & Hs1 & R1 & P1 & S1 & C1 & es1 & FE).
  destruct (WsBuildProofs.close_frame (cs ++ [(a, frame_bytes (mkframe true 8 m d))]) gs m d F F2) as (q & es & Y & Z); auto.
  { apply Forall_app. split; auto. }
  { rewrite map_app, concat_app. cbn [map concat snd]. rewrite E, app_nil_r, map_app, concat_app. cbn. now rewrite app_nil_r. }
  rewrite feed_app, FE in Y. cbn [obind ws_feed] in Y.
  destruct (ws_execute (k_wsp s1) a (frame_bytes (mkframe true 8 m d))) as [[q2 es2]| |] eqn:X2; try discriminate. cbn in Y.
  rewrite app_nil_r in Y. inv Y. rewrite fold_left_app in Z.
  destruct (WsBuildProofs.reassembly cs gs F A G E) as (q' & es' & X' & Y'). rewrite FE in X'. inv X'. rewrite Y' in Z.
  rewrite fold_acts in Z. cbn [wacts] in Z. apply app_inv_head in Z.
  assert (Q : ws_step server registered s1 (chunk_op (a, frame_bytes (mkframe true 8 m d))) =
    Ok (mkws HsOk Closed false q (wcur (fold_left codec_ev es2 (mkcodec None []))) (k_path s1), [VSent close_frame; VClose (k_path s)])).
  { unfold chunk_op. cbn [fst snd ws_step]. rewrite R1.
    destruct (frame_bytes (mkframe true 8 m d)) as [|b0 bs] eqn:FB; [exfalso; revert FB; unfold frame_bytes, ws_build_frame, ws_build; discriminate|].
    unfold on_data. rewrite Hs1, X2. cbn [obind]. rewrite on_frames_codec. cbn zeta. rewrite C1, Z. cbn [do_acts do_act].
    unfold notify_closed. cbn [close_service k_path k_hs k_st k_reg k_wsp k_cur set_cur app].
    assert (L1 : listening server registered s1 = true) by (unfold listening in *; now rewrite P1).
    replace (listening server registered _) with (listening server registered s1) by reflexivity. rewrite L1, P1, Hs1. reflexivity. }
  eexists. split; [|split].
  - apply run_app. eexists _, _, _. split; [exact X|]. split; [cbn [ws_run]; rewrite Q; cbn; reflexivity|reflexivity].
  - reflexivity.
  - reflexivity.
Qed.
(** Right after the handshake. *)
Lemma open_server registered path key cu addr data : data <> [] -> registered path = true ->
  ws_run true registered (ws_start true []) [OEvent true addr data [HReq path s_websocket key cu true] false] =
  Ok (mkws HsOk Connected true ws_init None path, [VSent (I101 key); VOpen path]).
Proof.
  intros D R. cbn [ws_run ws_step ws_start k_reg]. destruct data; [congruence|]. cbn.
  unfold notify_ready, listening. cbn. rewrite R. reflexivity.
Qed.
Lemma open_client registered topic acc addr data : data <> [] -> acc <> [] ->
  ws_run false registered (ws_start false topic) [OEvent true addr data [HRes acc true] false] =
  Ok (mkws HsOk Connected true ws_init None topic, [VOpen topic]).
Proof.
  intros D R. cbn [ws_run ws_step ws_start k_reg]. destruct data; [congruence|]. destruct acc; [congruence|]. reflexivity.
Qed.
Lemma same_topic server registered topic nonce os s tr p q : ws_conn server registered topic nonce os = Ok (s, tr) ->
  In (VOpen p) tr -> In (VClose q) tr -> p = q.
Proof.
  intros H. apply conn_inv in H. destruct H as (b & B & _). revert b B.
  assert (O : forall tr t c b, scan (POpen t c) tr = Some b -> (In (VOpen p) tr -> False) /\ (In (VClose q) tr -> t = q)).
  { clear. induction tr as [|x tr IH]; intros t c b H; cbn in *; [tauto|].
    destruct x; cbn in H; try discriminate; try destruct list_eq_dec; try discriminate;
      specialize (IH _ _ _ H); destruct IH as [I1 I2]; (split; [intros [X|X]; [discriminate|auto]|intros [X|X]; [inv X; auto; discriminate|auto]]). }
  assert (D : forall tr b, scan PDead tr = Some b -> In (VOpen p) tr -> False).
  { clear. induction tr as [|x tr IH]; intros b H; cbn in *; [tauto|]. destruct x; cbn in H; try discriminate; intros [X|X]; try discriminate; eauto. }
  induction tr as [|x tr IH]; intros b B Ho Hc; cbn in *; [tauto|].
  destruct x; cbn in B; try discriminate.
  - destruct Ho as [Ho|Ho]; [discriminate|]. destruct Hc as [Hc|Hc]; [discriminate|]. eauto.
  - destruct (O _ _ _ _ B) as [O1 O2]. destruct Ho as [Ho|Ho]; [inv Ho|tauto]. destruct Hc as [Hc|Hc]; [discriminate|auto].
  - exfalso. destruct Ho as [Ho|Ho]; [discriminate|]. eapply D; eauto.
  - destruct Ho as [Ho|Ho]; [discriminate|]. destruct Hc as [Hc|Hc]; [discriminate|]. eauto.
Qed.
Lemma server_delivers registered path key cu addr data cs gs :
  data <> [] -> registered path = true ->
  Forall (fun c => snd c <> []) cs -> Forall addr_ok cs ->
  Forall frame_ok (concat (map msg_frames gs)) -> Forall (fun g => g_op g <> 0 /\ g_op g <> 8) gs ->
  concat (map snd cs) = concat (map frame_bytes (concat (map msg_frames gs))) ->
  exists s, ws_conn true registered [] [] (OEvent true addr data [HReq path s_websocket key cu true] false :: map chunk_op cs) =
    Ok (s, [VSent (I101 key); VOpen path] ++ concat (map (msg_events path) gs)).
Proof.
  intros D R N A F G E. pose proof (open_server registered path key cu addr data D R) as O.
  destruct (deliver true registered (mkws HsOk Connected true ws_init None path) cs gs) as (s & X & _); auto.
  exists s. unfold ws_conn. assert (K : ws_run true registered (ws_start true [])
     ([OEvent true addr data [HReq path s_websocket key cu true] false] ++ map chunk_op cs) = Ok (s, [VSent (I101 key); VOpen path] ++ concat (map (msg_events path) gs))).
  { apply run_app. eexists _, _, _. split; [exact O|]. split; [exact X|reflexivity]. }
  cbn [app] in K. rewrite K. reflexivity.
Qed.
Lemma client_delivers registered topic nonce acc addr data cs gs :
  data <> [] -> acc <> [] ->
  Forall (fun c => snd c <> []) cs -> Forall addr_ok cs ->
  Forall frame_ok (concat (map msg_frames gs)) -> Forall (fun g => g_op g <> 0 /\ g_op g <> 8) gs ->
  concat (map snd cs) = concat (map frame_bytes (concat (map msg_frames gs))) ->
  exists s, ws_conn false registered topic nonce (OEvent true addr data [HRes acc true] false :: map chunk_op cs) =
    Ok (s, [VSent (IReq topic nonce); VOpen topic] ++ concat (map (msg_events topic) gs)).
Proof.
  intros D R N A F G E. pose proof (open_client registered topic acc addr data D R) as O.
  destruct (deliver false registered (mkws HsOk Connected true ws_init None topic) cs gs) as (s & X & _); auto.
  exists s. unfold ws_conn. assert (K : ws_run false registered (ws_start false topic)
     ([OEvent true addr data [HRes acc true] false] ++ map chunk_op cs) = Ok (s, [VOpen topic] ++ concat (map (msg_events topic) gs))).
  { apply run_app. eexists _, _, _. split; [exact O|]. split; [exact X|reflexivity]. }
  cbn [app] in K. rewrite K. reflexivity.
Qed.
Lemma server_close registered path key cu addr data cs gs a m d :
  data <> [] -> registered path = true ->
  Forall (fun c => snd c <> []) cs -> Forall addr_ok cs -> addr_ok (a, frame_bytes (mkframe true 8 m d)) ->
  Forall frame_ok (concat (map msg_frames gs)) -> Forall (fun g => g_op g <> 0 /\ g_op g <> 8) gs -> frame_ok (mkframe true 8 m d) ->
  concat (map snd cs) = concat (map frame_bytes (concat (map msg_frames gs))) ->
  exists s, ws_conn true registered [] [] (OEvent true addr data [HReq path s_websocket key cu true] false ::
      map chunk_op (cs ++ [(a, frame_bytes (mkframe true 8 m d))])) =
    Ok (s, ([VSent (I101 key); VOpen path] ++ concat (map (msg_events path) gs)) ++ [VSent close_frame; VClose path]) /\ k_st s = Closed.
Proof.
  intros D R N A A2 F G F2 E. pose proof (open_server registered path key cu addr data D R) as O.
  destruct (deliver_close true registered (mkws HsOk Connected true ws_init None path) cs gs a m d) as (s & X & S & _); auto.
  exists s. split; [|auto]. unfold ws_conn. assert (K : ws_run true registered (ws_start true [])
     ([OEvent true addr data [HReq path s_websocket key cu true] false] ++ (map chunk_op cs ++ [chunk_op (a, frame_bytes (mkframe true 8 m d))])) =
      Ok (s, [VSent (I101 key); VOpen path] ++ concat (map (msg_events path) gs) ++ [VSent close_frame; VClose path])).
  { apply run_app. eexists _, _, _. split; [exact O|]. split; [exact X|reflexivity]. }
  rewrite map_app. cbn [app map] in K. cbn [map]. rewrite K. reflexivity.
Qed.
