(** C244-C253: the listening socket (net_io/socket_acceptor.cc) and the UDP service (net_io/udp_io). *)
From Verif.Model Require Import Common IpAddress FdEvents Acceptor UdpService.
From Verif.Spec Require Import AcceptSpec.
From Verif.Proofs Require Import Tac IpProofs3 AcceptProofs UdpProofs.
Local Open Scope Z_scope.

Definition home : list Z := sockaddr_in [127; 0; 0; 1] 80.
Definition six : list Z := sockaddr_in6 [0; 0; 0; 0] [32; 1; 13; 184; 0; 0; 0; 0; 0; 0; 0; 0; 0; 0; 0; 1] 443 [0; 0; 0; 0].
Lemma home_ok : v4_addr home (mkEP [127; 0; 0; 1] 80).
Proof. exists [127; 0; 0; 1], 80. repeat split; lia. Qed.
Lemma six_ok : v6_addr six (mkEP [32; 1; 13; 184; 0; 0; 0; 0; 0; 0; 0; 0; 0; 0; 0; 1] 443).
Proof. exists [0; 0; 0; 0], [32; 1; 13; 184; 0; 0; 0; 0; 0; 0; 0; 0; 0; 0; 0; 1], 443, [0; 0; 0; 0]. repeat split; lia. Qed.
Definition junk16 : list Z := repeat 7 16.

(** C244. Every connection the kernel took is handed to the owner exactly once, in order of arrival, or is reset when the acceptor is
    destroyed, or still waits: whatever calls, failures and clients come in whatever order. *)
Theorem C244_each_once_in_order : forall e s0 xs s o, create e = Ok s0 -> Forall op_ok xs -> run s0 xs = Ok (s, o) ->
  queued o = handed o ++ resets o ++ map fst (k_backlog s).
Proof. intros e s0 xs s o C F R. destruct (created e s0 C) as [G B]. pose proof (run_balance xs s0 s o G F R) as H. rewrite B in H. exact H. Qed.
Example C244_nonvacuous : exists s0 s o, create (Env true true true) = Ok s0 /\
  run s0 [AConnect (9%nat, home); AStart true; AConnect (1%nat, home); AConnect (2%nat, six); APoll false junk16; APoll true junk16; AStop; AConnect (3%nat, home); ADestroy; AConnect (4%nat, home)] = Ok (s, o) /\
  handed o = [1%nat] /\ resets o = [2%nat; 3%nat] /\ refused o = [9%nat; 4%nat] /\ queued o = [1%nat; 2%nat; 3%nat].
Proof. eexists _, _, _. split; [reflexivity|]. split; [reflexivity|]. repeat split. Qed.

(** C245. While it listens, every poll at which accept succeeds hands over the longest waiting connection; a failing accept loses nothing. *)
Theorem C245_progress : forall e s0 xs s o ps, create e = Ok s0 -> Forall op_ok xs -> run s0 xs = Ok (s, o) -> a_listening s = true -> Forall (fun p => length (snd p) = 16%nat) ps ->
  exists s' o', run s (map (fun p => APoll (fst p) (snd p)) ps) = Ok (s', o') /\
    handed o' = map fst (firstn (length (filter fst ps)) (k_backlog s)) /\ k_backlog s' = skipn (length (filter fst ps)) (k_backlog s) /\ a_listening s' = true.
Proof.
  intros e s0 xs s o ps C F R L P. destruct (created e s0 C) as [G _]. pose proof (run_good xs s0 s o G F R) as G'.
  assert (K : k_open s = true) by (destruct (k_open s) eqn:K; [reflexivity|destruct G' as (_ & _ & G3 & _); destruct (G3 K); congruence]).
  assert (N : forall l, length (filter fst l) = successes l) by (induction l as [|[[|] j] l IH]; cbn; auto).
  destruct (polls ps s G' K L P) as (s' & o' & A1 & A2 & A3 & A4 & _). rewrite N. exists s', o'. auto.
Qed.
Example C245_nonvacuous : exists s0 s o s' o', create (Env true true true) = Ok s0 /\ run s0 [AStart true; AConnect (1%nat, home); AConnect (2%nat, home); AConnect (3%nat, home)] = Ok (s, o) /\
  a_listening s = true /\ run s [APoll true junk16; APoll false junk16; APoll true junk16] = Ok (s', o') /\ handed o' = [1%nat; 2%nat] /\ map fst (k_backlog s') = [3%nat].
Proof. eexists _, _, _, _, _. repeat (split; [reflexivity|]). reflexivity. Qed.

(** C246 (refuted). The owner is told the client's address. *)
Definition C246_statement : Prop := forall b e junk, v4_addr b e \/ v6_addr b e -> length junk = 16%nat -> peer_endpoint b junk = Ok e.
Theorem C246_statement_refuted : ~ C246_statement.
Proof. intros H. specialize (H six _ junk16 (or_intror six_ok) eq_refl). vm_compute in H. discriminate H. Qed.
(** It is told an IPv4 client's address; for an IPv6 client always an empty one. *)
Theorem C246_v4_partial : forall b e junk, length junk = 16%nat ->
  (v4_addr b e -> peer_endpoint b junk = Ok e) /\ (v6_addr b e -> peer_endpoint b junk = Ok (mkEP [] 0)).
Proof. intros b e junk J. split; intros H; [now apply peer_v4|now apply (peer_v6 b e)]. Qed.
Example C246_nonvacuous : peer_endpoint home junk16 = Ok (mkEP [127; 0; 0; 1] 80) /\ peer_endpoint six junk16 = Ok (mkEP [] 0).
Proof. split; reflexivity. Qed.

(** C247 (refuted). After StopListen clients that connect are refused. *)
Definition C247_statement : Prop := forall e s0 s1 o1 s' o c, create e = Ok s0 -> run s0 [AStart true] = Ok (s1, o1) -> run s1 [AStop; AConnect c] = Ok (s', o) -> refused o = [fst c].
Theorem C247_statement_refuted : ~ C247_statement.
Proof. intros H. specialize (H (Env true true true) _ _ _ _ _ (1%nat, home) eq_refl eq_refl eq_refl). vm_compute in H. discriminate H. Qed.
(** The kernel goes on taking connections; none is handed over until StartListen, and they hang until the acceptor is destroyed. *)
Theorem C247_hang_partial : forall e s0 xs s o cs n, create e = Ok s0 -> Forall op_ok xs -> run s0 xs = Ok (s, o) -> a_listening s = true -> Forall (fun c => peer_addr (snd c)) cs ->
  exists s' o', run s (AStop :: map AConnect cs ++ repeat (APoll true (repeat 0 16)) n ++ [ADestroy]) = Ok (s', o') /\
    queued o' = map fst cs /\ refused o' = [] /\ handed o' = [] /\ resets o' = map fst (k_backlog s ++ cs).
Proof.
  intros e s0 xs s o cs n C F R L P. destruct (created e s0 C) as [G _]. pose proof (run_good xs s0 s o G F R) as G'.
  assert (K : k_open s = true) by (destruct (k_open s) eqn:K; [reflexivity|destruct G' as (_ & _ & G3 & _); destruct (G3 K); congruence]).
  pose proof G' as (G1 & G2 & G3 & G4). specialize (G2 L).
  set (t := Acceptor false false true (k_backlog s) true).
  assert (S1 : run s [AStop] = Ok (t, [])) by (cbn [run]; unfold step; rewrite K; cbn; unfold StopListen; rewrite L, G2, K; reflexivity).
  assert (Gt : good t) by (unfold t; repeat split; cbn; auto; discriminate).
  pose proof (connects cs t Gt eq_refl eq_refl P) as S2. cbn [t a_listening a_reg k_listen k_backlog k_open] in S2.
  set (t2 := Acceptor false false true (k_backlog s ++ cs) true) in *.
  assert (S3g : forall z k, run t2 (repeat (APoll true z) k) = Ok (t2, [])) by (intros z k; induction k as [|k IH]; [reflexivity|]; change (repeat (APoll true z) (S k)) with (APoll true z :: repeat (APoll true z) k); cbn [run]; change (Acceptor.step t2 (APoll true z)) with (@Ok (acceptor * list obs) (t2, [])); cbn [obind]; rewrite IH; reflexivity).
  pose proof (S3g (repeat 0 16) n) as S3.
  assert (S4 : run t2 [ADestroy] = Ok (Acceptor false false false [] false, map (fun c => VReset (fst c)) (k_backlog s ++ cs))) by (cbn; now rewrite app_nil_r).
  eexists _, _. split.
  { change (AStop :: map AConnect cs ++ repeat (APoll true (repeat 0 16)) n ++ [ADestroy]) with ([AStop] ++ map AConnect cs ++ repeat (APoll true (repeat 0 16)) n ++ [ADestroy]).
    eapply run_app; [exact S1|]. eapply run_app; [exact S2|]. eapply run_app; [exact S3|exact S4]. }
  cbn [app]. unfold queued, refused, handed, resets. rewrite !fm_app. destruct (others_map (k_backlog s ++ cs)) as [O1 O2]. pose proof (resets_map (k_backlog s ++ cs)) as O3.
  unfold queued, handed, resets in O1, O2, O3. rewrite O1, O2, O3.
  assert (Q : forall l : list conn, flat_map (fun v => match v with VQueued id => [id] | _ => [] end) (map (fun c => VQueued (fst c)) l) = map fst l) by (induction l; cbn; congruence).
  assert (Q1 : forall l : list conn, flat_map (fun v => match v with VHanded id _ => [id] | _ => [] end) (map (fun c => VQueued (fst c)) l) = []) by (induction l; cbn; congruence).
  assert (Q2 : forall l : list conn, flat_map (fun v => match v with VReset id => [id] | _ => [] end) (map (fun c => VQueued (fst c)) l) = []) by (induction l; cbn; congruence).
  assert (Q3 : forall l : list conn, flat_map (fun v => match v with VRefused id => [id] | _ => [] end) (map (fun c => VQueued (fst c)) l) = []) by (induction l; cbn; congruence).
  assert (Q4 : forall l : list conn, flat_map (fun v => match v with VRefused id => [id] | _ => [] end) (map (fun c => VReset (fst c)) l) = []) by (induction l; cbn; congruence).
  rewrite Q, Q1, Q2, Q3, Q4. cbn. now rewrite app_nil_r.
Qed.
Example C247_nonvacuous : exists s0 s o, create (Env true true true) = Ok s0 /\ run s0 [AStart true; AConnect (1%nat, home)] = Ok (s, o) /\ a_listening s = true /\ peer_addr home.
Proof. eexists _, _, _. repeat (split; [reflexivity|]). eexists. left. exact home_ok. Qed.

(** C248. Starting twice or stopping twice changes nothing; after a restart the connections that came in between are handed over, in order. *)
Theorem C248_restart : forall e s0 xs s o cs, create e = Ok s0 -> Forall op_ok xs -> run s0 xs = Ok (s, o) -> a_listening s = true -> Forall (fun c => peer_addr (snd c)) cs ->
  (forall ok, StartListen s ok = (s, true)) /\ StopListen (StopListen s) = StopListen s /\
  exists s' o', run s (AStop :: map AConnect cs ++ [AStart true] ++ repeat (APoll true (repeat 0 16)) (length (k_backlog s) + length cs)) = Ok (s', o') /\
    handed o' = map fst (k_backlog s ++ cs) /\ k_backlog s' = [].
Proof.
  intros e s0 xs s o cs C F R L P. destruct (created e s0 C) as [G _]. pose proof (run_good xs s0 s o G F R) as G'.
  assert (K : k_open s = true) by (destruct (k_open s) eqn:K; [reflexivity|destruct G' as (_ & _ & G3 & _); destruct (G3 K); congruence]).
  pose proof G' as (G1 & G2 & G3 & G4). specialize (G2 L).
  split; [intros ok; unfold StartListen; now rewrite L|]. split; [unfold StopListen; rewrite L; reflexivity|].
  set (t := Acceptor false false true (k_backlog s) true).
  assert (S1 : run s [AStop] = Ok (t, [])) by (cbn [run]; unfold step; rewrite K; cbn; unfold StopListen; rewrite L, G2, K; reflexivity).
  assert (Gt : good t) by (unfold t; repeat split; cbn; auto; discriminate).
  pose proof (connects cs t Gt eq_refl eq_refl P) as S2. cbn [t a_listening a_reg k_listen k_backlog k_open] in S2.
  set (t3 := Acceptor true true true (k_backlog s ++ cs) true).
  assert (S3 : run (Acceptor false false true (k_backlog s ++ cs) true) [AStart true] = Ok (t3, [VStarted true])) by reflexivity.
  assert (G3' : good t3) by (unfold t3; split; [reflexivity|]; split; [reflexivity|]; split; [discriminate|]; cbn; apply Forall_app; auto).
  destruct (polls_n (length (k_backlog s) + length cs) t3 G3' eq_refl eq_refl) as (s' & o4 & S4 & H1 & H2).
  cbn [t3 k_backlog] in H1, H2. rewrite <- app_length, firstn_all in H1. rewrite <- app_length, skipn_all in H2.
  eexists _, _. split.
  { change (AStop :: map AConnect cs ++ [AStart true] ++ repeat (APoll true (repeat 0 16)) (length (k_backlog s) + length cs)) with ([AStop] ++ map AConnect cs ++ [AStart true] ++ repeat (APoll true (repeat 0 16)) (length (k_backlog s) + length cs)).
    eapply run_app; [exact S1|]. eapply run_app; [exact S2|]. eapply run_app; [exact S3|exact S4]. }
  split; [|exact H2]. unfold handed in *. rewrite !fm_app, H1. cbn [app flat_map].
  assert (Q1 : forall l : list conn, flat_map (fun v => match v with VHanded id _ => [id] | _ => [] end) (map (fun c => VQueued (fst c)) l) = []) by (induction l; cbn; congruence).
  now rewrite Q1.
Qed.
Example C248_nonvacuous : exists s0 s o s' o', create (Env true true true) = Ok s0 /\ run s0 [AStart true; AConnect (1%nat, home)] = Ok (s, o) /\ a_listening s = true /\
  run s [AStop; AConnect (2%nat, home); AStart true; APoll true junk16; APoll true junk16] = Ok (s', o') /\ handed o' = [1%nat; 2%nat].
Proof. eexists _, _, _, _, _. repeat (split; [reflexivity|]). reflexivity. Qed.

(** C249 (refuted). A server that cannot listen on its address reports a failure. *)
Definition C249_statement : Prop := forall e, exists s, serve e = Ok s.
Theorem C249_statement_refuted : ~ C249_statement.
Proof. intros H. destruct (H (Env true false true)) as [s E]. discriminate E. Qed.
(** It ends the process, exactly when socket, bind or listen fails; otherwise it listens. The acceptor itself reports a failing listen,
    takes no connection, and can be started again. *)
Theorem C249_abort_partial : (forall e, if e_socket e && e_bind e && e_listen e then exists s, serve e = Ok s /\ a_listening s = true else serve e = CheckFail) /\
  (forall e s0, create e = Ok s0 -> exists s1, StartListen s0 false = (s1, false) /\ a_listening s1 = false /\ (forall junk, step s1 (APoll true junk) = Ok (s1, [])) /\
     exists s2, StartListen s1 true = (s2, true) /\ a_listening s2 = true).
Proof.
  split.
  - intros [[|] [|] [|]]; cbn; try reflexivity. eexists. split; reflexivity.
  - intros e s0 C. unfold create in C. destruct (_ && _); inv C. eexists. split; [reflexivity|]. repeat split. eexists. split; reflexivity.
Qed.
Example C249_nonvacuous : serve (Env true true true) = Ok (Acceptor true true true [] true) /\ serve (Env true true false) = CheckFail.
Proof. split; reflexivity. Qed.

(** C250 (refuted). The UDP service reports every datagram with its whole payload. *)
Definition buffers : list (list Z) := repeat (repeat 0 128) 100.
Definition C250_statement : Prop := forall q es, Forall2 (fun d e => v4_addr (snd d) e \/ v6_addr (snd d) e) q es ->
  exists b, HandleRead (length q) (repeat None (length q)) q buffers = Ok (combine (map fst q) es, [], b).
(** Datagrams are reported in order with their senders, payloads cut to 1920 bytes; what an error interrupts waits for the next event. *)
Theorem C250_cut_partial : forall fuel cuts q es bufs, Forall2 (fun d e => v4_addr (snd d) e \/ v6_addr (snd d) e) q es -> Forall (fun b => length b = 128%nat) bufs -> length bufs = 100%nat ->
  exists k b, HandleRead fuel cuts q bufs = Ok (combine (map (fun d => firstn (Z.to_nat 1920) (fst d)) (firstn k q)) (firstn k es), skipn k q, b) /\ (k <= length q)%nat /\
    ((length q <= fuel)%nat -> (length q <= length cuts)%nat -> Forall (eq None) cuts -> k = length q).
Proof. exact handle_read_ok. Qed.
Theorem C250_statement_refuted : ~ C250_statement.
Proof.
  intros H. destruct (H [(repeat 1 (Z.to_nat 1921), home)] [mkEP [127; 0; 0; 1] 80]) as [b E]; [constructor; [left; exact home_ok|constructor]|].
  destruct (C250_cut_partial 1 [None] [(repeat 1 (Z.to_nat 1921), home)] [mkEP [127; 0; 0; 1] 80] buffers) as (k & b' & E' & K & _).
  - constructor; [left; exact home_ok|constructor].
  - apply Forall_forall. intros x I. apply repeat_spec in I. now subst.
  - reflexivity.
  - change (HandleRead 1 [None] [(repeat 1 (Z.to_nat 1921), home)] buffers = Ok (combine (map fst [(repeat 1 (Z.to_nat 1921), home)]) [mkEP [127; 0; 0; 1] 80], [], b)) in E.
    rewrite E in E'. destruct k as [|[|k]]; [discriminate E'| |cbn in K; lia]. apply (f_equal (fun x => match x with Ok ((p, _) :: _, _, _) => Z.of_nat (length p) | _ => 0 end)) in E'. vm_compute in E'. discriminate E'.
Qed.
Example C250_nonvacuous : match HandleRead 2 [None; None] [([1; 2], home); ([3], six)] buffers with
  | Ok (r, q, _) => r = [([1; 2], mkEP [127; 0; 0; 1] 80); ([3], mkEP [32; 1; 13; 184; 0; 0; 0; 0; 0; 0; 0; 0; 0; 0; 0; 1] 443)] /\ q = [] | _ => False end.
Proof. vm_compute. split; reflexivity. Qed.

(** C251 (refuted). A UDP service that was stopped can be started again. The kernel gives out the lowest free descriptor number, here the one that
    StopService freed. *)
Definition C251_statement : Prop := forall limit l fd o1 o2, 0 <= fd < limit -> o1 <> o2 ->
  exists s, runs limit st0 (start_ops l fd o1 None ++ stop_ops fd ++ start_ops l fd o2 (Some o1)) = Ok s /\ fdopen s fd = true.
Lemma runs_app limit xs : forall s ys, runs limit s (xs ++ ys) = obind (runs limit s xs) (fun s => runs limit s ys).
Proof. induction xs as [|x xs IH]; intros s ys; cbn [runs app obind]; [reflexivity|]. destruct (FdEvents.step limit s x) as [[t p]| |]; cbn [obind]; auto. Qed.
(** Starting it again always ends the process; a single start works, and the loop watches the socket. *)
Theorem C251_abort_partial : forall limit l fd o1 o2, 0 <= fd < limit -> o1 <> o2 ->
  (exists s, runs limit st0 (start_ops l fd o1 None) = Ok s /\ fdopen s fd = true /\ evs s fd = Some o1 /\ ep s l fd = Some (to_epoll_event EV_READ)) /\
  runs limit st0 (start_ops l fd o1 None ++ stop_ops fd ++ start_ops l fd o2 (Some o1)) = CheckFail.
Proof.
  intros limit l fd o1 o2 H N. destruct (started limit l fd o1 st0 H eq_refl eq_refl eq_refl eq_refl) as (s & R & A1 & A2 & A3 & A4 & A5 & A6). split; [exists s; auto|].
  assert (BD : (fd <? 0) || (limit <=? fd) = false) by (apply orb_false_intro; [apply Z.ltb_ge|apply Z.leb_gt]; lia).
  rewrite runs_app, R. cbn [obind]. unfold stop_ops, start_ops. cbn [app runs]. cbn [FdEvents.step obind]. unfold with_obj, sys_close, set_obj, upd. cbn [objs evs ep fdopen gen fired].
  rewrite (proj2 (Nat.eqb_neq o1 o2)) by auto. rewrite A3. cbn [f_alive f_own f_fd f_event f_et f_watch f_gen obind runs objs]. rewrite (proj2 (Nat.eqb_neq o2 o1)), Nat.eqb_refl by auto. cbn [f_alive f_watch].
  unfold mgr_add. cbn [f_fd evs]. rewrite BD, A2. reflexivity.
Qed.
Theorem C251_statement_refuted : ~ C251_statement.
Proof. intros H. destruct (H 10 0%nat 3 0%nat 1%nat) as (s & E & _); [lia|discriminate|]. destruct (C251_abort_partial 10 0%nat 3 0%nat 1%nat) as [_ C]; [lia|discriminate|]. rewrite C in E. discriminate E. Qed.
Example C251_nonvacuous : exists s, runs 10 st0 (start_ops 0 3 0 None) = Ok s /\ fdopen s 3 = true /\ fdopen s 4 = false.
Proof. eexists. split; [reflexivity|]. split; reflexivity. Qed.

(** C252 (refuted). Stopping and destroying a UDP service closes no descriptor but its own: one that somebody else opened in between stays open. *)
Definition C252_statement : Prop := forall limit l fd o s, 0 <= fd < limit ->
  runs limit st0 (start_ops l fd o None ++ stop_ops fd ++ [OOpen fd]) = Ok s ->
  (exists s', runs limit s (stop_ops fd) = Ok s' /\ fdopen s' fd = true) /\ (exists s', runs limit s (end_ops o) = Ok s' /\ fdopen s' fd = true).
(** Both a second stop and the destruction close it. *)
Theorem C252_closes_others_partial : forall limit l fd o, 0 <= fd < limit -> exists s,
  runs limit st0 (start_ops l fd o None ++ stop_ops fd ++ [OOpen fd]) = Ok s /\ fdopen s fd = true /\
  (exists s', runs limit s (stop_ops fd) = Ok s' /\ fdopen s' fd = false) /\ (exists s', runs limit s (end_ops o) = Ok s' /\ fdopen s' fd = false /\ forall f, f <> fd -> fdopen s' f = fdopen s f).
Proof.
  intros limit l fd o H. destruct (started limit l fd o st0 H eq_refl eq_refl eq_refl eq_refl) as (s & R & A1 & A2 & A3 & A4 & A5 & A6).
  rewrite runs_app, R. cbn [obind]. unfold stop_ops, end_ops. cbn [app runs]. cbn [FdEvents.step obind]. eexists. split; [reflexivity|].
  unfold sys_close, upd. cbn [objs evs ep fdopen gen fired]. rewrite !Z.eqb_refl. split; [reflexivity|]. split.
  - eexists. split; [reflexivity|]. cbn [fdopen]. now rewrite Z.eqb_refl.
  - unfold with_obj. cbn [objs]. rewrite A3. cbn [f_alive f_own f_fd obind set_obj]. eexists. split; [reflexivity|]. unfold upd, sys_close. cbn. unfold upd. rewrite !Z.eqb_refl. split; [reflexivity|].
    intros f N. now rewrite !(proj2 (Z.eqb_neq f fd)) by auto.
Qed.
Theorem C252_statement_refuted : ~ C252_statement.
Proof.
  intros H. destruct (C252_closes_others_partial 10 0%nat 3 0%nat) as (s & R & _ & (s' & E & F) & _); [lia|]. destruct (H 10 0%nat 3 0%nat s) as [(s2 & E2 & F2) _]; [lia|exact R|]. rewrite E in E2. inv E2. congruence.
Qed.
Example C252_nonvacuous : exists s, runs 10 st0 (start_ops 0 3 0 None ++ stop_ops 3 ++ [OOpen 3]) = Ok s /\ fdopen s 3 = true.
Proof. eexists. split; reflexivity. Qed.

(** C253 (refuted). When a UDP service is gone its descriptor number can be used again by any other socket in a loop. *)
Definition C253_statement : Prop := forall limit l l2 fd o o2 stops, 0 <= fd < limit -> o <> o2 -> stops = [] \/ stops = stop_ops fd ->
  exists s, runs limit st0 (start_ops l fd o None ++ stops ++ end_ops o ++ [OOpen fd; ONew o2 fd EV_READ true; OInstall l2 o2 true]) = Ok s.
(** The next socket with that number that is installed in any loop ends the process, whether the service was stopped or not. *)
Theorem C253_abort_partial : forall limit l l2 fd o o2 stops, 0 <= fd < limit -> o <> o2 -> stops = [] \/ stops = stop_ops fd ->
  runs limit st0 (start_ops l fd o None ++ stops ++ end_ops o ++ [OOpen fd; ONew o2 fd EV_READ true; OInstall l2 o2 true]) = CheckFail.
Proof.
  intros limit l l2 fd o o2 stops H N S. destruct (started limit l fd o st0 H eq_refl eq_refl eq_refl eq_refl) as (s & R & A1 & A2 & A3 & A4 & A5 & A6).
  assert (BD : (fd <? 0) || (limit <=? fd) = false) by (apply orb_false_intro; [apply Z.ltb_ge|apply Z.leb_gt]; lia).
  rewrite runs_app, R. cbn [obind]. destruct S as [->| ->]; unfold stop_ops, end_ops; cbn [app runs]; cbn [FdEvents.step obind]; unfold with_obj, sys_close, set_obj, upd; cbn [objs evs ep fdopen gen fired];
    rewrite A3; cbn [f_alive f_own f_fd f_event f_et f_watch f_gen obind runs objs]; rewrite Nat.eqb_refl; cbn [f_alive f_watch]; unfold mgr_add; cbn [f_fd evs]; rewrite BD, A2; reflexivity.
Qed.
Theorem C253_statement_refuted : ~ C253_statement.
Proof. intros H. destruct (H 10 0%nat 1%nat 3 0%nat 1%nat []) as (s & E); [lia|discriminate|auto|]. rewrite C253_abort_partial in E by (auto; lia). discriminate E. Qed.
Example C253_nonvacuous : exists s, runs 10 st0 [OOpen 3; ONew 1%nat 3 EV_READ true; OInstall 1%nat 1%nat true] = Ok s.
Proof. eexists. reflexivity. Qed.

Print Assumptions C244_each_once_in_order.
Print Assumptions C245_progress.
Print Assumptions C246_statement_refuted.
Print Assumptions C246_v4_partial.
Print Assumptions C247_statement_refuted.
Print Assumptions C247_hang_partial.
Print Assumptions C248_restart.
Print Assumptions C249_statement_refuted.
Print Assumptions C249_abort_partial.
Print Assumptions C250_cut_partial.
Print Assumptions C250_statement_refuted.
Print Assumptions C251_abort_partial.
Print Assumptions C251_statement_refuted.
Print Assumptions C252_closes_others_partial.
Print Assumptions C252_statement_refuted.
Print Assumptions C253_abort_partial.
Print Assumptions C253_statement_refuted.
