(** C169 - C181: websocket connections and clients. *)
From Verif.Model Require Import Common Bytes Websocket WsConn WsClientLife.
From Verif.Spec Require Import WsSpec WsConnSpec.
From Verif.Proofs Require WsConnProofs WsConnProofs2 WsConnProofs3 WsClientLifeProofs Tac.
Open Scope Z_scope.

Definition everything (_ : list Z) : bool := true.
(** A handshake: the request for [path] that llhttp takes for a plain request. *)
Definition hello (path : list Z) : op := OEvent true 4096 [71] [HReq path s_websocket [65] false true] false.
Definition welcome : op := OEvent true 4096 [72] [HRes [65] true] false.
Definition input (l : list Z) : op := OEvent true 4096 l [] false.

(** C169. Whatever the peer, the parser and the network do: OnOpen at most once; every message goes to the opened topic,
    after OnOpen; before OnOpen there was no callback. *)
Theorem C169_callback_order : forall server registered topic nonce os s tr,
  ws_conn server registered topic nonce os = Ok (s, tr) ->
  (how_many is_open tr <= 1)%nat /\
  (forall pre p op d post, tr = pre ++ VMsg p op d :: post -> In (VOpen p) pre) /\
  (forall pre p post, tr = pre ++ VOpen p :: post -> forallb (fun e => negb (is_callback e)) pre = true).
Proof. exact WsConnProofs.callback_order. Qed.
Print Assumptions C169_callback_order.

(** After an event in which OnClose was called there is no callback any more. *)
Theorem C169_silent_after_close : forall server registered topic nonce os1 os2 s1 tr1 s2 tr2 p,
  ws_conn server registered topic nonce os1 = Ok (s1, tr1) -> In (VClose p) tr1 ->
  ws_run server registered s1 os2 = Ok (s2, tr2) ->
  forallb (fun e => negb (is_callback e)) tr2 = true.
Proof. exact (fun a b c n d e f g h i j => WsConnProofs.closed_silent a b c n d e f g h i j). Qed.
Print Assumptions C169_silent_after_close.

Example C169_nonvacuous : exists s,
  ws_conn true everything [] [] [hello [47]; input [129; 1; 97]; input [136; 0]; input [129; 1; 98]] =
  Ok (s, [VSent (I101 [65]); VOpen [47]; VMsg [47] 1 [97]; VSent close_frame; VClose [47]]).
Proof. eexists. vm_compute. reflexivity. Qed.

(** C170 (full statement): a valid upgrade request for a registered topic is answered with 101 and opens the websocket;
    [ms], [err]: how llhttp, as documented, parses it. *)
Definition C170_statement : Prop := forall registered path key addr data ms err s tr,
  registered path = true -> data <> [] -> ms = [HReq path s_websocket key true true] ->
  llhttp_says (OEvent true addr data ms err) ->
  ws_conn true registered [] [] [OEvent true addr data ms err] = Ok (s, tr) -> In (VOpen path) tr.
(** Refuted: llhttp pauses at the upgrade, which Parse takes for an error: 101, 400 and OnClose. *)
Theorem C170_statement_refuted : ~ C170_statement.
Proof.
  intro H. specialize (H everything [47] [65] 4096 [71] [HReq [47] s_websocket [65] true true] true).
  assert (L : llhttp_says (OEvent true 4096 [71] [HReq [47] s_websocket [65] true true] true)).
  { intros pre m post E _. destruct pre as [|x pre]; [inversion E; auto|]. destruct pre; discriminate. }
  specialize (H (fst (match ws_conn true everything [] [] [OEvent true 4096 [71] [HReq [47] s_websocket [65] true true] true] with Ok x => x | _ => (ws_start true [], []) end))
                [VSent (I101 [65]); VSent I400; VClose [47]] eq_refl ltac:(discriminate) eq_refl L eq_refl).
  cbn in H. intuition discriminate.
Qed.
Print Assumptions C170_statement_refuted.
(** More: with llhttp as documented, a client never opens, and a server only opens for requests without
    "Connection: upgrade". *)
Theorem C170_never_opens : forall server registered topic nonce os s tr p,
  ws_conn server registered topic nonce os = Ok (s, tr) -> In (VOpen p) tr ->
  Forall (side_ok server) os -> Forall llhttp_says os ->
  server = true /\ exists ok a l ms key, In (OEvent ok a l ms false) os /\ In (HReq p s_websocket key false true) ms.
Proof. exact WsConnProofs2.llhttp_opened. Qed.
Print Assumptions C170_never_opens.
(** What is missing is only that error: were the parse reported as a success, the websocket would open, on both sides. *)
Theorem C170_server_opens_partial : forall registered path key cu addr data, data <> [] -> registered path = true ->
  exists s, ws_conn true registered [] [] [OEvent true addr data [HReq path s_websocket key cu true] false] =
    Ok (s, [VSent (I101 key); VOpen path]) /\ k_st s = Connected.
Proof.
  intros registered path key cu addr data D R. unfold ws_conn. rewrite WsConnProofs3.open_server by auto. eexists. split; reflexivity.
Qed.
Print Assumptions C170_server_opens_partial.
Theorem C170_client_opens_partial : forall registered topic nonce acc addr data, data <> [] -> acc <> [] ->
  exists s, ws_conn false registered topic nonce [OEvent true addr data [HRes acc true] false] =
    Ok (s, [VSent (IReq topic nonce); VOpen topic]) /\ k_st s = Connected.
Proof.
  intros registered topic nonce acc addr data D R. unfold ws_conn. rewrite WsConnProofs3.open_client by auto. eexists. split; reflexivity.
Qed.
Print Assumptions C170_client_opens_partial.
Example C170_nonvacuous : llhttp_says (hello [47]) /\ side_ok true (hello [47]) /\
  exists s, ws_conn true everything [] [] [hello [47]] = Ok (s, [VSent (I101 [65]); VOpen [47]]).
Proof.
  split; [|split; [repeat constructor|eexists; vm_compute; reflexivity]].
  intros pre m post E W. destruct pre as [|x pre]; [inversion E; subst; discriminate|]. destruct pre; discriminate.
Qed.

(** C171 (full statement): OnClose is called at most once. *)
Definition C171_statement : Prop := forall server registered topic nonce os s tr,
  ws_conn server registered topic nonce os = Ok (s, tr) -> (how_many is_close tr <= 1)%nat.
(** Refuted: two CLOSE frames in one read. *)
Theorem C171_statement_refuted : ~ C171_statement.
Proof.
  intro H. assert (K : exists s, ws_conn true everything [] [] [hello [47]; input [136; 0; 136; 0]] =
    Ok (s, [VSent (I101 [65]); VOpen [47]; VSent close_frame; VClose [47]; VSent close_frame; VClose [47]])) by (eexists; vm_compute; reflexivity).
  destruct K as [s K]. apply H in K. vm_compute in K. lia.
Qed.
Print Assumptions C171_statement_refuted.
(** The same with one CLOSE frame and the end of the stream in one event. *)
Theorem C171_close_and_eof : exists s,
  ws_conn true everything [] [] [hello [47]; OEvent false 4096 [136; 0] [] false] =
  Ok (s, [VSent (I101 [65]); VOpen [47]; VSent close_frame; VClose [47]; VClose [47]]).
Proof. eexists. vm_compute. reflexivity. Qed.
Print Assumptions C171_close_and_eof.
(** If no event comes with a failed read or write, OnClose is called at most once, or once per CLOSE frame answered. *)
Theorem C171_close_count_partial : forall server registered topic nonce os s tr,
  ws_conn server registered topic nonce os = Ok (s, tr) -> no_failure os ->
  (how_many is_close tr <= Nat.max 1 (how_many is_close_frame tr))%nat.
Proof. exact WsConnProofs2.close_count. Qed.
Print Assumptions C171_close_count_partial.
(** And a connection never ends unnoticed: when it is closed (and its topic is known) OnClose was called, or, on a client
    whose Send failed, the error callback. *)
Theorem C171_close_reported_partial : forall server registered topic nonce os s tr,
  ws_conn server registered topic nonce os = Ok (s, tr) -> k_st s = Closed ->
  (server = true -> registered (k_path s) = true) -> In VBroken tr \/ exists p, In (VClose p) tr.
Proof. exact WsConnProofs2.closed_told. Qed.
Print Assumptions C171_close_reported_partial.
Example C171_nonvacuous : exists s, ws_conn false everything [47] [7] [welcome; input [136; 0]] =
  Ok (s, [VSent (IReq [47] [7]); VOpen [47]; VSent close_frame; VClose [47]]) /\ k_st s = Closed /\ no_failure [welcome; input [136; 0]].
Proof. eexists. split; [vm_compute; reflexivity|]. split; reflexivity. Qed.

(** C172 (full statement): after the peer's CLOSE was answered no message is delivered. *)
Definition C172_statement : Prop := forall server registered topic nonce os s tr pre post p op d,
  ws_conn server registered topic nonce os = Ok (s, tr) -> no_sends os ->
  tr = pre ++ VSent close_frame :: post -> ~ In (VMsg p op d) post.
(** Refuted: CLOSE "x" and TEXT "a" in one read deliver TEXT "xa". *)
Theorem C172_statement_refuted : ~ C172_statement.
Proof.
  intro H. assert (K : exists s, ws_conn true everything [] [] [hello [47]; input [136; 1; 120; 129; 1; 97]] =
    Ok (s, [VSent (I101 [65]); VOpen [47]] ++ VSent close_frame :: [VClose [47]; VMsg [47] 1 [120; 97]])) by (eexists; vm_compute; reflexivity).
  destruct K as [s K]. apply (H _ _ _ _ _ _ _ _ _ [47] 1 [120; 97] K eq_refl eq_refl). cbn. auto 10.
Qed.
Print Assumptions C172_statement_refuted.
(** No later read delivers anything. *)
Theorem C172_later_reads_partial : forall server registered topic nonce os1 os2 s1 tr1 s2 tr2 p,
  ws_conn server registered topic nonce os1 = Ok (s1, tr1) -> In (VClose p) tr1 ->
  ws_run server registered s1 os2 = Ok (s2, tr2) -> forall q op d, ~ In (VMsg q op d) tr2.
Proof.
  intros server registered topic nonce os1 os2 s1 tr1 s2 tr2 p H C H2 q op d X.
  pose proof (C169_silent_after_close _ _ _ _ _ _ _ _ _ _ _ H C H2) as S. rewrite forallb_forall in S. specialize (S _ X). discriminate.
Qed.
Print Assumptions C172_later_reads_partial.
Example C172_nonvacuous : exists s tr, ws_conn true everything [] [] [hello [47]; input [136; 0]] = Ok (s, tr) /\ In (VClose [47]) tr /\
  exists tr2, ws_run true everything s [input [129; 1; 97]] = Ok (s, tr2).
Proof. eexists _, _. split; [vm_compute; reflexivity|]. split; [cbn; auto 10|]. eexists. vm_compute. reflexivity. Qed.

(** C173 (full statement): a PING is answered by a PONG with the same payload. *)
Definition C173_statement : Prop := forall server registered topic nonce os s tr pre p d post,
  ws_conn server registered topic nonce os = Ok (s, tr) -> tr = pre ++ VMsg p 9 d :: post ->
  exists m, In (VSent (IFrame m 10 d)) pre.
(** Refuted: the PONG is always empty. *)
Theorem C173_statement_refuted : ~ C173_statement.
Proof.
  intro H. assert (K : exists s, ws_conn true everything [] [] [hello [47]; input [137; 1; 97]] =
    Ok (s, [VSent (I101 [65]); VOpen [47]; VSent (IFrame false 10 [])] ++ VMsg [47] 9 [97] :: [])) by (eexists; vm_compute; reflexivity).
  destruct K as [s K]. destruct (H _ _ _ _ _ _ _ _ _ _ _ K eq_refl) as [m M]. cbn in M. intuition discriminate.
Qed.
Print Assumptions C173_statement_refuted.
(** Every PING is answered by one empty PONG, right before the application sees the PING. *)
Theorem C173_pong_before_partial : forall server registered topic nonce os s tr p d pre post,
  ws_conn server registered topic nonce os = Ok (s, tr) -> tr = pre ++ VMsg p 9 d :: post ->
  exists pre', pre = pre' ++ [VSent (IFrame false 10 [])].
Proof. exact WsConnProofs3.ping_pong. Qed.
Print Assumptions C173_pong_before_partial.
(** There are exactly as many PONGs as PINGs, unless the application sends some itself. *)
Theorem C173_pong_count_partial : forall server registered topic nonce os s tr,
  ws_conn server registered topic nonce os = Ok (s, tr) -> no_sends os ->
  how_many (fun e => match e with VSent (IFrame _ 10 _) => true | _ => false end) tr =
  how_many (fun e => match e with VMsg _ 9 _ => true | _ => false end) tr.
Proof. exact WsConnProofs3.pong_count. Qed.
Print Assumptions C173_pong_count_partial.
Example C173_nonvacuous : exists s, ws_conn true everything [] [] [hello [47]; input [137; 0; 137; 0]] =
  Ok (s, [VSent (I101 [65]); VOpen [47]; VSent (IFrame false 10 []); VMsg [47] 9 []; VSent (IFrame false 10 []); VMsg [47] 9 []]).
Proof. eexists. vm_compute. reflexivity. Qed.

(** C174 (full statement): a client masks every frame, a server none (RFC 6455 5.1). *)
Definition C174_statement : Prop := forall server registered topic nonce os s tr m op d,
  ws_conn server registered topic nonce os = Ok (s, tr) -> In (VSent (IFrame m op d)) tr -> m = negb server.
(** Refuted: a client's PONG is not masked. *)
Theorem C174_statement_refuted : ~ C174_statement.
Proof.
  intro H. assert (K : exists s, ws_conn false everything [47] [7] [welcome; input [137; 0]] =
    Ok (s, [VSent (IReq [47] [7]); VOpen [47]; VSent (IFrame false 10 []); VMsg [47] 9 []])) by (eexists; vm_compute; reflexivity).
  destruct K as [s K]. specialize (H _ _ _ _ _ _ _ false 10 [] K). cbn in H. specialize (H ltac:(auto)). discriminate.
Qed.
Print Assumptions C174_statement_refuted.
(** It holds for everything but the automatic PONG and CLOSE replies. *)
Theorem C174_mask_partial : forall server registered topic nonce os s tr m op d,
  ws_conn server registered topic nonce os = Ok (s, tr) -> In (VSent (IFrame m op d)) tr ->
  m = negb server \/ (m = false /\ (IFrame m op d = IFrame false 10 [] \/ IFrame m op d = IFrame false 8 [3; 232])).
Proof. exact WsConnProofs3.mask_rule. Qed.
Print Assumptions C174_mask_partial.
Example C174_nonvacuous : exists s, ws_conn false everything [47] [7] [welcome; OSend 1 [97] true] =
  Ok (s, [VSent (IReq [47] [7]); VOpen [47]; VSent (IFrame true 1 [97])]).
Proof. eexists. vm_compute. reflexivity. Qed.

(** C175 (full statement): a client opens only when the server proved, by the accept value [accept_of] the client's key,
    that it read the request (RFC 6455 4.1). *)
Definition C175_statement : Prop := forall (accept_of : list Z -> list Z) registered topic nonce os s tr p,
  ws_conn false registered topic nonce os = Ok (s, tr) -> In (VOpen p) tr -> Forall (side_ok false) os ->
  exists ok a l ms err up, In (OEvent ok a l ms err) os /\ In (HRes (accept_of nonce) up) ms.
(** Refuted: any non-empty value will do. *)
Theorem C175_statement_refuted : ~ C175_statement.
Proof.
  intro H. assert (K : exists s, ws_conn false everything [47] [7] [welcome] = Ok (s, [VSent (IReq [47] [7]); VOpen [47]])) by (eexists; vm_compute; reflexivity).
  destruct K as [s K]. destruct (H (fun k => 1 :: k) _ _ _ _ _ _ [47] K) as (ok & a & l & ms & err & up & A & B).
  - cbn. auto 10.
  - repeat constructor.
  - destruct A as [A|[]]. inversion A; subst. destruct B as [B|[]]. discriminate.
Qed.
Print Assumptions C175_statement_refuted.
(** It opens only after a response with some accept value that switches protocols. *)
Theorem C175_some_accept_partial : forall registered topic nonce os s tr p,
  ws_conn false registered topic nonce os = Ok (s, tr) -> In (VOpen p) tr -> Forall (side_ok false) os ->
  exists ok a l ms, In (OEvent ok a l ms false) os /\ exists acc, acc <> [] /\ In (HRes acc true) ms.
Proof. exact (fun r t n os s tr p => WsConnProofs2.opened_by false r t n os s tr p). Qed.
Print Assumptions C175_some_accept_partial.
Example C175_nonvacuous : Forall (side_ok false) [welcome] /\
  exists s, ws_conn false everything [47] [7] [welcome] = Ok (s, [VSent (IReq [47] [7]); VOpen [47]]).
Proof. split; [repeat constructor|eexists; vm_compute; reflexivity]. Qed.

(** C176. Until the connection has opened no frame is sent (on a server, unless the application sends one itself). *)
Theorem C176_frames_after_open : forall server registered topic nonce os s tr pre m op d post,
  ws_conn server registered topic nonce os = Ok (s, tr) -> (server = true -> no_sends os) ->
  tr = pre ++ VSent (IFrame m op d) :: post -> exists p, In (VOpen p) pre.
Proof. exact WsConnProofs3.frames_after_open. Qed.
Print Assumptions C176_frames_after_open.
(** WsClient::Send before opening or after closing calls the error callback and sends nothing; in between it sends the
    message, masked, and calls the error callback exactly when the write failed. *)
Theorem C176_client_send : forall registered topic nonce os s tr op d flushed,
  ws_conn false registered topic nonce os = Ok (s, tr) ->
  ((forall p, ~ In (VOpen p) tr) \/ (exists p, In (VClose p) tr) ->
     ws_step false registered s (OSend op d flushed) = Ok (s, [VBroken])) /\
  (k_reg s = true -> (exists p, In (VOpen p) tr) ->
     exists s', ws_step false registered s (OSend op d flushed) =
       Ok (s', VSent (IFrame true op d) :: if flushed then [] else [VBroken])).
Proof. exact WsConnProofs3.client_send. Qed.
Print Assumptions C176_client_send.
Example C176_nonvacuous : exists s, ws_conn false everything [47] [7] [OSend 1 [97] true; welcome; OSend 1 [98] true; OSend 1 [99] false; OSend 1 [100] true] =
  Ok (s, [VSent (IReq [47] [7]); VBroken; VOpen [47]; VSent (IFrame true 1 [98]); VSent (IFrame true 1 [99]); VBroken; VBroken]).
Proof. eexists. vm_compute. reflexivity. Qed.

(** C177 (full statement): a WsClient may be released at any time. *)
Definition C177_statement : Prop := forall os, crun wcl0 os <> UB.
(** Refuted: a client that never connected posts CloseService on a null pointer ... *)
Theorem C177_statement_refuted : ~ C177_statement.
Proof. intro H. apply (H [UDestroy; LTask DFailed; LTask DFailed]). reflexivity. Qed.
Print Assumptions C177_statement_refuted.
(** ... and one released while its dial is still queued, or with its connection open, is called back after it is gone. *)
Theorem C177_called_after_release :
  crun wcl0 [UDial; UDestroy; LTask DConnected] = UB /\
  crun wcl0 [UDial; LTask DConnected; UDestroy; KEvent true false] = UB.
Proof. split; reflexivity. Qed.
Print Assumptions C177_called_after_release.
(** It is safe if it has been connected, no dial is queued, and the loop runs the two posted tasks before any event. *)
Theorem C177_release_connected_partial : forall pre post c r1 r2,
  crun wcl0 pre = Ok c -> w_alive c = true -> w_queue c = [] -> w_transport c = true ->
  crun wcl0 (pre ++ [UDestroy; LTask r1; LTask r2] ++ post) <> UB.
Proof. exact WsClientLifeProofs.destroy_connected. Qed.
Print Assumptions C177_release_connected_partial.
(** And a client that is never released is never misused. *)
Theorem C177_while_alive_partial : forall os, (forall o, In o os -> o <> UDestroy) -> exists c, crun wcl0 os = Ok c /\ w_alive c = true.
Proof. exact WsClientLifeProofs.alive_ok. Qed.
Print Assumptions C177_while_alive_partial.
Example C177_nonvacuous : exists c, crun wcl0 [UDial; LTask DProgress; KConnect true; KEvent true false] = Ok c /\
  w_alive c = true /\ w_queue c = [] /\ w_transport c = true.
Proof. eexists. split; [reflexivity|]. repeat split. Qed.

(** C178 (full statement): OnClose is only called for a websocket that was opened. *)
Definition C178_statement : Prop := forall registered nonce os s tr pre p post,
  ws_conn true registered [] nonce os = Ok (s, tr) -> tr = pre ++ VClose p :: post -> In (VOpen p) pre.
(** Refuted: the request is accepted, its 101 cannot be sent. (With llhttp as documented: every proper request.) *)
Theorem C178_statement_refuted : ~ C178_statement.
Proof.
  intro H. assert (K : exists s, ws_conn true everything [] [] [OEvent true 4096 [71] [HReq [47] s_websocket [65] false false] false] =
    Ok (s, [VSent I400] ++ VClose [47] :: [])) by (eexists; vm_compute; reflexivity).
  destruct K as [s K]. specialize (H _ _ _ _ _ _ _ _ K eq_refl). cbn in H. intuition discriminate.
Qed.
Print Assumptions C178_statement_refuted.
Theorem C178_proper_request : exists s,
  ws_conn true everything [] [] [OEvent true 4096 [71] [HReq [47] s_websocket [65] true true] true] =
  Ok (s, [VSent (I101 [65]); VSent I400; VClose [47]]).
Proof. eexists. vm_compute. reflexivity. Qed.
Print Assumptions C178_proper_request.
(** OnClose always concerns the topic that was opened, if one was. *)
Theorem C178_same_topic_partial : forall server registered topic nonce os s tr p q,
  ws_conn server registered topic nonce os = Ok (s, tr) -> In (VOpen p) tr -> In (VClose q) tr -> p = q.
Proof. exact WsConnProofs3.same_topic. Qed.
Print Assumptions C178_same_topic_partial.
Example C178_nonvacuous : exists s tr, ws_conn true everything [] [] [hello [47]; input [136; 0]] = Ok (s, tr) /\
  In (VOpen [47]) tr /\ In (VClose [47]) tr.
Proof. eexists _, _. split; [vm_compute; reflexivity|]. cbn. tauto. Qed.

(** C179 (full statement): a server opens only for an upgrade request as RFC 6455 4.2.1 requires it: Upgrade: websocket,
    Connection: upgrade and a key. *)
Definition C179_statement : Prop := forall registered nonce os s tr p,
  ws_conn true registered [] nonce os = Ok (s, tr) -> In (VOpen p) tr -> Forall (side_ok true) os ->
  exists ok a l ms err key sent, In (OEvent ok a l ms err) os /\ In (HReq p s_websocket key true sent) ms /\ key <> [].
(** Refuted: without key and Connection header it opens as well. *)
Theorem C179_statement_refuted : ~ C179_statement.
Proof.
  intro H. assert (K : exists s, ws_conn true everything [] [] [OEvent true 4096 [71] [HReq [47] s_websocket [] false true] false] =
    Ok (s, [VSent (I101 []); VOpen [47]])) by (eexists; vm_compute; reflexivity).
  destruct K as [s K]. destruct (H _ _ _ _ _ [47] K) as (ok & a & l & ms & err & key & sent & A & B & C).
  - cbn. auto 10.
  - repeat constructor.
  - destruct A as [A|[]]. inversion A; subst. destruct B as [B|[]]. discriminate.
Qed.
Print Assumptions C179_statement_refuted.
(** The Upgrade header it insists on, and the 101 was sent. *)
Theorem C179_upgrade_header_partial : forall registered nonce os s tr p,
  ws_conn true registered [] nonce os = Ok (s, tr) -> In (VOpen p) tr -> Forall (side_ok true) os ->
  exists ok a l ms, In (OEvent ok a l ms false) os /\ exists key cu, In (HReq p s_websocket key cu true) ms.
Proof. exact (fun r n os s tr p => WsConnProofs2.opened_by true r [] n os s tr p). Qed.
Print Assumptions C179_upgrade_header_partial.
Example C179_nonvacuous : Forall (side_ok true) [hello [47]] /\
  exists s, ws_conn true everything [] [] [hello [47]] = Ok (s, [VSent (I101 [65]); VOpen [47]]).
Proof. split; [repeat constructor|eexists; vm_compute; reflexivity]. Qed.

(** C180. Once a connection is open, messages [gs] (of any non-zero, non-close opcode, in any number of fragments, masked
    or not), received in any reads, reach the opened topic one by one and in order; a PING is answered. *)
Theorem C180_server_delivers : forall registered path key cu addr data cs gs,
  data <> [] -> registered path = true ->
  Forall (fun c => snd c <> []) cs -> Forall addr_ok cs ->
  Forall frame_ok (concat (map msg_frames gs)) -> Forall (fun g => g_op g <> 0 /\ g_op g <> 8) gs ->
  concat (map snd cs) = concat (map frame_bytes (concat (map msg_frames gs))) ->
  exists s, ws_conn true registered [] [] (OEvent true addr data [HReq path s_websocket key cu true] false ::
                                           map (fun c => OEvent true (fst c) (snd c) [] false) cs) =
    Ok (s, [VSent (I101 key); VOpen path] ++
           concat (map (fun g => (if g_op g =? 9 then [VSent (IFrame false 10 [])] else []) ++ [VMsg path (g_op g) (g_payload g)]) gs)).
Proof. exact WsConnProofs3.server_delivers. Qed.
Print Assumptions C180_server_delivers.
Theorem C180_client_delivers : forall registered topic nonce acc addr data cs gs,
  data <> [] -> acc <> [] ->
  Forall (fun c => snd c <> []) cs -> Forall addr_ok cs ->
  Forall frame_ok (concat (map msg_frames gs)) -> Forall (fun g => g_op g <> 0 /\ g_op g <> 8) gs ->
  concat (map snd cs) = concat (map frame_bytes (concat (map msg_frames gs))) ->
  exists s, ws_conn false registered topic nonce (OEvent true addr data [HRes acc true] false ::
                                           map (fun c => OEvent true (fst c) (snd c) [] false) cs) =
    Ok (s, [VSent (IReq topic nonce); VOpen topic] ++
           concat (map (fun g => (if g_op g =? 9 then [VSent (IFrame false 10 [])] else []) ++ [VMsg topic (g_op g) (g_payload g)]) gs)).
Proof. exact WsConnProofs3.client_delivers. Qed.
Print Assumptions C180_client_delivers.
(** A CLOSE frame in a read of its own after the messages is answered with CLOSE 1000 and ends the connection. *)
Theorem C180_server_close : forall registered path key cu addr data cs gs a m d,
  data <> [] -> registered path = true ->
  Forall (fun c => snd c <> []) cs -> Forall addr_ok cs -> addr_ok (a, frame_bytes (mkframe true 8 m d)) ->
  Forall frame_ok (concat (map msg_frames gs)) -> Forall (fun g => g_op g <> 0 /\ g_op g <> 8) gs -> frame_ok (mkframe true 8 m d) ->
  concat (map snd cs) = concat (map frame_bytes (concat (map msg_frames gs))) ->
  exists s, ws_conn true registered [] [] (OEvent true addr data [HReq path s_websocket key cu true] false ::
      map (fun c => OEvent true (fst c) (snd c) [] false) (cs ++ [(a, frame_bytes (mkframe true 8 m d))])) =
    Ok (s, ([VSent (I101 key); VOpen path] ++
           concat (map (fun g => (if g_op g =? 9 then [VSent (IFrame false 10 [])] else []) ++ [VMsg path (g_op g) (g_payload g)]) gs)) ++
           [VSent (IFrame false 8 [3; 232]); VClose path]) /\ k_st s = Closed.
Proof. exact WsConnProofs3.server_close. Qed.
Print Assumptions C180_server_close.
Definition ex_stream := concat (map frame_bytes (concat (map msg_frames [mkmsg 1 (Some [1;2;3;4], [97]) [(None, [98])]; mkmsg 9 (None, [5]) []]))).
Example C180_nonvacuous :
  Forall addr_ok [(4096, firstn 4 ex_stream); (8192, skipn 4 ex_stream)] /\
  Forall frame_ok (concat (map msg_frames [mkmsg 1 (Some [1;2;3;4], [97]) [(None, [98])]; mkmsg 9 (None, [5]) []])) /\
  exists s, ws_conn true everything [] [] (hello [47] :: map (fun c => OEvent true (fst c) (snd c) [] false) [(4096, firstn 4 ex_stream); (8192, skipn 4 ex_stream)]) =
    Ok (s, [VSent (I101 [65]); VOpen [47]; VMsg [47] 1 [97; 98]; VSent (IFrame false 10 []); VMsg [47] 9 [5]]).
Proof.
  split; [repeat constructor; cbn; lia|]. split; [repeat constructor; cbn; try lia; apply Tac.bytes_dec; reflexivity|].
  eexists. vm_compute. reflexivity.
Qed.

(** C181 (full statement): after OnClose, Send transmits nothing. *)
Definition C181_statement : Prop := forall server registered topic nonce os s tr p op d flushed s' tr',
  ws_conn server registered topic nonce os = Ok (s, tr) -> In (VClose p) tr ->
  ws_step server registered s (OSend op d flushed) = Ok (s', tr') -> forall i, ~ In (VSent i) tr'.
(** Refuted: a server's Websocket::Send does not look at the state. *)
Theorem C181_statement_refuted : ~ C181_statement.
Proof.
  intro H. assert (K : exists s tr, ws_conn true everything [] [] [hello [47]; input [136; 0]] = Ok (s, tr) /\ In (VClose [47]) tr /\
    ws_step true everything s (OSend 1 [97] true) = Ok (s, [VSent (IFrame false 1 [97])])).
  { eexists _, _. split; [vm_compute; reflexivity|]. split; [cbn; auto 10|vm_compute; reflexivity]. }
  destruct K as (s & tr & A & B & C). apply (H _ _ _ _ _ _ _ _ _ _ _ _ _ A B C (IFrame false 1 [97])). cbn. auto 10.
Qed.
Print Assumptions C181_statement_refuted.
(** It holds on clients, where the error callback is called instead. *)
Theorem C181_client_partial : forall registered topic nonce os s tr p op d flushed,
  ws_conn false registered topic nonce os = Ok (s, tr) -> In (VClose p) tr ->
  ws_step false registered s (OSend op d flushed) = Ok (s, [VBroken]).
Proof.
  intros registered topic nonce os s tr p op d flushed H C. apply (C176_client_send registered topic nonce os s tr op d flushed H). right. eauto.
Qed.
Print Assumptions C181_client_partial.
Example C181_nonvacuous : exists s tr, ws_conn false everything [47] [7] [welcome; input [136; 0]] = Ok (s, tr) /\ In (VClose [47]) tr.
Proof. eexists _, _. split; [vm_compute; reflexivity|]. cbn. tauto. Qed.
