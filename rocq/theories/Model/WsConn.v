(** One websocket connection: net_io/codec/websocket/ws_codec_service.cc on net_io/codec/codec_service.cc, used through
    net_io/server/ws_server/ws_server.h (server side) or net_io/clients/ws_client.cc (client side).

    Simplified: the HTTP parser (llhttp, not in the repository) is part of the environment: each read of the handshake
    comes with the messages it completed and whether it returned an error. Buffers are byte lists (C01, C02, C31). The
    fate of a write is given by the environment. Everything runs in the connection's loop; an application call made inside
    a callback is an operation right after the event. A connection removed from the pump gets no more events (C70-C74). *)
From Verif.Model Require Import Common Bytes Websocket.
Open Scope Z_scope.

(** ws_codec_service.h:97-101 *)
Inductive hstate := HsNone | HsOk | HsWrong.
(** codec_service.h Status *)
Inductive status := Connecting | Connected | Closed.

(** What the connection sends. [I101 key]: the upgrade response to a request with that key (ws_codec_service.cc:15-20,
    226-227). [I400]: kBadRequest. [IReq]: the upgrade request (ws_codec_service.cc:136-151). [IFrame masked op payload]: one final frame. *)
Inductive item := IReq (topic key : list Z) | I101 (key : list Z) | I400 | IFrame (masked : bool) (op : Z) (payload : list Z).

(** What the application (the WSService registered for the topic, or the WsClient's callbacks) and the peer observe. *)
Inductive wev :=
| VSent (i : item)
| VOpen (topic : list Z)
| VMsg (topic : list Z) (op : Z) (payload : list Z)
| VClose (topic : list Z)
| VBroken.                                      (* error_callback_(kConnBroken) *)

(** A message completed by llhttp: the request's path, Upgrade header, Sec-WebSocket-Key and whether its Connection header
    has the upgrade token; the response's Sec-WebSocket-Accept and llhttp's upgrade flag. [sent]: channel_->Send of the
    101 did not fail. *)
Inductive hmsg :=
| HReq (path upgrade key : list Z) (connection_upgrade sent : bool)
| HRes (accept : list Z) (upgrade : bool).

Record ws := mkws { k_hs : hstate; k_st : status; k_reg : bool; k_wsp : wsp; k_cur : option (Z * list Z); k_path : list Z }.

Section Ws.
Variable server : bool.
(** wss_ (ws_server.h:111) *)
Variable registered : list Z -> bool.

(** After StartProtocolService (ws_codec_service.cc:122-156; codec_service.cc:56-66). [topic]: ws_path_, set by the client
    only (ws_client.cc:107). [nonce]: the random sec_key of the client's request (:137-140). *)
Definition ws_start (topic : list Z) : ws := mkws HsNone Connecting true ws_init None (if server then [] else topic).
Definition start_events (topic nonce : list Z) : list wev := if server then [] else [VSent (IReq topic nonce)].

(** A topic has an implementation (ws_server.h:52-56, 69-74, 86-90); a client has its callbacks. *)
Definition listening (s : ws) : bool := negb server || registered (k_path s).

(** codec_service.cc:68-82,145-151; io_service.cc:170-175, ws_server.h:65-76; ws_client.cc:132-136 *)
Definition notify_closed (s : ws) : list wev := if listening s then [VClose (k_path s)] else [].
Definition close_service (s : ws) (block : bool) : ws * list wev :=
  (mkws (k_hs s) Closed false (k_wsp s) (k_cur s) (k_path s), if block then [] else notify_closed s).

(** codec_service.cc:153-161; ws_server.h:47-63 (an unknown topic is closed, with notification); ws_client.cc:126-130 *)
Definition notify_ready (s : ws) : ws * list wev :=
  let s := mkws (k_hs s) (match k_st s with Connecting => Connected | st => st end) (k_reg s) (k_wsp s) (k_cur s) (k_path s) in
  if listening s then (s, [VOpen (k_path s)]) else close_service s false.

(** "websocket" *)
Definition s_websocket : list Z := [119; 101; 98; 115; 111; 99; 107; 101; 116].
Definition bytes_eqb (a b : list Z) : bool := if list_eq_dec Z.eq_dec a b then true else false.

(** ws_codec_service.cc:213-238 CommitHttpRequest and :263-273 CommitHttpResponse. An HRes on a server or an HReq on a
    client does not occur (the parser's type is fixed by the side). *)
Definition commit (s : ws) (m : hmsg) : ws * list wev :=
  match m with
  | HReq path upgrade key _ sent =>
      if bytes_eqb upgrade s_websocket then
        (mkws (if sent then HsOk else HsWrong) (k_st s) (k_reg s) (k_wsp s) (k_cur s) path,
         if sent then [VSent (I101 key)] else [])
      else (mkws HsWrong (k_st s) (k_reg s) (k_wsp s) (k_cur s) (k_path s), [])
  | HRes accept upgrade =>
      (mkws (if (0 <? Z.of_nat (length accept)) && upgrade then HsOk else HsWrong)
            (k_st s) (k_reg s) (k_wsp s) (k_cur s) (k_path s), [])
  end.
Fixpoint commits (s : ws) (ms : list hmsg) : ws * list wev :=
  match ms with
  | [] => (s, [])
  | m :: ms => let '(s1, e1) := commit s m in let '(s2, e2) := commits s1 ms in (s2, e1 ++ e2)
  end.

(** ws_codec_service.cc:242-261 OnHandshakeReqData, :277-293 OnHandshakeResData: only the server answers with a 400. *)
Definition refuse (s : ws) : ws * list wev :=
  let '(s, e) := close_service s false in (s, (if server then [VSent I400] else []) ++ e).
Definition on_handshake (s : ws) (ms : list hmsg) (err : bool) : ws * list wev :=
  let '(s, e) := commits s ms in
  let '(s, e') :=
    if err then refuse s
    else match k_hs s with HsOk => notify_ready s | HsWrong => refuse s | HsNone => (s, []) end in
  (s, e ++ e').

(** kpong_msg and kclose_msg (ws_codec_service.cc:24-26, ws_message.cc:10-15): no payload; 1000 in network order. Both go
    through SendResponse, hence unmasked (ws_codec_service.cc:183-201, ws_util.h:66-74). *)
Definition pong : item := IFrame false 10 [].
Definition close_frame : item := IFrame false 8 [3; 232].

(** ws_codec_service.cc:104-120: what an action of the codec model does. *)
Definition do_act (s : ws) (a : ws_act) : ws * list wev :=
  match a with
  | WDeliver op d => (s, if listening s then [VMsg (k_path s) op d] else [])
  | WPong => (s, [VSent pong])
  | WClose => let '(s1, e) := close_service s true in (s1, VSent close_frame :: e ++ notify_closed s1)
  end.
Fixpoint do_acts (s : ws) (acts : list ws_act) : ws * list wev :=
  match acts with
  | [] => (s, [])
  | a :: acts => let '(s1, e1) := do_act s a in let '(s2, e2) := do_acts s1 acts in (s2, e1 ++ e2)
  end.
(** The parser's callbacks, one after the other (the parser does not look at the connection's state). *)
Fixpoint on_frames (s : ws) (es : list ws_ev) : ws * list wev :=
  match es with
  | [] => (s, [])
  | e :: es =>
      let c := codec_ev (mkcodec (k_cur s) []) e in
      let '(s1, e1) := do_acts (mkws (k_hs s) (k_st s) (k_reg s) (k_wsp s) (wcur c) (k_path s)) (wacts c) in
      let '(s2, e2) := on_frames s1 es in (s2, e1 ++ e2)
  end.

(** ws_codec_service.cc:295-311 OnDataReceived on the bytes [data] at [addr]. *)
Definition on_data (s : ws) (addr : Z) (data : list Z) (ms : list hmsg) (err : bool) : outcome (ws * list wev) :=
  match k_hs s with
  | HsOk =>
      obind (ws_execute (k_wsp s) addr data) (fun '(p, es) =>
      let '(s1, e) := on_frames s es in
      Ok (mkws (k_hs s1) (k_st s1) (k_reg s1) p (k_cur s1) (k_path s1), e))
  | _ => Ok (on_handshake s ms err)
  end.

(** [OEvent ok addr data ms err]: HandleEvent (codec_service.cc:129-143); [ok]: reading and writing succeeded and the event
    has no error bit; [data]: what was read (maybe nothing); [ms], [err]: llhttp's answer, if it is asked.
    [OSend op payload flushed]: Websocket::Send on a server (ws_codec_service.cc:158-161,183-201) or WsClient::Send in the
    loop's thread on a client that has connected (ws_client.cc:64-86); [flushed]: the write did not fail. *)
Inductive op :=
| OEvent (ok : bool) (addr : Z) (data : list Z) (ms : list hmsg) (err : bool)
| OSend (opcode : Z) (payload : list Z) (flushed : bool).

Definition ws_step (s : ws) (o : op) : outcome (ws * list wev) :=
  match o with
  | OEvent ok addr data ms err =>
      if k_reg s then
        obind (match data with [] => Ok (s, []) | _ => on_data s addr data ms err end) (fun '(s1, e) =>
        if ok then Ok (s1, e)
        else let '(s2, e2) := close_service s1 false in Ok (s2, e ++ e2))
      else Ok (s, [])
  | OSend opcode payload flushed =>
      if server then Ok (s, [VSent (IFrame false opcode payload)])
      else match k_st s with
           | Connected =>
               if flushed then Ok (s, [VSent (IFrame true opcode payload)])
               else let '(s1, e) := close_service s true in Ok (s1, VSent (IFrame true opcode payload) :: e ++ [VBroken])
           | _ => Ok (s, [VBroken])
           end
  end.

Fixpoint ws_run (s : ws) (os : list op) : outcome (ws * list wev) :=
  match os with
  | [] => Ok (s, [])
  | o :: os => obind (ws_step s o) (fun '(s1, e1) => obind (ws_run s1 os) (fun '(s2, e2) => Ok (s2, e1 ++ e2)))
  end.
(** A whole connection: final state and everything observed. *)
Definition ws_conn (topic nonce : list Z) (os : list op) : outcome (ws * list wev) :=
  obind (ws_run (ws_start topic) os) (fun '(s, e) => Ok (s, start_events topic nonce ++ e)).
End Ws.
