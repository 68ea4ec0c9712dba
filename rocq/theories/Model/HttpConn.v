(** One server-side HTTP connection: net_io/codec/http/http_codec_service.cc on net_io/codec/codec_service.cc,
    answered through net_io/server/http_server/http_context.cc, owned by net_io/io_service.cc, in a loop that runs as
    base/message_loop/message_loop.cc says.

    Simplified: buffers are byte lists (IOBuffer is C01/C02, TcpChannel C31); the bytes of a response are given by the
    application (their encoding is C61-C64); llhttp decides which requests a read delivers, so deliveries and parse
    errors are operations of the environment (C59); IOService::Stop (C52-C54) does not happen. A reference-counted object
    is alive as long as somebody holds a reference; plain [this] captures hold none. *)
From Verif.Model Require Import Common.
Open Scope nat_scope.

(** Tasks of the connection's own loop posted from inside it (in_loop_tasks_). [TFlush]: a copy of flush_fn_
    (http_codec_service.cc:47-50,142,180), capturing the raw [this]. [TRemove]: io_service.cc:177-179, holding a
    reference to the service; it is posted to the acceptor's loop, so it is here only if that is the same loop. *)
Inductive task := TFlush | TRemove.

(** A response posted by another thread (http_context.cc:93-99): holds a reference. *)
Record preply := mkreply { p_id : nat; p_bytes : list Z; p_keep : bool }.

(** Where the loop thread is. [PIdle]: between two callbacks of the pump. [PRead r ok]: in SocketReadWrite, between the
    write and the read half. [PParse ok]: in OnDataReceived (or about to leave HandleEvent). [PTail ok]: OnDataReceived has
    met a parse error. [PBatch ts d]: in RunNestedTask (message_loop.cc:293-305), [ts] still to run, [d] TRemove tasks of
    this round already run (the vector nest_tasks keeps them, and their references, to the end of the round).
    [PFlushTail ts d]: inside a TFlush, between its two statements. [PRunner d]: in delegate_runner_->Run(), the vector
    still being there. *)
Inductive phase :=
| PIdle
| PRead (r ok : bool)
| PParse (ok : bool)
| PTail (ok : bool)
| PBatch (ts : list task) (d : nat)
| PFlushTail (ts : list task) (d : nat)
| PRunner (d : nat).

(** [c_out], [c_wire]: the channel's output buffer and what the kernel has accepted. [c_reg]: the FdEvent is installed.
    [c_wr]: its write interest. [c_sched]: schedule_close_. [c_flag]: flush_scheduled_. [c_reqs]: keep-alive of each
    delivered request, in order. [c_replied]: the contexts whose did_reply_ is set. [c_stored]: in IOService::codecs_.
    [c_cross]: scheduled_tasks_. [c_nested]: in_loop_tasks_. [c_acc]: TRemove tasks waiting in another acceptor loop.
    Ghosts: [c_blk]: the last write attempt since the last append ended in EAGAIN; [c_fail]: some write failed. *)
Record conn := mkconn {
  c_out : list Z; c_wire : list Z; c_reg : bool; c_wr : bool; c_sched : bool; c_flag : bool;
  c_reqs : list bool; c_replied : list nat; c_stored : bool; c_cross : list preply; c_nested : list task; c_acc : nat;
  c_phase : phase; c_blk : bool; c_fail : bool }.

(** After StartProtocolService (codec_service.cc:45-66, channel.cc:43-48) and StoreProtocolService. http_codec_service.h:89
    has no initialiser for flush_scheduled_, so its first value [fl] is arbitrary. *)
Definition conn0 (fl : bool) : conn :=
  mkconn [] [] true true false fl [] [] true [] [] 0 PIdle false false.

Definition is_remove (t : task) : bool := match t with TRemove => true | TFlush => false end.
Definition batch_refs (p : phase) : bool :=
  match p with
  | PBatch ts d | PFlushTail ts d => existsb is_remove ts || (0 <? d)
  | PRunner d => 0 <? d
  | _ => false
  end.
(** Some reference to the service exists. *)
Definition alive (c : conn) : bool :=
  c_stored c || negb (length (c_cross c) =? 0) || existsb is_remove (c_nested c) || (0 <? c_acc c) || batch_refs (c_phase c).

Definition set_phase (c : conn) (p : phase) : conn :=
  mkconn (c_out c) (c_wire c) (c_reg c) (c_wr c) (c_sched c) (c_flag c) (c_reqs c) (c_replied c) (c_stored c)
         (c_cross c) (c_nested c) (c_acc c) p (c_blk c) (c_fail c).
Definition set_cross (c : conn) (q : list preply) : conn :=
  mkconn (c_out c) (c_wire c) (c_reg c) (c_wr c) (c_sched c) (c_flag c) (c_reqs c) (c_replied c) (c_stored c)
         q (c_nested c) (c_acc c) (c_phase c) (c_blk c) (c_fail c).
Definition set_nested (c : conn) (q : list task) : conn :=
  mkconn (c_out c) (c_wire c) (c_reg c) (c_wr c) (c_sched c) (c_flag c) (c_reqs c) (c_replied c) (c_stored c)
         (c_cross c) q (c_acc c) (c_phase c) (c_blk c) (c_fail c).
Definition set_removed (c : conn) (acc : nat) : conn :=
  mkconn (c_out c) (c_wire c) (c_reg c) (c_wr c) (c_sched c) (c_flag c) (c_reqs c) (c_replied c) false
         (c_cross c) (c_nested c) acc (c_phase c) (c_blk c) (c_fail c).
Definition set_flag (c : conn) (b : bool) : conn :=
  mkconn (c_out c) (c_wire c) (c_reg c) (c_wr c) (c_sched c) b (c_reqs c) (c_replied c) (c_stored c)
         (c_cross c) (c_nested c) (c_acc c) (c_phase c) (c_blk c) (c_fail c).
Definition set_sched (c : conn) : conn :=
  mkconn (c_out c) (c_wire c) (c_reg c) (c_wr c) true (c_flag c) (c_reqs c) (c_replied c) (c_stored c)
         (c_cross c) (c_nested c) (c_acc c) (c_phase c) (c_blk c) (c_fail c).
Definition add_req (c : conn) (keep : bool) : conn :=
  mkconn (c_out c) (c_wire c) (c_reg c) (c_wr c) (c_sched c) (c_flag c) (c_reqs c ++ [keep]) (c_replied c) (c_stored c)
         (c_cross c) (c_nested c) (c_acc c) (c_phase c) (c_blk c) (c_fail c).
Definition mark_replied (c : conn) (id : nat) : conn :=
  mkconn (c_out c) (c_wire c) (c_reg c) (c_wr c) (c_sched c) (c_flag c) (c_reqs c) (id :: c_replied c) (c_stored c)
         (c_cross c) (c_nested c) (c_acc c) (c_phase c) (c_blk c) (c_fail c).
(** The channel after a write: buffer, wire, write interest, and how the last attempt ended *)
Definition set_chan (c : conn) (out wire : list Z) (wr blk fail : bool) : conn :=
  mkconn out wire (c_reg c) wr (c_sched c) (c_flag c) (c_reqs c) (c_replied c) (c_stored c)
         (c_cross c) (c_nested c) (c_acc c) (c_phase c) blk fail.
(** IOBuffer::WriteString on WriterBuffer() *)
Definition append_out (c : conn) (b : list Z) : conn :=
  set_chan c (c_out c ++ b) (c_wire c) (c_wr c) false (c_fail c).

(** What the application and its peer observe. [VClosed]: OnConnectionClose (io_service.cc:175). [VEncoded id b]: the
    response b to request id enters the output stream. [VBad]: so does the 400 of a parse error. *)
Inductive ev := VRequest (id : nat) | VEncoded (id : nat) (b : list Z) | VBad | VClosed.

(** http_constants.cc:41-42 "HTTP/1.1 400 Bad Request\r\n\r\n" *)
Definition bad_request : list Z :=
  [72;84;84;80;47;49;46;49;32;52;48;48;32;66;97;100;32;82;101;113;117;101;115;116;13;10;13;10]%Z.

Inductive wres := WNone | WDone | WFail.
(** tcp_channel.cc:83-113. The kernel takes [n] bytes (clipped to what there is) and then, if bytes are left, fails with
    EAGAIN or ([err]) another error. [WDone]: a positive result with nothing left; [WFail]: -1. *)
Definition handle_write (c : conn) (n : nat) (err : bool) : conn * wres :=
  match c_out c with
  | [] => (c, WNone)
  | _ =>
      let wire := c_wire c ++ firstn n (c_out c) in
      match skipn n (c_out c) with
      | [] => (set_chan c [] wire false false (c_fail c), WDone)
      | rest => if err then (set_chan c rest wire (c_wr c) false true, WFail)
                else (set_chan c rest wire true true (c_fail c), WNone)
      end
  end.

(** tcp_channel.cc:115-146: on an empty buffer the bytes are written directly, and what the kernel does not take is
    buffered, or dropped if it failed *)
Definition chan_send (c : conn) (b : list Z) (n : nat) (err : bool) : conn :=
  match c_out c with
  | _ :: _ => fst (handle_write (append_out c b) n err)
  | [] =>
      let wire := c_wire c ++ firstn n b in
      match skipn n b with
      | [] => set_chan c [] wire (c_wr c) (c_blk c) (c_fail c)
      | rest => if err then set_chan c [] wire (c_wr c) false true
                else set_chan c rest wire true true (c_fail c)
      end
  end.

Section Conn.
(** The acceptor's loop is the connection's loop (a server with one loop, or a connection that got the first of several,
    generic_server.h:102,134-141). *)
Variable same : bool.

(** codec_service.cc:68-82 (RemoveFdEvent of an event that is not installed only logs, event_pump.cc:96-99), :145-151,
    io_service.cc:170-180 *)
Definition close_service (c : conn) : conn * list ev :=
  (mkconn (c_out c) (c_wire c) false (c_wr c) (c_sched c) (c_flag c) (c_reqs c) (c_replied c) (c_stored c)
          (c_cross c) (if same then c_nested c ++ [TRemove] else c_nested c) (if same then c_acc c else S (c_acc c))
          (c_phase c) (c_blk c) (c_fail c), [VClosed]).

(** http_codec_service.cc:148-184 (and, for a client's requests, :130-146): append, then schedule one flush *)
Definition send_response (c : conn) (b : list Z) (keep : bool) : conn :=
  let c := append_out c b in
  let c := if keep then c else set_sched c in
  if c_flag c then c else set_nested (set_flag c true) (c_nested c ++ [TFlush]).
(** http_context.cc:103-106, :94-97: SendResponse always succeeds *)
Definition respond (c : conn) (id : nat) (b : list Z) (keep : bool) : conn * list ev :=
  let c := send_response c b keep in
  if keep then (c, [VEncoded id b])
  else let '(c, es) := close_service c in (c, VEncoded id b :: es).

(** What can happen. Kernel answers [n err] as for [handle_write]. [guarded]: through String or Json, which return when
    did_reply_ is set (http_context.cc:44-73); otherwise Response itself. *)
Inductive op :=
| OEvent (w r : bool) (n : nat) (err : bool)              (* HandleEvent starts; the write half *)
| ORead (eof : bool)                                      (* the read half; [eof]: HandleRead < 0 *)
| ODeliver (keep : bool)                                  (* CommitHttpRequest *)
| OParseError (n : nat) (err : bool)
| OEventEnd
| OReply (id : nat) (b : list Z) (guarded : bool)         (* answered in the loop's thread *)
| OPostReply (id : nat) (b : list Z) (guarded : bool)     (* answered in another thread *)
| OCross                                                  (* RunScheduledTask runs one task *)
| OBatch                                                  (* RunNestedTask starts *)
| OTask (n : nat) (err : bool)                            (* its next task *)
| OFlushTail
| ORunner
| OBatchEnd
| OAcc.                                                   (* another acceptor loop runs a TRemove *)

Definition with_this (c : conn) (k : outcome (conn * list ev)) : outcome (conn * list ev) := if alive c then k else UB.
Definition req_keep (c : conn) (id : nat) : bool := nth id (c_reqs c) true.
Definition answered (c : conn) (id : nat) : bool := existsb (Nat.eqb id) (c_replied c).

Definition step (c : conn) (o : op) : outcome (conn * list ev) :=
  match o with
  | OEvent w r n err => (* codec_service.cc:129-132,110-120 *)
      with_this c (
        let '(c1, res) := if w then handle_write c n err else (c, WNone) in
        match res with
        | WFail => Ok (set_phase c1 (PRead false false), [])
        | WDone => let '(c2, es) := if c_sched c1 then close_service c1 else (c1, []) in (* :88-93 *)
                   Ok (set_phase c2 (PRead r true), es)
        | WNone => Ok (set_phase c1 (PRead r true), [])
        end)
  | ORead eof => (* :122-127 *)
      with_this c (
        match c_phase c with
        | PRead r ok => Ok (set_phase c (PParse (ok && negb (r && eof))), [])
        | _ => Ok (c, [])
        end)
  | ODeliver keep => (* http_codec_service.cc:279-282 *)
      with_this c (Ok (add_req c keep, [VRequest (length (c_reqs c))]))
  | OParseError n err => (* http_codec_service.cc:79-83 *)
      with_this c (
        let '(c1, es) := close_service (chan_send c bad_request n err) in
        match c_phase c with
        | PParse ok => Ok (set_phase c1 (PTail ok), VBad :: es)
        | _ => Ok (c1, VBad :: es)
        end)
  | OEventEnd => (* codec_service.cc:138-142,95-97; ToLtEvent never sets ERROR *)
      with_this c (
        let ok := match c_phase c with PParse ok | PTail ok => ok | _ => true end in
        let should_close := c_sched c && (length (c_out c) =? 0) in
        if ok && negb should_close then Ok (set_phase c PIdle, [])
        else let '(c1, es) := close_service c in Ok (set_phase c1 PIdle, es))
  | OReply id b guarded => (* http_context.cc:75-107 *)
      if guarded && answered c id then Ok (c, [])
      else
        let c := mark_replied c id in
        if alive c then Ok (respond c id b (req_keep c id)) else Ok (c, [])
  | OPostReply id b guarded => (* http_context.cc:75-101 *)
      if guarded && answered c id then Ok (c, [])
      else
        let c := mark_replied c id in
        if alive c then Ok (set_cross c (c_cross c ++ [mkreply id b (req_keep c id)]), []) else Ok (c, [])
  | OCross => (* message_loop.cc:284-291 *)
      match c_cross c with
      | [] => Ok (c, [])
      | p :: q => let '(c1, es) := respond c (p_id p) (p_bytes p) (p_keep p) in Ok (set_cross c1 q, es)
      end
  | OBatch => (* message_loop.cc:296 *)
      Ok (set_phase (set_nested c []) (PBatch (c_nested c) 0), [])
  | OTask n err =>
      match c_phase c with
      | PBatch (TFlush :: ts) d => (* http_codec_service.cc:48, codec_service.cc:99-107 *)
          with_this c (
            let '(c1, res) := handle_write c n err in
            let '(c2, es) := match res with
                             | WDone => if c_sched c1 then close_service c1 else (c1, [])
                             | _ => (c1, [])
                             end in
            Ok (set_phase c2 (PFlushTail ts d), es))
      | PBatch (TRemove :: ts) d => (* io_service.cc:195-203 *)
          Ok (set_phase (set_removed c (c_acc c)) (PBatch ts (S d)), [])
      | _ => Ok (c, [])
      end
  | OFlushTail => (* http_codec_service.cc:49 *)
      with_this c (
        match c_phase c with
        | PFlushTail ts d => Ok (set_phase (set_flag c false) (PBatch ts d), [])
        | _ => Ok (c, [])
        end)
  | ORunner => match c_phase c with PBatch _ d => Ok (set_phase c (PRunner d), []) | _ => Ok (c, []) end
  | OBatchEnd => Ok (set_phase c PIdle, [])
  | OAcc => Ok (set_removed c (pred (c_acc c)), [])
  end.

(** The program order of the loop's thread, and what the environment can do at all: the pump calls only installed
    events; only delivered requests are answered, by a handler called from OnDataReceived, from a pump callback, a task, or
    a coroutine, or in another thread. *)
Definition possible (c : conn) (o : op) : bool :=
  match o, c_phase c with
  | OEvent _ _ _ _, PIdle => c_reg c
  | ORead _, PRead _ _ => true
  | ODeliver _, PParse _ => true
  | OParseError _ _, PParse _ => true
  | OEventEnd, (PParse _ | PTail _) => true
  | OReply id _ _, (PIdle | PParse _ | PBatch _ _ | PRunner _) => id <? length (c_reqs c)
  | OPostReply id _ _, _ => id <? length (c_reqs c)
  | OCross, PIdle => negb (length (c_cross c) =? 0)
  | OBatch, PIdle => true
  | OTask _ _, PBatch (_ :: _) _ => true
  | OFlushTail, PFlushTail _ _ => true
  | ORunner, PBatch [] _ => true
  | OBatchEnd, PRunner _ => true
  | OAcc, _ => negb same && (0 <? c_acc c)
  | _, _ => false
  end.

(** Executions: every operation possible when it happens ([None] otherwise); [es]: what was observed so far. *)
Fixpoint run (c : conn) (es : list ev) (os : list op) : option (outcome (conn * list ev)) :=
  match os with
  | [] => Some (Ok (c, es))
  | o :: os' =>
      if possible c o then
        match step c o with
        | Ok (c1, e1) => run c1 (es ++ e1) os'
        | UB => Some UB
        | CheckFail => Some CheckFail
        end
      else None
  end.
End Conn.
