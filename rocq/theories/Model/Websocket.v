(** Model of net_io/codec/websocket/{websocket_parser.c,ws_util.{h,cc},ws_message.cc,ws_codec_service.cc}.
    Bytes are Z in [0,256) (the C [char] values modulo 256). parser->offset and the local frame_offset are
    not modelled: they are written but never read (websocket_parser.c:61,70,98,105,127,149,154). *)
From Verif.Model Require Import Common Bytes.
Open Scope Z_scope.

(** websocket_parser.h: flag bits. *)
Definition WS_OP_MASK := 15.
Definition WS_FIN := 16.
Definition WS_HAS_MASK := 32.
Definition has_flag (flags bit : Z) : bool := negb (Z.land flags bit =? 0).

(** websocket_parser.c:34-40. *)
Inductive ws_state := s_start | s_head | s_length | s_mask | s_body.

(** websocket_parser.h struct websocket_parser. *)
Record wsp := mkwsp { wst : ws_state; wflags : Z; wmask : list Z; wmoff : Z; wlen : Z; wreq : Z }.

(** websocket_parser.c:42-47. *)
Definition ws_init : wsp := mkwsp s_start 0 [0; 0; 0; 0] 0 0 0.

(** Callback invocations with the data the codec sees. *)
Inductive ws_ev :=
| EHeader (flags len : Z)     (* on_frame_header, with parser->flags and parser->length *)
| EBody (d : list Z)          (* on_frame_body after the unmasking done by OnFrameBody *)
| EEnd (flags : Z).           (* on_frame_end, with parser->flags *)

(** websocket_parser.c:182-189 websocket_decode, also 173-180 websocket_parser_decode. *)
Fixpoint ws_xor (mask : list Z) (off : Z) (d : list Z) : list Z :=
  match d with
  | [] => []
  | b :: d => Z.lxor b (nth (Z.to_nat (off mod 4)) mask 0) :: ws_xor mask (off + 1) d
  end.
Definition ws_decode (mask : list Z) (off : Z) (d : list Z) : list Z * Z :=
  (ws_xor mask off d, (Z.of_nat (length d) + off) mod 4).

(** list update, for parser->mask[i] = c. *)
Definition set_nth (l : list Z) (i : nat) (v : Z) : list Z :=
  firstn i l ++ v :: skipn (S i) l.

(** ws_codec_service.cc:84-94 OnFrameBody as seen from the parser: unmask in place, keep mask_offset. *)
Definition ws_body_cb (p : wsp) (d : list Z) : wsp * ws_ev :=
  if has_flag (wflags p) WS_HAS_MASK then
    let '(d', off) := ws_decode (wmask p) (wmoff p) d in
    (mkwsp (wst p) (wflags p) (wmask p) off (wlen p) (wreq p), EBody d')
  else (p, EBody d).

(** The common tail of s_head/s_length/s_mask: websocket_parser.c:88-96, 113-121, 132-140. *)
Definition ws_enter_body (p : wsp) : wsp * list ws_ev :=
  if wlen p =? 0 then
    (mkwsp s_start (wflags p) (wmask p) (wmoff p) (wlen p) (wreq p), [EHeader (wflags p) (wlen p); EEnd (wflags p)])
  else
    (mkwsp s_body (wflags p) (wmask p) (wmoff p) (wlen p) (wlen p), [EHeader (wflags p) (wlen p)]).

(** websocket_parser.c:110-121. *)
Definition ws_after_length (p : wsp) : wsp * list ws_ev :=
  if has_flag (wflags p) WS_HAS_MASK
  then (mkwsp s_mask (wflags p) (wmask p) (wmoff p) (wlen p) 4, [])
  else ws_enter_body p.

(** websocket_parser.c:101-107: the length loop. *)
Fixpoint ws_length_loop (p : wsp) (l : list Z) : wsp * nat :=
  match l with
  | c :: l =>
      if wreq p =? 0 then (p, O)
      else
        let p' := mkwsp (wst p) (wflags p) (wmask p) (wmoff p) ((wlen p * 256 + c) mod 2 ^ 64) (wreq p - 1) in
        let '(q, k) := ws_length_loop p' l in (q, S k)
  | [] => (p, O)
  end.

(** websocket_parser.c:125-129: the mask loop. *)
Fixpoint ws_mask_loop (p : wsp) (l : list Z) : wsp * nat :=
  match l with
  | c :: l =>
      if wreq p =? 0 then (p, O)
      else
        let p' := mkwsp (wst p) (wflags p) (set_nth (wmask p) (Z.to_nat (4 - wreq p)) c) (wmoff p) (wlen p) (wreq p - 1) in
        let '(q, k) := ws_mask_loop p' l in (q, S k)
  | [] => (p, O)
  end.

(** One iteration of the for loop (websocket_parser.c:59-167): [addr] is the address [p] points to, [l] the
    bytes from [p] to [end]; the result carries how far [p] moved, including the loop's p++.
    The pointer comparison of line 145 is 64-bit wrapping; a callback on bytes beyond [end] is [UB]. *)
Definition ws_iter (p : wsp) (addr : Z) (l : list Z) : outcome (wsp * list ws_ev * nat) :=
  let c := hd 0 l in
  match wst p with
  | s_start =>
      let f := Z.land c WS_OP_MASK in
      let f := if negb (Z.land c 128 =? 0) then Z.lor f WS_FIN else f in
      Ok (mkwsp s_head f (wmask p) 0 0 (wreq p), [], 1%nat)
  | s_head =>
      let len := Z.land c 127 in
      let f := if negb (Z.land c 128 =? 0) then Z.lor (wflags p) WS_HAS_MASK else wflags p in
      if 126 <=? len then
        Ok (mkwsp s_length f (wmask p) (wmoff p) 0 (if len =? 127 then 8 else 2), [], 1%nat)
      else
        let '(q, es) := ws_after_length (mkwsp s_head f (wmask p) (wmoff p) len (wreq p)) in
        Ok (q, es, 1%nat)
  | s_length =>
      let '(q, k) := ws_length_loop p l in
      if wreq q =? 0 then let '(q', es) := ws_after_length q in Ok (q', es, k) else Ok (q, [], k)
  | s_mask =>
      let '(q, k) := ws_mask_loop p l in
      if wreq q =? 0 then let '(q', es) := ws_enter_body q in Ok (q', es, k) else Ok (q, [], k)
  | s_body =>
      if wreq p =? 0 then
        Ok (mkwsp s_start (wflags p) (wmask p) (wmoff p) (wlen p) 0, [EEnd (wflags p)], 1%nat)
      else if (addr + wreq p) mod 2 ^ 64 <=? addr + Z.of_nat (length l) then
        if Z.of_nat (length l) <? wreq p then UB
        else
          let '(q, e) := ws_body_cb p (firstn (Z.to_nat (wreq p)) l) in
          Ok (mkwsp s_start (wflags q) (wmask q) (wmoff q) (wlen q) 0, [e; EEnd (wflags q)], Z.to_nat (wreq p))
      else
        let '(q, e) := ws_body_cb p l in
        Ok (mkwsp s_body (wflags q) (wmask q) (wmoff q) (wlen q) (wreq p - Z.of_nat (length l)), [e], length l)
  end.

(** websocket_parser.c:58-168 over one buffer; every iteration moves p forward, so [length l] rounds of
    fuel suffice. The callbacks return 0, so execute always returns [len]. *)
Fixpoint ws_exec (fuel : nat) (p : wsp) (addr : Z) (l : list Z) : outcome (wsp * list ws_ev) :=
  match l, fuel with
  | [], _ => Ok (p, [])
  | _, O => Ok (p, [])
  | _, S fuel =>
      obind (ws_iter p addr l) (fun '(q, es, k) =>
      obind (ws_exec fuel q (addr + Z.of_nat k) (skipn k l)) (fun '(r, es') => Ok (r, es ++ es')))
  end.
Definition ws_execute (p : wsp) (addr : Z) (l : list Z) := ws_exec (length l) p addr l.

(** ws_codec_service.cc:295-311 OnDataReceived after the handshake, for a sequence of received buffers given
    with the address they were read to: everything is parsed and consumed each time. *)
Fixpoint ws_feed (p : wsp) (chunks : list (Z * list Z)) : outcome (wsp * list ws_ev) :=
  match chunks with
  | [] => Ok (p, [])
  | (a, l) :: cs =>
      obind (ws_execute p a l) (fun '(q, es) =>
      obind (ws_feed q cs) (fun '(r, es') => Ok (r, es ++ es')))
  end.

(** websocket_parser.c:191-205 (size_t) and ws_util.cc:23-29 (int) have the same body; for payloads below
    2^31-14 bytes the int computation is exact. *)
Definition ws_frame_size (has_mask : bool) (n : Z) : Z :=
  n + 2 + (if 126 <=? n then if 65535 <? n then 8 else 2 else 0) + (if has_mask then 4 else 0).

(** websocket_parser.c:207-249 with a non-NULL mask (ws_util.h:60,72 always pass one); the list is what is
    stored at frame[0..n), n the returned size. *)
Definition ws_build (flags : Z) (mask data : list Z) : list Z :=
  let n := Z.of_nat (length data) in
  let b0 := Z.lor (if has_flag flags WS_FIN then 128 else 0) (Z.land flags WS_OP_MASK) in
  let m := if has_flag flags WS_HAS_MASK then 128 else 0 in
  [b0] ++
  (if n <? 126 then [Z.lor m n]
   else if n <=? 65535 then [Z.lor m 126; Z.shiftr n 8; Z.land n 255]
   else [Z.lor m 127; Z.land (Z.shiftr n 56) 255; Z.land (Z.shiftr n 48) 255; Z.land (Z.shiftr n 40) 255;
         Z.land (Z.shiftr n 32) 255; Z.land (Z.shiftr n 24) 255; Z.land (Z.shiftr n 16) 255;
         Z.land (Z.shiftr n 8) 255; Z.land n 255]) ++
  (if has_flag flags WS_HAS_MASK then mask ++ fst (ws_decode mask 0 data) else data).

(** ws_util.cc:31-48 BuildFrame. *)
Definition ws_build_frame (data mask : list Z) (has_mask : bool) (opcode : Z) (fin : bool) : list Z :=
  let f := opcode in
  let f := if fin then Z.lor f WS_FIN else f in
  let f := if has_mask then Z.lor f WS_HAS_MASK else f in
  ws_build f mask data.

(** ** The codec on top of the parser *)

(** Opcodes (ws_util.h:29-36). *)
Definition OP_CONTINUE := 0.
Definition OP_TEXT := 1.
Definition OP_CLOSE := 8.
Definition OP_PING := 9.

(** What the application and the peer observe. *)
Inductive ws_act :=
| WDeliver (opcode : Z) (payload : list Z)  (* handler_->OnCodecMessage *)
| WPong                                     (* the empty pong frame is sent *)
| WClose.                                   (* the close frame is sent, CloseService, OnCodecClosed *)

(** codec->current_ (opcode, payload) and the actions so far. *)
Record wscodec := mkcodec { wcur : option (Z * list Z); wacts : list ws_act }.
Definition codec_init : wscodec := mkcodec None [].

(** ws_codec_service.cc:65-82 OnFrameBegin; a fresh WebsocketFrame has opcode TEXT (ws_message.cc:19). *)
Definition codec_header (c : wscodec) (flags : Z) : wscodec :=
  let '(op, d) := match wcur c with Some m => m | None => (OP_TEXT, []) end in
  let o := Z.land flags WS_OP_MASK in
  mkcodec (Some (if o =? OP_CONTINUE then op else o, d)) (wacts c).

(** ws_codec_service.cc:92 AppendData (ws_message.cc:23-25); current_ is never null here. *)
Definition codec_body (c : wscodec) (d : list Z) : wscodec :=
  match wcur c with
  | Some (op, d0) => mkcodec (Some (op, d0 ++ d)) (wacts c)
  | None => c
  end.

(** ws_codec_service.cc:96-120 OnFrameFinish and CommitFrameMessage. On CLOSE current_ is kept. *)
Definition codec_end (c : wscodec) (flags : Z) : wscodec :=
  if has_flag flags WS_FIN then
    match wcur c with
    | Some (op, d) =>
        if op =? OP_CLOSE then mkcodec (wcur c) (wacts c ++ [WClose])
        else mkcodec None (wacts c ++ (if op =? OP_PING then [WPong] else []) ++ [WDeliver op d])
    | None => c
    end
  else c.

Definition codec_ev (c : wscodec) (e : ws_ev) : wscodec :=
  match e with
  | EHeader f _ => codec_header c f
  | EBody d => codec_body c d
  | EEnd f => codec_end c f
  end.
