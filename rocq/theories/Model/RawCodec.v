(** Model of net_io/codec/raw/{raw_message.h,raw_message.cc,raw_codec_service.h}. *)
From Verif.Model Require Import Common Bytes IOBuffer.
Open Scope Z_scope.

(** raw_message.h:29-49 and 115-116: the header fields and the content. *)
Record rawmsg := mkraw { rcode : Z; rmethod : Z; rsize : Z; rseq : Z; rcontent : list Z }.

(** sizeof(LtRawHeader) on an LP64 ABI: two uint8_t, 6 padding bytes, two uint64_t (raw_message.cc:26). *)
Definition header_size : nat := 24.

(** Object representation of the header: code, method, 6 bytes of padding of arbitrary value, then
    content_size_ and sequence_id_ little endian (no ToNetOrder call on any path). *)
Definition header_bytes (pad : list Z) (m : rawmsg) : list Z :=
  [rcode m; rmethod m] ++ pad ++ le_encode 8 (rsize m) ++ le_encode 8 (rseq m).

(** raw_message.cc:89-95 EncodeTo: CHECK, then two Sends (TcpChannel keeps their order, see TcpChannel.v). *)
Definition raw_encode (pad : list Z) (m : rawmsg) : outcome (list Z) :=
  if Z.of_nat (length (rcontent m)) =? rsize m
  then Ok (header_bytes pad m ++ rcontent m) else CheckFail.

(** raw_message.h:40 frame_size(): uint64_t addition wraps. *)
Definition frame_size (size : Z) : Z := (size + 24) mod 2 ^ 64.

(** reading the header object at GetRead(): raw_message.cc:69,76. *)
Definition header_code (h : list Z) : Z := nth 0 h 0.
Definition header_method (h : list Z) : Z := nth 1 h 0.
Definition header_content_size (h : list Z) : Z := le_decode (slice h 8 8).
Definition header_seq (h : list Z) : Z := le_decode (slice h 16 8).

(** Largest std::string (libstdc++: 2^63 - 1): append of more throws std::length_error, which nothing
    in the library catches, so the process terminates ([CheckFail]). *)
Definition max_string : Z := 2 ^ 63 - 1.

(** content_.append(GetRead(), n) on an empty string (raw_message.cc:81,117-120): reading past the
    readable bytes is reported as [UB]. *)
Definition append_content (b : iobuf) (n : Z) : outcome (list Z) :=
  if max_string <? n then CheckFail
  else if Z.of_nat (can_read b) <? n then UB
  else Ok (firstn (Z.to_nat n) (as_string b)).

(** raw_message.cc:64-85 Decode. *)
Definition raw_decode (b : iobuf) : outcome (option rawmsg * iobuf) :=
  if (can_read b <? header_size)%nat then Ok (None, b)
  else
    let h := firstn header_size (as_string b) in
    let size := header_content_size h in
    if Z.of_nat (can_read b) <? frame_size size then Ok (None, b)
    else
      let b1 := consume b header_size in
      if 0 <? size then
        obind (append_content b1 size) (fun body =>
          Ok (Some (mkraw (header_code h) (header_method h) (Z.of_nat (length body)) (header_seq h) body),
              consume b1 (Z.to_nat size)))
      else Ok (Some (mkraw (header_code h) (header_method h) size (header_seq h) []), b1).

(** raw_message.cc:103-105. *)
Definition is_heartbeat (m : rawmsg) : bool := (rcode m =? 0) && (rmethod m =? 255).

(** Observable effect of one decoded message. *)
Inductive raw_event :=
| RDeliver (m : rawmsg)   (* handler_->OnCodecMessage *)
| RReply (m : rawmsg).    (* heartbeat answer written to the channel *)

(** raw_codec_service.h:54-62, with NewHeartbeat (70-76) and SendResponse (88-95). *)
Definition raw_dispatch (server : bool) (m : rawmsg) : raw_event :=
  if server && is_heartbeat m then RReply (mkraw 0 255 0 (rseq m) [])
  else RDeliver m.

(** raw_codec_service.h:43-64 OnDataReceived: the do-while loop, with fuel (every iteration consumes at
    least a header, so [can_read b] iterations are enough; Proofs show fuel is never exhausted). *)
Fixpoint raw_loop (fuel : nat) (server : bool) (b : iobuf) : outcome (list raw_event * iobuf) :=
  match fuel with
  | O => Ok ([], b)
  | S fuel =>
      obind (raw_decode b) (fun '(m, b1) =>
        match m with
        | None => Ok ([], b1)
        | Some m => obind (raw_loop fuel server b1) (fun '(es, b2) => Ok (raw_dispatch server m :: es, b2))
        end)
  end.
Definition raw_on_data (server : bool) (b : iobuf) := raw_loop (S (can_read b)) server b.

(** A connection: read events in order. *)
Fixpoint raw_run (server : bool) (b : iobuf) (chunks : list (list Z)) : outcome (list raw_event * iobuf) :=
  match chunks with
  | [] => Ok ([], b)
  | c :: cs =>
      obind (write_bytes b c) (fun b1 =>
      obind (raw_on_data server b1) (fun '(es, b2) =>
      obind (raw_run server b2 cs) (fun '(es', b3) => Ok (es ++ es', b3))))
  end.

(** raw_message.cc:112-115 SetContent. *)
Definition set_content (m : rawmsg) (c : list Z) : rawmsg :=
  mkraw (rcode m) (rmethod m) (Z.of_nat (length c)) (rseq m) c.

(** raw_message.cc:54-62 CreateResponse. *)
Definition create_response (req : rawmsg) : rawmsg := mkraw 0 (rmethod req) 0 (rseq req) [].
