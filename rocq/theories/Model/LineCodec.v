(** Model of net_io/codec/line/line_codec_service.cc on top of IOBuffer. *)
From Verif.Model Require Import Common IOBuffer.

(** line_codec_service.cc:34-58 OnDataReceived: at most one line per call. *)
Definition line_on_data (b : iobuf) : option (list Z) * iobuf :=
  match find_crlf b with
  | None => (None, b)
  | Some n => (Some (firstn n (as_string b)), consume b (n + 2))
  end.

(** One read event: the channel appends the received bytes (tcp_channel.cc HandleRead) and the
    codec's OnDataReceived is called once. *)
Definition line_event (b : iobuf) (chunk : list Z) : outcome (option (list Z) * iobuf) :=
  obind (write_bytes b chunk) (fun b' => Ok (line_on_data b')).

(** A connection: read events in order; delivered lines in order. *)
Fixpoint line_run (b : iobuf) (chunks : list (list Z)) : outcome (list (list Z) * iobuf) :=
  match chunks with
  | [] => Ok ([], b)
  | c :: cs =>
      obind (line_event b c) (fun '(m, b') =>
      obind (line_run b' cs) (fun '(ms, b'') =>
        Ok (match m with Some l => l :: ms | None => ms end, b'')))
  end.

(** line_codec_service.cc:60-69 SendMessage: body followed by CRLF. *)
Definition line_encode (body : list Z) : list Z := body ++ [13; 10]%Z.
