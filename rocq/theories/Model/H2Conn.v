(** net_io/codec/http/h2/h2_codec_service.cc: the server side of an HTTP/2 connection, seen from the callbacks nghttp2 makes.

    nghttp2 is third-party. The model assumes of it: the callbacks of a stream arrive in the order of its frames; a response
    submitted on a stream whose sending side is still open is sent at once, the data provider being asked for at most [lim]
    bytes (frame size and flow-control windows); a provider that returns more than it was asked for is a fatal error of
    nghttp2_session_send; a response submitted on a stream whose sending side is closed is not sent and reported to
    on_frame_not_send; RST_STREAM closes the stream and reports it to on_stream_close.
    The handler answers synchronously (server/handler_factory.h:24-30 without coroutine, http_context.cc:75-107 in the loop). *)
From Coq Require Import String.
From Verif.Model Require Import Common Http StrUtil H2Token.
Local Open Scope Z_scope.

(** str_utils.cc ToUpper on a std::string: stops at the first NUL byte. *)
Fixpoint to_upper (l : list Z) : list Z :=
  match l with [] => [] | c :: l' => if c =? 0 then l else toupper c :: to_upper l' end.
(** What the codec fills in of an HttpRequest (http_message.h:116-165). *)
Record request := Req { q_method : list Z; q_url : list Z; q_headers : kvmap; q_body : list Z }.
(** http_message.cc:111: the method of a new request is "GET". *)
Definition new_request : request := Req [71; 69; 84] [] [] [].
(** An HttpResponse. *)
Record response := Resp { r_code : Z; r_headers : kvmap; r_body : list Z }.
(** h2_codec_service.h:16-40 StreamCtx; [x_resp]: the response attached to the request. *)
Record stream := Stream { x_req : request; x_resp : option response; x_sent : bool }.
(** Frames sent to the client. *)
Inductive frame := FHeaders (sid : Z) (code : Z) (hs : kvmap) (fin : bool) | FData (sid : Z) (b : list Z) (fin : bool) | FRst (sid : Z) | FPush (sid pid : Z) (m p : list Z).
(** The connection: stream_ctxs_, the streams whose sending side nghttp2 has closed, the requests handed to the handler, the
    frames sent, the answers to push callbacks; [h_dead]: the connection was closed. *)
Record h2 := H2 { ctxs : list (Z * stream); shut_wr : list Z; handled : list (Z * request); outp : list frame; pushed : list Z; h_dead : bool }.
Definition new_h2 : h2 := H2 [] [] [] [] [] false.

(** 554-582 FindStreamCtx, DelStreamCtx, AddStreamCtx (std::map; emplace keeps an existing entry). *)
Fixpoint find (sid : Z) (l : list (Z * stream)) : option stream :=
  match l with [] => None | (k, s) :: l => if k =? sid then Some s else find sid l end.
Definition del (sid : Z) (l : list (Z * stream)) : list (Z * stream) := filter (fun e => negb (fst e =? sid)) l.
Definition add (sid : Z) (s : stream) (l : list (Z * stream)) : list (Z * stream) :=
  match find sid l with Some _ => l | None => (sid, s) :: l end.
Fixpoint upd (sid : Z) (f : stream -> stream) (l : list (Z * stream)) : list (Z * stream) :=
  match l with [] => [] | (k, s) :: l => if k =? sid then (k, f s) :: l else (k, s) :: upd sid f l end.
Definition on_req (f : request -> request) (s : stream) : stream := Stream (f (x_req s)) (x_resp s) (x_sent s).
Definition set_ctxs c l := H2 l (shut_wr c) (handled c) (outp c) (pushed c) (h_dead c).
Definition emit c fs := H2 (ctxs c) (shut_wr c) (handled c) (outp c ++ fs) (pushed c) (h_dead c).
Definition shut c sid := H2 (ctxs c) (sid :: shut_wr c) (handled c) (outp c) (pushed c) (h_dead c).
Definition die c := H2 (ctxs c) (shut_wr c) (handled c) (outp c) (pushed c) true.
Definition note c sid q := H2 (ctxs c) (shut_wr c) (handled c ++ [(sid, q)]) (outp c) (pushed c) (h_dead c).
Definition notify c n := H2 (ctxs c) (shut_wr c) (handled c) (outp c) (pushed c ++ [n]) (h_dead c).

Definition s_scheme : list Z := bs "scheme"%string.
Definition s_authority : list Z := bs "authority"%string.
Definition s_host : list Z := bs "host"%string.
(** 59-112 on_header for a request. *)
Definition on_header (name value : list Z) (q : request) : request :=
  let hdr k v q := Req (q_method q) (q_url q) (insert_header k v (q_headers q)) (q_body q) in
  match lookup_token name with
  | Some HD__METHOD => Req (to_upper value) (q_url q) (q_headers q) (q_body q)
  | Some HD__SCHEME => hdr s_scheme value q
  | Some HD__AUTHORITY => hdr s_authority value q
  | Some HD__PATH => Req (q_method q) value (q_headers q) (q_body q)
  | Some HD_HOST => hdr name value (hdr s_host value q)
  | _ => hdr name value q
  end.
(** 114-136 on_data_chunk. *)
Definition on_chunk (b : list Z) (q : request) : request := Req (q_method q) (q_url q) (q_headers q) (q_body q ++ b).

Definition s_connection : list Z := bs "connection"%string.
Definition s_content_length : list Z := bs "content-length"%string.
(** 489-500 the header fields of a response. *)
Fixpoint nvs (hs : kvmap) : outcome kvmap :=
  match hs with
  | [] => Ok []
  | (k, v) :: hs =>
      obind (IgnoreCaseEquals k s_connection) (fun a => if a then nvs hs else
      obind (IgnoreCaseEquals k s_content_length) (fun b => if b then nvs hs else
      obind (nvs hs) (fun r => Ok ((k, v) :: r))))
  end.
(** 504-524 the data provider: bytes it returns for stream [s]. *)
Definition provider_len (s : option stream) : nat :=
  match s with
  | Some s => if x_sent s then O else match x_resp s with Some r => length (r_body r) | None => O end
  | None => O
  end.
(** 159-196 send_data_callback: the payload is the body of the response attached to the stream's request. *)
Definition payload (s : stream) : list Z := match x_resp s with Some r => r_body r | None => [] end.
(** 481-543 SendResponse on stream [sid], the provider being asked for at most [lim] bytes; true: success. *)
Definition SendResponse (c : h2) (sid : Z) (r : response) (lim : nat) : outcome (h2 * bool) :=
  obind (nvs (r_headers r)) (fun hs =>
  if existsb (Z.eqb sid) (shut_wr c) then (* 300-316 on_frame_not_send; 219-231 on_stream_close *)
    Ok (set_ctxs (emit c [FRst sid]) (del sid (ctxs c)), true)
  else match r_body r with
  | [] => Ok (shut (emit c [FHeaders sid (r_code r) hs true]) sid, true)
  | _ =>
      let c := emit c [FHeaders sid (r_code r) hs false] in
      let n := provider_len (find sid (ctxs c)) in
      if Nat.ltb lim n then Ok (c, false)
      else match find sid (ctxs c) with
        | Some s => Ok (shut (set_ctxs (emit c [FData sid (payload s) true]) (upd sid (fun s => Stream (x_req s) (x_resp s) true) (ctxs c))) sid, true)
        | None => Ok (emit c [], true) (* not reached: the callers below have found the stream *)
        end
  end).

Section Server.
Variable handler : request -> response.
(** 252-268 on_frame_recv: the handler is called, and its answer sent (http_context.cc:75-107); a failure closes. *)
Definition dispatch (c : h2) (sid : Z) (lim : nat) : outcome h2 :=
  match find sid (ctxs c) with
  | None => Ok c
  | Some s =>
      let r := handler (x_req s) in
      let c := set_ctxs (note c sid (x_req s)) (upd sid (fun s => Stream (x_req s) (Some r) (x_sent s)) (ctxs c)) in
      obind (SendResponse c sid r lim) (fun '(c, ok) => Ok (if ok then c else die c))
  end.
(** 423-470 PushPromise bound to stream [sid]; [pid]: the identifier nghttp2 gives (None: it refuses). *)
Definition PushPromise (c : h2) (sid : Z) (pid : option Z) (m p : list Z) (r : response) (lim : nat) : outcome h2 :=
  match find sid (ctxs c) with
  | None => Ok (notify c (-1))
  | Some _ =>
      match pid with
      | None => Ok (notify c (-2))
      | Some pid =>
          match find pid (ctxs c) with
          | Some _ => UB (* AddStreamCtx gives nullptr *)
          | None =>
              let c := set_ctxs (emit c [FPush sid pid m p]) (add pid (Stream (Req (to_upper m) p [] []) (Some r) false) (ctxs c)) in
              obind (SendResponse c pid r lim) (fun '(c, ok) => Ok (notify c (if ok then 0 else -3)))
          end
      end
  end.
(** What nghttp2 and the application do. *)
Inductive event :=
| EBegin (sid : Z)                                   (* on_begin_headers, request *)
| EHeader (sid : Z) (name value : list Z)            (* on_header *)
| EHeaders (sid : Z) (fin : bool) (lim : nat)        (* on_frame_recv HEADERS, request *)
| EChunk (sid : Z) (b : list Z)                      (* on_data_chunk *)
| EData (sid : Z) (fin : bool) (lim : nat)           (* on_frame_recv DATA *)
| ETrailers (sid : Z) (fin : bool)                   (* on_frame_recv HEADERS, trailers *)
| EClose (sid : Z)                                   (* on_stream_close *)
| EPush (sid : Z) (pid : option Z) (m p : list Z) (r : response) (lim : nat).
(** 198-217 on_begin_headers, 233-270 on_frame_recv. *)
Definition step (c : h2) (e : event) : outcome h2 :=
  if h_dead c then Ok c else
  match e with
  | EBegin sid => Ok (set_ctxs c (add sid (Stream new_request None false) (ctxs c)))
  | EHeader sid n v => Ok (set_ctxs c (upd sid (on_req (on_header n v)) (ctxs c)))
  | EHeaders sid fin lim => dispatch c sid lim
  | EChunk sid b => Ok (set_ctxs c (upd sid (on_req (on_chunk b)) (ctxs c)))
  | EData sid fin lim => if fin then dispatch c sid lim else Ok c
  | ETrailers sid fin => Ok c
  | EClose sid => Ok (set_ctxs c (del sid (ctxs c)))
  | EPush sid pid m p r lim => PushPromise c sid pid m p r lim
  end.
Fixpoint run (c : h2) (es : list event) : outcome h2 :=
  match es with [] => Ok c | e :: es => obind (step c e) (fun c => run c es) end.
End Server.

(** 472-475 SendRequest of the client side: nothing is written. Result: bytes handed to the channel, return value. *)
Definition SendRequest (q : request) : list Z * bool := ([], true).
