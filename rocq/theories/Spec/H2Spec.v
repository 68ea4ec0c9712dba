(** Independent vocabulary for HTTP/2 connections: what a client asked for on a stream, and what it got. *)
From Coq Require Import String.
From Verif.Model Require Import Common Http H2Token H2Conn.
Local Open Scope Z_scope.

(** The header names the server knows, with their tokens (RFC 7540 8.1.2, RFC 7230 ff.). *)
Definition token_names : list (string * token) := [("te"%string, HD_TE); ("via"%string, HD_VIA); ("date"%string, 
HD_DATE); ("link"%string, HD_LINK); ("host"%string, HD_HOST); (":path"%string, HD__PATH); (":host"%string, HD__HOST); 
("cookie"%string, HD_COOKIE); ("server"%string, HD_SERVER); ("expect"%string, HD_EXPECT); ("alt-svc"%string, 
HD_ALT_SVC); (":method"%string, HD__METHOD); (":scheme"%string, HD__SCHEME); ("upgrade"%string, HD_UPGRADE); 
("trailer"%string, HD_TRAILER); (":status"%string, HD__STATUS); ("location"%string, HD_LOCATION); ("forwarded"%string, 
HD_FORWARDED); (":protocol"%string, HD__PROTOCOL); ("early-data"%string, HD_EARLY_DATA); ("keep-alive"%string, 
HD_KEEP_ALIVE); ("connection"%string, HD_CONNECTION); ("user-agent"%string, HD_USER_AGENT); (":authority"%string, 
HD__AUTHORITY); ("content-type"%string, HD_CONTENT_TYPE); ("cache-control"%string, HD_CACHE_CONTROL); 
("content-length"%string, HD_CONTENT_LENGTH); ("http2-settings"%string, HD_HTTP2_SETTINGS); ("accept-language"%string, 
HD_ACCEPT_LANGUAGE); ("accept-encoding"%string, HD_ACCEPT_ENCODING); ("x-forwarded-for"%string, HD_X_FORWARDED_FOR); 
("proxy-connection"%string, HD_PROXY_CONNECTION); ("if-modified-since"%string, HD_IF_MODIFIED_SINCE); 
("transfer-encoding"%string, HD_TRANSFER_ENCODING); ("x-forwarded-proto"%string, HD_X_FORWARDED_PROTO); 
("sec-websocket-key"%string, HD_SEC_WEBSOCKET_KEY); ("sec-websocket-accept"%string, HD_SEC_WEBSOCKET_ACCEPT)].

(** A client's request: header fields in order, then DATA frames (each a list of chunks as nghttp2 delivers them). [lim]s: how
    much the client lets the server send at those moments. *)
Definition data_frame (sid : Z) (fin : bool) (lim : nat) (chunks : list (list Z)) : list event := map (EChunk sid) chunks ++ [EData sid fin lim].
Definition head (sid : Z) (fields : list (list Z * list Z)) (fin : bool) (lim : nat) : list event :=
  EBegin sid :: map (fun f => EHeader sid (fst f) (snd f)) fields ++ [EHeaders sid fin lim].
Definition no_body (sid : Z) fields lim : list event := head sid fields true lim.
Definition with_body (sid : Z) fields lim (frames : list (list (list Z))) (last : list (list Z)) lim' : list event :=
  head sid fields false lim ++ concat (map (data_frame sid false 0) frames) ++ data_frame sid true lim' last.
Definition with_trailers (sid : Z) fields lim (frames : list (list (list Z))) : list event :=
  head sid fields false lim ++ concat (map (data_frame sid false 0) frames) ++ [ETrailers sid true].
Definition body_of (frames : list (list (list Z))) : list Z := concat (concat frames).

(** The events that belong to a stream; a push belongs to the stream it opens. *)
Definition concerns (sid : Z) (e : event) : bool :=
  match e with
  | EBegin s | EHeader s _ _ | EHeaders s _ _ | EChunk s _ | EData s _ _ | ETrailers s _ | EClose s => s =? sid
  | EPush _ (Some pid) _ _ _ _ => pid =? sid
  | EPush _ None _ _ _ _ => false
  end.
Definition on_stream (sid : Z) (es : list event) : list event := filter (concerns sid) es.

(** The requests of a stream given to the handler, and the frames of the answer. *)
Definition requests (sid : Z) (c : h2) : list request := map snd (filter (fun e => fst e =? sid) (handled c)).
Definition answer_frame (sid : Z) (f : frame) : bool := match f with FHeaders s _ _ _ | FData s _ _ | FRst s => s =? sid | FPush _ _ _ _ => false end.
Definition answer (sid : Z) (c : h2) : list frame := filter (answer_frame sid) (outp c).

(** Values of a field, in order. *)
Definition values (n : list Z) (fields : list (list Z * list Z)) : list (list Z) := map snd (filter (fun f => beqb n (fst f)) fields).
Definition lower_case (n : list Z) : Prop := n <> [] /\ to_lower n = n.
Definition ordinary (n : list Z) : Prop := lower_case n /\ hd 0 n <> 58 /\ n <> s_scheme /\ n <> s_authority.
Definition no_small_letters (v : list Z) : Prop := Forall (fun c => ~ (97 <= c <= 122)) v.
(** The request [q] is what the fields and the body say. *)
Definition describes (q : request) (fields : list (list Z * list Z)) (body : list Z) : Prop :=
  q_body q = body /\
  (forall v, values (bs ":method"%string) fields = [v] -> no_small_letters v -> q_method q = v) /\
  (forall v, values (bs ":path"%string) fields = [v] -> q_url q = v) /\
  (forall v, values (bs ":scheme"%string) fields = [v] -> values s_scheme fields = [] -> get_header (q_headers q) s_scheme = v) /\
  (forall v, values (bs ":authority"%string) fields = [v] -> values s_authority fields = [] -> get_header (q_headers q) s_authority = v) /\
  (forall n, ordinary n -> get_header (q_headers q) n = hd [] (values n fields)).
(** The answer carries the response [r] with header fields [hs]. *)
Definition carries (sid : Z) (r : response) (hs : kvmap) : list frame :=
  match r_body r with [] => [FHeaders sid (r_code r) hs true] | b => [FHeaders sid (r_code r) hs false; FData sid b true] end.
(** What the header fields of a response should become: those that HTTP/2 forbids left out. *)
Definition same_name (n p : list Z) : bool := beqb (map tolower n) p.
Definition h2_fields (hs : kvmap) : kvmap := filter (fun f => negb (same_name (fst f) s_connection) && negb (same_name (fst f) s_content_length)) hs.
(** Neither name is the other one with something added. *)
Definition apart (n p : list Z) : Prop := forall l, l <> [] -> map tolower n ++ l <> p /\ p ++ l <> map tolower n.
Definition plain (r : response) : Prop := forall f, In f (r_headers r) -> apart (fst f) s_connection /\ apart (fst f) s_content_length.
(** What the client was willing to take when a response was about to be sent. *)
Definition room (e : event) : option nat :=
  match e with EHeaders _ _ lim => Some lim | EData _ true lim => Some lim | _ => None end.
