(** Setting up servers, clients and connections: codec_factory.cc, the UseSSLChannel overrides, generic_server.h, io_service.cc,
    coronet/io_service.cc, client.cc. *)
From Coq Require Import String.
From Verif.Model Require Import Common.
Local Open Scope string_scope.
Local Open Scope list_scope.
Local Open Scope nat_scope.

(** The codec classes; user-defined classes are named by numbers, with the answer of their UseSSLChannel. *)
Inductive kind := KLine | KHttp | KRaw | KRedis | KWs | KH2 | KUser (id : nat) (tls : bool).
(** codec_service.h:134-136: protocol_, server_side_. *)
Record codec := Codec { c_kind : kind; c_proto : string; c_server : bool }.
(** ProtoserviceCreator, codec_factory.h:34-35: an empty std::function, one that returns a null pointer, one that makes a codec. *)
Inductive creator := CEmpty | CNull | CMake (k : kind).
(** creators_ (codec_factory.h:64). *)
Definition registry := list (string * creator).
Fixpoint find (r : registry) (p : string) : option creator :=
  match r with [] => None | (q, c) :: r => if String.eqb q p then Some c else find r p end.
(** codec_factory.cc:89-143 InitInnerDefault; [h2]: LTIO_WITH_HTTP2. *)
Definition defaults (h2 : bool) : registry :=
  [("line", CMake KLine); ("http", CMake KHttp); ("https", CMake KHttp); ("raw", CMake KRaw); ("rawSSL", CMake KRaw);
   ("redis", CMake KRedis); ("ws", CMake KWs); ("wss", CMake KWs)] ++ (if h2 then [("h2", CMake KH2); ("h2c", CMake KH2)] else []).
(** codec_factory.cc:77-81 RegisterCreator. *)
Fixpoint set_entry (r : registry) (p : string) (c : creator) : registry :=
  match r with [] => [(p, c)] | (q, d) :: r => if String.eqb q p then (q, c) :: r else (q, d) :: set_entry r p c end.
Definition RegisterCreator (r : registry) (x : string * creator) : registry := set_entry r (fst x) (snd x).
(** codec_factory.cc:83-86. *)
Definition HasCreator (r : registry) (p : string) : bool := match find r p with Some _ => true | None => false end.
(** codec_factory.cc:48-75 NewServerService, NewClientService, CreateProtocolService; a null codec is used without a check. *)
Definition NewService (r : registry) (p : string) (server : bool) : outcome (option codec) :=
  match find r p with
  | Some (CMake k) => Ok (Some (Codec k p server))
  | Some CNull => UB
  | Some CEmpty | None => Ok None
  end.
(** codec_service.h:119, http_codec_service.cc:57-59, h2_codec_service.cc:555-557, ws_codec_service.h:60. *)
Definition UseSSLChannel (c : codec) : bool :=
  match c_kind c with
  | KHttp => String.eqb (c_proto c) "https"
  | KH2 => String.eqb (c_proto c) "h2"
  | KWs => String.eqb (c_proto c) "wss"
  | KLine | KRaw | KRedis => false
  | KUser _ tls => tls
  end.
(** A connection: its codec and whether a TLS channel carries it. *)
Record conn := Conn { n_codec : codec; n_tls : bool }.
(** io_service.cc:128-137, client.cc:184-195; [ssl]: LTIO_HAVE_SSL. *)
Definition channel_for (ssl : bool) (c : codec) : outcome conn :=
  if UseSSLChannel c then (if ssl then Ok (Conn c true) else CheckFail) else Ok (Conn c false).
(** generic_server.h:83-90: ServeAddress on a parsed address; what serves afterwards is the scheme's name. *)
Definition ServeScheme (r : registry) (p : string) : outcome string := if HasCreator r p then Ok p else CheckFail.
(** io_service.cc:104-145 CreateCodeService; None: the connection is closed. *)
Definition server_connection (ssl : bool) (r : registry) (p : string) : outcome (option conn) :=
  obind (NewService r p true) (fun o => match o with Some c => obind (channel_for ssl c) (fun n => Ok (Some n)) | None => Ok None end).
(** client.cc:166-202 OnConnected. *)
Definition client_connection (ssl : bool) (r : registry) (p : string) : outcome conn :=
  obind (NewService r p false) (fun o => match o with Some c => channel_for ssl c | None => CheckFail end).
(** coronet/io_service.cc:64-91 handle_connection. *)
Definition coro_connection (r : registry) (p : string) : outcome conn :=
  obind (NewService r p true) (fun o => match o with Some c => Ok (Conn c false) | None => CheckFail end).

(** The connection limit with one IOService per loop (generic_server.h:93-100, 124-132; io_service.cc:147-168, 187-193): each loop reads the
    shared count, then sets the connection up, then increments it; another loop may run in between. *)
Record lstate := LS { l_count : nat; l_pending : list nat (* loops between the check and the increment *); l_held : list nat (* the loop of each connection *) }.
Inductive lop := LCheck (i : nat) | LStore (i : nat) | LRemove (i : nat).
Definition remove1 (i : nat) : list nat -> list nat :=
  fix go (l : list nat) := match l with [] => [] | x :: l => if Nat.eqb x i then l else x :: go l end.
(** None: that loop cannot do it now. *)
Definition lstep (limit n : nat) (s : lstate) (o : lop) : option lstate :=
  match o with
  | LCheck i =>
      if negb (i <? n) || existsb (Nat.eqb i) (l_pending s) then None
      else Some (if l_count s <? limit then LS (l_count s) (i :: l_pending s) (l_held s) else s)
  | LStore i =>
      if existsb (Nat.eqb i) (l_pending s) then Some (LS (S (l_count s)) (remove1 i (l_pending s)) (i :: l_held s)) else None
  | LRemove i =>
      if existsb (Nat.eqb i) (l_held s) then Some (LS (pred (l_count s)) (l_pending s) (remove1 i (l_held s))) else None
  end.
Fixpoint lrun (limit n : nat) (s : lstate) (os : list lop) : option lstate :=
  match os with [] => Some s | o :: os => match lstep limit n s o with Some s => lrun limit n s os | None => None end end.
Definition linit : lstate := LS 0 [] [].

(** Starting and stopping a server with several services (generic_server.h:74-120, 154-163). [v_next]: the next service object;
    callbacks are numbers. *)
Record server := Server { v_serving : bool; v_services : list nat; v_next : nat; v_cb : option nat }.
Definition server0 : server := Server false [] 0 None.
Inductive sop := SServe (loops : nat) | SStop (cb : option nat) | SReport (i : nat) (* service i calls IOServiceStoped *).
(** What is observed: the callbacks that run. *)
Definition sstep (s : server) (o : sop) : outcome (server * list nat) :=
  match o with
  | SServe n =>
      if (n =? 0) || v_serving s then CheckFail
      else Ok (Server true (v_services s ++ seq (v_next s) n) (v_next s + n) (v_cb s), [])
  | SStop cb => if v_serving s then Ok (Server false (v_services s) (v_next s) cb, []) else CheckFail
  | SReport i =>
      let left := filter (fun x => negb (x =? i)) (v_services s) in
      Ok (Server (v_serving s) left (v_next s) (v_cb s),
          match left, v_cb s with [], Some c => [c] | _, _ => [] end)
  end.
Fixpoint srun (s : server) (os : list sop) : outcome (server * list nat) :=
  match os with
  | [] => Ok (s, [])
  | o :: os => obind (sstep s o) (fun '(s, e) => obind (srun s os) (fun '(s, e') => Ok (s, e ++ e')))
  end.

(** generic_server.h:134-141 GetNextIOWorkLoop without SO_REUSEPORT: the counter is shared by all servers of the class; the state is the
    counter, an arrival names its server, [loops] gives how many loops a server has. *)
Definition GetNextIOWorkLoop (c : Z) (loops : Z) : Z * Z := (c mod loops, (c + 1) mod 2 ^ 32)%Z.
Fixpoint assign (c : Z) (loops : nat -> Z) (arrivals : list nat) : list (nat * Z) :=
  match arrivals with
  | [] => []
  | a :: l => let '(i, c) := GetNextIOWorkLoop c (loops a) in (a, i) :: assign c loops l
  end.

(** raw_server.cc:39-67 RawRequestContext; [alive]: the connection still exists; [ok]: SendResponse succeeds. The response is sent in the
    connection's loop, at once or by a posted task; both give the same effects in order. *)
Inductive effect := Sent (m : nat) | Closed.
Record rctx := RCtx { r_did_reply : bool }.
Definition Response (c : rctx) (alive ok : bool) (m : nat) : rctx * list effect :=
  if r_did_reply c then (c, [])
  else (RCtx true, if alive then (if ok then [Sent m] else [Closed]) else []).
Fixpoint responses (c : rctx) (l : list (bool * bool * nat)) : list effect :=
  match l with [] => [] | (a, ok, m) :: l => let '(c, e) := Response c a ok m in e ++ responses c l end.
