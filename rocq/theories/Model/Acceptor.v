(** net_io/socket_acceptor.cc with socket_utils.cc:99-143, as used by net_io/io_service.cc:49,66-71: a listening TCP socket in its loop.

    All calls happen in the loop's thread (the code CHECKs it). The kernel's side: connections wait in the socket's backlog from the first
    successful listen(2) on; epoll is level triggered, so the loop reports the socket while it is registered and a connection waits
    (io_mux_epoll.cc:65-86 never reports an error event, so HandleError (134-145) does not run). *)
From Verif.Model Require Import Common IpAddress.
Local Open Scope Z_scope.

(** A waiting connection: its identity and the peer's address as the kernel stores it (16 bytes for IPv4, 28 for IPv6). *)
Definition conn := (nat * list Z)%type.
(** [a_listening]: listening_; [a_reg]: socket_event_ is installed in the pump with the read event. [k_listen], [k_backlog]: the kernel's
    socket; [k_open]: its descriptor is open. *)
Record acceptor := Acceptor { a_listening : bool; a_reg : bool; k_listen : bool; k_backlog : list conn; k_open : bool }.

(** What the environment answers: socket(2), bind(2), listen(2) succeed. *)
Record env := Env { e_socket : bool; e_bind : bool; e_listen : bool }.
(** 29-70: the constructor; CHECK(InitListener()). *)
Definition create (e : env) : outcome acceptor :=
  if e_socket e && e_bind e then Ok (Acceptor false false false [] true) else CheckFail.
(** 72-92 StartListen. *)
Definition StartListen (s : acceptor) (listen_ok : bool) : acceptor * bool :=
  if a_listening s then (s, true)
  else if listen_ok then (Acceptor true true true (k_backlog s) (k_open s), true)
  else (Acceptor false false (k_listen s) (k_backlog s) (k_open s), false).
(** 94-104 StopListen: the event leaves the pump, the socket stays as it is. *)
Definition StopListen (s : acceptor) : acceptor :=
  if a_listening s then Acceptor false false (k_listen s) (k_backlog s) (k_open s) else s.
(** 116-121 and AcceptSocket: accept4 fills a struct sockaddr of 16 bytes (which held [junk]) and FromSockAddr is told 16 bytes. The
    result of FromSockAddr is ignored: the endpoint stays empty if it fails. *)
Definition peer_endpoint (real junk : list Z) : outcome IPEndPoint :=
  obind (FromSockAddr (fst (k_getname real junk)) 16) (fun r => Ok (match r with Some e => e | None => mkEP [] 0 end)).

(** What is observed: connections handed to Actor::OnNewConnection, clients refused or reset by the kernel, results. *)
Inductive obs :=
| VHanded (id : nat) (peer : IPEndPoint)
| VQueued (id : nat)       (* the client's connect succeeded *)
| VRefused (id : nat)
| VReset (id : nat)
| VStarted (ok : bool).
Inductive op :=
| AStart (listen_ok : bool)
| AStop
| AConnect (c : conn)                       (* a client connects; the backlog has room *)
| APoll (accept_ok : bool) (junk : list Z)  (* the loop polls; accept4 succeeds, or fails (EMFILE, ...) *)
| ADestroy.                                 (* 37-40 *)
(** Calls on a destroyed acceptor are undefined behaviour; clients can still try to connect. *)
Definition step (s : acceptor) (x : op) : outcome (acceptor * list obs) :=
  if negb (k_open s) then match x with AConnect c => Ok (s, [VRefused (fst c)]) | _ => UB end
  else match x with
  | AStart ok => let '(s, r) := StartListen s ok in Ok (s, [VStarted r])
  | AStop => Ok (StopListen s, [])
  | AConnect c =>
      if k_listen s then Ok (Acceptor (a_listening s) (a_reg s) (k_listen s) (k_backlog s ++ [c]) (k_open s), [VQueued (fst c)])
      else Ok (s, [VRefused (fst c)])
  | APoll ok junk => (* 106-132 *)
      if a_reg s then
        match k_backlog s with
        | [] => Ok (s, [])
        | c :: rest =>
            if ok then obind (peer_endpoint (snd c) junk) (fun e =>
              Ok (Acceptor (a_listening s) (a_reg s) (k_listen s) rest (k_open s), [VHanded (fst c) e]))
            else Ok (s, [])
        end
      else Ok (s, [])
  | ADestroy =>
      if a_listening s then CheckFail
      else Ok (Acceptor false false false [] false, map (fun c => VReset (fst c)) (k_backlog s))
  end.
Fixpoint run (s : acceptor) (xs : list op) : outcome (acceptor * list obs) :=
  match xs with
  | [] => Ok (s, [])
  | x :: xs => obind (step s x) (fun '(s, o) => obind (run s xs) (fun '(s, o') => Ok (s, o ++ o')))
  end.

(** io_service.cc:49 and 66-71: creating a server and starting it. *)
Definition serve (e : env) : outcome acceptor :=
  obind (create e) (fun s => let '(s, ok) := StartListen s (e_listen e) in if ok then Ok s else CheckFail).
