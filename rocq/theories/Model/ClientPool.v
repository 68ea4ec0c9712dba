(** The connection pool of a Client: [net_io/clients/client.cc] and [client_connector.cc].

    Everything runs in the client's work loop except Finalize, the destructor and the io loops' close notifications; each
    is one step here. A connection attempt, its socket and the channel made of it share one number, fresh for every Dial.
    The kernel's answers (connect result, epoll flags, getpeername) are arbitrary. Timers of delayed redials may expire in any order.
    StartClientChannel, codec creation (CHECK(codec): the scheme is supported) and SSL are not modelled. *)
From Verif.Model Require Import Common FdEvents.
Open Scope Z_scope.

(** client.cc:46-47 *)
Definition kConnetBatchCount : Z := 10.
Definition kMaxReconInterval : Z := 10000.
Definition u32 (x : Z) : Z := x mod 2 ^ 32.

(** Tasks of the work loop: Connector::Dial, Connector::Stop, a posted Client::OnClientChannelClosed. *)
Inductive ptask := TDial | TStop | TClosed (c : nat).
(** What happened to a socket: still the connector's or the Dial call's; owned by a client channel; closed; neither owned nor closed. *)
Inductive sockst := SNone | SOpen | SHanded | SClosed | SLeaked.

Record pool := mkP {
  p_req : Z;                 (* config_.connections *)
  p_stopping : bool;         (* stopping_ *)
  p_alive : bool;            (* the Client object exists *)
  p_chans : list nat;        (* channels_ *)
  p_cnt : Z;                 (* channels_count_ *)
  p_inuse : list nat;        (* in_use_channels_ *)
  p_ccnt : Z;                (* Connector::count_ *)
  p_inprog : list nat;       (* Connector::inprogress_ *)
  p_q : list ptask;          (* posted to the work loop *)
  p_delayed : nat;           (* Dial tasks waiting for their delay *)
  p_ival : Z;                (* next_reconnect_interval_ *)
  p_next : nat;
  p_socks : nat -> sockst;
  p_detach : list nat }.     (* CloseClientChannel posted to the channel's loop, not yet run *)

(** What is observed: attempt made / OnConnected / OnConnectFailed / attempt dropped by Connector::Stop / redial scheduled after d ms /
    OnAllClientPassiveBroken. *)
Inductive pev := PDialed (a : nat) | POk (a : nat) | PFail (a : nat) | PCancel (a : nat) | PDelay (d : Z) | PBroken.

(** client.cc:49-63, 74-84: constructed and Initialize()d with [req] connections; next_reconnect_interval_ is not
    initialised by the constructor and holds [iv]. *)
Definition pinit (req iv : Z) : pool :=
  mkP req false true [] 0 [] 0 [] (repeat TDial (Z.to_nat (Z.min kConnetBatchCount req))) 0 iv 0 (fun _ => SNone) [].

Definition w_q s q := mkP (p_req s) (p_stopping s) (p_alive s) (p_chans s) (p_cnt s) (p_inuse s) (p_ccnt s) (p_inprog s) q (p_delayed s) (p_ival s) (p_next s) (p_socks s) (p_detach s).
Definition w_delayed s d := mkP (p_req s) (p_stopping s) (p_alive s) (p_chans s) (p_cnt s) (p_inuse s) (p_ccnt s) (p_inprog s) (p_q s) d (p_ival s) (p_next s) (p_socks s) (p_detach s).
Definition w_ival s i := mkP (p_req s) (p_stopping s) (p_alive s) (p_chans s) (p_cnt s) (p_inuse s) (p_ccnt s) (p_inprog s) (p_q s) (p_delayed s) i (p_next s) (p_socks s) (p_detach s).
Definition w_chans s l := mkP (p_req s) (p_stopping s) (p_alive s) l (Z.of_nat (length l)) l (p_ccnt s) (p_inprog s) (p_q s) (p_delayed s) (p_ival s) (p_next s) (p_socks s) (p_detach s).
Definition w_inprog s l := mkP (p_req s) (p_stopping s) (p_alive s) (p_chans s) (p_cnt s) (p_inuse s) (p_ccnt s) l (p_q s) (p_delayed s) (p_ival s) (p_next s) (p_socks s) (p_detach s).
Definition w_ccnt s c := mkP (p_req s) (p_stopping s) (p_alive s) (p_chans s) (p_cnt s) (p_inuse s) c (p_inprog s) (p_q s) (p_delayed s) (p_ival s) (p_next s) (p_socks s) (p_detach s).
Definition w_next s n := mkP (p_req s) (p_stopping s) (p_alive s) (p_chans s) (p_cnt s) (p_inuse s) (p_ccnt s) (p_inprog s) (p_q s) (p_delayed s) (p_ival s) n (p_socks s) (p_detach s).
Definition w_sock s a x := mkP (p_req s) (p_stopping s) (p_alive s) (p_chans s) (p_cnt s) (p_inuse s) (p_ccnt s) (p_inprog s) (p_q s) (p_delayed s) (p_ival s) (p_next s) (fun j => if Nat.eqb j a then x else p_socks s j) (p_detach s).
Definition w_detach s l := mkP (p_req s) (p_stopping s) (p_alive s) (p_chans s) (p_cnt s) (p_inuse s) (p_ccnt s) (p_inprog s) (p_q s) (p_delayed s) (p_ival s) (p_next s) (p_socks s) l.

Definition without (a : nat) (l : list nat) : list nat := filter (fun x => negb (Nat.eqb x a)) l.

(** client.cc:139-149 *)
Definition launch_next_if_need (s : pool) : pool :=
  if p_stopping s || (p_req s <=? p_cnt s + p_ccnt s) then s
  else w_q s (p_q s ++ [TDial]).

(** client.cc:104-125 *)
Definition OnConnectFailed (a : nat) (s : pool) : outcome (pool * list pev) :=
  if negb (p_alive s) then UB else
  if p_stopping s || (p_req s <=? p_cnt s) then Ok (s, [PFail a]) else
  let s := w_ival s (u32 (p_ival s + 10)) in
  if kConnetBatchCount <? p_ccnt s then Ok (s, [PFail a])
  else Ok (w_delayed s (S (p_delayed s)), [PFail a; PDelay (Z.min (p_ival s) kMaxReconInterval)]).

(** client.cc:167-210 *)
Definition OnConnected (a : nat) (s : pool) : outcome (pool * list pev) :=
  if negb (p_alive s) then UB else
  let s := w_ival s 0 in
  let s := w_sock (w_chans s (p_chans s ++ [a])) a SHanded in
  Ok (launch_next_if_need s, [POk a]).

(** client.cc:233-254 *)
Definition OnClientChannelClosed (c : nat) (s : pool) : outcome (pool * list pev) :=
  if negb (p_alive s) then UB else
  let s := launch_next_if_need (w_chans s (without c (p_chans s))) in
  Ok (s, if negb (p_stopping s) && (length (p_chans s) =? 0)%nat then [PBroken] else []).

(** The kernel's answer to one Dial: no socket; connect refused at once (or the address does not fit, or the endpoints cannot be
    read back: [DBad]); connected at once; in progress. *)
Inductive dialres := DNoSock | DRefused | DBad | DAtOnce | DProg.

(** client_connector.cc:32-81 *)
Definition Dial (d : dialres) (s : pool) : outcome (pool * list pev) :=
  let a := p_next s in
  let s := w_next s (S a) in
  let rep r := obind r (fun '(s, l) => Ok (s, PDialed a :: l)) in
  match d with
  | DNoSock => rep (OnConnectFailed a s)                          (* :35-39 *)
  | DRefused | DBad => rep (OnConnectFailed a (w_sock s a SClosed))  (* :41-44, 52-56, 74-79 *)
  | DAtOnce => rep (OnConnected a (w_sock s a SOpen))             (* :48-60 *)
  | DProg => Ok (w_inprog (w_sock s a SOpen) (p_inprog s ++ [a]), [PDialed a])  (* :63-73 *)
  end.

(** client_connector.cc:172-190: the delegate is told first; erasing the entry destroys the FdEvent, which closes the socket
    (fd_event.cc:43-47). *)
Definition RemoveFromInprogress (a : nat) (s : pool) : outcome (pool * list pev) :=
  obind (OnConnectFailed a s) (fun '(s, l) =>
  let s := w_sock (w_inprog s (without a (p_inprog s))) a SClosed in
  Ok (w_ccnt s (Z.of_nat (length (p_inprog s))), l)).

(** client_connector.cc:131-160. [peer]: getpeername and getsockname succeed; [self]: a self connection. The socket is released
    from the FdEvent (:146) before the endpoints are read; count_ is not updated. *)
Definition HandleWrite (a : nat) (peer self : bool) (s : pool) : outcome (pool * list pev) :=
  if peer && self then RemoveFromInprogress a s else
  let s := w_inprog s (without a (p_inprog s)) in
  if peer then OnConnected a s
  else OnConnectFailed a (w_sock s a SLeaked).

(** client_connector.cc:117-129; [e]: the epoll flags reported for the socket *)
Definition HandleEvent (a : nat) (e : Z) (peer self : bool) (s : pool) : outcome (pool * list pev) :=
  if hasb (to_lt_event e) EV_READ then HandleWrite a peer self s else RemoveFromInprogress a s.

(** client_connector.cc:162-170 *)
Definition close_all (f : nat -> sockst) (l : list nat) : nat -> sockst := fun j => if existsb (Nat.eqb j) l then SClosed else f j.
Definition StopConnector (s : pool) : pool * list pev :=
  (mkP (p_req s) (p_stopping s) (p_alive s) (p_chans s) (p_cnt s) (p_inuse s) 0 [] (p_q s) (p_delayed s) (p_ival s) (p_next s)
       (close_all (p_socks s) (p_inprog s)) (p_detach s),
   map PCancel (p_inprog s)).

(** client.cc:86-102 *)
Definition Finalize (s : pool) : pool :=
  if p_stopping s then s else
  mkP (p_req s) true (p_alive s) (p_chans s) 0 (p_inuse s) (p_ccnt s) (p_inprog s) (p_q s ++ [TStop]) (p_delayed s) (p_ival s) (p_next s)
      (p_socks s) (p_detach s ++ p_inuse s).

Inductive pact :=
| ATask (d : dialres)                          (* the work loop runs its next task; [d] is used by a Dial *)
| ADelayed (d : dialres)                       (* a delayed Dial is due *)
| AEvent (a : nat) (e : Z) (peer self : bool)  (* an event on an attempt in progress *)
| AClosed (c : nat) (inloop : bool)            (* the peer closed channel c *)
| AFinalize
| ADetach (c : nat)                            (* c's loop runs CloseClientChannel *)
| ADestroy.                                    (* ~Client *)

(** [None]: not possible in this state. *)
Definition pstep (s : pool) (act : pact) : option (outcome (pool * list pev)) :=
  match act with
  | ATask d =>
      match p_q s with
      | [] => None
      | TDial :: q => Some (Dial d (w_q s q))
      | TStop :: q => Some (Ok (StopConnector (w_q s q)))
      | TClosed c :: q => Some (OnClientChannelClosed c (w_q s q))
      end
  | ADelayed d => match p_delayed s with O => None | S n => Some (Dial d (w_delayed s n)) end
  | AEvent a e peer self =>
      if existsb (Nat.eqb a) (p_inprog s) then Some (HandleEvent a e peer self s) else None
  | AClosed c inloop => (* client.cc:226-231 *)
      match p_socks s c with
      | SHanded =>
          let s := w_detach (w_sock s c SClosed) (without c (p_detach s)) in
          if negb (p_alive s) then Some UB else
          if inloop || p_stopping s then Some (OnClientChannelClosed c s)
          else Some (Ok (w_q s (p_q s ++ [TClosed c]), []))
      | _ => None
      end
  | AFinalize => if p_alive s then Some (Ok (Finalize s, [])) else None
  | ADetach c => (* client_channel.cc:57-83: the delegate is not told *)
      if existsb (Nat.eqb c) (p_detach s)
      then Some (Ok (w_detach (w_sock s c SClosed) (without c (p_detach s)), []))
      else None
  | ADestroy => (* client.cc:65-68 *)
      if p_alive s then
        let s := Finalize s in
        Some (Ok (mkP (p_req s) true false [] (p_cnt s) (p_inuse s) (p_ccnt s) (p_inprog s) (p_q s) (p_delayed s) (p_ival s) (p_next s) (p_socks s) (p_detach s), []))
      else None
  end.

(** client.cc:151-165 get_ready_channel: [ready i] says whether channel [i] of the [size] in use is ready; [tk j] is the
    value obtained by the j-th fetch_add. Result: index of the channel returned. *)
Fixpoint pick_loop (ready : nat -> bool) (size : nat) (tk : nat -> Z) (j left : nat) : option nat :=
  let idx := Z.to_nat (tk j mod Z.of_nat size) in
  if ready idx then Some idx
  else match left with O => None | S l => pick_loop ready size tk (S j) l end.
Definition get_ready_channel (ready : nat -> bool) (size : nat) (tk : nat -> Z) : option nat :=
  if (size =? 0)%nat then None else pick_loop ready size tk 0 (Nat.min 10 size).
