(** The life of a WsClient object: net_io/clients/ws_client.cc with net_io/clients/client_connector.cc, over one loop.

    Simplified: one queue of posted tasks, run in order; a client dials at most once at a time (a second Dial would replace
    transport_); what the connection itself does is WsConn.v: here an event of the connection either calls the client back
    or not. The connector is reference counted and kept by the tasks; the client is reached through the plain pointers
    [r] of Connector::Dial, [delegate_] and [handler_] of the codec. *)
From Verif.Model Require Import Common.

(** Posted tasks: Connector::Dial with the raw [this] (ws_client.cc:44); Connector::Stop (:28); CloseService on a copy of
    transport_ (:29), [has]: it is not null. *)
Inductive ctask := TDial | TStop | TClose (has : bool).

(** [w_alive]: the client exists. [w_queue]: posted tasks. [w_inprog]: a connect is in progress in the connector.
    [w_transport]: transport_ is not null. [w_reg]: its FdEvent is installed in the pump. *)
Record wcl := mkwcl { w_alive : bool; w_queue : list ctask; w_inprog : bool; w_transport : bool; w_reg : bool }.
Definition wcl0 : wcl := mkwcl true [] false false false.

Inductive dres := DConnected | DFailed | DProgress.
(** [UDial]: Dial with a good address. [UDestroy]: the last reference goes. [LTask r]: the loop runs the next task ([r]: how
    a dial goes, client_connector.cc:31-78). [KConnect ok]: the connect in progress ends (:114-165). [KEvent call close]: an
    event of the connection; [call]: it calls the client back; [close]: the connection is closed in it. *)
Inductive cop := UDial | UDestroy | LTask (r : dres) | KConnect (ok : bool) | KEvent (call close : bool).

(** OnConnected (ws_client.cc:94-132) and OnConnectFailed (:88-92) on the client. *)
Definition report (c : wcl) (ok : bool) : outcome wcl :=
  if w_alive c then Ok (if ok then mkwcl true (w_queue c) (w_inprog c) true true else c) else UB.

Definition cstep (c : wcl) (o : cop) : outcome wcl :=
  match o with
  | UDial => Ok (if w_alive c then mkwcl true (w_queue c ++ [TDial]) (w_inprog c) (w_transport c) (w_reg c) else c)
  | UDestroy => (* ws_client.cc:27-30; the client's own reference to transport_ goes, the task keeps one *)
      Ok (if w_alive c
          then mkwcl false (w_queue c ++ [TStop; TClose (w_transport c)]) (w_inprog c) (w_transport c) (w_reg c) else c)
  | LTask r =>
      match w_queue c with
      | [] => Ok c
      | t :: q =>
          let c := mkwcl (w_alive c) q (w_inprog c) (w_transport c) (w_reg c) in
          match t with
          | TDial =>
              match r with
              | DConnected => report c true
              | DFailed => report c false
              | DProgress => Ok (mkwcl (w_alive c) q true (w_transport c) (w_reg c))
              end
          | TStop => Ok (mkwcl (w_alive c) q false (w_transport c) (w_reg c)) (* client_connector.cc:167-175 *)
          | TClose has => if has then Ok (mkwcl (w_alive c) q (w_inprog c) (w_transport c) false) else UB
          end
      end
  | KConnect ok =>
      if w_inprog c then report (mkwcl (w_alive c) (w_queue c) false (w_transport c) (w_reg c)) ok else Ok c
  | KEvent call close =>
      if w_reg c then
        if call && negb (w_alive c) then UB
        else Ok (if close then mkwcl (w_alive c) (w_queue c) (w_inprog c) (w_transport c) false else c)
      else Ok c
  end.
Fixpoint crun (c : wcl) (os : list cop) : outcome wcl :=
  match os with [] => Ok c | o :: os => obind (cstep c o) (fun c => crun c os) end.
