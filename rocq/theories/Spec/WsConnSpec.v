(** What is said about a websocket connection, from outside. *)
From Verif.Model Require Import Common Bytes Websocket WsConn.
Open Scope Z_scope.

(** Callbacks of the application. *)
Definition is_open (e : wev) : bool := match e with VOpen _ => true | _ => false end.
Definition is_close (e : wev) : bool := match e with VClose _ => true | _ => false end.
Definition is_callback (e : wev) : bool := match e with VOpen _ | VMsg _ _ _ | VClose _ => true | _ => false end.
Definition how_many (f : wev -> bool) (tr : list wev) : nat := length (filter f tr).
Definition is_close_frame (e : wev) : bool := match e with VSent (IFrame _ 8 _) => true | _ => false end.
Definition is_send (o : op) : bool := match o with OSend _ _ _ => true | _ => false end.
Definition no_sends (os : list op) : Prop := forallb (fun o => negb (is_send o)) os = true.
(** The read or write of the event did not fail. *)
Definition no_failure (os : list op) : Prop :=
  forallb (fun o => match o with OEvent ok _ _ _ _ => ok | OSend _ _ _ => true end) os = true.

(** llhttp as its documentation (quoted at parser_context.h:54-62) says: a message that switches protocols ends the parse
    with HPE_PAUSED_UPGRADE, which HttpParser::Parse treats as an error (parser_context.h:99-103). A request does so when
    it has an Upgrade header and "Connection: upgrade". *)
Definition switches (m : hmsg) : bool :=
  match m with
  | HReq _ upgrade _ connection_upgrade _ => connection_upgrade && negb (length upgrade =? 0)%nat
  | HRes _ upgrade => upgrade
  end.
Definition llhttp_says (o : op) : Prop :=
  match o with
  | OEvent _ _ _ ms err => forall pre m post, ms = pre ++ m :: post -> switches m = true -> post = [] /\ err = true
  | OSend _ _ _ => True
  end.
(** The messages llhttp completes are of the kind the side expects. *)
Definition side_ok (server : bool) (o : op) : Prop :=
  match o with
  | OEvent _ _ _ ms _ => Forall (fun m => match m with HReq _ _ _ _ _ => server = true | HRes _ _ => server = false end) ms
  | OSend _ _ _ => True
  end.
