(** The start of a redis client connection: AUTH and SELECT are sent for the password and the database of the URL,
    and the connection is reported ready when they have been answered.
    Models net_io/codec/redis/resp_codec_service.cc:35-128 around the codec of Resp.v.
    Simplifications: the sends succeed (a failed send closes the connection, lines 60-65); the delegate has a
    RemoteInfo (every client has one); OnCodecReady sends nothing itself (client.cc:276-305 only post requests, and
    only to a channel that is ready: 151-165); closing only reports the close (the descriptor is not modelled). *)
From Verif.Model Require Import Common Decimal Resp.
Open Scope Z_scope.

(** What the two sides see: bytes written to the socket; OnCodecReady; OnCodecClosed; a completed request. *)
Inductive iout := ISent (bytes : list Z) | IReady | IClosed | IOut (o : rout).

(** resp_codec_service.h:61 init_wait_res_flags_ (bits kWaitAuth and kWaitSelectDB) next to the codec *)
Record ist := mkist { i_svc : rsvc; w_auth : bool; w_db : bool }.

(** The literals "AUTH" and "SELECT" of redis_request.cc:148-161 *)
Definition cmd_auth : list Z := [65; 85; 84; 72].
Definition cmd_select : list Z := [83; 69; 76; 69; 67; 84].

(** resp_codec_service.cc:44-54: the request, and what is waited for. [db] is queries["db"], [] if absent. *)
Definition init_request (passwd db : list Z) : rreq * bool * bool :=
  let r := new_rreq in
  let a := match passwd with [] => false | _ => true end in
  let r := if a then add_cmd r cmd_auth [passwd] else r in
  let d := match db with [] => false | _ => true end in
  let r := if d then add_cmd r cmd_select [db] else r in
  (r, a, d).

(** resp_codec_service.cc:35-67 StartProtocolService *)
Definition init_start (passwd db : list Z) : outcome (list iout * ist) :=
  let '(r, a, d) := init_request passwd db in
  if cmd_counter r =? 0
  then Ok ([IReady], mkist new_rsvc a d)
  else Ok ([ISent (body r)], mkist (mkrsvc new_dec (cmd_counter r) [] [] [] None) a d).

(** resp_codec_service.cc:111-112: a simple string that begins with OK (for the one byte string "O" the code looks at
    a byte behind it, modelled as different from K) *)
Definition is_ok (v : rval) : bool :=
  match v with RString (79 :: 75 :: _) => true | _ => false end.

(** resp_codec_service.cc:104-128 HandleInitResponse: true = NotifyCodecReady, false = CloseService;
    ResultAtIndex out of range is a failed check (vector access) *)
Definition init_verdict (a d : bool) (rs : list rval) : outcome bool :=
  let check_db rs :=
    if d then match rs with [] => CheckFail | v :: _ => Ok (is_ok v) end else Ok true in
  if a then match rs with
            | [] => CheckFail
            | v :: rs => if is_ok v then check_db rs else Ok false
            end
  else check_db rs.

(** resp_codec_service.cc:69-102 OnDataReceived while an answer to AUTH or SELECT is awaited; afterwards it is
    Resp.on_data. *)
Definition init_data (s : ist) (bytes : list Z) : outcome (list iout * ist) :=
  if w_auth s || w_db s then
    let v := i_svc s in
    let v := mkrsvc (ndec v) (next_incoming v) (current v) (inbuf v ++ bytes) (waiting v) (ing v) in
    obind (recv_loop (2 + length (inbuf v)) v) (fun v =>
    if next_incoming v =? 0
    then obind (init_verdict (w_auth s) (w_db s) (current v)) (fun ok : bool =>
         (* 114, 124: CloseService; 127: NotifyCodecReady *)
         (* 97-100: init_wait_res_flags_ = 0; current_response.reset(); next_incoming_count_ = 0; *)
         Ok ([if ok then IReady else IClosed],
             mkist (mkrsvc (ndec v) 0 [] (inbuf v) (waiting v) (ing v)) false false))
    else Ok ([], mkist v (w_auth s) (w_db s)))
  else obind (on_data (i_svc s) bytes) (fun '(o, v) => Ok (map IOut o, mkist v false false)).

(** The events after the start: requests of the application (queued_channel.cc:42-49) and pieces of the reply stream.
    The run of events reports what is seen in order. *)
Fixpoint init_events (s : ist) (es : list revent) : outcome (list iout * ist) :=
  match es with
  | [] => Ok ([], s)
  | Submit id n :: es =>
      obind (submit (i_svc s) (id, n)) (fun v => init_events (mkist v (w_auth s) (w_db s)) es)
  | Data b :: es =>
      obind (init_data s b) (fun '(o, s) =>
      obind (init_events s es) (fun '(o2, s) => Ok (o ++ o2, s)))
  end.
(** A connection from its start *)
Definition init_run (passwd db : list Z) (es : list revent) : outcome (list iout * ist) :=
  obind (init_start passwd db) (fun '(o, s) =>
  obind (init_events s es) (fun '(o2, s) => Ok (o ++ o2, s))).
