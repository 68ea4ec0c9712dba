(** Client channels: [net_io/clients/client_channel.cc], [async_channel.cc],
    [queued_channel.cc].

    A request or response message object is a natural number (its address);
    an [AsyncId] is a [Z].  Everything below runs on the channel's IO loop
    thread ([CHECK(IOLoop()->IsInLoopThread())]); requests reach it by
    [PostTask] ([client.cc:262-315]), so no operation re-enters another. *)
From Coq Require Import ZArith List Bool.
From Verif.Model Require Import Common.
Import ListNotations.
Local Open Scope Z_scope.

(** How a request ended: with a response object, or with the fail codes
    [kTimeOut] and [kConnBroken] ([codec_message.h]). *)
Inductive cresult := RResp (m : nat) | RTimeout | RBroken.

(** What [HandleResponse] (client_channel.cc:110-127) does with a finished
    request: hands it to the client's delegate, which resumes the waiter
    ([client.cc:256-260]); swallows it because it is the channel's own
    heartbeat; or returns false because the delegate is gone ([Lost], which
    nobody outside the channel observes). *)
Inductive cev :=
| Done (r : nat) (res : cresult)
| HbDone (r : nat) (res : cresult)
| Lost (r : nat) (res : cresult).

Definition oeqb (o : option nat) (r : nat) : bool :=
  match o with Some x => Nat.eqb x r | None => false end.

(** client_channel.cc:110-127 [ClientChannel::HandleResponse]: the new
    heartbeat slot and the event. *)
Definition handle_response (hb : option nat) (del : bool) (r : nat) (res : cresult)
  : option nat * cev :=
  if oeqb hb r then (None, HbDone r res)
  else if del then (hb, Done r res)
  else (hb, Lost r res).

(** The loops of async_channel.cc:86-89, 116-119 and queued_channel.cc:87-92,
    141-146: every listed request fails with [kConnBroken]. *)
Fixpoint fail_all (hb : option nat) (del : bool) (rs : list nat)
  : option nat * list cev :=
  match rs with
  | [] => (hb, [])
  | r :: rest =>
      let '(hb1, e) := handle_response hb del r RBroken in
      let '(hb2, es) := fail_all hb1 del rest in
      (hb2, e :: es)
  end.

(** ** AsyncChannel *)

(** async_channel.h:56 [in_progress_], client_channel.h:97-103 [delegate_],
    [heartbeat_message_]; [a_aid] is the [AsyncId] field of every message
    object; [a_timers] are the requests of delayed tasks not yet run.
    Simplified: the unordered map is a list in insertion order; the map's
    iteration order is not promised by the code and no theorem depends on it. *)
Record achan := {
  a_prog : list (Z * nat);
  a_del : bool;
  a_hb : option nat;
  a_aid : nat -> Z;
  a_timers : list nat
}.

(** client_channel.cc:40-45 with a delegate *)
Definition a_fresh : achan :=
  {| a_prog := []; a_del := true; a_hb := None; a_aid := fun _ => 0; a_timers := [] |}.

(** unordered_map find / insert (keeps an existing entry) / erase by key *)
Fixpoint prog_find (k : Z) (p : list (Z * nat)) : option nat :=
  match p with
  | [] => None
  | (k', r) :: p' => if k' =? k then Some r else prog_find k p'
  end.
Definition prog_insert (k : Z) (r : nat) (p : list (Z * nat)) : list (Z * nat) :=
  match prog_find k p with Some _ => p | None => p ++ [(k, r)] end.
Definition prog_erase (k : Z) (p : list (Z * nat)) : list (Z * nat) :=
  filter (fun e => negb (fst e =? k)) p.
(** is the object referenced by the map? *)
Definition prog_holds (r : nat) (p : list (Z * nat)) : bool :=
  existsb (fun e => Nat.eqb (snd e) r) p.

Definition upd_aid (f : nat -> Z) (r : nat) (v : Z) : nat -> Z :=
  fun x => if Nat.eqb x r then v else f x.

(** Operations: [ASend r id ok] the posted SendRequest where the codec leaves
    [id] in the message and reports [ok]; [AHeartbeat] the heartbeat timer with
    message [r]; [ATimeout r alive] the delayed task of request [r] ([alive]:
    somebody outside the channel still holds the message); [AResponse id m] a
    decoded response; [ACodecClosed] the codec's close notification; [AClose]
    [CloseClientChannel]. *)
Inductive aop :=
| ASend (r : nat) (id : Z) (ok : bool)
| AHeartbeat (r : nat) (id : Z) (ok : bool)
| ATimeout (r : nat) (alive : bool)
| AResponse (id : Z) (m : nat)
| ACodecClosed
| AClose.

(** async_channel.cc:40-62 [AsyncChannel::SendRequest] *)
Definition a_send (c : achan) (r : nat) (id : Z) (ok : bool) : achan * list cev :=
  let aid := upd_aid (a_aid c) r id in
  if ok then
    ({| a_prog := prog_insert (aid r) r (a_prog c); a_del := a_del c; a_hb := a_hb c;
        a_aid := aid; a_timers := a_timers c ++ [r] |}, [])
  else
    let '(hb, e) := handle_response (a_hb c) (a_del c) r RBroken in
    ({| a_prog := a_prog c; a_del := a_del c; a_hb := hb; a_aid := aid;
        a_timers := a_timers c |}, [e]).

(** client_channel.cc:101-108 [ClientChannel::OnHearbeatTimerInvoke] *)
Definition a_heartbeat (c : achan) (r : nat) (id : Z) (ok : bool) : achan * list cev :=
  match a_hb c with
  | Some _ => (c, [])
  | None => a_send {| a_prog := a_prog c; a_del := a_del c; a_hb := Some r;
                      a_aid := a_aid c; a_timers := a_timers c |} r id ok
  end.

(** remove one pending delayed task *)
Fixpoint rm1 (r : nat) (l : list nat) : list nat :=
  match l with [] => [] | x :: l' => if Nat.eqb x r then l' else x :: rm1 r l' end.

(** async_channel.cc:64-81 [AsyncChannel::OnRequestTimeout]; a delayed task
    that is not pending does not run. *)
Definition a_timeout (c : achan) (r : nat) (alive : bool) : achan * list cev :=
  if existsb (Nat.eqb r) (a_timers c) then
    let ts := rm1 r (a_timers c) in
    let c1 := {| a_prog := a_prog c; a_del := a_del c; a_hb := a_hb c;
                 a_aid := a_aid c; a_timers := ts |} in
    if alive || prog_holds r (a_prog c) || oeqb (a_hb c) r then
      let id := a_aid c r in
      match prog_find id (a_prog c) with
      | None => (c1, [])
      | Some _ =>
          let '(hb, e) := handle_response (a_hb c) (a_del c) r RTimeout in
          ({| a_prog := prog_erase id (a_prog c); a_del := a_del c; a_hb := hb;
              a_aid := a_aid c; a_timers := ts |}, [e])
      end
    else (c1, [])
  else (c, []).

(** async_channel.cc:93-108 [AsyncChannel::OnCodecMessage]; the [CHECK] of
    line 106 aborts. *)
Definition a_response (c : achan) (id : Z) (m : nat) : outcome (achan * list cev) :=
  match prog_find id (a_prog c) with
  | None => Ok (c, [])
  | Some r =>
      if a_aid c r =? id then
        let '(hb, e) := handle_response (a_hb c) (a_del c) r (RResp m) in
        Ok ({| a_prog := prog_erase id (a_prog c); a_del := a_del c; a_hb := hb;
               a_aid := a_aid c; a_timers := a_timers c |}, [e])
      else CheckFail
  end.

(** async_channel.cc:83-91 [BeforeCloseChannel] and 110-126 [OnCodecClosed]
    treat the in-flight requests alike; the delegate's own
    [OnClientChannelClosed] (client.cc:226-254) does not touch requests. *)
Definition a_fail_all (c : achan) : achan * list cev :=
  let '(hb, es) := fail_all (a_hb c) (a_del c) (map snd (a_prog c)) in
  ({| a_prog := []; a_del := a_del c; a_hb := hb; a_aid := a_aid c;
      a_timers := a_timers c |}, es).

(** client_channel.cc:57-83 [CloseClientChannel]: fail everything, drop the
    delegate, close the codec and run [OnCodecClosed] once more. *)
Definition a_close (c : achan) : achan * list cev :=
  let '(c1, es) := a_fail_all c in
  let '(c2, es') := a_fail_all
    {| a_prog := a_prog c1; a_del := false; a_hb := a_hb c1; a_aid := a_aid c1;
       a_timers := a_timers c1 |} in
  (c2, es ++ es').

Definition astep (c : achan) (o : aop) : outcome (achan * list cev) :=
  match o with
  | ASend r id ok => Ok (a_send c r id ok)
  | AHeartbeat r id ok => Ok (a_heartbeat c r id ok)
  | ATimeout r alive => Ok (a_timeout c r alive)
  | AResponse id m => a_response c id m
  | ACodecClosed => Ok (a_fail_all c)
  | AClose => Ok (a_close c)
  end.

Fixpoint arun (c : achan) (os : list aop) : outcome (achan * list cev) :=
  match os with
  | [] => Ok (c, [])
  | o :: rest =>
      obind (astep c o) (fun '(c1, es) =>
      obind (arun c1 rest) (fun '(c2, es') => Ok (c2, es ++ es')))
  end.

(** ** QueuedChannel *)

(** queued_channel.h [waiting_list_] (a std::list), [ing_request_] *)
Record qchan := {
  q_wait : list nat;
  q_ing : option nat;
  q_del : bool;
  q_hb : option nat;
  q_timers : list nat
}.

Definition q_fresh : qchan :=
  {| q_wait := []; q_ing := None; q_del := true; q_hb := None; q_timers := [] |}.

Inductive qop :=
| QSend (r : nat)
| QHeartbeat (r : nat)
| QTimeout (r : nat) (alive : bool)
| QResponse (m : nat)
| QCodecClosed
| QClose.

Section Queued.
(** [ok r]: what the codec's SendRequest returns for request [r].
    [intact]: see [try_loop]. *)
Variable ok : nat -> bool.
Variable intact : bool.

(** queued_channel.cc:57-67, the loop of [TrySendNext].  The reference [next]
    (line 58) is used on lines 62, 64 and 65 after [pop_front] (line 60) has
    destroyed the list element: undefined behaviour.  With [intact] the model
    continues under the assumption that the freed list node still holds its old
    bytes and that somebody else keeps the message alive. *)
Fixpoint try_loop (wait : list nat) (hb : option nat) (del : bool)
  : outcome (list nat * option nat * option nat * list cev) :=
  match wait with
  | [] => Ok ([], None, hb, [])
  | next :: rest =>
      if negb intact then UB
      else if ok next then Ok (rest, Some next, hb, [])
      else
        let '(hb1, e) := handle_response hb del next RBroken in
        obind (try_loop rest hb1 del) (fun '(w, ing, hb2, es) =>
        Ok (w, ing, hb2, e :: es))
  end.

(** queued_channel.cc:51-78 [TrySendNext] *)
Definition try_send_next (c : qchan) : outcome (qchan * list cev) :=
  match q_ing c with
  | Some _ => Ok (c, [])
  | None =>
      obind (try_loop (q_wait c) (q_hb c) (q_del c)) (fun '(w, ing, hb, es) =>
      Ok ({| q_wait := w; q_ing := ing; q_del := q_del c; q_hb := hb;
             q_timers := q_timers c ++ match ing with Some r => [r] | None => [] end |},
          es))
  end.

(** queued_channel.cc:42-49 [SendRequest] *)
Definition q_send (c : qchan) (r : nat) : outcome (qchan * list cev) :=
  try_send_next {| q_wait := q_wait c ++ [r]; q_ing := q_ing c; q_del := q_del c;
                   q_hb := q_hb c; q_timers := q_timers c |}.

(** client_channel.cc:101-108 *)
Definition q_heartbeat (c : qchan) (r : nat) : outcome (qchan * list cev) :=
  match q_hb c with
  | Some _ => Ok (c, [])
  | None => q_send {| q_wait := q_wait c; q_ing := q_ing c; q_del := q_del c;
                      q_hb := Some r; q_timers := q_timers c |} r
  end.

(** queued_channel.cc:80-93 [BeforeCloseChannel], 132-154 [OnCodecClosed] *)
Definition q_fail_all (c : qchan) : qchan * list cev :=
  let rs := match q_ing c with Some r => [r] | None => [] end ++ q_wait c in
  let '(hb, es) := fail_all (q_hb c) (q_del c) rs in
  ({| q_wait := []; q_ing := None; q_del := q_del c; q_hb := hb;
      q_timers := q_timers c |}, es).

(** queued_channel.cc:95-115 [OnRequestTimeout] *)
Definition q_timeout (c : qchan) (r : nat) (alive : bool) : qchan * list cev :=
  if existsb (Nat.eqb r) (q_timers c) then
    let c1 := {| q_wait := q_wait c; q_ing := q_ing c; q_del := q_del c;
                 q_hb := q_hb c; q_timers := rm1 r (q_timers c) |} in
    if oeqb (q_ing c) r then
      let '(hb, e) := handle_response (q_hb c) (q_del c) r RTimeout in
      let '(c2, es) := q_fail_all
        {| q_wait := q_wait c; q_ing := None; q_del := q_del c; q_hb := hb;
           q_timers := rm1 r (q_timers c) |} in
      (c2, e :: es)
    else (c1, [])
  else (c, []).

(** queued_channel.cc:117-130 [OnCodecMessage] *)
Definition q_response (c : qchan) (m : nat) : outcome (qchan * list cev) :=
  match q_ing c with
  | None => Ok (c, [])
  | Some r =>
      let '(hb, e) := handle_response (q_hb c) (q_del c) r (RResp m) in
      obind (try_send_next {| q_wait := q_wait c; q_ing := None; q_del := q_del c;
                              q_hb := hb; q_timers := q_timers c |}) (fun '(c2, es) =>
      Ok (c2, e :: es))
  end.

(** client_channel.cc:57-83 *)
Definition q_close (c : qchan) : qchan * list cev :=
  let '(c1, es) := q_fail_all c in
  let '(c2, es') := q_fail_all
    {| q_wait := q_wait c1; q_ing := q_ing c1; q_del := false; q_hb := q_hb c1;
       q_timers := q_timers c1 |} in
  (c2, es ++ es').

Definition qstep (c : qchan) (o : qop) : outcome (qchan * list cev) :=
  match o with
  | QSend r => q_send c r
  | QHeartbeat r => q_heartbeat c r
  | QTimeout r alive => Ok (q_timeout c r alive)
  | QResponse m => q_response c m
  | QCodecClosed => Ok (q_fail_all c)
  | QClose => Ok (q_close c)
  end.

Fixpoint qrun (c : qchan) (os : list qop) : outcome (qchan * list cev) :=
  match os with
  | [] => Ok (c, [])
  | o :: rest =>
      obind (qstep c o) (fun '(c1, es) =>
      obind (qrun c1 rest) (fun '(c2, es') => Ok (c2, es ++ es')))
  end.
End Queued.
