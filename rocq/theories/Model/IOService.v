(** The server side bookkeeping of [net_io/io_service.cc] and
    [net_io/server/generic_server.h] for one IOService.

    Connections are numbers (the codec service objects).  The acceptor loop and
    the connections' IO loops interleave arbitrarily; each loop runs its posted
    tasks in order (C23). *)
From Coq Require Import List Arith Bool.
From Verif.Model Require Import Common.
Import ListNotations.

(** What the server's delegate and user observe. *)
Inductive ioev :=
| OConnClose (c : nat)   (* delegate_->OnConnectionClose, io_service.cc:175 *)
| ORejected (c : nat)    (* connection refused, io_service.cc:152-156 *)
| OStopped.              (* delegate_->IOServiceStoped: the StopServer callback, generic_server.h:154-163 *)

Record iosvc := mkio {
  io_codecs : list nat;     (* codecs_ (a set) *)
  io_count : nat;           (* client_count_, generic_server.h:194 *)
  io_stopping : bool;       (* is_stopping_ *)
  io_listening : bool;      (* the acceptor *)
  io_open : list nat;       (* connections whose codec still has its fd event registered *)
  io_stop_tasks : list nat; (* tasks posted by Stop to IO loops, io_service.cc:90-97 *)
  io_removals : list nat    (* RemoveProtocolService tasks in the acceptor loop, oldest first *)
}.

Definition io_init : iosvc := mkio [] 0 false true [] [] [].

Inductive ioop :=
| IAccept (c : nat)      (* OnNewConnection in the acceptor loop *)
| IPeerClose (c : nat)   (* the codec closes on its own: EOF, error, "Connection: close" *)
| IStop                  (* IOService::Stop in the acceptor loop *)
| IStopTask (c : nat)    (* one of Stop's tasks runs in the connection's IO loop *)
| IRemove.               (* the acceptor loop runs its next RemoveProtocolService *)

Definition mem (c : nat) (l : list nat) : bool := existsb (Nat.eqb c) l.
Definition del (c : nat) (l : list nat) : list nat := filter (fun x => negb (Nat.eqb x c)) l.

(** [limit] is Configurator::kClientConnLimit (generic_server.h:124-128).  An
    operation that cannot happen in the state gives [None]. *)
Definition iostep (limit : nat) (s : iosvc) (o : ioop) : option (iosvc * list ioev) :=
  match o with
  | IAccept c =>   (* io_service.cc:147-168, 187-193 *)
      (* a new object: no set or pending task refers to it *)
      if negb (io_listening s) || mem c (io_codecs s) || mem c (io_removals s)
         || mem c (io_stop_tasks s) then None
      else if io_count s <? limit then
        Some (mkio (io_codecs s ++ [c]) (S (io_count s)) (io_stopping s) (io_listening s)
                   (io_open s ++ [c]) (io_stop_tasks s) (io_removals s), [])
      else Some (s, [ORejected c])
  | IPeerClose c =>   (* codec_service.cc:68-82, 145-151; io_service.cc:170-180 *)
      if mem c (io_open s) then
        Some (mkio (io_codecs s) (io_count s) (io_stopping s) (io_listening s)
                   (del c (io_open s)) (io_stop_tasks s) (io_removals s ++ [c]), [OConnClose c])
      else None
  | IStop =>   (* io_service.cc:74-102; StopServer posts it once, generic_server.h:111-120 *)
      if io_stopping s then None
      else Some (mkio (io_codecs s) (io_count s) true false
                      (io_open s) (io_stop_tasks s ++ io_codecs s) (io_removals s),
                 if length (io_codecs s) =? 0 then [OStopped] else [])
  | IStopTask c =>   (* io_service.cc:92-97, 170-180 *)
      if mem c (io_stop_tasks s) then
        Some (mkio (io_codecs s) (io_count s) (io_stopping s) (io_listening s)
                   (del c (io_open s)) (del c (io_stop_tasks s)) (io_removals s ++ [c]), [OConnClose c])
      else None
  | IRemove =>   (* io_service.cc:195-208 *)
      match io_removals s with
      | [] => None
      | c :: rest =>
          let present := mem c (io_codecs s) in
          let codecs := del c (io_codecs s) in
          Some (mkio codecs (if present then pred (io_count s) else io_count s)
                     (io_stopping s) (io_listening s) (io_open s) (io_stop_tasks s) rest,
                if io_stopping s && (length codecs =? 0) then [OStopped] else [])
      end
  end.

Fixpoint iorun (limit : nat) (s : iosvc) (os : list ioop) : option (iosvc * list ioev) :=
  match os with
  | [] => Some (s, [])
  | o :: os' =>
      match iostep limit s o with
      | None => None
      | Some (s1, es) =>
          match iorun limit s1 os' with
          | None => None
          | Some (s2, es') => Some (s2, es ++ es')
          end
      end
  end.
