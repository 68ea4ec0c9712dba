(** net_io/udp_io/udp_service.{h,cc}: a UDP socket in its loop. Its only output is the log. *)
From Verif.Model Require Import Common IpAddress FdEvents.
Local Open Scope Z_scope.

(** LT_UDP_MTU_SIZE, udp_service.h:37; buffers_(100), udp_service.cc:36. *)
Definition kMtu : nat := Z.to_nat 1920.
Definition kBatch : nat := 100.
(** A waiting datagram: payload and sender address as the kernel stores it. *)
Definition dgram := (list Z * list Z)%type.
(** What one logged line says (101-110): payload and sender; the endpoint is empty when FromSockAddr fails. [old] is what the address
    buffer held; msg_namelen is at least as long as an address of the socket's family, and Size() is 128. *)
Definition report (d : dgram) (old : list Z) : outcome (list Z * IPEndPoint) :=
  obind (FromSockAddr (fst (k_getname (snd d) old)) 128) (fun r =>
    Ok (firstn kMtu (fst d), match r with Some e => e | None => mkEP [] 0 end)).
Fixpoint reports (ds : list dgram) (olds : list (list Z)) : outcome (list (list Z * IPEndPoint)) :=
  match ds, olds with
  | d :: ds, old :: olds => obind (report d old) (fun r => obind (reports ds olds) (fun rs => Ok (r :: rs)))
  | _, _ => Ok []
  end.
(** The address buffers after a batch (the following ones are left). *)
Definition refill (ds : list dgram) (olds : list (list Z)) : list (list Z) :=
  map (fun '(d, old) => fst (k_getname (snd d) old)) (combine ds olds) ++ skipn (length ds) olds.
(** 85-112 HandleRead on the waiting datagrams: what is logged, what still waits, the address buffers. recvmmsg takes up to 100
    datagrams; [cuts]: how many a call takes at least one of when it is cut short by an error behind the first datagrams (None: no
    error). The loop ends when nothing waits (EAGAIN) or an error is reported. *)
Fixpoint HandleRead (fuel : nat) (cuts : list (option nat)) (q : list dgram) (bufs : list (list Z)) : outcome (list (list Z * IPEndPoint) * list dgram * list (list Z)) :=
  match fuel, q with
  | O, _ | _, [] => Ok ([], q, bufs)
  | S fuel, _ =>
      match cuts with
      | Some O :: _ => Ok ([], q, bufs)   (* recv_cnt <= 0: EINTR, or another error (HandleClose only logs) *)
      | c :: cuts =>
          let n := match c with Some n => Nat.min n kBatch | None => kBatch end in
          let now := firstn n q in
          obind (reports now bufs) (fun rs =>
            obind (HandleRead fuel cuts (skipn n q) (refill now bufs)) (fun '(rs', q', b') => Ok (rs ++ rs', q', b')))
      | [] => Ok ([], q, bufs)
      end
  end.

(** The descriptor's side, on the model of descriptor events: FdEvent objects are named by numbers, [old] is the object socket_event_ holds.
    38-66 StartService: socket(2) returns [fd]; the assignment destroys the previous object. *)
Definition start_ops (l : nat) (fd : Z) (o : nat) (old : option nat) : list op :=
  [OOpen fd; ONew o fd EV_READ true] ++ match old with Some p => [ODestroy p] | None => [] end ++ [OInstall l o true].
(** 68-76 StopService; [fd] is socket_event_->GetFd(). *)
Definition stop_ops (fd : Z) : list op := [OClose fd].
(** 52,59: the destructor destroys socket_event_. *)
Definition end_ops (o : nat) : list op := [ODestroy o].
Fixpoint runs (limit : Z) (s : st) (xs : list op) : outcome st :=
  match xs with
  | [] => Ok s
  | x :: xs => obind (step limit s x) (fun '(s, _) => runs limit s xs)
  end.
