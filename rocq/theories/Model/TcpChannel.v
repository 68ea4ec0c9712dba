(** [net_io/tcp_channel.cc] and the event handling of
    [net_io/codec/codec_service.cc] on top of the IOBuffer model. *)
From Verif.Model Require Import Common IOBuffer.

(** errno values the code tells apart. *)
Inductive errno := EAgain | EIntr | EOther.

(** A channel: [out_], [in_] (channel.h), the write interest of its FdEvent
    (fd_event.cc:49-75), the thread's errno, and the bytes the kernel has
    accepted so far. *)
Record chan := mkchan {
  c_out : iobuf;
  c_in : iobuf;
  c_wr : bool;
  c_errno : errno;
  c_wire : list Z
}.

(** Fresh channel after StartChannel (channel.cc:43-48). *)
Definition new_chan (e : errno) : chan := mkchan new_buf new_buf true e [].

(** The kernel's answer to one write(2) of a non-empty range: [KTake n] accepts
    [n] bytes clipped to [1..len]; the others fail with that errno.  A script
    that has run out stands for EAGAIN, so every finite script describes a
    terminating call and every terminating call has such a script. *)
Inductive kwrite := KTake (n : nat) | KFail (e : errno).

Definition clip (n len : nat) : nat := Nat.min (Nat.max 1 n) len.

(** tcp_channel.cc:92-109, the loop of HandleWrite.  Result: the channel, and
    [None] when the loop ended normally or [Some] for [return -1]; [total]
    counts the bytes written. *)
Fixpoint hw_loop (ks : list kwrite) (c : chan) (total : nat) {struct ks}
  : chan * nat * bool :=
  if can_read (c_out c) =? 0 then (c, total, true)
  else
    match ks with
    | [] | KFail EAgain :: _ =>
        (mkchan (c_out c) (c_in c) (c_wr c) EAgain (c_wire c), total, true)
    | KFail EIntr :: ks' =>
        hw_loop ks' (mkchan (c_out c) (c_in c) (c_wr c) EIntr (c_wire c)) total
    | KFail EOther :: _ =>
        (mkchan (c_out c) (c_in c) (c_wr c) EOther (c_wire c), total, false)
    | KTake n :: ks' =>
        let k := clip n (can_read (c_out c)) in
        hw_loop ks'
          (mkchan (consume (c_out c) k) (c_in c) (c_wr c) (c_errno c)
                  (c_wire c ++ firstn k (as_string (c_out c))))
          (total + k)
    end.

(** tcp_channel.cc:83-113 HandleWrite.  Return value as [Z]; simplified: the
    [int] conversion of the byte count is taken to fit (less than 2^31). *)
Definition handle_write (ks : list kwrite) (c : chan) : chan * Z :=
  if can_read (c_out c) =? 0 then (c, 0%Z)
  else
    match hw_loop ks c 0 with
    | (c1, total, true) =>
        (mkchan (c_out c1) (c_in c1) (negb (can_read (c_out c1) =? 0)) (c_errno c1) (c_wire c1),
         Z.of_nat total)
    | (c1, _, false) => (c1, (-1)%Z)
    end.

(** tcp_channel.cc:123-143, the do-while loop of Send on an empty [out_];
    [rest] are the bytes from [data + n_write].  On a zero-length range
    write(2) returns 0 and leaves errno alone: the test of errno (lines 132-142)
    then sees an old value. *)
Fixpoint send_loop (ks : list kwrite) (c : chan) (rest : list Z) (written : nat) {struct ks}
  : outcome (chan * Z) :=
  match rest with
  | [] =>
      match c_errno c with
      | EAgain => obind (write_bytes (c_out c) []) (fun o =>
                  Ok (mkchan o (c_in c) true EAgain (c_wire c), Z.of_nat written))
      | EIntr => Ok (c, Z.of_nat written)
      | EOther => Ok (c, (-1)%Z)
      end
  | _ =>
      match ks with
      | [] | KFail EAgain :: _ =>
          obind (write_bytes (c_out c) rest) (fun o =>
          Ok (mkchan o (c_in c) true EAgain (c_wire c), Z.of_nat written))
      | KFail EIntr :: ks' =>
          send_loop ks' (mkchan (c_out c) (c_in c) (c_wr c) EIntr (c_wire c)) rest written
      | KFail EOther :: _ =>
          Ok (mkchan (c_out c) (c_in c) (c_wr c) EOther (c_wire c), (-1)%Z)
      | KTake n :: ks' =>
          let k := clip n (length rest) in
          let c1 := mkchan (c_out c) (c_in c) (c_wr c) (c_errno c) (c_wire c ++ firstn k rest) in
          if length rest =? k then Ok (c1, Z.of_nat (written + k))
          else send_loop ks' c1 (skipn k rest) (written + k)
      end
  end.

(** tcp_channel.cc:115-146 Send *)
Definition send (ks : list kwrite) (c : chan) (data : list Z) : outcome (chan * Z) :=
  if 0 <? can_read (c_out c) then
    obind (write_bytes (c_out c) data) (fun o =>
    Ok (handle_write ks (mkchan o (c_in c) (c_wr c) (c_errno c) (c_wire c))))
  else send_loop ks c data 0.

(** The kernel's answer to one read(2): [KGot bs] delivers the first of [bs]
    that fit (at least one byte), [KEof] returns 0. *)
Inductive kread := KGot (b : Z) (bs : list Z) | KEof | KRFail (e : errno).

(** tcp_channel.cc:30 kBlockSize *)
Definition block_size : nat := 2048.

(** tcp_channel.cc:52-81 HandleRead.  [got] collects what the kernel handed
    over (ghost).  Simplified: the final CanReadSize is taken to fit an int. *)
Fixpoint read_loop (ks : list kread) (c : chan) (got : list Z) {struct ks}
  : outcome (chan * Z * list Z) :=
  obind (ensure_writable (c_in c) block_size) (fun i =>
  let fail e := (mkchan (c_out c) i (c_wr c) e (c_wire c), (-1)%Z, got) in
  match ks with
  | [] | KRFail EAgain :: _ =>
      Ok (mkchan (c_out c) i (c_wr c) EAgain (c_wire c), Z.of_nat (can_read i), got)
  | KRFail EIntr :: ks' =>
      read_loop ks' (mkchan (c_out c) i (c_wr c) EIntr (c_wire c)) got
  | KRFail EOther :: _ => Ok (fail EOther)
  | KEof :: _ => Ok (fail (c_errno c))
  | KGot b bs :: ks' =>
      let data := firstn (can_write i) (b :: bs) in
      obind (store_at_write i data) (fun i' =>
      read_loop ks' (mkchan (c_out c) (produce i' (length data)) (c_wr c) (c_errno c) (c_wire c))
                (got ++ data))
  end).
Definition handle_read (ks : list kread) (c : chan) := read_loop ks c [].

(** The operations of a channel's owner on the sending side: Send; HandleWrite
    (a write event or TryFlushChannel, codec_service.cc:99-107); writing to
    WriterBuffer() without flushing (http_codec_service.cc:135,
    ws_codec_service.cc:172-179). *)
Inductive top :=
| TSend (data : list Z) (ks : list kwrite)
| TFlush (ks : list kwrite)
| TAppend (data : list Z).

Definition tstep (c : chan) (o : top) : outcome (chan * Z) :=
  match o with
  | TSend data ks => send ks c data
  | TFlush ks => Ok (handle_write ks c)
  | TAppend data => obind (write_bytes (c_out c) data) (fun o =>
                    Ok (mkchan o (c_in c) (c_wr c) (c_errno c) (c_wire c), 0%Z))
  end.

(** Run until an operation reports an error (a negative result). *)
Fixpoint trun (c : chan) (os : list top) : outcome (chan * bool) :=
  match os with
  | [] => Ok (c, true)
  | o :: os' =>
      obind (tstep c o) (fun '(c1, rv) =>
      if (rv <? 0)%Z then Ok (c1, false) else trun c1 os')
  end.

(** ** CodecService *)

(** What the owner of a codec service observes. *)
Inductive sev :=
| SData (bs : list Z)   (* OnDataReceived with these readable bytes *)
| SClosed.              (* delegate_->OnCodecClosed *)

Record svc := mksvc { s_chan : chan; s_sched : bool; s_open : bool }.

(** codec_service.cc:68-82 CloseService(false) *)
Definition close_service (s : svc) : svc * list sev :=
  (mksvc (s_chan s) (s_sched s) false, [SClosed]).

(** codec_service.cc:88-93 OnDataFinishSend *)
Definition on_finish (s : svc) : svc * list sev :=
  if s_sched s then close_service s else (s, []).

Record levent := { has_read : bool; has_write : bool; has_error : bool }.

Section Svc.
(** OnDataReceived: what the codec leaves in the input buffer; whether it
    schedules a close is part of the codec too. *)
Variable codec_in : iobuf -> iobuf.
Variable codec_sched : iobuf -> bool.

(** codec_service.cc:110-127 SocketReadWrite *)
Definition socket_read_write (s : svc) (ev : levent) (kw : list kwrite) (kr : list kread)
  : outcome (svc * bool * list sev) :=
  let after_write :=
    if has_write ev then
      let '(c1, rv) := handle_write kw (s_chan s) in
      let s1 := mksvc c1 (s_sched s) (s_open s) in
      if (rv <? 0)%Z then (s1, false, [])
      else if (0 <? rv)%Z && (can_read (c_out c1) =? 0) then
        let '(s2, es) := on_finish s1 in (s2, true, es)
      else (s1, true, [])
    else (s, true, []) in
  match after_write with
  | (s1, false, es) => Ok (s1, false, es)
  | (s1, true, es) =>
      if has_read ev then
        obind (handle_read kr (s_chan s1)) (fun '(c2, rv, _) =>
        Ok (mksvc c2 (s_sched s1) (s_open s1), negb (rv <? 0)%Z, es))
      else Ok (s1, true, es)
  end.

(** codec_service.cc:129-143 HandleEvent *)
Definition handle_event (s : svc) (ev : levent) (kw : list kwrite) (kr : list kread)
  : outcome (svc * list sev) :=
  obind (socket_read_write s ev kw kr) (fun '(s1, success, es) =>
  let '(s2, es2) :=
    if can_read (c_in (s_chan s1)) =? 0 then (s1, [])
    else
      let c := s_chan s1 in
      (mksvc (mkchan (c_out c) (codec_in (c_in c)) (c_wr c) (c_errno c) (c_wire c))
             (s_sched s1 || codec_sched (c_in c)) (s_open s1),
       [SData (as_string (c_in c))]) in
  let should_close := s_sched s2 && (can_read (c_out (s_chan s2)) =? 0) in
  if success && negb should_close && negb (has_error ev) then Ok (s2, es ++ es2)
  else let '(s3, es3) := close_service s2 in Ok (s3, es ++ es2 ++ es3)).
End Svc.
