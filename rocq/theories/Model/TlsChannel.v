(** net_io/tcp_channel_ssl.cc: the TLS channel over an abstract OpenSSL connection.

    OpenSSL is not part of the repository. What the model assumes of it (OpenSSL 1.1.1/3 manual and source):
    - SSL_write of n > 0 bytes either takes all n bytes (partial writes are not enabled) or fails;
    - when the transport refuses application data (SSL_ERROR_WANT_WRITE, or SSL_ERROR_SYSCALL from the socket) the encrypted
      record is kept, and the next SSL_write must pass the same address (unless SSL_MODE_ACCEPT_MOVING_WRITE_BUFFER is set) and
      at least the same length, else it fails with SSL_ERROR_SSL (bad write retry); when it succeeds it is the kept record
      that goes out first;
    - SSL_write of 0 bytes performs an outstanding handshake; once that is done it returns 0, which SSL_get_error reports as
      SSL_ERROR_SYSCALL without touching errno.
    The byte queues in_ and out_ are lists (their representation is the subject of Model/IOBuffer.v); the address of
    out_.GetRead() is kept, because OpenSSL compares it. *)
From Verif.Model Require Import Common.
From Verif.Model Require Export TcpChannel.
Local Open Scope nat_scope.

(** tcp_channel_ssl.cc:11 kBlockSize. *)
Definition kBlock : nat := Z.to_nat 8192.
(** One answer of OpenSSL. [a_hs]: an outstanding handshake completes in this call. *)
Inductive ares := ADone | AWantRead | AWantWrite | AZeroReturn | ASyscall (e : errno) | ASslError.
Record answer := Ans { a_hs : bool; a_res : ares }.
(** SSL_get_error. *)
Inductive sslerr := EWantRead | EWantWrite | EZeroReturn | ESyscall | ESsl.
(** The OpenSSL connection: handshake done, pending record (address, plaintext), last call wants to write (SSL_want_write). *)
Record ssl := Ssl { hs : bool; pend : option (Z * list Z); want_write : bool }.
(** The channel (channel.h:140-150): out_, in_, address of out_'s data, interests of its FdEvent, errno; [t_wire] is the
    plaintext OpenSSL has accepted so far, [t_dead] that an operation has returned -1 (the caller then closes). *)
Record tls := Tls { t_ssl : ssl; t_out : list Z; t_in : list Z; o_addr : Z; t_wr : bool; t_rd : bool; t_errno : errno;
  t_wire : list Z; t_dead : bool }.
Definition set_ssl c s := Tls s (t_out c) (t_in c) (o_addr c) (t_wr c) (t_rd c) (t_errno c) (t_wire c) (t_dead c).
Definition set_errno c e := Tls (t_ssl c) (t_out c) (t_in c) (o_addr c) (t_wr c) (t_rd c) e (t_wire c) (t_dead c).
Definition set_wr c b := Tls (t_ssl c) (t_out c) (t_in c) (o_addr c) b (t_rd c) (t_errno c) (t_wire c) (t_dead c).
Definition set_rd c b := Tls (t_ssl c) (t_out c) (t_in c) (o_addr c) (t_wr c) b (t_errno c) (t_wire c) (t_dead c).
Definition set_out c o a := Tls (t_ssl c) o (t_in c) a (t_wr c) (t_rd c) (t_errno c) (t_wire c) (t_dead c).
Definition add_wire c w := Tls (t_ssl c) (t_out c) (t_in c) (o_addr c) (t_wr c) (t_rd c) (t_errno c) (t_wire c ++ w) (t_dead c).
Definition add_in c w := Tls (t_ssl c) (t_out c) (t_in c ++ w) (o_addr c) (t_wr c) (t_rd c) (t_errno c) (t_wire c) (t_dead c).
Definition kill c := Tls (t_ssl c) (t_out c) (t_in c) (o_addr c) (t_wr c) (t_rd c) (t_errno c) (t_wire c) true.
(** A channel after StartChannel (110-124, channel.cc:43-48), the handshake under way or done. *)
Definition new_tls (h : bool) (e : errno) : tls := Tls (Ssl h None false) [] [] 0 true true e [] false.

Section Channel.
(** SSL_MODE_ACCEPT_MOVING_WRITE_BUFFER of the context; nothing in the repository sets it (false). *)
Variable moving : bool.

(** The error a failing answer leads to, with the errno it leaves. *)
Definition fail_of (r : ares) (e : errno) : sslerr * errno :=
  match r with
  | ADone => (ESsl, e) (* not a failure; not used *)
  | AWantRead => (EWantRead, EAgain)
  | AWantWrite => (EWantWrite, EAgain)
  | AZeroReturn => (EZeroReturn, e)
  | ASyscall e' => (ESyscall, e')
  | ASslError => (ESsl, e)
  end.
Definition is_done (r : ares) : bool := match r with ADone => true | _ => false end.
Definition is_want_write (r : ares) : bool := match r with AWantWrite => true | _ => false end.
Definition bad_retry (s : ssl) (a : Z) (data : list Z) : bool :=
  match pend s with Some (pa, p) => (negb moving && negb (pa =? a)%Z) || (length data <? length p) | None => false end.
Definition kept (s : ssl) : list Z := match pend s with Some (_, p) => p | None => [] end.
Definition keep (s : ssl) (a : Z) (data : list Z) : option (Z * list Z) := Some (a, kept s ++ skipn (length (kept s)) data).
(** SSL_write(ssl_, a, |data|) and SSL_get_error: [None] when all bytes were taken. *)
Definition ssl_write (c : tls) (a : Z) (data : list Z) (x : answer) : tls * option sslerr :=
  let s := t_ssl c in
  let done := hs s || a_hs x || is_done (a_res x) in
  if negb done then (* still in the handshake *)
    let '(e, en) := fail_of (a_res x) (t_errno c) in
    (set_errno (set_ssl c (Ssl false (pend s) (is_want_write (a_res x)))) en, Some e)
  else if length data =? 0 then (set_ssl c (Ssl true (pend s) false), Some ESyscall)
  else if bad_retry s a data then (set_ssl c (Ssl true (pend s) false), Some ESsl)
  else match a_res x with
    | ADone => (add_wire (set_ssl c (Ssl true None false)) (kept s ++ skipn (length (kept s)) data), None)
    | AWantWrite => (set_errno (set_ssl c (Ssl true (keep s a data) true)) EAgain, Some EWantWrite)
    | ASyscall e => (set_errno (set_ssl c (Ssl true (keep s a data) false)) e, Some ESyscall)
    | r => let '(e, en) := fail_of r (t_errno c) in (set_errno (set_ssl c (Ssl true (pend s) false)) en, Some e)
    end.

Inductive action := Close | WaitIO | FastRetry.
(** 42-81 handle_openssl_err. *)
Definition handle_openssl_err (c : tls) (e : sslerr) : tls * action :=
  match e with
  | EWantRead => (set_rd c true, WaitIO)
  | EWantWrite => (set_wr c true, WaitIO)
  | EZeroReturn => (c, Close)
  | ESyscall => (c, match t_errno c with EAgain => WaitIO | EIntr => FastRetry | EOther => Close end)
  | ESsl => (c, Close)
  end.

(** One round of the loop of Send, 136-164: [None]: return -1; [Some (c, rest, nw, again)]. [na]: where out_'s data lies after
    WriteRawData. *)
Definition send_round (c : tls) (a : Z) (rest : list Z) (nw : nat) (na : Z) (x : answer) : tls * option (list Z * nat * bool) :=
  let batch := firstn kBlock rest in
  match ssl_write c a batch x with
  | (c, None) => let rest' := skipn (length batch) rest in
      (c, Some (rest', nw + length batch, negb (length rest' =? 0)))
  | (c, Some e) =>
      match handle_openssl_err c e with
      | (c, WaitIO) => (set_out c (t_out c ++ rest) na, Some (rest, nw, false))
      | (c, FastRetry) => (c, Some (rest, nw, negb (length rest =? 0)))
      | (c, Close) => (c, None)
      end
  end.
(** A script of answers that has run out stands for SSL_ERROR_WANT_READ (the loops then end). *)
Definition dflt_w : answer := Ans false AWantRead.
Fixpoint send_loop (ks : list answer) (c : tls) (a : Z) (rest : list Z) (nw : nat) (na : Z) {struct ks} : tls * option nat :=
  match send_round c a rest nw na (hd dflt_w ks) with
  | (c, None) => (c, None)
  | (c, Some (rest', nw', again)) =>
      match again, ks with
      | true, _ :: ks' => send_loop ks' c (a + Z.of_nat (nw' - nw)) rest' nw' na
      | _, _ => (c, Some nw')
      end
  end.
(** 166: out_.CanReadSize() ? EnableWriting() : DisableWriting(). *)
Definition set_interest (c : tls) : tls := set_wr c (negb (length (t_out c) =? 0)).
Definition ret (r : tls * option nat) : tls * Z :=
  match r with (c, Some n) => (set_interest c, Z.of_nat n) | (c, None) => (kill c, (-1)%Z) end.

(** One round of HandleWrite, 179-202. *)
Definition write_round (c : tls) (total : nat) (x : answer) : tls * option (nat * bool) :=
  let batch := firstn kBlock (t_out c) in
  match ssl_write c (o_addr c) batch x with
  | (c, None) =>
      let c := set_out c (skipn (length batch) (t_out c)) (o_addr c + Z.of_nat (length batch)) in
      (c, Some (total + length batch, negb (length (t_out c) =? 0)))
  | (c, Some e) =>
      match handle_openssl_err c e with
      | (c, WaitIO) => (c, Some (total, false))
      | (c, FastRetry) => (c, Some (total, negb (length (t_out c) =? 0)))
      | (c, Close) => (c, None)
      end
  end.
Fixpoint write_loop (ks : list answer) (c : tls) (total : nat) {struct ks} : tls * option nat :=
  match write_round c total (hd dflt_w ks) with
  | (c, None) => (c, None)
  | (c, Some (total', again)) =>
      match again, ks with
      | true, _ :: ks' => write_loop ks' c total'
      | _, _ => (c, Some total')
      end
  end.
(** 172-209 HandleWrite. *)
Definition HandleWrite (ks : list answer) (c : tls) : tls * Z := ret (write_loop ks c 0).
(** 126-170 Send of [data] at address [a]. *)
Definition Send (ks : list answer) (c : tls) (data : list Z) (a na : Z) : tls * Z :=
  if negb (length (t_out c) =? 0) then HandleWrite ks (set_out c (t_out c ++ data) na)
  else ret (send_loop ks c a data 0 na).

(** SSL_read: a chunk of plaintext (at least one byte), or a failure; an outstanding handshake is continued by it too. A script
    that has run out stands for SSL_ERROR_WANT_READ. *)
Inductive rres := RData (b : Z) (bs : list Z) | RFail (r : ares).
Record ranswer := RAns { r_hs : bool; r_res : rres }.
Definition r_fail (c : tls) (x : ranswer) (r : ares) : tls * sslerr :=
  let '(e, en) := fail_of r (t_errno c) in
  (set_errno (set_ssl c (Ssl (hs (t_ssl c) || r_hs x) (pend (t_ssl c)) (is_want_write r))) en, e).
(** One round of HandleRead, 233-258. *)
Definition read_round (c : tls) (x : ranswer) : tls * option bool :=
  match r_res x with
  | RData b bs => (add_in (set_ssl c (Ssl true (pend (t_ssl c)) false)) (b :: bs), Some true)
  | RFail r =>
      let '(c, e) := r_fail c x r in
      match handle_openssl_err c e with
      | (c, WaitIO) => (c, Some false)
      | (c, FastRetry) => (c, Some true)
      | (c, Close) => (c, None)
      end
  end.
Definition dflt_r : ranswer := RAns false (RFail AWantRead).
Fixpoint read_loop (ks : list ranswer) (c : tls) {struct ks} : tls * option nat :=
  match read_round c (hd dflt_r ks) with
  | (c, None) => (c, None)
  | (c, Some again) =>
      match again, ks with
      | true, _ :: ks' => read_loop ks' c
      | _, _ => (c, Some (length (t_in c)))
      end
  end.
(** 228-262 HandleRead. *)
Definition HandleRead (ks : list ranswer) (c : tls) : tls * Z :=
  match read_loop ks c with (c, Some n) => (c, Z.of_nat n) | (c, None) => (kill c, (-1)%Z) end.

(** What the owner of the channel does; [e] is the errno at the time of the call. After a -1 the channel is closed. *)
Inductive op := OSend (data : list Z) (a na : Z) (e : errno) (ks : list answer) | OWrite (e : errno) (ks : list answer) | ORead (e : errno) (ks : list ranswer).
Definition do_op (c : tls) (o : op) : tls :=
  if t_dead c then c else
  match o with
  | OSend d a na e ks => fst (Send ks (set_errno c e) d a na)
  | OWrite e ks => fst (HandleWrite ks (set_errno c e))
  | ORead e ks => fst (HandleRead ks (set_errno c e))
  end.
Definition do_ops (c : tls) (os : list op) : tls := fold_left do_op os c.
End Channel.
