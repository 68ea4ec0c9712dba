(** Model of net_io/io_buffer.{h,cc}. Indices and sizes are [nat]: the C++ fields are uint64_t and
    every buffer that fits in memory is shorter than 2^63, so the int64 casts in EnsureWritableSize
    are exact (simplification). Logging is not modelled. *)
From Verif.Model Require Import Common.

(** io_buffer.h:81-83 (read_index_, write_index_, data_). *)
Record iobuf := mkbuf { rd : nat; wr : nat; data : list Z }.

(** io_buffer.cc:39-42 with kDefaultInitialSize = 512 (io_buffer.cc:33); vector<char>(512) is zero filled. *)
Definition init_size : nat := 512.
Definition new_buf : iobuf := mkbuf 0 0 (repeat 0%Z init_size).

(** io_buffer.h:52 / 53. *)
Definition can_read (b : iobuf) : nat := wr b - rd b.
Definition can_write (b : iobuf) : nat := length (data b) - wr b.

(** vector::resize(n): truncate or zero-extend (used by io_buffer.cc:77). *)
Definition vec_resize (l : list Z) (n : nat) : list Z :=
  firstn n l ++ repeat 0%Z (n - length l).

(** std::copy(begin+r, begin+w, begin) (io_buffer.cc:68-70): move the readable bytes to the front;
    what lies behind them keeps its old value. *)
Definition compact (b : iobuf) : list Z :=
  let src := slice (data b) (rd b) (wr b - rd b) in
  src ++ skipn (length src) (data b).

(** io_buffer.cc:59-80. The CHECK of line 74 is the [CheckFail] outcome. *)
Definition ensure_writable (b : iobuf) (len : nat) : outcome iobuf :=
  if len <=? length (data b) - wr b then Ok b
  else if len <=? can_write b + rd b then
    let b' := mkbuf 0 (can_read b) (compact b) in
    if len <=? can_write b' then Ok b' else CheckFail
  else Ok (mkbuf (rd b) (wr b) (vec_resize (data b) (wr b + len))).

(** io_buffer.h:75: Produce performs no bound check. *)
Definition produce (b : iobuf) (n : nat) : iobuf := mkbuf (rd b) (wr b + n) (data b).

(** memcpy(&data_[write_index_], bs, |bs|) (io_buffer.cc:108,114, io_buffer.h:67). *)
Definition store_at_write (b : iobuf) (bs : list Z) : outcome iobuf :=
  match mem_write (data b) (wr b) bs with
  | Some d => Ok (mkbuf (rd b) (wr b) d)
  | None => UB
  end.

(** io_buffer.cc:106-110 WriteString, io_buffer.cc:112-116 WriteRawData and io_buffer.h:60-69 Append<T>
    have the same body: reserve, copy, produce. *)
Definition write_bytes (b : iobuf) (bs : list Z) : outcome iobuf :=
  obind (ensure_writable b (length bs)) (fun b1 =>
  obind (store_at_write b1 bs) (fun b2 => Ok (produce b2 (length bs)))).

(** The way channels fill a buffer (tcp_channel.cc HandleRead): EnsureWritableSize(n), the kernel
    stores [bs] at GetWrite(), Produce(|bs|). *)
Definition fill (b : iobuf) (n : nat) (bs : list Z) : outcome iobuf :=
  obind (ensure_writable b n) (fun b1 =>
  obind (store_at_write b1 bs) (fun b2 => Ok (produce b2 (length bs)))).

(** io_buffer.cc:126-131. *)
Definition consume (b : iobuf) (len : nat) : iobuf :=
  let r := rd b + Nat.min len (can_read b) in
  if r =? wr b then mkbuf 0 0 (data b) else mkbuf r (wr b) (data b).

(** io_buffer.cc:118-120 AsString / 122-124 StringView: the readable bytes. *)
Definition as_string (b : iobuf) : list Z := slice (data b) (rd b) (wr b - rd b).

(** io_buffer.cc:44-51: move construction; returns (new, moved-from). *)
Definition move_buf (r : iobuf) : iobuf * iobuf := (mkbuf (rd r) (wr r) (data r), mkbuf 0 0 []).

(** std::search for "\r\n" in the readable bytes (io_buffer.cc:137-144): offset of the first
    occurrence relative to GetRead(), [None] when there is none. *)
Fixpoint search_crlf (l : list Z) : option nat :=
  match l with
  | 13%Z :: ((10%Z :: _) as t) => Some 0
  | _ :: t => option_map S (search_crlf t)
  | [] => None
  end.
Definition find_crlf (b : iobuf) : option nat :=
  if can_read b =? 0 then None else search_crlf (as_string b).

(** io_buffer.cc:133-135. *)
Definition has_a_line (b : iobuf) : bool := existsb (Z.eqb 10) (as_string b).

(** The public operations of a buffer. *)
Inductive buf_op :=
| BWrite (bs : list Z)            (* WriteString / WriteRawData / Append *)
| BReserve (n : nat)              (* EnsureWritableSize *)
| BFill (n : nat) (bs : list Z)   (* EnsureWritableSize(n); read into GetWrite(); Produce *)
| BConsume (n : nat)              (* Consume *)
| BMove.                          (* continue with a buffer move-constructed from this one *)

Definition buf_step (b : iobuf) (o : buf_op) : outcome iobuf :=
  match o with
  | BWrite bs => write_bytes b bs
  | BReserve n => ensure_writable b n
  | BFill n bs => fill b n bs
  | BConsume n => Ok (consume b n)
  | BMove => Ok (fst (move_buf b))
  end.

Fixpoint buf_run (b : iobuf) (os : list buf_op) : outcome iobuf :=
  match os with
  | [] => Ok b
  | o :: os => obind (buf_step b o) (fun b' => buf_run b' os)
  end.
