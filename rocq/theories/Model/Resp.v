(** RESP (redis protocol) decoder, encoder and client codec service.
    Models thirdparty/resp/resp/{decoder,encoder,unique_value}.hpp and
    net_io/codec/redis/{resp_codec_service,redis_request,redis_response}.cc.
    Simplifications: resp::buffer (small/large/ref storage) and unique_array (nodes of 8) are plain lists;
    memory allocation always succeeds; [array_stack_] and [value_stack_], always pushed and popped together
    (the values pushed by completed replies are popped at once by get_result()), are one stack of pairs. *)
From Verif.Model Require Import Common Decimal.
Open Scope Z_scope.

(** thirdparty/resp/resp/unique_value.hpp:26-34 value_type and the value it tags *)
Inductive rval : Type :=
| RNull
| RString (s : list Z)
| RError (s : list Z)
| RInt (n : Z)
| RBulk (s : list Z)
| RArray (l : list rval).

(** decoder.hpp:27-48 enum state *)
Inductive rstat :=
| st_start | st_string | st_string_lf | st_error_string | st_error_lf | st_integer | st_integer_lf
| st_bulk_size | st_bulk_size_lf | st_bulk | st_bulk_cr | st_bulk_lf | st_array_size | st_array_size_lf.

(** decoder.hpp:586-592 members; the head of [frames] is the top of array_stack_/value_stack_ *)
Record dec := mkdec { stat : rstat; buf : list Z; bulk : Z; frames : list (Z * list rval) }.
(** decoder.hpp:51-55 *)
Definition new_dec : dec := mkdec st_start [] 0 [].

(** result.hpp:22-99: type, size and value *)
Inductive rres := RCompleted (size : nat) (v : rval) | RIncompleted (size : nat) | RErr (size : nat).
Definition rsize (r : rres) : nat := match r with RCompleted n _ | RIncompleted n | RErr n => n end.
(** result.hpp:84-88, decoder.hpp:497 *)
Definition radd (k : nat) (r : rres) : rres :=
  match r with
  | RCompleted n v => RCompleted (n + k) v | RIncompleted n => RIncompleted (n + k) | RErr n => RErr (n + k)
  end.

Definition setstat (d : dec) (s : rstat) : dec := mkdec s (buf d) (bulk d) (frames d).
Definition setbuf (d : dec) (s : rstat) (b : list Z) : dec := mkdec s b (bulk d) (frames d).

(** decoder.hpp:75-83: ischar(c) && !isctrl(c) *)
Definition printable (c : Z) : bool := (32 <=? c) && (c <? 127).

(** decoder.hpp:313-317 (and 462-466, 546-550): numstr has 32 bytes, one of them for the terminator;
    beyond that the assert fails or, with NDEBUG, the copy overflows: undefined behaviour. *)
Definition parse_num (b : list Z) : outcome Z := if Nat.leb 32 (length b) then UB else Ok (strtol b).

(** One call each of decode (62-72), decode_array (85-175), its for loop (140-174) and the loop of decode_chunk
    (178-576); [p] is the memory from [ptr], so [length p] is [size]. [fuel] bounds the recursion; running out is
    reported as CheckFail and proved impossible for the fuel used by [decode]. *)
Fixpoint decode_f (fuel : nat) (d : dec) (p : list Z) {struct fuel} : outcome (rres * dec) :=
  match fuel with
  | O => CheckFail
  | S f => match frames d with
           | [] => decode_chunk_f f d p 0
           | _ :: _ => decode_array_f f d p
           end
  end
with decode_array_f (fuel : nat) (d : dec) (p : list Z) {struct fuel} : outcome (rres * dec) :=
  match fuel with
  | O => CheckFail
  | S f =>
    match frames d with
    | [] => CheckFail (* asserts 87-88 *)
    | (arraySize, arrayValue) :: rest =>
      let d1 := mkdec (stat d) (buf d) (bulk d) rest in
      let after (d : dec) (arraySize : Z) (arrayValue : list rval) (i : nat) : outcome (rres * dec) :=
        if Nat.eqb i (length p)
        then if arraySize =? 0
             then Ok (RCompleted i (RArray arrayValue), d)
             else Ok (RIncompleted i, mkdec (stat d) (buf d) (bulk d) ((arraySize, arrayValue) :: frames d))
        else array_loop_f f d p i 0 arraySize arrayValue
      in
      match rest with
      | [] => after d1 arraySize arrayValue 0%nat
      | _ :: _ =>
        obind (decode_array_f f d1 p) (fun '(res, d2) =>
        match res with
        | RCompleted n v => after d2 (arraySize - 1) (arrayValue ++ [v]) n
        | _ => Ok (res, mkdec (stat d2) (buf d2) (bulk d2) ((arraySize, arrayValue) :: frames d2))
        end)
      end
    end
  end
with array_loop_f (fuel : nat) (d : dec) (p : list Z) (i : nat) (x arraySize : Z) (arrayValue : list rval)
                  {struct fuel} : outcome (rres * dec) :=
  match fuel with
  | O => CheckFail
  | S f =>
    if x <? arraySize then
      obind (decode_f f d (skipn i p)) (fun '(res, d2) =>
      let i := (i + rsize res)%nat in
      match res with
      | RErr _ => Ok (RErr i, d2)
      | RIncompleted _ =>
          Ok (RIncompleted i, mkdec (stat d2) (buf d2) (bulk d2) ((arraySize - x, arrayValue) :: frames d2))
      | RCompleted _ v => array_loop_f f d2 p i (x + 1) arraySize (arrayValue ++ [v])
      end)
    else Ok (RCompleted i (RArray arrayValue), d)
  end
with decode_chunk_f (fuel : nat) (d : dec) (p : list Z) (i : nat) {struct fuel} : outcome (rres * dec) :=
  match fuel with
  | O => CheckFail
  | S f =>
    if Nat.ltb i (length p) then
      let c := nth i p 0 in
      let err := Ok (RErr (i + 1), setstat d st_start) in
      let next d := decode_chunk_f f d p (i + 1) in
      match stat d with
      | st_start =>
          let d := setbuf d (stat d) [] in
          if c =? 43 then next (setstat d st_string)
          else if c =? 45 then next (setstat d st_error_string)
          else if c =? 58 then next (setstat d st_integer)
          else if c =? 36 then next (mkdec st_bulk_size (buf d) 0 (frames d))
          else if c =? 42 then next (setstat d st_array_size)
          else Ok (RErr (i + 1), setstat d st_start)
      | st_string =>
          if c =? 13 then next (setstat d st_string_lf)
          else if printable c then next (setbuf d (stat d) (buf d ++ [c])) else err
      | st_error_string =>
          if c =? 13 then next (setstat d st_error_lf)
          else if printable c then next (setbuf d (stat d) (buf d ++ [c])) else err
      | st_bulk_size =>
          if c =? 13 then match buf d with [] => err | _ => next (setstat d st_bulk_size_lf) end
          else if isdigit c || (c =? 45) then next (setbuf d (stat d) (buf d ++ [c])) else err
      | st_string_lf =>
          if c =? 10 then Ok (RCompleted (i + 1) (RString (buf d)), setstat d st_start) else err
      | st_error_lf =>
          if c =? 10 then Ok (RCompleted (i + 1) (RError (buf d)), setstat d st_start) else err
      | st_bulk_size_lf =>
          if c =? 10 then
            obind (parse_num (buf d)) (fun n =>
            if n =? -1 then Ok (RCompleted (i + 1) RNull, mkdec st_start [] n (frames d))
            else if n =? 0 then next (mkdec st_bulk_cr [] n (frames d))
            else if n <? 0 then Ok (RErr (i + 1), mkdec st_start [] n (frames d))
            else
              let available := Z.of_nat (length p) - Z.of_nat i - 1 in
              let canRead := Z.to_nat (Z.min n available) in
              let b := slice p (i + 1) canRead in
              let i := (i + canRead)%nat in
              if available <? n
              then Ok (RIncompleted (i + 1), mkdec st_bulk b (n - Z.of_nat canRead) (frames d))
              else decode_chunk_f f (mkdec st_bulk_cr b n (frames d)) p (i + 1))
          else err
      | st_bulk =>
          let available := Z.of_nat (length p) - Z.of_nat i in
          let canRead := Z.to_nat (Z.min available (bulk d)) in
          let b := buf d ++ slice p i (canRead - i) in
          let n := bulk d - Z.of_nat canRead in
          let i := (i + (canRead - 1))%nat in
          if 0 <? n then Ok (RIncompleted (i + 1), mkdec (stat d) b n (frames d))
          else if Nat.eqb (length p) (i + 1) then Ok (RIncompleted (i + 1), mkdec st_bulk_cr b n (frames d))
          else decode_chunk_f f (mkdec st_bulk_cr b n (frames d)) p (i + 1)
      | st_bulk_cr => if c =? 13 then next (setstat d st_bulk_lf) else err
      | st_bulk_lf =>
          if c =? 10 then Ok (RCompleted (i + 1) (RBulk (buf d)), setstat d st_start) else err
      | st_array_size =>
          if c =? 13 then match buf d with [] => err | _ => next (setstat d st_array_size_lf) end
          else if isdigit c || (c =? 45) then next (setbuf d (stat d) (buf d ++ [c])) else err
      | st_array_size_lf =>
          if c =? 10 then
            obind (parse_num (buf d)) (fun n =>
            let d := setbuf d st_start [] in
            if (n =? -1) || (n =? 0) then Ok (RCompleted (i + 1) (RArray []), d)
            else if n <? 0 then Ok (RErr (i + 1), d)
            else
              let d := mkdec (stat d) (buf d) (bulk d) ((n, []) :: frames d) in
              if Nat.eqb (i + 1) (length p) then Ok (RIncompleted (i + 1), d)
              else obind (decode_array_f f d (skipn (i + 1) p)) (fun '(res, d2) => Ok (radd (i + 1) res, d2)))
          else err
      | st_integer =>
          if c =? 13 then match buf d with [] => err | _ => next (setstat d st_integer_lf) end
          else if isdigit c || (c =? 45) then next (setbuf d (stat d) (buf d ++ [c])) else err
      | st_integer_lf =>
          if c =? 10 then
            obind (parse_num (buf d)) (fun n => Ok (RCompleted (i + 1) (RInt n), setbuf d st_start []))
          else err
      end
    else Ok (RIncompleted i, d)
  end.

(** decoder.hpp:62-72 *)
Definition decode (d : dec) (p : list Z) : outcome (rres * dec) :=
  decode_f (10 + 4 * length p + 4 * length (frames d)) d p.

(** A user's read loop over one received piece: decode until no complete reply is left (as
    resp_codec_service.cc:77-88 does, without the expected count). Returns the values, whether an error was
    reported, and the decoder. *)
Fixpoint feed_f (fuel : nat) (d : dec) (p : list Z) : outcome (list rval * bool * dec) :=
  match fuel with
  | O => CheckFail
  | S f =>
    obind (decode d p) (fun '(res, d2) =>
    match res with
    | RCompleted n v =>
        obind (feed_f f d2 (skipn n p)) (fun '(vs, e, d3) => Ok (v :: vs, e, d3))
    | RIncompleted _ => Ok ([], false, d2)
    | RErr _ => Ok ([], true, d2)
    end)
  end.
Definition feed (d : dec) (p : list Z) : outcome (list rval * bool * dec) := feed_f (2 + length p) d p.

(** The same over successive received pieces, stopping at the first error. *)
Fixpoint feed_all (d : dec) (chunks : list (list Z)) : outcome (list rval * bool) :=
  match chunks with
  | [] => Ok ([], false)
  | p :: rest =>
    obind (feed d p) (fun '(vs, e, d2) =>
    if e : bool then Ok (vs, true)
    else obind (feed_all d2 rest) (fun '(ws, e2) => Ok (vs ++ ws, e2)))
  end.

(** encoder.hpp:262-276 append_size: [ty] then "%u" of (unsigned int)size then CRLF *)
Definition append_size (ty : Z) (size : nat) : list Z := ty :: udec (Z.of_nat size mod 2 ^ 32) ++ [13; 10].
(** encoder.hpp:236-250 append (whether or not the argument gets its own buffer, the bytes sent are these) *)
Definition append_arg (arg : list Z) : list Z := append_size 36 (length arg) ++ arg ++ [13; 10].
(** encoder.hpp:278-286 encode(buffers, cmd, args), and the fixed arity forms 43-149 *)
Definition encode_cmd (cmd : list Z) (args : list (list Z)) : list Z :=
  append_size 42 (length args + 1) ++ concat (map append_arg (cmd :: args)).

(** redis_request.h:146-147: body_ and cmd_counter_ (uint32) *)
Record rreq := mkrreq { body : list Z; cmd_counter : Z }.
Definition new_rreq : rreq := mkrreq [] 0.
(** redis_request.cc:27-193: every command method appends one encoded command and counts it *)
Definition add_cmd (r : rreq) (cmd : list Z) (args : list (list Z)) : rreq :=
  mkrreq (body r ++ encode_cmd cmd args) ((cmd_counter r + 1) mod 2 ^ 32).

(** resp_codec_service.h:61-64 plus the queue of the QueuedChannel that owns the codec
    (net_io/clients/queued_channel.h: waiting_list_, ing_request_) and the unread bytes of the channel's input
    buffer. Requests are (id, number of commands). *)
Record rsvc := mkrsvc {
  ndec : dec;
  next_incoming : Z;              (* uint32 next_incoming_count_ *)
  current : list rval;            (* current_response results *)
  inbuf : list Z;
  waiting : list (nat * Z);
  ing : option (nat * Z) }.
Definition new_rsvc : rsvc := mkrsvc new_dec 0 [] [] [] None.

(** What the application sees: request [id] completed with these replies. *)
Inductive rout := Done (id : nat) (replies : list rval).

(** resp_codec_service.cc:141-150 SendRequest (the send itself succeeds: failures close the connection) within
    queued_channel.cc:51-78 TrySendNext. CHECK(next_incoming_count_ == 0). *)
Definition try_send_next (s : rsvc) : outcome rsvc :=
  match ing s, waiting s with
  | None, (id, n) :: rest =>
      if next_incoming s =? 0
      then Ok (mkrsvc (ndec s) n (current s) (inbuf s) rest (Some (id, n)))
      else CheckFail
  | _, _ => Ok s
  end.

(** queued_channel.cc:42-49 SendRequest *)
Definition submit (s : rsvc) (r : nat * Z) : outcome rsvc :=
  try_send_next (mkrsvc (ndec s) (next_incoming s) (current s) (inbuf s) (waiting s ++ [r]) (ing s)).

(** resp_codec_service.cc:77-88 the do-while loop *)
Fixpoint recv_loop (fuel : nat) (s : rsvc) : outcome rsvc :=
  match fuel with
  | O => CheckFail
  | S f =>
    obind (decode (ndec s) (inbuf s)) (fun '(res, d2) =>
    match res with
    | RCompleted n v =>
        let s := mkrsvc d2 ((next_incoming s - 1) mod 2 ^ 32) (current s ++ [v]) (skipn n (inbuf s)) (waiting s) (ing s) in
        if 0 <? next_incoming s then recv_loop f s else Ok s
    | RIncompleted n | RErr n =>
        Ok (mkrsvc d2 (next_incoming s) (current s) (skipn n (inbuf s)) (waiting s) (ing s))
    end)
  end.

(** queued_channel.cc:117-130 OnCodecMessage *)
Definition on_codec_message (s : rsvc) : outcome (list rout * rsvc) :=
  match ing s with
  | None => Ok ([], s)
  | Some (id, _) =>
      obind (try_send_next (mkrsvc (ndec s) (next_incoming s) (current s) (inbuf s) (waiting s) None))
        (fun s2 => Ok ([Done id (current s)], s2))
  end.

(** resp_codec_service.cc:69-102 OnDataReceived after [bytes] were appended to the input buffer
    (init_wait_res_flags_ == 0: after AUTH/SELECT were answered) *)
Definition on_data (s : rsvc) (bytes : list Z) : outcome (list rout * rsvc) :=
  let s := mkrsvc (ndec s) (next_incoming s) (current s) (inbuf s ++ bytes) (waiting s) (ing s) in
  obind (recv_loop (2 + length (inbuf s)) s) (fun s =>
  if next_incoming s =? 0
  then obind (on_codec_message s) (fun '(out, s) =>
       (* 99-100: current_response.reset(); next_incoming_count_ = 0; *)
       Ok (out, mkrsvc (ndec s) 0 [] (inbuf s) (waiting s) (ing s)))
  else Ok ([], s)).

(** One event of a connection's life. *)
Inductive revent := Submit (id : nat) (n : Z) | Data (bytes : list Z).
Fixpoint svc_run (s : rsvc) (es : list revent) : outcome (list rout * rsvc) :=
  match es with
  | [] => Ok ([], s)
  | Submit id n :: es => obind (submit s (id, n)) (fun s => svc_run s es)
  | Data b :: es =>
      obind (on_data s b) (fun '(o, s) => obind (svc_run s es) (fun '(o2, s) => Ok (o ++ o2, s)))
  end.

(** redis_response.cc:40-107 DebugDump / Dump: the text is not modelled, only its effect on the stored values:
    line 70 "copies" value.array(), and copying a unique_array moves it (unique_array.hpp:116-125), so every
    top level array value is left empty. *)
Definition debug_dump (results : list rval) : list rval :=
  map (fun v => match v with RArray _ => RArray [] | v => v end) results.
