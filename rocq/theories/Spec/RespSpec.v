(** RESP wire format (independent of the decoder): https://redis.io/topics/protocol *)
From Verif.Model Require Import Common Decimal Resp.
Open Scope Z_scope.

(** [l] is the decimal text of [n]: most significant digit first, no leading zero. *)
Inductive decimal : Z -> list Z -> Prop :=
| dec_digit d : 0 <= d < 10 -> decimal d [48 + d]
| dec_more n l d : 0 < n -> decimal n l -> 0 <= d < 10 -> decimal (10 * n + d) (l ++ [48 + d]).

Definition crlf : list Z := [13; 10].
Definition wire_bulk (s : list Z) : list Z := 36 :: udec (Z.of_nat (length s)) ++ crlf ++ s ++ crlf.

Fixpoint wire (v : rval) : list Z :=
  match v with
  | RNull => [36; 45; 49; 13; 10]                       (* "$-1\r\n" *)
  | RString s => 43 :: s ++ crlf                        (* "+s\r\n" *)
  | RError s => 45 :: s ++ crlf                         (* "-s\r\n" *)
  | RInt n => 58 :: sdec n ++ crlf                      (* ":n\r\n" *)
  | RBulk s => wire_bulk s                              (* "$len\r\ns\r\n" *)
  | RArray l => 42 :: udec (Z.of_nat (length l)) ++ crlf ++ concat (map wire l)   (* "*len\r\n..." *)
  end.

(** Values RESP can carry: simple strings and errors are printable text, integers are int64, and lengths are
    below 2^63. Bulk strings are arbitrary. *)
Inductive wf_rval : rval -> Prop :=
| wf_null : wf_rval RNull
| wf_string s : Forall (fun c => 32 <= c < 127) s -> wf_rval (RString s)
| wf_error s : Forall (fun c => 32 <= c < 127) s -> wf_rval (RError s)
| wf_int n : - 2 ^ 63 <= n < 2 ^ 63 -> wf_rval (RInt n)
| wf_bulk s : Z.of_nat (length s) < 2 ^ 63 -> wf_rval (RBulk s)
| wf_array l : Z.of_nat (length l) < 2 ^ 63 -> Forall wf_rval l -> wf_rval (RArray l).

(** A request as the application and the server see it: its id, the replies the server produces (one per command)
    and the pieces in which those bytes arrive. *)
Record exchange := mkx { xid : nat; replies : list rval; pieces : list (list Z) }.
Definition good_exchange (x : exchange) : Prop :=
  Forall wf_rval (replies x) /\ (0 < length (replies x))%nat /\ Z.of_nat (length (replies x)) < 2 ^ 32 /\
  concat (pieces x) = concat (map wire (replies x)).

Fixpoint submits (es : list revent) : list (nat * Z) :=
  match es with [] => [] | Submit id n :: es => (id, n) :: submits es | Data _ :: es => submits es end.
Fixpoint datas (es : list revent) : list (list Z) :=
  match es with [] => [] | Data b :: es => b :: datas es | Submit _ _ :: es => datas es end.

(** [es] is a possible history for the exchanges [xs]: requests are submitted in order, the pieces arrive in order, and
    no piece of a reply arrives before its request was submitted. *)
Definition history (xs : list exchange) (es : list revent) : Prop :=
  submits es = map (fun x => (xid x, Z.of_nat (length (replies x)))) xs /\
  datas es = concat (map pieces xs) /\
  (forall es1 b es2, es = es1 ++ Data b :: es2 ->
     (length (datas es1) < length (concat (map pieces (firstn (length (submits es1)) xs))))%nat).

(** Every request is submitted after the previous one completed. *)
Definition sequential (xs : list exchange) : list revent :=
  concat (map (fun x => Submit (xid x) (Z.of_nat (length (replies x))) :: map Data (pieces x)) xs).
