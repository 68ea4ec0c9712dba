(** Vocabulary for an HTTP connection: what was put into the output stream, how often it was closed, what is left to do. *)
From Verif.Model Require Import Common HttpConn.
Open Scope nat_scope.

(** The bytes of all responses, and of a 400, in the order in which they were given *)
Definition stream (es : list ev) : list Z :=
  concat (map (fun e => match e with VEncoded _ b => b | VBad => bad_request | _ => [] end) es).
(** How often the close was reported *)
Definition closes (es : list ev) : nat := length (filter (fun e => match e with VClosed => true | _ => false end) es).
(** The requests answered, in the order of the answers *)
Definition answers (es : list ev) : list nat :=
  concat (map (fun e => match e with VEncoded id _ => [id] | _ => [] end) es).
(** The requests delivered *)
Definition requests (es : list ev) : list nat :=
  concat (map (fun e => match e with VRequest id => [id] | _ => [] end) es).
(** The loop has nothing left to do for the connection. *)
Definition settled (c : conn) : Prop := c_phase c = PIdle /\ c_nested c = [] /\ c_cross c = [] /\ c_acc c = 0.
Definition prefix (a b : list Z) : Prop := exists r, b = a ++ r.

(** All writes so far were accepted completely or ended in EAGAIN *)
Definition no_write_error (c : conn) : Prop := c_fail c = false.
(** What the environment did *)
Definition bad_op (o : op) : bool := match o with OParseError _ _ => true | _ => false end.
Definition eof_op (o : op) : bool := match o with ORead true => true | _ => false end.
Definition guarded_op (o : op) : bool := match o with OReply _ _ g | OPostReply _ _ g => g | _ => true end.
Definition keep_op (o : op) : bool := match o with ODeliver k => k | _ => true end.
Definition nonempty_op (o : op) : bool :=
  match o with OReply _ b _ | OPostReply _ b _ => negb (length b =? 0) | _ => true end.
(** No write ever met a full socket or an error: the kernel takes everything. *)
Definition takes_all (o : op) : bool := match o with OEvent _ _ _ e | OTask _ e | OParseError _ e => negb e | _ => true end.
(** Some answer was given after the close had been reported. *)
Fixpoint answer_after_close (es : list ev) : bool :=
  match es with
  | [] => false
  | VClosed :: r => negb (length (answers r) =? 0)
  | _ :: r => answer_after_close r
  end.
(** Requests delivered after a parse error *)
Fixpoint requests_after_bad (es : list ev) : list nat :=
  match es with
  | [] => []
  | VBad :: r => requests r
  | _ :: r => requests_after_bad r
  end.
(** Every answer was given before the next request was delivered: the handler answers before it returns. *)
Definition answered_at_once (es : list ev) : Prop :=
  forall e1 id b e2, es = e1 ++ VEncoded id b :: e2 -> exists before, requests e1 = before ++ [id].
Definition answer_op (o : op) : bool := match o with OReply _ _ _ | OPostReply _ _ _ => true | _ => false end.

(** The answers with their bytes, in the order in which they enter the stream; the answers given in other threads, in the
    order in which they were given; those still on the way to the connection's loop *)
Definition answers_given (es : list ev) : list (nat * list Z) :=
  concat (map (fun e => match e with VEncoded id b => [(id, b)] | _ => [] end) es).
Definition posted (os : list op) : list (nat * list Z) :=
  concat (map (fun o => match o with OPostReply id b _ => [(id, b)] | _ => [] end) os).
Definition waiting (c : conn) : list (nat * list Z) := map (fun p => (p_id p, p_bytes p)) (c_cross c).
(** Some elements may be missing, the others are in the same order. *)
Inductive subseq {A} : list A -> list A -> Prop :=
| sub_nil : subseq [] []
| sub_keep x a b : subseq a b -> subseq (x :: a) (x :: b)
| sub_drop x a b : subseq a b -> subseq a (x :: b).
Definition direct_op (o : op) : bool := match o with OReply _ _ _ => true | _ => false end.
