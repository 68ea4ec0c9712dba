(** What the user of a client channel expects, in terms of the history of calls
    and network events only. *)
From Coq Require Import ZArith List Bool.
From Verif.Model Require Import Common ClientChan.
Import ListNotations.
Local Open Scope Z_scope.

(** What the waiters saw: (request, how it ended), in order. *)
Fixpoint completions (es : list cev) : list (nat * cresult) :=
  match es with
  | [] => []
  | Done r res :: es' => (r, res) :: completions es'
  | _ :: es' => completions es'
  end.

Definition completions_of (r : nat) (es : list cev) : list cresult :=
  map snd (filter (fun e => Nat.eqb (fst e) r) (completions es)).

(** The first event after its sending that concerns the in-flight request [r]
    with id [id] decides how it ends. *)
Fixpoint fate (r : nat) (id : Z) (post : list aop) : option cresult :=
  match post with
  | [] => None
  | AResponse i m :: post' => if i =? id then Some (RResp m) else fate r id post'
  | ATimeout x _ :: post' => if Nat.eqb x r then Some RTimeout else fate r id post'
  | ACodecClosed :: _ | AClose :: _ => Some RBroken
  | _ :: post' => fate r id post'
  end.

(** All message objects handed to the channel (heartbeats included). *)
Fixpoint requests (os : list aop) : list nat :=
  match os with
  | [] => []
  | ASend r _ _ :: os' | AHeartbeat r _ _ :: os' => r :: requests os'
  | _ :: os' => requests os'
  end.

(** The ids the codec gave to the requests it accepted. *)
Fixpoint accepted_ids (os : list aop) : list Z :=
  match os with
  | [] => []
  | ASend _ i true :: os' | AHeartbeat _ i true :: os' => i :: accepted_ids os'
  | _ :: os' => accepted_ids os'
  end.

Definition opt_list {A} (o : option A) : list A :=
  match o with Some x => [x] | None => [] end.

(** Queued channel: the requests users submitted, in order. *)
Fixpoint q_submitted (os : list qop) : list nat :=
  match os with
  | [] => []
  | QSend r :: os' => r :: q_submitted os'
  | _ :: os' => q_submitted os'
  end.
Fixpoint q_requests (os : list qop) : list nat :=
  match os with
  | [] => []
  | QSend r :: os' | QHeartbeat r :: os' => r :: q_requests os'
  | _ :: os' => q_requests os'
  end.
Definition is_qheartbeat (os : list qop) (r : nat) : bool :=
  existsb (fun o => match o with QHeartbeat x => Nat.eqb x r | _ => false end) os.

(** Requests of a queued channel that have not ended yet, oldest first. *)
Definition q_pending (c : qchan) : list nat := opt_list (q_ing c) ++ q_wait c.
(** only the results that concern users ([H]: is a heartbeat) *)
Definition users (H : nat -> bool) (l : list (nat * cresult)) : list (nat * cresult) :=
  filter (fun e => negb (H (fst e))) l.
Definition all_broken (rs : list nat) : list (nat * cresult) := map (fun r => (r, RBroken)) rs.
(** the leading requests the codec refuses to send *)
Fixpoint refused (ok : nat -> bool) (rs : list nat) : list nat :=
  match rs with
  | [] => []
  | r :: rs' => if ok r then [] else r :: refused ok rs'
  end.
