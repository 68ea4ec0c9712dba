(** net_io/server/http_server/http_context.{h,cc}: the context an HTTP handler answers through, shared by any threads.

    Thread 0 is the thread of the connection's loop; the loop runs throughout (PostTask CHECKs that). A call is two steps: reading
    did_reply_ and building the response, then Response() as a whole; between them other threads may act. Accesses to the plain bool
    did_reply_ are taken as sequentially consistent (by the C++ standard a data race is undefined). What SendResponse writes is
    C61-C64, C141-C147 and C203-C210. A RefHttpResponse is a shared pointer: the objects the application made are named by their index, while
    those the context itself makes are known to nobody else, so that they are values. *)
From Coq Require Import String.
From Verif.Model Require Import Common Http H2Conn.
Open Scope nat_scope.

(** http_message.h:160-190 *)
Record resp := RSP { s_code : Z; s_headers : kvmap; s_body : list Z; s_keep : bool }.
Definition set_keep (r : resp) (b : bool) : resp := RSP (s_code r) (s_headers r) (s_body r) b.
(** A shared pointer to a response. *)
Inductive ref := App (o : nat) | Own (r : resp).
(** What the connection is told: SendResponse by thread [by_], on behalf of the call of thread [from]; CloseService. *)
Inductive act := Send (by_ from : nat) (r : resp) (ok : bool) | Close (by_ : nat).
(** [replied]: did_reply_. [alive]: GetIOCtx().codec.lock() succeeds. [queue]: the posted functors, with the thread that posted them.
    [pend]: what each thread is about to hand to Response(). *)
Record world := W { heap : list resp; replied : bool; alive : bool; queue : list (nat * ref); pend : nat -> option ref; acts : list act }.
(** http_context.cc:33-36 *)
Definition new_ctx : world := W [] false true [] (fun _ => None) [].
Definition upd (f : nat -> option ref) (t : nat) (x : option ref) : nat -> option ref := fun u => if u =? t then x else f u.
Definition deref (h : list resp) (x : ref) : option resp := match x with App o => nth_error h o | Own r => Some r end.
Fixpoint put (l : list resp) (i : nat) (x : resp) : list resp :=
  match l, i with [], _ => [] | _ :: l, O => x :: l | y :: l, S i => y :: put l i x end.
(** A C string ends before its first NUL. *)
Fixpoint c_str (b : list Z) : list Z := match b with [] => [] | c :: b => if (c =? 0)%Z then [] else c :: c_str b end.

(** The five ways to answer; [KResponse o]: with the application's own response object. *)
Inductive call := KFile | KJson (j : list Z) (code : Z) | KCStr (b : list Z) (code : Z) | KString (b : list Z) (code : Z) | KResponse (o : nat).
(** http_message.cc:204-208 *)
Definition create_with_code (code : Z) : resp := RSP code [] [] true.
(** http_context.cc:48-50, 59-60, 69-70 *)
Definition build (c : call) : option resp :=
  match c with
  | KJson j code => let r := create_with_code code in Some (RSP (s_code r) (insert_header (bs "Content-Type") (bs "application/json;utf-8") (s_headers r)) j (s_keep r))
  | KCStr b code => let r := create_with_code code in Some (RSP (s_code r) (s_headers r) (s_body r ++ c_str b) (s_keep r))
  | KString b code => let r := create_with_code code in Some (RSP (s_code r) (s_headers r) b (s_keep r))
  | _ => None
  end.
(** http_context.cc:38-73 up to Response(response) *)
Definition enter (w : world) (t : nat) (c : call) : outcome world :=
  match c with
  | KResponse o => if o <? List.length (heap w) then Ok (W (heap w) (replied w) (alive w) (queue w) (upd (pend w) t (Some (App o))) (acts w)) else UB
  | KFile => if replied w then Ok w else CheckFail
  | _ =>
      if replied w then Ok w
      else match build c with
           | Some r => Ok (W (heap w) (replied w) (alive w) (queue w) (upd (pend w) t (Some (Own r))) (acts w))
           | None => UB
           end
  end.
(** http_context.cc:94-97, 103-106: the answer, and the end of the connection unless it is kept; [keep]: request->IsKeepAlive(). *)
Definition deliver (keep : bool) (by_ from : nat) (r : resp) (ok : bool) : list act :=
  Send by_ from r ok :: if negb keep || negb ok then [Close by_] else [].
(** response->SetKeepAlive(keep) *)
Definition keep_heap (h : list resp) (x : ref) (keep : bool) : list resp :=
  match x with App o => match nth_error h o with Some r => put h o (set_keep r keep) | None => h end | Own _ => h end.
Definition keep_ref (x : ref) (keep : bool) : ref := match x with App o => App o | Own r => Own (set_keep r keep) end.
(** http_context.cc:75-107; [ok]: what SendResponse returns. *)
Definition respond (keep : bool) (w : world) (t : nat) (x : ref) (ok : bool) : outcome world :=
  let p := upd (pend w) t None in
  if alive w then
    let h := keep_heap (heap w) x keep in
    let x := keep_ref x keep in
    if negb (t =? 0) then Ok (W h true true (queue w ++ [(t, x)]) p (acts w))
    else match deref h x with
         | None => UB
         | Some r => Ok (W h true true (queue w) p (acts w ++ deliver keep t t r ok))
         end
  else Ok (W (heap w) true false (queue w) p (acts w)).

(** What can happen. [ENew], [EMutate]: the application makes a response object, or changes one it holds. [ERun]: the loop thread runs
    the oldest functor. [EDie]: the last reference to the service goes; a posted functor holds one (http_context.cc:93). *)
Inductive ev := ENew (r : resp) | EMutate (o : nat) (r : resp) | ECall (t : nat) (c : call) | ERespond (t : nat) (ok : bool) | ERun (ok : bool) | EDie.
Definition step (keep : bool) (w : world) (e : ev) : outcome world :=
  match e with
  | ENew r => Ok (W (heap w ++ [r]) (replied w) (alive w) (queue w) (pend w) (acts w))
  | EMutate o r => Ok (W (put (heap w) o r) (replied w) (alive w) (queue w) (pend w) (acts w))
  | ECall t c => match pend w t with Some _ => Ok w | None => enter w t c end
  | ERespond t ok => match pend w t with Some o => respond keep w t o ok | None => Ok w end
  | ERun ok =>
      match pend w 0, queue w with
      | None, (t, o) :: q =>
          match deref (heap w) o with
          | None => UB
          | Some r => Ok (W (heap w) (replied w) (alive w) q (pend w) (acts w ++ deliver keep 0 t r ok))
          end
      | _, _ => Ok w
      end
  | EDie => match queue w with [] => Ok (W (heap w) (replied w) false [] (pend w) (acts w)) | _ => Ok w end
  end.
Fixpoint run (keep : bool) (w : world) (es : list ev) : outcome world :=
  match es with [] => Ok w | e :: es => obind (step keep w e) (fun w => run keep w es) end.

(** http_context.cc:118-136 H2Context::Push on an HTTP/2 connection; [here]: the caller is the loop's thread. *)
Definition Push (connected here : bool) (c : h2) (sid : Z) (pid : option Z) (m p : list Z) (r : response) (lim : nat) : outcome h2 :=
  if negb connected then Ok c
  else if negb here then Ok c
  else PushPromise c sid pid m p r lim.
