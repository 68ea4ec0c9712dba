(** The context of a raw request (net_io/server/raw_server/raw_server.{h,cc}).

    A call of Response() is two steps: reading did_reply_, then do_response(); other threads may run in between. Accesses to
    did_reply_ are taken as sequentially consistent. Thread 0 is the thread of the connection's loop. Messages are numbers: a
    message is shared, not copied, and not changed after it is passed. What SendResponse does is an arbitrary answer ([ok]). *)
From Verif.Model Require Import Common.

(** What happens to the connection: SendResponse for the call of thread [t] with its result, CloseService. *)
Inductive act : Type := Send (t r : nat) (ok : bool) | Close.

(** did_reply_ (raw_server.h:50); whether the weak pointer to the codec still locks (raw_server.cc:46); the functors posted to the
    loop and not run; the calls between their two steps; what was done so far. *)
Record rctx := R { replied : bool; alive : bool; queue : list (nat * nat); pend : list (nat * nat); acts : list act }.

Inductive ev : Type :=
| Enter (t r : nat) (seen : bool)   (* thread t calls Response(r) and reads did_reply_; if true the call returns *)
| Act (t r : nat) (ok : bool)       (* it runs do_response and returns *)
| Loop (ok : bool)                  (* the loop runs the next posted functor *)
| Gone.                             (* the codec service is destroyed (posted functors keep their own pointer to it) *)

(** raw_server.cc:53-56, 61-65. *)
Definition deliver (t r : nat) (ok : bool) : list act := if ok then [Send t r ok] else [Send t r ok; Close].

(** No reply, connection there. *)
Definition rctx0 : rctx := R false true [] [] [].

Inductive step : rctx -> ev -> rctx -> Prop :=
(* Response, raw_server.cc:37-42 *)
| s_skip s t r : replied s = true -> ~ In t (map fst (pend s)) -> step s (Enter t r true) s
| s_enter s t r : replied s = false -> ~ In t (map fst (pend s)) ->
    step s (Enter t r false) (R (replied s) (alive s) (queue s) (pend s ++ [(t, r)]) (acts s))
(* do_response, raw_server.cc:44-67 *)
| s_broken s t r p1 p2 ok : alive s = false -> pend s = p1 ++ (t, r) :: p2 ->
    step s (Act t r ok) (R true (alive s) (queue s) (p1 ++ p2) (acts s))
| s_here s r p1 p2 ok : alive s = true -> pend s = p1 ++ (0, r) :: p2 ->
    step s (Act 0 r ok) (R true (alive s) (queue s) (p1 ++ p2) (acts s ++ deliver 0 r ok))
| s_post s t r p1 p2 ok : alive s = true -> t <> 0 -> pend s = p1 ++ (t, r) :: p2 ->
    step s (Act t r ok) (R true (alive s) (queue s ++ [(t, r)]) (p1 ++ p2) (acts s))
| s_loop s t r q ok : queue s = (t, r) :: q ->
    step s (Loop ok) (R (replied s) (alive s) q (pend s) (acts s ++ deliver t r ok))
| s_gone s : step s Gone (R (replied s) false (queue s) (pend s) (acts s)).

Inductive run : list ev -> rctx -> Prop :=
| run_nil : run [] rctx0
| run_snoc h s e s' : run h s -> step s e s' -> run (h ++ [e]) s'.
