(** What the user of an HTTP request context relies on, in terms of calls made and what the connection was told. *)
From Coq Require Import String.
From Verif.Model Require Import Common Http HttpCtx.
Open Scope nat_scope.

(** The answers sent so far: sending thread, calling thread, response. *)
Fixpoint answers (l : list act) : list (nat * nat * resp) :=
  match l with [] => [] | Send b f r _ :: l => (b, f, r) :: answers l | Close _ :: l => answers l end.
(** The response objects made by the application. *)
Fixpoint made (es : list ev) : list resp := match es with [] => [] | ENew r :: es => r :: made es | _ :: es => made es end.
(** [b] as a C string is [s]. *)
Definition is_c_str (b s : list Z) : Prop := ~ In 0%Z s /\ (b = s \/ exists rest, b = s ++ 0%Z :: rest).
(** [r] is what the call asks for, when the request's keep-alive is [keep] and [objs] are the application's objects. *)
Definition wanted (keep : bool) (objs : list resp) (c : call) (r : resp) : Prop :=
  match c with
  | KFile => False
  | KJson j code => r = RSP code [(bs "content-type", bs "application/json;utf-8")] j keep
  | KString b code => r = RSP code [] b keep
  | KCStr b code => exists s, is_c_str b s /\ r = RSP code [] s keep
  | KResponse o => exists r0, nth_error objs o = Some r0 /\ r = RSP (s_code r0) (s_headers r0) (s_body r0) keep
  end.
(** Calls that look whether an answer was given: all but Response. *)
Definition guarded (c : call) : Prop := match c with KResponse _ => False | _ => True end.
Definition all_guarded (es : list ev) : Prop := forall t c, In (ECall t c) es -> guarded c.
Definition unchanged (es : list ev) : Prop := forall o r, ~ In (EMutate o r) es.
(** Calls one after another: each is complete before anything else happens. *)
Inductive serial : list ev -> Prop :=
| serial_nil : serial []
| serial_call : forall t c ok es, serial es -> serial (ECall t c :: ERespond t ok :: es)
| serial_other : forall e es, match e with ECall _ _ | ERespond _ _ => False | _ => True end -> serial es -> serial (e :: es).
(** Everything is done by the loop's thread; after each answer the connection is closed if and only if it is not to be kept or sending failed. *)
Inductive proper (keep : bool) : list act -> Prop :=
| proper_nil : proper keep []
| proper_kept : forall l f r, proper keep l -> keep = true -> proper keep (l ++ [Send 0 f r true])
| proper_closed : forall l f r ok, proper keep l -> keep = false \/ ok = false -> proper keep (l ++ [Send 0 f r ok; Close 0]).
