(** What names mean, for Model/Serving.v. *)
From Coq Require Import String.
From Verif.Model Require Import Common Serving.
Local Open Scope string_scope.
Local Open Scope list_scope.

(** The protocols the library brings along. *)
Inductive builtin (h2 : bool) : string -> kind -> Prop :=
| b_line : builtin h2 "line" KLine
| b_http : builtin h2 "http" KHttp | b_https : builtin h2 "https" KHttp
| b_raw : builtin h2 "raw" KRaw | b_rawssl : builtin h2 "rawSSL" KRaw
| b_redis : builtin h2 "redis" KRedis
| b_ws : builtin h2 "ws" KWs | b_wss : builtin h2 "wss" KWs
| b_h2 : h2 = true -> builtin h2 "h2" KH2 | b_h2c : h2 = true -> builtin h2 "h2c" KH2.
(** The schemes whose name promises encryption. *)
Definition tls_scheme (p : string) : Prop := p = "https" \/ p = "wss" \/ p = "rawSSL" \/ p = "h2".
(** The program's registrations, oldest first: the last one for a name. *)
Definition last_registered (xs : list (string * creator)) (p : string) (c : creator) : Prop :=
  exists a b, xs = a ++ (p, c) :: b /\ Forall (fun x => fst x <> p) b.
Definition never_registered (xs : list (string * creator)) (p : string) : Prop := Forall (fun x => fst x <> p) xs.
