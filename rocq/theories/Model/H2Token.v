(** net_io/codec/http/h2/nghttp2_util.cc:34-287 lookup_token: length, then last byte, then the bytes before it. *)
From Coq Require Import String Ascii.
From Verif.Model Require Import Common Http.
Local Open Scope nat_scope.

(** nghttp2_util.h:15-55 the header tokens. *)
Inductive token := HD_TE | HD_VIA | HD_DATE | HD_LINK | HD_HOST | HD__PATH | HD__HOST | HD_COOKIE | HD_SERVER | HD_EXPECT | HD_ALT_SVC | HD__METHOD | HD__SCHEME | HD_UPGRADE | HD_TRAILER | HD__STATUS | HD_LOCATION | HD_FORWARDED | HD__PROTOCOL | HD_EARLY_DATA | HD_KEEP_ALIVE | HD_CONNECTION | HD_USER_AGENT | HD__AUTHORITY | HD_CONTENT_TYPE | HD_CACHE_CONTROL | HD_CONTENT_LENGTH | HD_HTTP2_SETTINGS | HD_ACCEPT_LANGUAGE | HD_ACCEPT_ENCODING | HD_X_FORWARDED_FOR | HD_PROXY_CONNECTION | HD_IF_MODIFIED_SINCE | HD_TRANSFER_ENCODING | HD_X_FORWARDED_PROTO | HD_SEC_WEBSOCKET_KEY | HD_SEC_WEBSOCKET_ACCEPT.
(** name[i] == c. *)
Definition at_is (name : list Z) (i : nat) (c : string) : bool :=
  match nth_error name i with Some x => beqb [x] (bs c) | None => false end.
(** nghttp2_util.cc:18-21 streq_l on the first [n] bytes of the name. *)
Definition streq_l (a : string) (name : list Z) (n : nat) : bool := beqb (bs a) (firstn n name).
(** 34-287 lookup_token; [None] stands for -1. *)
Definition lookup_token (name : list Z) : option token :=
  match length name with
  | 2 => if at_is name 1 "e"%string then (if streq_l "t"%string name 1 then Some HD_TE else None) else
      None
  | 3 => if at_is name 2 "a"%string then (if streq_l "vi"%string name 2 then Some HD_VIA else None) else
      None
  | 4 => if at_is name 3 "e"%string then (if streq_l "dat"%string name 3 then Some HD_DATE else None) else
      if at_is name 3 "k"%string then (if streq_l "lin"%string name 3 then Some HD_LINK else None) else
      if at_is name 3 "t"%string then (if streq_l "hos"%string name 3 then Some HD_HOST else None) else
      None
  | 5 => if at_is name 4 "h"%string then (if streq_l ":pat"%string name 4 then Some HD__PATH else None) else
      if at_is name 4 "t"%string then (if streq_l ":hos"%string name 4 then Some HD__HOST else None) else
      None
  | 6 => if at_is name 5 "e"%string then (if streq_l "cooki"%string name 5 then Some HD_COOKIE else None) else
      if at_is name 5 "r"%string then (if streq_l "serve"%string name 5 then Some HD_SERVER else None) else
      if at_is name 5 "t"%string then (if streq_l "expec"%string name 5 then Some HD_EXPECT else None) else
      None
  | 7 => if at_is name 6 "c"%string then (if streq_l "alt-sv"%string name 6 then Some HD_ALT_SVC else None) else
      if at_is name 6 "d"%string then (if streq_l ":metho"%string name 6 then Some HD__METHOD else None) else
      if at_is name 6 "e"%string then (if streq_l ":schem"%string name 6 then Some HD__SCHEME else if streq_l "upgrad"%string name 6 then Some HD_UPGRADE else None) else
      if at_is name 6 "r"%string then (if streq_l "traile"%string name 6 then Some HD_TRAILER else None) else
      if at_is name 6 "s"%string then (if streq_l ":statu"%string name 6 then Some HD__STATUS else None) else
      None
  | 8 => if at_is name 7 "n"%string then (if streq_l "locatio"%string name 7 then Some HD_LOCATION else None) else
      None
  | 9 => if at_is name 8 "d"%string then (if streq_l "forwarde"%string name 8 then Some HD_FORWARDED else None) else
      if at_is name 8 "l"%string then (if streq_l ":protoco"%string name 8 then Some HD__PROTOCOL else None) else
      None
  | 10 => if at_is name 9 "a"%string then (if streq_l "early-dat"%string name 9 then Some HD_EARLY_DATA else None) else
      if at_is name 9 "e"%string then (if streq_l "keep-aliv"%string name 9 then Some HD_KEEP_ALIVE else None) else
      if at_is name 9 "n"%string then (if streq_l "connectio"%string name 9 then Some HD_CONNECTION else None) else
      if at_is name 9 "t"%string then (if streq_l "user-agen"%string name 9 then Some HD_USER_AGENT else None) else
      if at_is name 9 "y"%string then (if streq_l ":authorit"%string name 9 then Some HD__AUTHORITY else None) else
      None
  | 12 => if at_is name 11 "e"%string then (if streq_l "content-typ"%string name 11 then Some HD_CONTENT_TYPE else None) else
      None
  | 13 => if at_is name 12 "l"%string then (if streq_l "cache-contro"%string name 12 then Some HD_CACHE_CONTROL else None) else
      None
  | 14 => if at_is name 13 "h"%string then (if streq_l "content-lengt"%string name 13 then Some HD_CONTENT_LENGTH else None) else
      if at_is name 13 "s"%string then (if streq_l "http2-setting"%string name 13 then Some HD_HTTP2_SETTINGS else None) else
      None
  | 15 => if at_is name 14 "e"%string then (if streq_l "accept-languag"%string name 14 then Some HD_ACCEPT_LANGUAGE else None) else
      if at_is name 14 "g"%string then (if streq_l "accept-encodin"%string name 14 then Some HD_ACCEPT_ENCODING else None) else
      if at_is name 14 "r"%string then (if streq_l "x-forwarded-fo"%string name 14 then Some HD_X_FORWARDED_FOR else None) else
      None
  | 16 => if at_is name 15 "n"%string then (if streq_l "proxy-connectio"%string name 15 then Some HD_PROXY_CONNECTION else None) else
      None
  | 17 => if at_is name 16 "e"%string then (if streq_l "if-modified-sinc"%string name 16 then Some HD_IF_MODIFIED_SINCE else None) else
      if at_is name 16 "g"%string then (if streq_l "transfer-encodin"%string name 16 then Some HD_TRANSFER_ENCODING else None) else
      if at_is name 16 "o"%string then (if streq_l "x-forwarded-prot"%string name 16 then Some HD_X_FORWARDED_PROTO else None) else
      if at_is name 16 "y"%string then (if streq_l "sec-websocket-ke"%string name 16 then Some HD_SEC_WEBSOCKET_KEY else None) else
      None
  | 20 => if at_is name 19 "t"%string then (if streq_l "sec-websocket-accep"%string name 19 then Some HD_SEC_WEBSOCKET_ACCEPT else None) else
      None
  | _ => None
  end.
