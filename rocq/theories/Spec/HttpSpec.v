(** What an HTTP/1.x message is, independently of the codec: header lookup, what llhttp reports for a message,
    and a reader of the wire format (RFC 7230). *)
From Coq Require Import String.
From Verif.Model Require Import Common.
From Verif.Model Require Http.
From Verif.Spec Require Import RespSpec.
Open Scope Z_scope.

(** Header names are compared without regard to ASCII case. *)
Definition ci_char (x y : Z) : Prop := x = y \/ (65 <= x <= 90 /\ y = x + 32) \/ (65 <= y <= 90 /\ x = y + 32).
Definition ci_eq (a b : list Z) : Prop := Forall2 ci_char a b.

(** [v] is the value of the first header of [hs] named [n]. *)
Definition first_value (hs : list (list Z * list Z)) (n v : list Z) : Prop :=
  exists pre k post, hs = pre ++ (k, v) :: post /\ ci_eq k n /\ Forall (fun kv => ~ ci_eq (fst kv) n) pre.
Definition no_value (hs : list (list Z * list Z)) (n : list Z) : Prop := Forall (fun kv => ~ ci_eq (fst kv) n) hs.

(** Header names: not empty, no NUL, CR, LF or ':'. Values: no CR or LF, no blank at either end. *)
Definition good_name (n : list Z) : Prop := n <> [] /\ Forall (fun c => c <> 0 /\ c <> 13 /\ c <> 10 /\ c <> 58) n.
Definition good_value (v : list Z) : Prop :=
  Forall (fun c => c <> 13 /\ c <> 10) v /\ (forall c l, v = c :: l -> c <> 32 /\ c <> 9) /\
  (forall c l, v = l ++ [c] -> c <> 32 /\ c <> 9).

Definition occurs (p l : list Z) : Prop := exists a b, l = a ++ p ++ b.

(** A received message, as the peer sent it. [w_trailers]: header lines after a chunked body. *)
Record wmsg := mkw {
  w_info : Http.info; w_url : list Z; w_headers : list (list Z * list Z); w_body : list Z;
  w_trailers : list (list Z * list Z) }.

(** llhttp reports a name or value in one or more pieces (an empty value as one empty piece), a url or body in zero or
    more; where it cuts depends on how the bytes arrived. A response has no url. *)
Definition pair_events (p : list (list Z) * list (list Z)) : list Http.pev :=
  map Http.EField (fst p) ++ map Http.EValue (snd p).
Definition pieces_of (p : list (list Z) * list (list Z)) (kv : list Z * list Z) : Prop :=
  concat (fst p) = fst kv /\ concat (snd p) = snd kv /\ fst p <> [] /\ snd p <> [].
Definition reports (w : wmsg) (es : list Http.pev) : Prop :=
  exists us ps bp ts,
    es = Http.EBegin :: map Http.EUrl us ++ concat (map pair_events ps) ++ Http.EHeadersDone ::
         map Http.EBody bp ++ concat (map pair_events ts) ++ [Http.EComplete (w_info w)] /\
    concat us = w_url w /\ (w_url w = [] -> us = []) /\ Forall2 pieces_of ps (w_headers w) /\ concat bp = w_body w /\
    Forall2 pieces_of ts (w_trailers w).

(** The body after undoing the content coding announced by the (first) Content-Encoding header. *)
Definition decodes (gunzip inflate : list Z -> option (list Z)) (w : wmsg) (b : list Z) : Prop :=
  (exists v, first_value (w_headers w) (Http.bs "Content-Encoding") v /\ occurs (Http.bs "gzip") v /\
             gunzip (w_body w) = Some b) \/
  (exists v, first_value (w_headers w) (Http.bs "Content-Encoding") v /\ ~ occurs (Http.bs "gzip") v /\
             occurs (Http.bs "deflate") v /\ inflate (w_body w) = Some b) \/
  ((forall v, first_value (w_headers w) (Http.bs "Content-Encoding") v ->
              ~ occurs (Http.bs "gzip") v /\ ~ occurs (Http.bs "deflate") v) /\ b = w_body w).

(** The application gets [m] for the message [w]. In a response the Content-Encoding of a decoded body is dropped. *)
Definition delivers (req : bool) (gunzip inflate : list Z -> option (list Z)) (w : wmsg) (m : Http.msg) : Prop :=
  Http.m_major m = Http.i_major (w_info w) /\ Http.m_minor m = Http.i_minor (w_info w) /\
  Http.m_alive m = Http.i_alive (w_info w) /\
  (if req then Http.m_method m = Http.i_method (w_info w) /\ Http.m_url m = w_url w
   else Http.m_code m = Http.i_code (w_info w)) /\
  decodes gunzip inflate w (Http.m_body m) /\
  (forall n, n <> [] -> ~ In 0 n -> (req = true \/ ~ ci_eq n (Http.bs "Content-Encoding")) ->
     (forall v, first_value (w_headers w) n v ->
        Http.has_header (Http.m_headers m) n = true /\ Http.get_header (Http.m_headers m) n = v) /\
     (no_value (w_headers w) n ->
        Http.has_header (Http.m_headers m) n = false /\ Http.get_header (Http.m_headers m) n = [])).

(** Reader of the wire format. *)
(** up to the first CR LF *)
Fixpoint take_line (l : list Z) : option (list Z * list Z) :=
  match l with
  | [] => None
  | c :: r =>
      if (c =? 13) && (match r with d :: _ => d =? 10 | [] => false end) then Some ([], tl r)
      else match take_line r with Some (a, r) => Some (c :: a, r) | None => None end
  end.
(** up to the first ':' *)
Fixpoint take_name (l : list Z) : option (list Z * list Z) :=
  match l with
  | [] => None
  | c :: r => if c =? 58 then Some ([], r) else match take_name r with Some (a, r) => Some (c :: a, r) | None => None end
  end.
Fixpoint skip_blank (l : list Z) : list Z :=
  match l with c :: r => if (c =? 32) || (c =? 9) then skip_blank r else l | [] => [] end.
Definition trim (l : list Z) : list Z := rev (skip_blank (rev (skip_blank l))).
(** header lines up to the empty line; the first argument bounds the number of lines *)
Fixpoint take_headers (n : nat) (l : list Z) : option (list (list Z * list Z) * list Z) :=
  match n with
  | O => None
  | S n =>
      match take_line l with
      | None => None
      | Some ([], r) => Some ([], r)
      | Some (line, r) =>
          match take_name line with
          | None => None
          | Some (k, v) =>
              match take_headers n r with
              | Some (hs, r) => Some ((k, trim v) :: hs, r)
              | None => None
              end
          end
      end
  end.
(** [w] starts with the message: start line, headers, and a body as long as its only Content-Length says. *)
Definition reads (w start : list Z) (hs : list (list Z * list Z)) (body rest : list Z) : Prop :=
  exists r len n, take_line w = Some (start, r) /\ take_headers (length r) r = Some (hs, body ++ rest) /\
    first_value hs (Http.bs "Content-Length") len /\ decimal n len /\ Z.of_nat (length body) = n /\
    (forall k v, In (k, v) hs -> ci_eq k (Http.bs "Content-Length") -> v = len).

(** Start lines. *)
Definition request_line (method url : list Z) (minor : Z) (start : list Z) : Prop :=
  exists d, decimal minor d /\ start = method ++ Http.bs " " ++ url ++ Http.bs " HTTP/1." ++ d.
Definition status_line (code minor : Z) (start : list Z) : Prop :=
  exists c d reason, decimal code c /\ decimal minor d /\ reason <> [] /\ Forall (fun x => 32 <= x < 127) reason /\
    start = Http.bs "HTTP/1." ++ d ++ Http.bs " " ++ c ++ Http.bs " " ++ reason.

(** The status codes the server has a line for. *)
Definition known_codes : list Z :=
  [100; 101; 200; 201; 202; 203; 204; 205; 206; 300; 301; 302; 303; 304; 305; 307;
   400; 401; 402; 403; 404; 405; 406; 407; 408; 409; 410; 411; 412; 413; 414; 415; 416; 417;
   500; 501; 502; 503; 504; 505].

(** A message the application built: its headers come from these InsertHeader calls, in order. *)
Definition built_with (m : Http.msg) (us : list (list Z * list Z)) : Prop :=
  Http.m_headers m = fold_left (fun h kv => Http.insert_header (fst kv) (snd kv) h) us [] /\
  Forall (fun kv => good_name (fst kv) /\ good_value (snd kv)) us.
(** Every header set by the application is read by the peer with the (first) value given to it. *)
Definition carries (us hs : list (list Z * list Z)) : Prop := forall n v, ~ In 0 n -> first_value us n v -> first_value hs n v.
