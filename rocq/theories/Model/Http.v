(** net_io/codec/http: messages and their headers, the llhttp callback context, request/response encoding,
    compression before sending. llhttp itself and zlib are third-party and appear as parameters. *)
From Coq Require Import String Ascii.
From Verif.Model Require Import Common Decimal.
Open Scope Z_scope.

(** A C string literal as bytes. *)
Definition bs (s : string) : list Z := map (fun c => Z.of_N (N_of_ascii c)) (list_ascii_of_string s).

(** std::string equality *)
Fixpoint beqb (a b : list Z) : bool :=
  match a, b with
  | [], [] => true
  | x :: a, y :: b => (x =? y) && beqb a b
  | _, _ => false
  end.
(** std::string operator< (char_traits<char>::compare orders by unsigned byte value) *)
Fixpoint bltb (a b : list Z) : bool :=
  match a, b with
  | _, [] => false
  | [], _ :: _ => true
  | x :: a, y :: b => (x <? y) || ((x =? y) && bltb a b)
  end.

(** tolower in the "C" locale; bytes above 127 are passed as negative ints, which glibc maps to themselves *)
Definition tolower (c : Z) : Z := if (65 <=? c) && (c <=? 90) then c + 32 else c.
(** base/utils/string/str_utils.cc:68-71: stops at the first NUL byte *)
Fixpoint to_lower (l : list Z) : list Z :=
  match l with
  | [] => []
  | c :: l' => if c =? 0 then l else tolower c :: to_lower l'
  end.

(** KeyValMap = std::map<std::string,std::string> (http_message.h:34), in iteration order *)
Definition kvmap := list (list Z * list Z).
(** std::map::insert: an existing key keeps its value *)
Fixpoint map_insert (k v : list Z) (m : kvmap) : kvmap :=
  match m with
  | [] => [(k, v)]
  | (k', v') :: m' =>
      if beqb k k' then m
      else if bltb k k' then (k, v) :: m
      else (k', v') :: map_insert k v m'
  end.
(** std::map::find *)
Fixpoint map_find (k : list Z) (m : kvmap) : option (list Z) :=
  match m with
  | [] => None
  | (k', v') :: m' => if beqb k k' then Some v' else map_find k m'
  end.
(** std::map::erase(key) *)
Fixpoint map_erase (k : list Z) (m : kvmap) : kvmap :=
  match m with
  | [] => []
  | (k', v') :: m' => if beqb k k' then m' else (k', v') :: map_erase k m'
  end.

(** http_message.cc:64-72 *)
Definition insert_header (k v : list Z) (m : kvmap) : kvmap :=
  match k with [] => m | _ => map_insert (to_lower k) v m end.
(** http_message.cc:42-46 *)
Definition has_header (m : kvmap) (k : list Z) : bool :=
  match map_find (to_lower k) m with Some _ => true | None => false end.
(** http_message.cc:74-82 *)
Definition get_header (m : kvmap) (k : list Z) : list Z :=
  match map_find (to_lower k) m with Some v => v | None => [] end.
(** http_message.cc:84-88 *)
Definition remove_header (m : kvmap) (k : list Z) : kvmap := map_erase (to_lower k) m.

(** http_message.h:48-114,116-165,167-189: HttpRequest and HttpResponse in one record; [m_method], [m_url] are used by
    requests, [m_code] by responses. url_view_, params_ are not modelled. *)
Record msg := mkmsg {
  m_major : Z; m_minor : Z; m_alive : bool;
  m_method : list Z; m_url : list Z; m_code : Z;
  m_headers : kvmap; m_body : list Z }.

(** http_message.cc:30-34,111; http_message.h:188 *)
Definition new_msg : msg := mkmsg 1 1 false (bs "GET") [] 200 [] [].
(** http_message.cc:130-132 *)
Definition request_url (m : msg) : list Z := match m_url m with [] => bs "/" | u => u end.

Definition set_headers (m : msg) (h : kvmap) : msg :=
  mkmsg (m_major m) (m_minor m) (m_alive m) (m_method m) (m_url m) (m_code m) h (m_body m).
(** http_message.cc:94-96 *)
Definition set_body (m : msg) (b : list Z) : msg :=
  mkmsg (m_major m) (m_minor m) (m_alive m) (m_method m) (m_url m) (m_code m) (m_headers m) b.
(** http_message.cc:115-118 (url view not modelled) *)
Definition append_url (m : msg) (b : list Z) : msg :=
  mkmsg (m_major m) (m_minor m) (m_alive m) (m_method m) (m_url m ++ b) (m_code m) (m_headers m) (m_body m).

(** What llhttp reports about a message when it ends: versions, method name, status code, llhttp_should_keep_alive. *)
Record info := mkinfo { i_major : Z; i_minor : Z; i_method : list Z; i_code : Z; i_alive : bool }.

(** llhttp callbacks registered at parser_context.h:48-83. on_status, on_chunk_header and on_chunk_complete return 0
    without effect (142-144, 151-154) and are left out. *)
Inductive pev :=
| EBegin | EUrl (b : list Z) | EField (b : list Z) | EValue (b : list Z) | EHeadersDone | EBody (b : list Z)
| EComplete (i : info).

(** HttpParser (parser_context.h:269-279): current_, hd_value_flag_, half_hdr_field_, half_hdr_value_; a callback that
    returns non-zero makes llhttp_execute stop with an error ([p_err]). [p_out]: messages committed so far. *)
Record pst := mkpst {
  p_cur : option msg; p_flag : bool; p_field : list Z; p_value : list Z; p_err : bool; p_out : list msg }.
(** parser_context.h:46,84-85,277-279 *)
Definition pst0 : pst := mkpst None false [] [] false [].

Section Parser.
(** [req] : HttpParser<T,HttpRequest> or HttpParser<T,HttpResponse>.
    base::Gzip::decompress_gzip / decompress_deflate: [None] when they return non-zero. *)
Variable req : bool.
Variable gunzip inflate : list Z -> option (list Z).

Fixpoint is_prefix (p l : list Z) : bool :=
  match p, l with
  | [], _ => true
  | x :: p, y :: l => (x =? y) && is_prefix p l
  | _, [] => false
  end.
(** std::string::find(p) != npos *)
Fixpoint contains (p l : list Z) : bool :=
  is_prefix p l || match l with [] => false | _ :: l' => contains p l' end.

(** parser_context.h:201-231 (requests) and 236-267 (responses); [None]: returns -1 *)
Definition on_message_parsed (m : msg) (i : info) : option msg :=
  let m := if req
    then mkmsg (i_major i) (i_minor i) (i_alive i) (i_method i) (m_url m) (m_code m) (m_headers m) (m_body m)
    else mkmsg (i_major i) (i_minor i) (i_alive i) (m_method m) (m_url m) (i_code i) (m_headers m) (m_body m) in
  let encoding := get_header (m_headers m) (bs "Content-Encoding") in
  let done b := let m := set_body m b in
                if req then m else set_headers m (remove_header (m_headers m) (bs "Content-Encoding")) in
  if contains (bs "gzip") encoding then
    match gunzip (m_body m) with None => None | Some b => Some (done b) end
  else if contains (bs "deflate") encoding then
    match inflate (m_body m) with None => None | Some b => Some (done b) end
  else Some m.

(** The callbacks, parser_context.h:114-196. Dereferencing an empty current_ is undefined behaviour. *)
Definition on_event (s : pst) (e : pev) : outcome pst :=
  if p_err s then Ok s else
  match e with
  | EBegin => (* 114-123: clears half_hdr_field_ twice and half_hdr_value_ never *)
      Ok (mkpst (Some new_msg) false [] (p_value s) false (p_out s))
  | EUrl b => (* 146-149, 185-196 *)
      if req then
        match p_cur s with
        | None => UB
        | Some m => Ok (mkpst (Some (append_url m b)) (p_flag s) (p_field s) (p_value s) false (p_out s))
        end
      else Ok (mkpst (p_cur s) (p_flag s) (p_field s) (p_value s) true (p_out s))
  | EField b => (* 156-167 *)
      if p_flag s then
        match p_cur s with
        | None => UB
        | Some m => Ok (mkpst (Some (set_headers m (insert_header (p_field s) (p_value s) (m_headers m))))
                              false b [] false (p_out s))
        end
      else Ok (mkpst (p_cur s) false (p_field s ++ b) (p_value s) false (p_out s))
  | EValue b => (* 169-174 *)
      Ok (mkpst (p_cur s) true (p_field s) (p_value s ++ b) false (p_out s))
  | EHeadersDone => (* 125-134 *)
      match p_field s with
      | [] => Ok (mkpst (p_cur s) (p_flag s) [] [] false (p_out s))
      | f => match p_cur s with
             | None => UB
             | Some m => Ok (mkpst (Some (set_headers m (insert_header f (p_value s) (m_headers m))))
                                   (p_flag s) [] [] false (p_out s))
             end
      end
  | EBody b => (* 176-180 *)
      match p_cur s with
      | None => UB
      | Some m => Ok (mkpst (Some (set_body m (m_body m ++ b))) (p_flag s) (p_field s) (p_value s) false (p_out s))
      end
  | EComplete i => (* 136-140 *)
      match p_cur s with
      | None => UB
      | Some m =>
          match on_message_parsed m i with
          | Some m' => Ok (mkpst None (p_flag s) (p_field s) (p_value s) false (p_out s ++ [m']))
          | None => Ok (mkpst (Some m) (p_flag s) (p_field s) (p_value s) true (p_out s))
          end
      end
  end.

(** llhttp_execute driving the callbacks (parser_context.h:97-110), over any number of Parse calls *)
Fixpoint on_events (s : pst) (es : list pev) : outcome pst :=
  match es with
  | [] => Ok s
  | e :: es => obind (on_event s e) (fun s => on_events s es)
  end.
End Parser.

(** http_constants.cc:54-144: the non-empty entries *)
Definition status_table : list (Z * string) :=
  [(100, "Continue"); (101, "Switching Protocols"); (200, "OK"); (201, "Created"); (202, "Accepted");
   (203, "Non-authoritative Information"); (204, "No Content"); (205, "Reset Content"); (206, "Partial Content");
   (300, "Multiple Choices"); (301, "Moved Permanently"); (302, "Found"); (303, "See Other"); (304, "Not Modified");
   (305, "Use Proxy"); (307, "Temporary Redirect"); (400, "Bad Request"); (401, "Unauthorized");
   (402, "Payment Required"); (403, "Forbidden"); (404, "Not Found"); (405, "Method Not Allowed");
   (406, "Not Acceptable"); (407, "Proxy Authentication Required"); (408, "Request Timeout"); (409, "Conflict");
   (410, "Gone"); (411, "Length Required"); (412, "Precondition Failed"); (413, "Payload Too Large");
   (414, "Request-URI Too Long"); (415, "Unsupported Media Type"); (416, "Requested Range Not Satisfiable");
   (417, "Expectation Failed"); (500, "Internal Server Error"); (501, "Not Implemented"); (502, "Bad Gateway");
   (503, "Service Unavailable"); (504, "Gateway Timeout"); (505, "HTTP Version Not Supported")]%string.
Fixpoint table_get (c : Z) (t : list (Z * string)) : option string :=
  match t with [] => None | (k, v) :: t => if k =? c then Some v else table_get c t end.
(** http_constants.cc:100-144: resp_hl[subversion][code], "" when nothing was stored there *)
Definition resp_hl (sub code : Z) : list Z :=
  match table_get code status_table with
  | Some d => bs "HTTP/1." ++ udec sub ++ bs " " ++ udec code ++ bs " " ++ bs d ++ [13; 10]
  | None => []
  end.
(** http_constants.cc:159-164: resp_hl has two tables (168); another subversion reads past it *)
Definition resp_head_line (code sub : Z) : outcome (list Z) :=
  if (100 <=? code) && (code <=? 511) && (sub <=? 1) then Ok (resp_hl sub code)
  else if sub <=? 1 then Ok (resp_hl sub 500)
  else UB.

(** fmt "{}: {}\r\n" (http_codec_service.cc:100,114,198,208) *)
Definition header_line (k v : list Z) : list Z := k ++ bs ": " ++ v ++ [13; 10].
Definition header_lines (m : kvmap) : list Z := concat (map (fun kv => header_line (fst kv) (snd kv)) m).

(** http_codec_service.cc:87-128: the bytes written to the buffer *)
Definition request_to_buffer (m : msg) : list Z :=
  m_method m ++ bs " " ++ request_url m ++ bs " HTTP/1." ++ udec (m_minor m) ++ [13; 10] ++
  header_lines (m_headers m) ++
  (if has_header (m_headers m) (bs "Connection") then []
   else if m_alive m then bs "Connection: keep-alive" ++ [13; 10] else bs "Connection: Close" ++ [13; 10]) ++
  (if has_header (m_headers m) (bs "Accept-Encoding") then []
   else bs "Accept-Encoding: deflate,gzip" ++ [13; 10]) ++
  (if has_header (m_headers m) (bs "Content-Length") then []
   else header_line (bs "Content-Length") (udec (Z.of_nat (length (m_body m))))) ++
  (if has_header (m_headers m) (bs "Content-Type") then []
   else bs "Content-Type: text/plain" ++ [13; 10]) ++
  [13; 10] ++ m_body m.

(** http_codec_service.cc:187-220 *)
Definition response_to_buffer (m : msg) : outcome (list Z) :=
  obind (resp_head_line (m_code m) (m_minor m)) (fun hl =>
  Ok (hl ++ header_lines (m_headers m) ++
  (if has_header (m_headers m) (bs "Connection") then []
   else if m_alive m then bs "Connection: keep-alive" ++ [13; 10] else bs "Connection: Close" ++ [13; 10]) ++
  (if has_header (m_headers m) (bs "Content-Length") then []
   else header_line (bs "Content-Length") (udec (Z.of_nat (length (m_body m))))) ++
  (if has_header (m_headers m) (bs "Content-Type") then []
   else bs "Content-Type: text/plain" ++ [13; 10]) ++
  [13; 10] ++ m_body m)).

Section Compress.
(** base::Gzip::compress_gzip / compress_deflate: [None] when they return non-zero *)
Variable gzip deflate : list Z -> option (list Z).

(** http_codec_service.cc:234-252; [host]: delegate_->GetRemoteInfo()->host *)
Definition before_send_request (host : list Z) (m : msg) : msg :=
  let m :=
    if (8096 <? Z.of_nat (length (m_body m))) && negb (has_header (m_headers m) (bs "Content-Encoding")) then
      match gzip (m_body m) with
      | Some z =>
          set_body (set_headers m
            (insert_header (bs "Content-Length") (udec (Z.of_nat (length z)))
              (insert_header (bs "Content-Encoding") (bs "gzip") (m_headers m)))) z
      | None => m
      end
    else m in
  if has_header (m_headers m) (bs "Host") then m
  else set_headers m (insert_header (bs "Host") host (m_headers m)).

(** http_codec_service.cc:254-277 *)
Definition before_send_response (reqheaders : kvmap) (m : msg) : msg :=
  if (8096 <? Z.of_nat (length (m_body m))) && negb (has_header (m_headers m) (bs "Content-Encoding")) then
    let accept := get_header reqheaders (bs "Accept-Encoding") in
    if contains (bs "gzip") accept then
      match gzip (m_body m) with
      | Some z => set_headers (set_body m z) (insert_header (bs "Content-Encoding") (bs "gzip") (m_headers m))
      | None => m
      end
    else if contains (bs "deflate") accept then
      match deflate (m_body m) with
      | Some z => set_headers (set_body m z) (insert_header (bs "Content-Encoding") (bs "deflate") (m_headers m))
      | None => m
      end
    else m
  else m.
End Compress.

(** http_codec_service.cc:222-232 *)
Definition new_response (request : msg) : msg :=
  mkmsg 1 1 (m_alive request) (bs "GET") [] 500 (insert_header (bs "Content-Type") (bs "text/plain") []) [].
