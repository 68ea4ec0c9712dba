(** The request target of an HTTP request: thirdparty/url-parser/url_parser.c (http_parser_parse_url, built with
    HTTP_PARSER_STRICT = 1, url_parser.h:51-53) as net_io/codec/http/http_message.cc:115-178 uses it, and what
    HttpRequest::Path() then shows (http_message.h:138).
    Bytes are numbers 0..255. Offsets and lengths of fields are uint16_t. *)
From Verif.Model Require Import Common.
Local Open Scope Z_scope.

(** 177-187: character classes. *)
Definition is_alpha (c : Z) : bool := ((65 <=? c) && (c <=? 90)) || ((97 <=? c) && (c <=? 122)).
Definition is_num (c : Z) : bool := (48 <=? c) && (c <=? 57).
Definition is_alphanum (c : Z) : bool := is_alpha c || is_num c.
Definition is_hex (c : Z) : bool := is_num c || ((65 <=? c) && (c <=? 70)) || ((97 <=? c) && (c <=? 102)).
Definition is_mark (c : Z) : bool := existsb (Z.eqb c) [45; 95; 46; 33; 126; 42; 39; 40; 41].
Definition is_userinfo_char (c : Z) : bool := is_alphanum c || is_mark c || existsb (Z.eqb c) [37; 59; 58; 38; 61; 43; 36; 44].
(** 194: IS_HOST_CHAR *)
Definition is_host_char (c : Z) : bool := is_alphanum c || (c =? 46) || (c =? 45).
(** 193 and 40-72 normal_url_char: everything from '!' to '~' but '#' and '?'. *)
Definition is_url_char (c : Z) : bool := (33 <=? c) && (c <=? 126) && negb (c =? 35) && negb (c =? 63).

(** 76-156: the states that occur. *)
Inductive ust := UDead | USpaces | USchema | USlash | USlashSlash | UServerStart | UServer | UServerAt | UPath | UQueryStart | UQuery | UFragStart | UFrag.
(** The part of 274-291 shared by three states. *)
Definition server_char (c : Z) : ust :=
  if c =? 47 then UPath else if c =? 63 then UQueryStart else if c =? 64 then UServerAt
  else if is_userinfo_char c || (c =? 91) || (c =? 93) then UServer else UDead.
(** 214-360 parse_url_char *)
Definition url_char (s : ust) (c : Z) : ust :=
  if (c =? 32) || (c =? 13) || (c =? 10) || (c =? 9) || (c =? 12) then UDead else
  match s with
  | USpaces => if (c =? 47) || (c =? 42) then UPath else if is_alpha c then USchema else UDead
  | USchema => if is_alpha c then USchema else if c =? 58 then USlash else UDead
  | USlash => if c =? 47 then USlashSlash else UDead
  | USlashSlash => if c =? 47 then UServerStart else UDead
  | UServerAt => if c =? 64 then UDead else server_char c
  | UServerStart | UServer => server_char c
  | UPath => if is_url_char c then UPath else if c =? 63 then UQueryStart else if c =? 35 then UFragStart else UDead
  | UQueryStart | UQuery => if is_url_char c then UQuery else if c =? 63 then UQuery else if c =? 35 then UFragStart else UDead
  | UFragStart => if is_url_char c then UFrag else if c =? 63 then UFrag else if c =? 35 then UFragStart else UDead
  | UFrag => if is_url_char c then UFrag else if (c =? 63) || (c =? 35) then UFrag else UDead
  | UDead => UDead
  end.

(** url_parser.h:55-64, 74-82: the fields; None: the bit of the field is not set. *)
Inductive fld := FSchema | FHost | FPort | FPath | FQuery | FFragment | FUserinfo.
Definition field := (Z * Z)%type.
Record urlf := mkurlf { uf_schema : option field; uf_host : option field; uf_port : option field; uf_path : option field;
  uf_query : option field; uf_fragment : option field; uf_userinfo : option field; uf_portnum : Z }.
Definition no_fields : urlf := mkurlf None None None None None None None 0.
Definition w16 (z : Z) : Z := z mod 65536.
Definition get (f : fld) (u : urlf) : option field :=
  match f with FSchema => uf_schema u | FHost => uf_host u | FPort => uf_port u | FPath => uf_path u | FQuery => uf_query u | FFragment => uf_fragment u | FUserinfo => uf_userinfo u end.
Definition put (f : fld) (v : field) (u : urlf) : urlf :=
  let 'mkurlf a b c d e g h n := u in
  match f with
  | FSchema => mkurlf (Some v) b c d e g h n | FHost => mkurlf a (Some v) c d e g h n | FPort => mkurlf a b (Some v) d e g h n
  | FPath => mkurlf a b c (Some v) e g h n | FQuery => mkurlf a b c d (Some v) g h n | FFragment => mkurlf a b c d e (Some v) h n
  | FUserinfo => mkurlf a b c d e g (Some v) n
  end.
(** field_data[f].len++ *)
Definition bump (f : fld) (u : urlf) : urlf := match get f u with Some (o, n) => put f (o, w16 (n + 1)) u | None => put f (0, 1) u end.
Definition fld_eqb (a b : fld) : bool :=
  match a, b with FSchema, FSchema | FHost, FHost | FPort, FPort | FPath, FPath | FQuery, FQuery | FFragment, FFragment | FUserinfo, FUserinfo => true | _, _ => false end.

(** 551-591: the field the state works on; None: a delimiter, to be skipped. *)
Definition field_of (s : ust) : option fld :=
  match s with
  | USchema => Some FSchema | UServerAt | UServer => Some FHost | UPath => Some FPath | UQuery => Some FQuery | UFrag => Some FFragment
  | _ => None
  end.
(** 548-604: the loop of http_parser_parse_url over the rest of the text, [p] its place; None: return 1. *)
Fixpoint scan (l : list Z) (p : Z) (s : ust) (old : option fld) (found_at : bool) (u : urlf) : option (bool * urlf) :=
  match l with
  | [] => Some (found_at, u)
  | c :: l =>
      match url_char s c with
      | UDead => None
      | s' =>
          let found_at := match s' with UServerAt => true | _ => found_at end in
          match field_of s' with
          | None => scan l (p + 1) s' old found_at u
          | Some f =>
              if match old with Some g => fld_eqb f g | None => false end then scan l (p + 1) s' old found_at (bump f u)
              else scan l (p + 1) s' (Some f) found_at (put f (w16 p, 1) u)
          end
      end
  end.

(** 158-172: the states of the authority. *)
Inductive hst := HDead | HUserStart | HUser | HHostStart | HV6Start | HHost | HV6 | HV6End | HZoneStart | HZone | HPortStart | HPort.
Definition zone_char (c : Z) : bool := is_alphanum c || existsb (Z.eqb c) [37; 46; 45; 95; 126].
(** 362-442 http_parse_host_char *)
Definition host_char (s : hst) (c : Z) : hst :=
  match s with
  | HUser | HUserStart => if c =? 64 then HHostStart else if is_userinfo_char c then HUser else HDead
  | HHostStart => if c =? 91 then HV6Start else if is_host_char c then HHost else HDead
  | HHost => if is_host_char c then HHost else if c =? 58 then HPortStart else HDead
  | HV6End => if c =? 58 then HPortStart else HDead
  | HV6 => if c =? 93 then HV6End else if is_hex c || (c =? 58) || (c =? 46) then HV6 else if c =? 37 then HZoneStart else HDead
  | HV6Start => if is_hex c || (c =? 58) || (c =? 46) then HV6 else HDead
  | HZone => if c =? 93 then HV6End else if zone_char c then HZone else HDead
  | HZoneStart => if zone_char c then HZone else HDead
  | HPort | HPortStart => if is_num c then HPort else HDead
  | HDead => HDead
  end.
Definition hst_eqb (a b : hst) : bool :=
  match a, b with
  | HDead, HDead | HUserStart, HUserStart | HUser, HUser | HHostStart, HHostStart | HV6Start, HV6Start | HHost, HHost | HV6, HV6 | HV6End, HV6End
  | HZoneStart, HZoneStart | HZone, HZone | HPortStart, HPortStart | HPort, HPort => true
  | _, _ => false
  end.
(** field_data[HOST].off = p *)
Definition set_off (f : fld) (p : Z) (u : urlf) : urlf := match get f u with Some (_, n) => put f (w16 p, n) u | None => put f (w16 p, 0) u end.
(** 464-504: what a step to [s'] does to the fields. *)
Definition host_fields (s s' : hst) (p : Z) (u : urlf) : urlf :=
  match s' with
  | HHost | HV6 => bump FHost (if hst_eqb s s' then u else set_off FHost p u)
  | HZoneStart | HZone => bump FHost u
  | HPort => bump FPort (if hst_eqb s s' then u else put FPort (w16 p, 0) u)
  | HUser => bump FUserinfo (if hst_eqb s s' then u else put FUserinfo (w16 p, 0) u)
  | _ => u
  end.
(** 457-523: the loop and the check of the last state. *)
Fixpoint scan_host (l : list Z) (p : Z) (s : hst) (u : urlf) : option urlf :=
  match l with
  | [] => match s with HHostStart | HV6Start | HV6 | HZoneStart | HZone | HPortStart | HUser | HUserStart => None | _ => Some u end
  | c :: l => match host_char s c with HDead => None | s' => scan_host l (p + 1) s' (host_fields s s' p u) end
  end.
(** [n] bytes from [off] of the text. *)
Definition sub_text (buf : list Z) (off n : Z) : list Z := firstn (Z.to_nat n) (skipn (Z.to_nat off) buf).
(** 444-524 http_parse_host *)
Definition parse_host (buf : list Z) (u : urlf) (found_at : bool) : option urlf :=
  match uf_host u with
  | Some (off, len) => scan_host (sub_text buf off len) off (if found_at then HUserStart else HHostStart) (put FHost (off, 0) u)
  | None => Some u   (* assert(field_set & (1 << UF_HOST)) *)
  end.
(** 637-645: None: more than 0xffff *)
Fixpoint port_value (l : list Z) (v : Z) : option Z :=
  match l with [] => Some v | c :: l => let v := v * 10 + (c - 48) in if 65535 <? v then None else port_value l v end.
(** 531-652 http_parser_parse_url with is_connect = 0, as http_message.cc:143 calls it; None: it returns 1. *)
Definition parse_url (buf : list Z) : option urlf :=
  match buf with
  | [] => None
  | _ =>
      match scan buf 0 USpaces None false no_fields with
      | None => None
      | Some (found_at, u) =>
          match uf_schema u, uf_host u with
          | Some _, None => None
          | _, _ =>
              match (match uf_host u with Some _ => parse_host buf u found_at | None => Some u end) with
              | None => None
              | Some u =>
                  match uf_port u with
                  | None => Some u
                  | Some (off, len) =>
                      match port_value (sub_text buf off len) 0 with
                      | None => None
                      | Some v => Some (mkurlf (uf_schema u) (uf_host u) (uf_port u) (uf_path u) (uf_query u) (uf_fragment u) (uf_userinfo u) v)
                      end
                  end
              end
          end
      end
  end.

(** A view kept by the request (URIView, http_message.h:38-46): what it points into, where, and how long. *)
Inductive place := PNone | PRoot | PUrl (alloc : nat).
Record uview := mkuview { uv_place : place; uv_off : Z; uv_len : Z }.
Definition empty_view : uview := mkuview PNone 0 0.
(** http_message.h:156-164: url_ (its text, the number of its allocation, its capacity), url_view_ and params_. *)
Record req := mkreq { r_url : list Z; r_alloc : nat; r_cap : Z; r_path : uview; r_queries : uview; r_fragment : uview; r_params : list (list Z * list Z) }.
(** http_message.cc:111; an empty std::string holds 15 bytes in place (libstdc++). *)
Definition new_req : req := mkreq [] 0 15 empty_view empty_view empty_view [].
(** "/": HttpConstant::kRootPath *)
Definition root_path : list Z := [47].
(** 130-132 *)
Definition request_url (r : req) : list Z := match r_url r with [] => root_path | u => u end.
(** 138-168 parse_url_view *)
Definition parse_view (r : req) : req :=
  match parse_url (request_url r) with
  | None => r
  | Some u =>
      let pl := match r_url r with [] => PRoot | _ => PUrl (r_alloc r) end in
      let pick (f : option field) (old : uview) := match f with Some (o, n) => mkuview pl o n | None => old end in
      mkreq (r_url r) (r_alloc r) (r_cap r) (pick (uf_path u) (r_path r)) (pick (uf_query u) (r_queries r)) (pick (uf_fragment u) (r_fragment r)) (r_params r)
  end.
(** Giving url_ the text [t]: where it does not fit the capacity, the string moves to a new allocation of at least twice
    the size (libstdc++ basic_string::_M_create) and the former one is freed. *)
Definition store (t : list Z) (r : req) : req :=
  let n := Z.of_nat (length t) in
  if n <=? r_cap r then mkreq t (r_alloc r) (r_cap r) (r_path r) (r_queries r) (r_fragment r) (r_params r)
  else mkreq t (S (r_alloc r)) (Z.max n (2 * r_cap r)) (r_path r) (r_queries r) (r_fragment r) (r_params r).
(** 120-128 SetRequestURL; 115-118 AppendPartURL *)
Definition set_url (t : list Z) (r : req) : req := parse_view (store t r).
Definition append_url (t : list Z) (r : req) : req := parse_view (store (r_url r ++ t) r).
(** Reading a view: one into a former allocation of url_ reads freed memory, one beyond the present text reads what is
    not part of the string. *)
Definition read_view (r : req) (v : uview) : outcome (list Z) :=
  if uv_len v =? 0 then Ok []
  else match uv_place v with
       | PNone => Ok []
       | PRoot => Ok (sub_text root_path (uv_off v) (uv_len v))
       | PUrl a => if (a =? r_alloc r)%nat && (uv_off v + uv_len v <=? Z.of_nat (length (r_url r))) then Ok (sub_text (r_url r) (uv_off v) (uv_len v)) else UB
       end.
(** http_message.h:138 *)
Definition path (r : req) : outcome (list Z) := read_view r (r_path r).
(** http_message.cc:134-136 MutableParams; 170-178 GetUrlParam: std::map of the parameters the user put in; nothing else fills it. *)
Fixpoint find_param (k : list Z) (m : list (list Z * list Z)) : list Z :=
  match m with [] => [] | (k', v) :: m => if list_eq_dec Z.eq_dec k k' then v else find_param k m end.
Definition put_param (k v : list Z) (r : req) : req := mkreq (r_url r) (r_alloc r) (r_cap r) (r_path r) (r_queries r) (r_fragment r) ((k, v) :: r_params r).
Definition get_param (k : list Z) (r : req) : list Z := find_param k (r_params r).
(** What a user or the codec does to a request. *)
Inductive rop := RSet (t : list Z) | RAppend (t : list Z) | RParam (k v : list Z).
Definition rstep (r : req) (o : rop) : req := match o with RSet t => set_url t r | RAppend t => append_url t r | RParam k v => put_param k v r end.
Definition rrun (l : list rop) (r : req) : req := fold_left rstep l r.
