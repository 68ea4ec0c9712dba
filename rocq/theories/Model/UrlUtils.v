(** net_io/url_utils.cc: ParseURI and ParseRemote, without the name lookup (HostResolve). *)
From Verif.Model Require Import Common Decimal StrUtil.
Open Scope Z_scope.

(** "://", ":", "@", "?", "=", '&', "http" *)
Definition s_scheme : list Z := [58; 47; 47].
Definition s_colon : list Z := [58].
Definition s_at : list Z := [64].
Definition s_quest : list Z := [63].
Definition s_eq : list Z := [61].
Definition c_amp : Z := 38.
Definition s_http : list Z := [104; 116; 116; 112].

(** std::string::npos *)
Definition npos : Z := 2 ^ 64 - 1.
Definition zpos (p : option nat) : Z := match p with Some i => Z.of_nat i | None => npos end.

(** Characters [pos, pos+n) of [s], clipped at its end (string_view::substr with pos <= size()). *)
Definition zsub (s : list Z) (pos : nat) (n : Z) : list Z :=
  let r := skipn pos s in
  if Z.of_nat (length r) <=? n then r else firstn (Z.to_nat n) r.

(** url_utils.h:29-34 without host_ip. *)
Record SchemeIpPort := mkSIP { sp_port : Z; sp_host : list Z; sp_protocol : list Z }.

(** url_utils.cc:51-73; the flag says whether the host goes on to be resolved (:75-77). *)
Definition ParseURI (uri : list Z) : SchemeIpPort * bool :=
  let pos := sfind s_scheme uri 0 in
  let '(protocol, find_start) :=
    match pos with
    | Some p => (zsub uri 0 (Z.of_nat p), (p + 3)%nat)
    | None => (s_http, 0%nat)
    end in
  let '(port, host) :=
    match sfind s_colon uri find_start with
    | Some p => (snd (ParseTo 16 (skipn (p + 1) uri) 0), zsub uri find_start ((Z.of_nat p - Z.of_nat find_start) mod 2 ^ 32))
    | None => (0, skipn find_start uri)
    end in
  (mkSIP port host protocol, match host with [] => false | _ => true end).

(** url_utils.h:43-50 without host_ip; [r_port = None]: indeterminate value. *)
Record RemoteInfo := mkRemote {
  r_port : option Z; r_user : list Z; r_passwd : list Z; r_host : list Z; r_scheme : list Z;
  r_queries : list (list Z * list Z) }.
Definition RemoteInfo_new : RemoteInfo := mkRemote (Some 0) [] [] [] [] [].

(** unordered_map::insert (url_utils.cc:174): an existing key keeps its value. *)
Definition q_find (k : list Z) (m : list (list Z * list Z)) : option (list Z) :=
  option_map snd (find (fun kv => beq k (fst kv)) m).
Definition q_insert (k v : list Z) (m : list (list Z * list Z)) : list (list Z * list Z) :=
  match q_find k m with Some _ => m | None => m ++ [(k, v)] end.

(** url_utils.cc:168-175 *)
Definition parse_query (q : list Z) (m : list (list Z * list Z)) : list (list Z * list Z) :=
  match Split q s_eq false with
  | Some [k; v] => q_insert k v m
  | _ => m
  end.

(** url_utils.cc:127-177 with resolve = false, [out] freshly constructed. [len] is a uint32_t
    (:139, :151). Split at ":" never returns an empty vector, so [0] and front() exist (the [_ => UB]
    branches). *)
Definition ParseRemote (s : list Z) : outcome RemoteInfo :=
  let '(scheme, fs1) :=
    match sfind s_scheme s 0 with
    | Some p => (zsub s 0 (Z.of_nat p), (p + 3)%nat)
    | None => ([], 0%nat)
    end in
  obind
    (match sfind s_at s fs1 with
     | Some p =>
         match Split (zsub s fs1 ((Z.of_nat p - Z.of_nat fs1) mod 2 ^ 32)) s_colon false with
         | Some (u :: pw :: _) => Ok (u, pw, (p + 1)%nat)
         | Some [u] => Ok (u, [], (p + 1)%nat)
         | _ => UB
         end
     | None => Ok ([], [], fs1)
     end)
    (fun '(user, passwd, fs2) =>
       let pos := sfind s_quest s fs2 in
       obind
         (match Split (zsub s fs2 ((zpos pos - Z.of_nat fs2) mod 2 ^ 32)) s_colon false with
          | Some (h :: p :: _) => Ok (h, Parse 16 p)
          | Some [h] => Ok (h, Some 0)
          | _ => UB
          end)
         (fun '(host, port) =>
            match pos with
            | None => Ok (mkRemote port user passwd host scheme [])
            | Some p =>
                Ok (mkRemote port user passwd host scheme
                      (fold_left (fun m q => parse_query q m) (SplitChar (skipn (p + 1) s) c_amp) []))
            end)).
