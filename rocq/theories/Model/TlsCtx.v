(** base/crypto/lt_ssl.cc (contexts) and the ALPN/NPN selection of net_io/codec/http/h2/h2_tls_context.cc.

    OpenSSL's functions on files are parameters: whether a file or directory loads is up to the environment, except that
    SSL_CTX_load_verify_locations fails for an empty (non-null) file or directory name (X509_LOOKUP "invalid directory",
    fopen("")) and when both are null. *)
From Verif Require Import Model.Common.
Local Open Scope Z_scope.

Definition str := list Z.
Inductive role := Client | Server.
(** lt_ssl.h:45-53 Param; lt_ssl.cc:55-57. *)
Record param := Param { p_role : role; verify_peer : bool; crt_file : str; key_file : str; ca_file : str; ca_path : str }.
Definition default_param (r : role) : param := Param r (match r with Client => true | Server => false end) [] [] [] [].

(** The environment: which certificate files, key files, CA files and CA directories load, and whether a key fits a certificate. *)
Record files := Files { crt_ok : str -> bool; key_ok : str -> bool; key_fits : str -> str -> bool; cafile_ok : str -> bool; cadir_ok : str -> bool }.
Definition empty (s : str) : bool := match s with [] => true | _ => false end.
(** SSL_CTX_load_verify_locations(ctx, file, dir); [None] is a null pointer. *)
Definition load_verify_locations (fs : files) (file dir : option str) : bool :=
  match file, dir with
  | None, None => false
  | _, _ =>
      match file with Some f => negb (empty f) && cafile_ok fs f | None => true end &&
      match dir with Some d => negb (empty d) && cadir_ok fs d | None => true end
  end.
(** An SSL_CTX: CAs it trusts, certificate and key, verification mode; trusts the system's CAs. *)
Record ctx := Ctx { trust_files : list str; trust_dirs : list str; trust_system : bool; cert : str; key : str; verify : bool }.
Definition opt_list (o : option str) : list str := match o with Some s => [s] | None => [] end.
(** lt_ssl.cc:61-118 the constructor; [None]: impl_ is null. *)
Definition new_ctx (fs : files) (p : param) : option ctx :=
  let ca := negb (empty (ca_file p)) || negb (empty (ca_path p)) in
  if ca && negb (load_verify_locations fs (Some (ca_file p)) (Some (ca_path p))) then None else
  if negb (empty (crt_file p)) && negb (crt_ok fs (crt_file p)) then None else
  if negb (empty (key_file p)) && negb (key_ok fs (key_file p) && key_fits fs (key_file p) (crt_file p)) then None else
  Some (Ctx (if ca then [ca_file p] else []) (if ca then [ca_path p] else [])
            (verify_peer p && empty (ca_file p) && empty (ca_path p)) (crt_file p) (key_file p) (verify_peer p)).
(** lt_ssl.cc:44-53 the two default contexts: both return g_client_ctx. *)
Definition DefaultServerCtx (fs : files) : option ctx := new_ctx fs (default_param Client).
Definition DefaultClientCtx (fs : files) : option ctx := new_ctx fs (default_param Client).
(** lt_ssl.cc:140-157 UseVerifyCA: the directory passed is ca_file.c_str(). *)
Definition UseVerifyCA (fs : files) (c : ctx) (file path : str) : ctx * bool :=
  if empty file && empty path then (c, false) else
  let f := if empty file then None else Some file in
  let d := if empty path then None else Some file in
  if load_verify_locations fs f d
  then (Ctx (trust_files c ++ opt_list f) (trust_dirs c ++ opt_list d) (trust_system c) (cert c) (key c) (verify c), true)
  else (c, false).
(** lt_ssl.cc:126-130 NewSSLSession: SSL_new of a null context gives null, which SSL_set_fd dereferences. *)
Definition NewSSLSession (c : option ctx) : outcome ctx := match c with Some c => Ok c | None => UB end.

(** h2_tls_context.cc:35-46 the protocol identifiers with their length prefix. *)
Definition H2_ALPN : list Z := [2; 104; 50].
Definition H2_16_ALPN : list Z := [5; 104; 50; 45; 49; 54].
Definition H2_14_ALPN : list Z := [5; 104; 50; 45; 49; 52].
Fixpoint prefix_eq (key p : list Z) : bool :=
  match key, p with [], _ => true | k :: key, x :: p => (k =? x) && prefix_eq key p | _ :: _, [] => false end.
(** h2_tls_context.cc:53-66 select_proto on [inp], from offset [off]: offset of the name and its length. Reading in[off] past the
    end is undefined. [fuel] bounds the rounds; each advances by at least one byte, so length + 1 suffices. *)
Fixpoint select_from (fuel : nat) (inp key : list Z) (off : nat) : outcome (option (nat * Z)) :=
  match fuel with
  | O => Ok None
  | S fuel =>
      if Nat.leb (off + length key) (length inp) then
        if prefix_eq key (skipn off inp) then
          match nth_error inp off with Some l => Ok (Some ((off + 1)%nat, l)) | None => UB end
        else match nth_error inp off with Some l => select_from fuel inp key (off + Z.to_nat l + 1) | None => UB end
      else Ok None
  end.
Definition select_proto (inp key : list Z) : outcome (option (nat * Z)) := select_from (S (length inp)) inp key 0.
(** 68-75 select_h2; 129-140, 143-154: the callbacks give NOACK for [None]. *)
Definition select_h2 (inp : list Z) : outcome (option (nat * Z)) :=
  obind (select_proto inp H2_ALPN) (fun r => match r with Some _ => Ok r | None =>
  obind (select_proto inp H2_16_ALPN) (fun r => match r with Some _ => Ok r | None => select_proto inp H2_14_ALPN end) end).
(** 90-101 get_default_alpn. *)
Definition default_alpn : list Z := H2_ALPN ++ H2_16_ALPN ++ H2_14_ALPN.
