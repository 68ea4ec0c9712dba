(** net_io/common/ip_address.{h,cc}, ip_endpoint.{h,cc}, net_io/socket_utils.cc:177-271: addresses,
    prefixes, literals, endpoints. An address is the list of its first [size_] bytes; reading past them
    (indeterminate bytes of the underlying array) is [UB]. [dbg]: the build keeps DCHECKs. *)
From Verif.Model Require Import Common Bytes Decimal StrUtil.
Open Scope Z_scope.

Definition dcheck {A} (dbg c : bool) (k : outcome A) : outcome A := if dbg && negb c then CheckFail else k.
Definition rd (l : list Z) (i : nat) : outcome Z := match nth_error l i with Some b => Ok b | None => UB end.

(** ip_address.cc:227-237 *)
Definition IsIPv4 (a : list Z) : bool := (length a =? 4)%nat.
Definition IsIPv6 (a : list Z) : bool := (length a =? 16)%nat.
Definition IsValid (a : list Z) : bool := IsIPv4 a || IsIPv6 a.

(** ip_address.cc:36-37 *)
Definition kIPv4MappedPrefix : list Z := [0; 0; 0; 0; 0; 0; 0; 0; 0; 0; 255; 255].

(** ip_address.cc:46-50: [n] more rounds of the loop, from index [i]. *)
Fixpoint prefix_bytes (n i : nat) (a p : list Z) : outcome bool :=
  match n with
  | O => Ok true
  | S n' => obind (rd a i) (fun x => obind (rd p i) (fun y =>
              if x =? y then prefix_bytes n' (S i) a p else Ok false))
  end.
(** ip_address.cc:42-62 (the mask is converted to uint8_t, :56). *)
Definition IPAddressPrefixCheck (a p : list Z) (bits : nat) : outcome bool :=
  let k := (bits / 8)%nat in
  obind (prefix_bytes k 0 a p) (fun b =>
    if b then
      let r := (bits mod 8)%nat in
      if (r =? 0)%nat then Ok true
      else
        let mask := Z.land (Z.shiftl 255 (8 - Z.of_nat r)) 255 in
        obind (rd a k) (fun x => obind (rd p k) (fun y => Ok (Z.land x mask =? Z.land y mask)))
    else Ok false).

(** ip_address.cc:77-82 *)
Definition kReservedIPv4Ranges : list (list Z * nat) :=
  [([0; 0; 0; 0], 8%nat); ([10; 0; 0; 0], 8%nat); ([100; 64; 0; 0], 10%nat);
   ([127; 0; 0; 0], 8%nat); ([169; 254; 0; 0], 16%nat); ([172; 16; 0; 0], 12%nat);
   ([192; 0; 2; 0], 24%nat); ([192; 88; 99; 0], 24%nat); ([192; 168; 0; 0], 16%nat);
   ([198; 18; 0; 0], 15%nat); ([198; 51; 100; 0], 24%nat); ([203; 0; 113; 0], 24%nat);
   ([224; 0; 0; 0], 3%nat)].
(** ip_address.cc:104-107 *)
Definition kPublicIPv6Ranges : list (list Z * nat) := [([32; 0], 3%nat); ([255; 0], 8%nat)].
(** The range loops of ip_address.cc:84-89 and 109-114: does some range match? *)
Fixpoint any_range (a : list Z) (rs : list (list Z * nat)) : outcome bool :=
  match rs with
  | [] => Ok false
  | (p, n) :: rs' => obind (IPAddressPrefixCheck a p n) (fun b => if b then Ok true else any_range a rs')
  end.

(** ip_address.cc:257-259, ip_address.h:287-292 *)
Definition IsIPv4MappedIPv6 (a : list Z) : bool := IsIPv6 a && beq (firstn 12 a) kIPv4MappedPrefix.

(** ip_address.cc:383-400 *)
Definition ConvertIPv4ToIPv4MappedIPv6 (dbg : bool) (a : list Z) : outcome (list Z) :=
  dcheck dbg (IsIPv4 a)
    (if (length (kIPv4MappedPrefix ++ a) <=? 16)%nat then Ok (kIPv4MappedPrefix ++ a) else CheckFail).
(** ip_address.cc:402-418: the inserted range begins in the address's own array (:414) and ends in the
    static array kIPv4MappedPrefix (:415); [first, last) is not a range: undefined behaviour. *)
Definition ConvertIPv4MappedIPv6ToIPv4 (dbg : bool) (a : list Z) : outcome (list Z) :=
  dcheck dbg (IsIPv4MappedIPv6 a) UB.

(** ip_address.cc:71-92, 99-123, 239-246 *)
Definition IsPubliclyRoutableIPv4 (dbg : bool) (a : list Z) : outcome bool :=
  dcheck dbg (IsIPv4 a) (obind (any_range a kReservedIPv4Ranges) (fun b => Ok (negb b))).
Definition IsPubliclyRoutableIPv6 (dbg : bool) (a : list Z) : outcome bool :=
  dcheck dbg (IsIPv6 a)
    (obind (any_range a kPublicIPv6Ranges) (fun b =>
       if b then Ok true
       else if IsIPv4MappedIPv6 a
       then obind (ConvertIPv4MappedIPv6ToIPv4 dbg a) (IsPubliclyRoutableIPv4 dbg)
       else Ok false)).
Definition IsPubliclyRoutable (dbg : bool) (a : list Z) : outcome bool :=
  if IsIPv4 a then IsPubliclyRoutableIPv4 dbg a
  else if IsIPv6 a then IsPubliclyRoutableIPv6 dbg a
  else Ok true.

(** ip_address.cc:248-255 *)
Definition IsZero (a : list Z) : bool := forallb (fun x => x =? 0) a && negb (length a =? 0)%nat.
(** ip_address.cc:261-276 *)
Definition IsLoopback (a : list Z) : bool :=
  if IsIPv4 a then nth 0 a 0 =? 127
  else if IsIPv6 a then forallb (fun x => x =? 0) (firstn 15 a) && (nth 15 a 0 =? 1)
  else false.
(** ip_address.cc:278-292 *)
Definition IsLinkLocal (a : list Z) : bool :=
  if IsIPv4 a then (nth 0 a 0 =? 169) && (nth 1 a 0 =? 254)
  else if IsIPv4MappedIPv6 a then (nth 12 a 0 =? 169) && (nth 13 a 0 =? 254)
  else if IsIPv6 a then (nth 0 a 0 =? 254) && (Z.land (nth 1 a 0) 192 =? 128)
  else false.

(** ip_address.cc:420-444; the recursion makes both sizes equal, so it is at most one level deep. *)
Definition IPAddressMatchesPrefix (dbg : bool) (a p : list Z) (bits : nat) : outcome bool :=
  dcheck dbg (IsValid a && IsValid p && (bits <=? length p * 8)%nat)
    (if (length a =? length p)%nat then IPAddressPrefixCheck a p bits
     else if IsIPv4 a
     then obind (ConvertIPv4ToIPv4MappedIPv6 dbg a) (fun a6 => IPAddressPrefixCheck a6 p bits)
     else obind (ConvertIPv4ToIPv4MappedIPv6 dbg p) (fun p6 => IPAddressPrefixCheck a p6 (96 + bits))).

(** ip_address.cc:494-498 *)
Fixpoint lead_zeros (rounds j : nat) (diff : Z) : option nat :=
  match rounds with
  | O => None
  | S r => if Z.land diff 128 =? 0 then lead_zeros r (S j) (Z.shiftl diff 1) else Some j
  end.
(** ip_address.cc:490-500 *)
Fixpoint common_loop (n i : nat) (a b : list Z) : outcome (option nat) :=
  match n with
  | O => Ok None
  | S n' => obind (rd a i) (fun x => obind (rd b i) (fun y =>
      let diff := Z.lxor x y in
      if diff =? 0 then common_loop n' (S i) a b
      else match lead_zeros 8 0 diff with
           | Some j => Ok (Some (i * 8 + j)%nat)
           | None => common_loop n' (S i) a b
           end))
  end.
(** ip_address.cc:488-502 *)
Definition CommonPrefixLength (dbg : bool) (a b : list Z) : outcome nat :=
  dcheck dbg (length a =? length b)%nat
    (obind (common_loop (length a) 0 a b) (fun r =>
       Ok (match r with Some n => n | None => (length a * 8)%nat end))).
(** ip_address.cc:504-507 *)
Definition MaskPrefixLength (dbg : bool) (m : list Z) : outcome nat := CommonPrefixLength dbg m (repeat 255 16).

(** ip_address.cc:160-173, 338-353: std::lexicographical_compare and std::equal on bytes. *)
Fixpoint lex_lt (a b : list Z) : bool :=
  match a, b with
  | _, [] => false
  | [], _ :: _ => true
  | x :: a', y :: b' => if x <? y then true else if y <? x then false else lex_lt a' b'
  end.
Definition bytes_lt (a b : list Z) : bool :=
  if (length a =? length b)%nat then lex_lt a b else (length a <? length b)%nat.
Definition addr_eq (a b : list Z) : bool := (length a =? length b)%nat && beq a b.
Definition addr_lt (a b : list Z) : bool :=
  if negb (length a =? length b)%nat then (length a <? length b)%nat else bytes_lt a b.

(** ip_endpoint.h: address and port. *)
Record IPEndPoint := mkEP { ep_addr : list Z; ep_port : Z }.
(** ip_endpoint.cc:177-191: std::tie compares the addresses, then the ports. *)
Definition ep_lt (x y : IPEndPoint) : bool :=
  if negb (length (ep_addr x) =? length (ep_addr y))%nat then (length (ep_addr x) <? length (ep_addr y))%nat
  else if addr_lt (ep_addr x) (ep_addr y) then true
  else if addr_lt (ep_addr y) (ep_addr x) then false
  else ep_port x <? ep_port y.
Definition ep_eq (x y : IPEndPoint) : bool := addr_eq (ep_addr x) (ep_addr y) && (ep_port x =? ep_port y).

(** struct sockaddr_in: family in host order (little endian), port in network order, address, 8 zero
    bytes; struct sockaddr_in6: family, port, flowinfo, address, scope id. *)
Definition AF_INET : Z := 2.
Definition AF_INET6 : Z := 10.
Definition sockaddr_in (a : list Z) (port : Z) : list Z := le_encode 2 AF_INET ++ be_encode 2 port ++ a ++ repeat 0 8.
Definition sockaddr_in6 (flow a : list Z) (port : Z) (scope : list Z) : list Z :=
  le_encode 2 AF_INET6 ++ be_encode 2 port ++ flow ++ a ++ scope.
(** ip_endpoint.cc:110-147 on the buffer [mem], announced as [len] bytes long: the returned length and
    the buffer afterwards. *)
Definition ToSockAddr (e : IPEndPoint) (mem : list Z) (len : nat) : outcome (nat * list Z) :=
  if IsIPv4 (ep_addr e) then
    if (len <? 16)%nat then Ok (0%nat, mem)
    else match mem_write mem 0 (sockaddr_in (ep_addr e) (ep_port e)) with Some m => Ok (16%nat, m) | None => UB end
  else if IsIPv6 (ep_addr e) then
    if (len <? 28)%nat then Ok (0%nat, mem)
    else match mem_write mem 0 (sockaddr_in6 (repeat 0 4) (ep_addr e) (ep_port e) (repeat 0 4)) with
         | Some m => Ok (28%nat, m) | None => UB end
  else Ok (0%nat, mem).

(** Reading [n] bytes of [mem] at [off]. *)
Definition mread (mem : list Z) (off n : nat) : outcome (list Z) :=
  if (off + n <=? length mem)%nat then Ok (slice mem off n) else UB.
(** ip_endpoint.cc:26-72, 149-167: the endpoint afterwards, [None] when false is returned. *)
Definition FromSockAddr (mem : list Z) (len : nat) : outcome (option IPEndPoint) :=
  obind (mread mem 0 2) (fun fam =>
    let f := le_decode fam in
    if f =? AF_INET then
      if (len <? 16)%nat then Ok None
      else obind (mread mem 2 2) (fun p => obind (mread mem 4 4) (fun a => Ok (Some (mkEP a (be_decode p)))))
    else if f =? AF_INET6 then
      if (len <? 28)%nat then Ok None
      else obind (mread mem 2 2) (fun p => obind (mread mem 8 16) (fun a => Ok (Some (mkEP a (be_decode p)))))
    else Ok None).

(** getpeername/getsockname(2) into a [cap]-byte buffer holding [mem]: the socket address [real] is
    truncated to the buffer, but the length reported is that of [real]. *)
Definition k_getname (real mem : list Z) : list Z * nat :=
  (firstn (length mem) real ++ skipn (length real) mem, length real).
(** socket_utils.cc:177-198: the buffer is a struct sockaddr, 16 bytes, zeroed; [real = None]: the
    system call failed. *)
Definition GetEndpoint (real : option (list Z)) : outcome (option IPEndPoint) :=
  match real with
  | None => Ok None
  | Some r => let (mem, len) := k_getname r (repeat 0 16) in FromSockAddr mem len
  end.

(** socket_utils.cc:230-271: the two structures are 128-byte storages; the comparison of port and
    address fields. *)
Definition IsSelfConnect (local peer : option (list Z)) : outcome bool :=
  obind (GetEndpoint local) (fun l => match l with None => Ok false | Some le =>
  obind (GetEndpoint peer) (fun p => match p with None => Ok false | Some pe =>
  obind (ToSockAddr pe (repeat 0 128) 128) (fun ps => if (fst ps =? 0)%nat then Ok false else
  obind (ToSockAddr le (repeat 0 128) 128) (fun ls => if (fst ls =? 0)%nat then Ok false else
  if IsIPv4 (ep_addr le)
  then Ok (beq (slice (snd ls) 2 2) (slice (snd ps) 2 2) && beq (slice (snd ls) 4 4) (slice (snd ps) 4 4))
  else if IsIPv6 (ep_addr le)
  then Ok (beq (slice (snd ls) 2 2) (slice (snd ps) 2 2) && beq (slice (snd ls) 8 16) (slice (snd ps) 8 16))
  else Ok false)) end) end).

(** base::StringPiece is std::string_view (base/string/string_view.h:14): a pointer, of which [pc_mem]
    is the memory from it to the end of the object it points into, and a length. *)
Record piece := mkPiece { pc_mem : list Z; pc_len : nat }.
Definition chars (p : piece) : list Z := firstn (pc_len p) (pc_mem p).
(** A piece made from a whole std::string: its characters and the terminating NUL. *)
Definition piece_of (s : list Z) : piece := mkPiece (s ++ [0]) (length s).
(** string_view::substr(pos, n), pos <= size. *)
Definition psub (p : piece) (pos n : nat) : piece := mkPiece (skipn pos (pc_mem p)) (Nat.min n (pc_len p - pos)).
(** The NUL-terminated string at a pointer. *)
Fixpoint cstr (m : list Z) : outcome (list Z) :=
  match m with
  | [] => UB
  | c :: m' => if c =? 0 then Ok [] else obind (cstr m') (fun s => Ok (c :: s))
  end.

(** inet_pton(AF_INET, s, dst) (glibc, resolv/inet_pton.c): octets finished so far, current octet,
    whether it has a digit. *)
Fixpoint pton4_loop (s : list Z) (octets : list Z) (cur : Z) (saw : bool) : option (list Z) :=
  match s with
  | [] => if ((length octets + (if saw then 1 else 0)) <? 4)%nat then None else Some (octets ++ [cur])
  | c :: s' =>
      if isdigit c then
        let new := cur * 10 + (c - 48) in
        if saw && (cur =? 0) then None
        else if 255 <? new then None
        else if negb saw && (4 <? S (length octets))%nat then None
        else pton4_loop s' octets new true
      else if (c =? 46) && saw then
        if (length octets =? 3)%nat then None else pton4_loop s' (octets ++ [cur]) 0 false
      else None
  end.
Definition inet_pton4 (s : list Z) : option (list Z) := pton4_loop s [] 0 false.
(** inet_ntop(AF_INET, ...) (glibc: sprintf "%u.%u.%u.%u"). *)
Definition inet_ntop4 (a : list Z) : list Z :=
  udec (nth 0 a 0) ++ [46] ++ udec (nth 1 a 0) ++ [46] ++ udec (nth 2 a 0) ++ [46] ++ udec (nth 3 a 0).

Section V6.
(** inet_pton(AF_INET6, ...) and inet_ntop(AF_INET6, ...) of the C library. *)
Variable pton6 : list Z -> option (list Z).
Variable ntop6 : list Z -> list Z.

(** ip_address.cc:126-141, 294-300: the C library reads the memory at data() as a C string. The result
    is the address afterwards ([] = emptied) and the returned flag. *)
Definition AssignFromIPLiteral (p : piece) : outcome (bool * list Z) :=
  if existsb (Z.eqb 58) (chars p) then
    obind (cstr (pc_mem p)) (fun s => Ok (match pton6 s with Some a => (true, a) | None => (false, []) end))
  else
    obind (cstr (pc_mem p)) (fun s => Ok (match inet_pton4 s with Some a => (true, a) | None => (false, []) end)).

(** ip_address.cc:475-486 *)
Definition ParseURLHostnameToAddress (h : piece) : outcome (bool * list Z) :=
  let c := chars h in
  if (2 <=? length c)%nat && (nth 0 c 0 =? 91) && (nth (length c - 1) c 0 =? 93) then
    obind (AssignFromIPLiteral (psub h 1 (pc_len h - 2))) (fun r => Ok (fst r && IsIPv6 (snd r), snd r))
  else
    obind (AssignFromIPLiteral h) (fun r => Ok (fst r && IsIPv4 (snd r), snd r)).

(** ip_address.cc:446-473: flag, address and prefix length afterwards ([a0], [n0] before). *)
Definition ParseCIDRBlock (cidr : list Z) (a0 : list Z) (n0 : nat) : outcome (bool * list Z * nat) :=
  match Split cidr [47] false with
  | Some [p0; p1] =>
      obind (AssignFromIPLiteral (piece_of p0)) (fun r =>
        if fst r then
          let (good, v) := ParseTo 32 p1 0 in
          if negb good then Ok (false, snd r, n0)
          else if Z.of_nat (length (snd r)) * 8 <? v then Ok (false, snd r, n0)
          else Ok (true, snd r, Z.to_nat v)
        else Ok (false, snd r, n0))
  | Some _ => Ok (false, a0, n0)
  | None => CheckFail
  end.

(** ip_address.cc:355-364: the string is sized to the maximum (AsWriteInto, str_utils.cc: resize to
    length_with_null - 1, zero filled) and never shrunk. [rest]: the bytes of the 16-byte array after
    the first [size_] ones. *)
Definition ToString (a rest : list Z) : list Z :=
  let t := if IsIPv4 a then inet_ntop4 a else ntop6 (firstn 16 (a ++ rest)) in
  let n := if IsIPv4 a then 15%nat else 45%nat in
  t ++ repeat 0 (n - length t).
(** c_str() of a std::string. *)
Fixpoint c_str (s : list Z) : list Z :=
  match s with [] => [] | c :: s' => if c =? 0 then [] else c :: c_str s' end.
(** ip_address.cc:366-376 *)
Definition IPAddressToStringWithPort (a rest : list Z) (port : Z) : list Z :=
  let s := ToString a rest in
  match s with
  | [] => []
  | _ => if IsIPv6 a then [91] ++ c_str s ++ [93; 58] ++ udec port else c_str s ++ [58] ++ udec port
  end.
End V6.
