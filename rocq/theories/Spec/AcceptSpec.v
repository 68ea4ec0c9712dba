(** Words about what an acceptor's clients and owner see, and about addresses. *)
From Verif.Model Require Import Common IpAddress Acceptor UdpService.
(** The connections handed over, queued, reset and refused, in order. *)
Definition handed (o : list obs) : list nat := flat_map (fun v => match v with VHanded id _ => [id] | _ => [] end) o.
Definition queued (o : list obs) : list nat := flat_map (fun v => match v with VQueued id => [id] | _ => [] end) o.
Definition resets (o : list obs) : list nat := flat_map (fun v => match v with VReset id => [id] | _ => [] end) o.
Definition refused (o : list obs) : list nat := flat_map (fun v => match v with VRefused id => [id] | _ => [] end) o.
(** Addresses as kernels store them. *)
Definition v4_addr (b : list Z) (e : IPEndPoint) : Prop :=
  exists a p, length a = 4%nat /\ (0 <= p < 65536)%Z /\ b = sockaddr_in a p /\ e = mkEP a p.
Definition v6_addr (b : list Z) (e : IPEndPoint) : Prop :=
  exists flow a p scope, length flow = 4%nat /\ length a = 16%nat /\ length scope = 4%nat /\ (0 <= p < 65536)%Z /\ b = sockaddr_in6 flow a p scope /\ e = mkEP a p.
Definition peer_addr (b : list Z) : Prop := exists e, v4_addr b e \/ v6_addr b e.
(** Calls the acceptor's owner makes, and what the kernel does: buffers for accept4 are 16 bytes. *)
Definition op_ok (x : op) : Prop :=
  match x with AConnect c => peer_addr (snd c) | APoll _ junk => length junk = 16%nat | _ => True end.
