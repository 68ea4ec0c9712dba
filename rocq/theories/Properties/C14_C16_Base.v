(** C14, C15 base64; C16 network byte order. *)
From Verif.Model Require Import Common Bytes Base64 ByteOrder.
From Verif.Spec Require Import Base64Spec.
From Verif.Proofs Require Base64Proofs BytesProofs ByteOrderProofs Tac.
Open Scope Z_scope.

(** C14: encoding never overflows its output and decoding the result gives the bytes back. *)
Theorem C14_base64_round_trip : forall s, Forall is_byte s ->
  exists e, base64_encode s = Ok e /\ base64_decode e = Ok s.
Proof. exact Base64Proofs.round_trip. Qed.
Print Assumptions C14_base64_round_trip.

(** Shape of the encoding: 4*ceil(n/3) characters: characters of sextets of the standard alphabet, then 0, 2 or 1 '='
    for n mod 3 = 0, 1, 2. *)
Theorem C14_base64_shape : forall s e, Forall is_byte s -> base64_encode s = Ok e ->
  length e = (4 * ((length s + 2) / 3))%nat /\
  exists body pad, e = body ++ repeat 61 pad /\ Forall (fun c => sextet c <> None) body /\
    pad = nth (length s mod 3) [0; 2; 1]%nat 0%nat.
Proof.
  intros s e H E. unfold base64_encode in E. rewrite Base64Proofs.encode_length, Nat.leb_refl in E. injection E as <-.
  split; [apply Base64Proofs.encode_length|].
  destruct (Base64Proofs.encode_shape s H) as (q & pad & -> & Hq & _ & H0 & H1 & H2).
  exists (map tab q), pad. split; [reflexivity|]. split.
  - apply Forall_map. eapply Forall_impl; [|exact Hq]. intros v Hv. destruct (Base64Proofs.tab_spec v Hv) as (-> & _). discriminate.
  - pose proof (Nat.mod_upper_bound (length s) 3 ltac:(lia)).
    destruct (length s mod 3)%nat as [|[|[|k]]]; [apply H0|apply H1|apply H2|lia]; reflexivity.
Qed.
Print Assumptions C14_base64_shape.

(** And decoding is RFC 4648 decoding: the octets of the bit string of the leading alphabet characters. *)
Theorem C14_base64_decode_rfc : forall l, Forall is_byte l -> decode_loop [] l = octets (sextets l).
Proof. exact Base64Proofs.decode_is_octets. Qed.
Print Assumptions C14_base64_decode_rfc.

Example C14_nonvacuous :
  base64_encode [77; 97; 110; 255; 0] = Ok [84; 87; 70; 117; 47; 119; 65; 61] (* "TWFu/wA=" *) /\
  octets (sextets [84; 87; 70; 117; 47; 119; 65; 61]) = [77; 97; 110; 255; 0].
Proof. vm_compute. split; reflexivity. Qed.

(** C15 (full statement): any text decodes, inside the allocated output, to all its octets. *)
Definition C15_statement : Prop := forall l, Forall is_byte l -> base64_decode l = Ok (octets (sextets l)).
(** Refuted: for the unpadded text "QQ" the output buffer has 2/4*3 = 0 bytes and one byte is written. *)
Theorem C15_unpadded_overflow_refuted : ~ C15_statement.
Proof.
  intro H. specialize (H [81; 81] ltac:(apply Tac.bytes_dec; reflexivity)). vm_compute in H. discriminate.
Qed.
Print Assumptions C15_unpadded_overflow_refuted.
(** Texts whose length is a multiple of four, whatever they contain. *)
Theorem C15_multiple_of_four_partial : forall l, Forall is_byte l -> (length l mod 4 = 0)%nat ->
  base64_decode l = Ok (octets (sextets l)).
Proof. exact Base64Proofs.decode_in_bounds. Qed.
Print Assumptions C15_multiple_of_four_partial.
Example C15_nonvacuous : let l := [81; 10; 81; 61] in
  Forall is_byte l /\ (length l mod 4 = 0)%nat /\ base64_decode l = Ok [].
Proof. split; [apply Tac.bytes_dec; reflexivity|vm_compute; split; reflexivity]. Qed.

(** C16 *)
Theorem C16_round_trip :
  (forall x, 0 <= x < 2 ^ 16 -> NetToHost16 (HostToNet16 x) = x /\ HostToNet16 (NetToHost16 x) = x) /\
  (forall x, 0 <= x < 2 ^ 32 -> NetToHost32 (HostToNet32 x) = x /\ HostToNet32 (NetToHost32 x) = x) /\
  (forall x, 0 <= x < 2 ^ 64 -> NetToHost64 (HostToNet64 x) = x /\ HostToNet64 (NetToHost64 x) = x).
Proof.
  unfold NetToHost16, HostToNet16, NetToHost32, HostToNet32, NetToHost64, HostToNet64.
  repeat split; rewrite ?ByteOrderProofs.bswap16_eq, ?ByteOrderProofs.bswap32_eq, ?ByteOrderProofs.bswap64_eq;
    apply ByteOrderProofs.swap_swap; simpl; lia.
Qed.
Print Assumptions C16_round_trip.

(** Stored by a little endian machine, the converted value has its most significant byte first. *)
Theorem C16_big_endian_in_memory : forall x,
  le_encode 2 (HostToNet16 x) = be_encode 2 x /\ le_encode 4 (HostToNet32 x) = be_encode 4 x /\
  le_encode 8 (HostToNet64 x) = be_encode 8 x.
Proof.
  intro x. unfold HostToNet16, HostToNet32, HostToNet64.
  rewrite ByteOrderProofs.bswap16_eq, ByteOrderProofs.bswap32_eq, ByteOrderProofs.bswap64_eq.
  repeat split; apply ByteOrderProofs.swap_mem.
Qed.
Print Assumptions C16_big_endian_in_memory.
(** Values converted to little endian are stored least significant byte first. *)
Theorem C16_little_endian_in_memory : forall x, 0 <= x < 2 ^ 64 ->
  (x < 2 ^ 16 -> le_decode (le_encode 2 (ByteSwapToLE16 x)) = x /\ nth 0 (le_encode 2 (ByteSwapToLE16 x)) 0 = x mod 256) /\
  (x < 2 ^ 32 -> le_decode (le_encode 4 (ByteSwapToLE32 x)) = x /\ nth 0 (le_encode 4 (ByteSwapToLE32 x)) 0 = x mod 256) /\
  le_decode (le_encode 8 (ByteSwapToLE64 x)) = x /\ nth 0 (le_encode 8 (ByteSwapToLE64 x)) 0 = x mod 256.
Proof.
  intros x H. unfold ByteSwapToLE16, ByteSwapToLE32, ByteSwapToLE64. cbn [le_encode nth].
  split; [|split]; intros; (split; [|reflexivity]); [apply (BytesProofs.le_round 2 x)|apply (BytesProofs.le_round 4 x)|apply (BytesProofs.le_round 8 x)]; cbn; lia.
Qed.
Print Assumptions C16_little_endian_in_memory.
Example C16_nonvacuous : le_encode 4 (HostToNet32 0x01020304) = [1; 2; 3; 4] /\ NetToHost64 (HostToNet64 (2 ^ 64 - 2)) = 2 ^ 64 - 2.
Proof. vm_compute. split; reflexivity. Qed.
