(** C07 - C10, C41: websocket. *)
From Verif.Model Require Import Common Bytes Websocket.
From Verif.Spec Require Import WsSpec.
From Verif.Proofs Require WsProofs WsBuildProofs Tac.
Open Scope Z_scope.

(** C07. Two fragmentations of the same byte stream (at any addresses): if the first is parsed with no frame
    announcing a length of 2^63 or more (forbidden by RFC 6455), the second is parsed too, to the same parser
    state, the same frames (flags, length, unmasked payload, including the unfinished one) and, for every state of
    the codec above, the same deliveries and replies. *)
Theorem C07_ws_chunk_independent : forall cs1 cs2 q es,
  Forall addr_ok cs1 -> Forall addr_ok cs2 ->
  concat (map snd cs1) = concat (map snd cs2) ->
  ws_feed ws_init cs1 = Ok (q, es) -> Forall length_sane es ->
  exists es2, ws_feed ws_init cs2 = Ok (q, es2) /\ collect es2 = collect es /\
    forall c, fold_left codec_ev es2 c = fold_left codec_ev es c.
Proof. exact WsProofs.chunk_independent. Qed.
Print Assumptions C07_ws_chunk_independent.

Definition ex_frame := mkframe true 1 (Some [7; 8; 9; 10]) (repeat 65 200).
Example C07_nonvacuous : exists q es,
  ws_feed ws_init [(4096, firstn 3 (frame_bytes ex_frame)); (8192, skipn 3 (frame_bytes ex_frame))] = Ok (q, es) /\
  Forall addr_ok [(4096, firstn 3 (frame_bytes ex_frame)); (8192, skipn 3 (frame_bytes ex_frame))] /\
  Forall length_sane es /\ collect es = ([(49, 200, repeat 65 200)], None).
Proof.
  eexists _, _. split; [vm_compute; reflexivity|]. split; [repeat constructor; cbn; lia|].
  split; [repeat constructor|vm_compute; reflexivity].
Qed.

(** C08. Any frames built by BuildFrame and sent back to back are parsed, however fragmented, to the same FIN
    bits, opcodes, mask bits and payloads, leaving no partial frame. *)
Theorem C08_ws_round_trip : forall cs xs,
  Forall frame_ok xs -> Forall addr_ok cs -> concat (map snd cs) = concat (map frame_bytes xs) ->
  exists q es, ws_feed ws_init cs = Ok (q, es) /\
    collect es = (map (fun x => (frame_flags x, Z.of_nat (length (f_data x)), f_data x)) xs, None).
Proof. exact WsBuildProofs.build_parse. Qed.
Print Assumptions C08_ws_round_trip.

(** The opcode and FIN bit are recovered from the flags. *)
Theorem C08_ws_flags : forall x, frame_ok x ->
  Z.land (frame_flags x) 15 = f_op x /\ negb (Z.land (frame_flags x) 16 =? 0) = f_fin x.
Proof. exact WsBuildProofs.flags_view. Qed.
Print Assumptions C08_ws_flags.

(** The bytes written are exactly the size computed beforehand, in all three length encodings. *)
Theorem C08_ws_size : forall data mask hm op fin,
  0 <= op < 16 -> Z.of_nat (length data) < 2 ^ 31 - 14 -> length mask = 4%nat ->
  Z.of_nat (length (ws_build_frame data mask hm op fin)) = ws_frame_size hm (Z.of_nat (length data)).
Proof. exact WsBuildProofs.build_size. Qed.
Print Assumptions C08_ws_size.

Example C08_nonvacuous : frame_ok ex_frame /\ frame_ok (mkframe false 2 None []).
Proof.
  split; repeat split; cbn [f_op f_data f_mask ex_frame]; try lia; try (cbn; lia);
    apply Tac.bytes_dec; reflexivity.
Qed.

(** C09. Unmasking any pieces one after the other, carrying the offset, equals unmasking the whole. *)
Theorem C09_mask_piecewise : forall mask pieces off,
  fold_left (fun '(out, o) d => let '(d', o') := ws_decode mask o d in (out ++ d', o')) pieces ([], off) =
  (ws_xor mask off (concat pieces),
   match pieces with [] => off | _ => (Z.of_nat (length (concat pieces)) + off) mod 4 end).
Proof. exact WsProofs.decode_pieces. Qed.
Print Assumptions C09_mask_piecewise.

(** Masking twice restores the payload. *)
Theorem C09_mask_involution : forall mask d off, fst (ws_decode mask off (fst (ws_decode mask off d))) = d.
Proof. exact WsProofs.xor_xor. Qed.
Print Assumptions C09_mask_involution.

(** The masking is the one of RFC 6455 5.3: byte i is xored with mask[(i + off) mod 4]. *)
Theorem C09_mask_spec : forall mask d off i, (i < length d)%nat ->
  nth i (fst (ws_decode mask off d)) 0 = Z.lxor (nth i d 0) (nth (Z.to_nat ((Z.of_nat i + off) mod 4)) mask 0).
Proof. exact WsProofs.xor_nth. Qed.
Print Assumptions C09_mask_spec.

(** C10 (full statement): a stream whose data frames form the messages [gs], with complete non-close control
    frames interleaved anywhere, delivers exactly the messages [gs]. *)
Definition C10_statement : Prop := forall cs fs gs,
  Forall frame_ok fs -> Forall addr_ok cs -> concat (map snd cs) = concat (map frame_bytes fs) ->
  Forall (fun g => is_data_op (g_op g)) gs ->
  filter (fun x => negb (is_control x)) fs = concat (map msg_frames gs) ->
  Forall (fun x => f_fin x = true /\ f_op x <> 8) (filter is_control fs) ->
  exists q es, ws_feed ws_init cs = Ok (q, es) /\
    data_deliveries (wacts (fold_left codec_ev es codec_init)) = map (fun g => (g_op g, g_payload g)) gs.
(** Refuted: text "a" (not final), ping, continuation "b" (final) delivers ping("a") and text("b"). *)
Theorem C10_interleaved_refuted : ~ C10_statement.
Proof. exact WsBuildProofs.interleaved_refuted. Qed.
Print Assumptions C10_interleaved_refuted.

(** Without control frames inside a fragmented message: every message (of any non-zero, non-close opcode, any
    number of fragments, masked or not, any network fragmentation) is delivered exactly once, in order, with its
    opcode and the concatenated payload; a ping is answered by one pong before it is delivered. *)
Theorem C10_reassembly_partial : forall cs gs,
  Forall frame_ok (concat (map msg_frames gs)) -> Forall addr_ok cs ->
  Forall (fun g => g_op g <> 0 /\ g_op g <> 8) gs ->
  concat (map snd cs) = concat (map frame_bytes (concat (map msg_frames gs))) ->
  exists q es, ws_feed ws_init cs = Ok (q, es) /\
    fold_left codec_ev es codec_init =
    mkcodec None (concat (map (fun g => (if g_op g =? 9 then [WPong] else []) ++ [WDeliver (g_op g) (g_payload g)]) gs)).
Proof. exact WsBuildProofs.reassembly. Qed.
Print Assumptions C10_reassembly_partial.

(** A close frame after complete messages is answered with one close frame. *)
Theorem C10_close : forall cs gs m d,
  Forall frame_ok (concat (map msg_frames gs)) -> frame_ok (mkframe true 8 m d) ->
  Forall addr_ok cs -> Forall (fun g => g_op g <> 0 /\ g_op g <> 8) gs ->
  concat (map snd cs) = concat (map frame_bytes (concat (map msg_frames gs) ++ [mkframe true 8 m d])) ->
  exists q es, ws_feed ws_init cs = Ok (q, es) /\
    wacts (fold_left codec_ev es codec_init) =
    concat (map (fun g => (if g_op g =? 9 then [WPong] else []) ++ [WDeliver (g_op g) (g_payload g)]) gs) ++ [WClose].
Proof. exact WsBuildProofs.close_frame. Qed.
Print Assumptions C10_close.

Definition ex_msgs := [mkmsg 1 (Some [1;2;3;4], [97]) [(None, []); (Some [9;9;9;9], [98; 99])]; mkmsg 9 (None, [5]) []].
Example C10_nonvacuous :
  Forall frame_ok (concat (map msg_frames ex_msgs)) /\ Forall (fun g => g_op g <> 0 /\ g_op g <> 8) ex_msgs /\
  map g_payload ex_msgs = [[97; 98; 99]; [5]].
Proof.
  split; [|split; [repeat constructor; cbn; lia|reflexivity]].
  repeat constructor; cbn; try lia; apply Tac.bytes_dec; reflexivity.
Qed.

(** C41 (full statement): no received bytes make the parser pass bytes beyond the received ones to the codec. *)
Definition C41_statement : Prop := forall cs, Forall addr_ok cs -> Forall is_byte (concat (map snd cs)) ->
  ws_feed ws_init cs <> UB.
(** Refuted: an announced 64-bit length with the top bit set makes [p + require <= end] wrap around. *)
Theorem C41_ws_overread_refuted : ~ C41_statement.
Proof. exact WsBuildProofs.overread_refuted. Qed.
Print Assumptions C41_ws_overread_refuted.

(** It holds for every stream, complete or not, in which no 8-byte window is a big-endian length with the top bit set. *)
Theorem C41_ws_no_overread_partial : forall cs, Forall addr_ok cs -> Forall is_byte (concat (map snd cs)) ->
  (forall i, be_decode (slice (concat (map snd cs)) i 8) < 2 ^ 63) ->
  exists q es, ws_feed ws_init cs = Ok (q, es).
Proof. exact WsBuildProofs.no_overread_windows. Qed.
Print Assumptions C41_ws_no_overread_partial.

Example C41_nonvacuous : let l := repeat 127 40 in
  (forall i, be_decode (slice l i 8) < 2 ^ 63) /\ Forall is_byte l.
Proof.
  cbn zeta. split; [|apply Tac.bytes_dec; reflexivity].
  intro i. destruct (Nat.le_gt_cases 40 i) as [H|H].
  - unfold slice. rewrite skipn_all2 by (cbn; lia). reflexivity.
  - do 40 (destruct i as [|i]; [vm_compute; reflexivity|]). lia.
Qed.
