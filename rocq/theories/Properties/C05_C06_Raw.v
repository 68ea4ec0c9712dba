(** C05, C06: the raw protocol codec. *)
From Verif.Model Require Import Common Bytes IOBuffer RawCodec.
From Verif.Spec Require Import RawSpec.
From Verif.Proofs Require RawProofs BytesProofs Tac.
Open Scope Z_scope.

(** EncodeTo of a message built through the API writes exactly its wire image. *)
Theorem C05_encode_is_wire : forall pad m, valid_raw m -> raw_encode pad m = Ok (wire (pad, m)).
Proof. exact RawProofs.encode_wire. Qed.
Print Assumptions C05_encode_is_wire.

(** Client side: any messages, encoded back to back (arbitrary padding), in arbitrary fragments, possibly followed
    by an incomplete frame [t], are all delivered with equal fields, in order, and only [t] stays buffered. *)
Theorem C05_raw_round_trip : forall chunks xs t,
  Forall sendable xs -> partial_frame t -> concat chunks = concat (map wire xs) ++ t ->
  Z.of_nat (length (concat chunks)) < 2 ^ 63 ->
  exists b, raw_run false new_buf chunks = Ok (map RDeliver (map snd xs), b) /\ as_string b = t.
Proof. exact (fun cs xs t => RawProofs.raw_round_trip false cs xs t). Qed.
Print Assumptions C05_raw_round_trip.

(** Server side: the same, except that each heartbeat (code 0, method 255) is answered, at its place in the order,
    with an empty heartbeat carrying the same sequence id instead of being delivered. *)
Theorem C05_raw_server_round_trip : forall chunks xs t,
  Forall sendable xs -> partial_frame t -> concat chunks = concat (map wire xs) ++ t ->
  Z.of_nat (length (concat chunks)) < 2 ^ 63 ->
  exists b, raw_run true new_buf chunks =
    Ok (map (fun m => if (rcode m =? 0) && (rmethod m =? 255) then RReply (mkraw 0 255 0 (rseq m) []) else RDeliver m)
            (map snd xs), b) /\ as_string b = t.
Proof. exact (fun cs xs t => RawProofs.raw_round_trip true cs xs t). Qed.
Print Assumptions C05_raw_server_round_trip.

(** A response built with CreateResponse and SetContent for a received request reaches the requester with the
    request's sequence id and method, code 0 and the given content. *)
Theorem C05_response_matches_request : forall chunks pad req content,
  valid_raw req -> length pad = 6%nat -> Z.of_nat (length content) + 24 < 2 ^ 63 ->
  raw_encode pad (set_content (create_response req) content) = Ok (concat chunks) ->
  exists b, raw_run false new_buf chunks =
    Ok ([RDeliver (mkraw 0 (rmethod req) (Z.of_nat (length content)) (rseq req) content)], b) /\ as_string b = [].
Proof.
  intros chunks pad req content (_ & M & S & _) P L E. set (m := set_content (create_response req) content) in *.
  assert (V : valid_raw m) by (repeat split; cbn; try apply M; lia).
  rewrite C05_encode_is_wire in E by auto. assert (E2 : wire (pad, m) = concat chunks) by congruence. clear E. rename E2 into E.
  apply (C05_raw_round_trip chunks [(pad, m)] []).
  - constructor; [split; auto|constructor].
  - left; auto.
  - cbn [map concat]. now rewrite !app_nil_r.
  - rewrite <- E. unfold wire. rewrite !app_length, P. cbn [length]. rewrite !BytesProofs.le_encode_length. unfold m. cbn [rcontent set_content create_response]. lia.
Qed.
Print Assumptions C05_response_matches_request.

Definition ex_m1 := set_content (mkraw 3 7 0 (2 ^ 40 + 5) []) [1; 2; 3].
Definition ex_m2 := mkraw 0 255 0 9 [].
Example C05_nonvacuous :
  Forall sendable [([0;0;0;0;0;0], ex_m1); ([1;2;3;4;5;6], ex_m2)] /\ partial_frame [3; 7] /\
  length (wire ([0;0;0;0;0;0], ex_m1)) = 27%nat.
Proof.
  split; [repeat constructor; cbn; lia|]. split; [|reflexivity].
  right. exists ([0;0;0;0;0;0], ex_m1). eexists. split.
  - repeat split; cbn; try lia.
  - split; [cbn; reflexivity|discriminate].
Qed.

(** C06 (full statement): whatever bytes arrive, decoding neither reads outside the received bytes nor
    terminates the process. *)
Definition C06_statement : Prop := forall server chunks,
  Forall is_byte (concat chunks) -> Z.of_nat (length (concat chunks)) < 2 ^ 63 ->
  exists es b p, raw_run server new_buf chunks = Ok (es, b) /\ concat chunks = p ++ as_string b.

(** Refuted: content_size = 2^64-24 makes frame_size() wrap to 0; the decoder then appends 2^64-24 bytes,
    std::string throws and the process terminates. *)
Theorem C06_hostile_size_refuted : ~ C06_statement.
Proof. exact RawProofs.hostile_refuted. Qed.
Print Assumptions C06_hostile_size_refuted.

(** What holds for every input: no byte outside the received ones is ever read. *)
Theorem C06_raw_no_overread : forall server chunks,
  Forall is_byte (concat chunks) -> Z.of_nat (length (concat chunks)) < 2 ^ 63 ->
  raw_run server new_buf chunks <> UB.
Proof. exact RawProofs.never_oob. Qed.
Print Assumptions C06_raw_no_overread.

(** And if no 8-byte window of the stream is one of the 24 wrapping sizes, decoding also survives and only
    consumes a prefix of what was received. *)
Theorem C06_raw_survives_partial : forall server chunks,
  Forall is_byte (concat chunks) -> Z.of_nat (length (concat chunks)) < 2 ^ 63 ->
  (forall i, le_decode (slice (concat chunks) (i + 8) 8) < 2 ^ 64 - 24) ->
  exists es b p, raw_run server new_buf chunks = Ok (es, b) /\ concat chunks = p ++ as_string b.
Proof. exact RawProofs.survives. Qed.
Print Assumptions C06_raw_survives_partial.

(** Garbage that is not a frame sequence. *)
Example C06_nonvacuous : let chunks := [repeat 17 30; repeat 5 3] in
  Forall is_byte (concat chunks) /\ (forall i, le_decode (slice (concat chunks) (i + 8) 8) < 2 ^ 64 - 24).
Proof.
  cbn zeta. split.
  - apply Tac.bytes_dec. vm_compute. reflexivity.
  - intro i. destruct (Nat.le_gt_cases 33 i) as [H|H].
    + unfold slice. rewrite skipn_all2 by (cbn; lia). reflexivity.
    + do 33 (destruct i as [|i]; [vm_compute; reflexivity|]). lia.
Qed.
