(** C11, C12, C13, C42: the redis (RESP) decoder, encoder and client codec. *)
From Verif.Model Require Import Common Decimal Resp.
From Verif.Spec Require Import RespSpec.
From Verif.Proofs Require RespProofs RespRound RespSvc.
Open Scope Z_scope.

(** C11. The values (up to the first protocol error, and whether there is one) depend only on the bytes, not on how
    they are cut into pieces. [feed_all] never runs out of fuel: it is equal to a result computed without fuel. *)
Theorem C11_resp_chunk_independent : forall c1 c2, concat c1 = concat c2 ->
  feed_all new_dec c1 = feed_all new_dec c2.
Proof. exact RespProofs.chunk_independent. Qed.
Print Assumptions C11_resp_chunk_independent.

(** Byte by byte is the finest fragmentation; and the stream is not trivially an error. *)
Example C11_nonvacuous :
  let s := [42;50;13;10; 42;49;13;10; 36;51;13;10;13;10;0;13;10; 58;45;55;13;10; 43;79;75;13;10; 43] in
  feed_all new_dec (map (fun c => [c]) s) = Ok ([RArray [RArray [RBulk [13;10;0]]; RInt (-7)]; RString [79;75]], false) /\
  concat (map (fun c => [c]) s) = concat [s].
Proof. vm_compute. split; reflexivity. Qed.

(** C12. Decoding the wire image of any RESP value gives the value back and consumes exactly its bytes, whatever
    bytes follow. *)
Theorem C12_decode_wire : forall v rest, wf_rval v ->
  exists d, decode new_dec (wire v ++ rest) = Ok (RCompleted (length (wire v)) v, d).
Proof.
  exact (fun v rest W => let '(ex_intro _ d (conj H _)) := RespRound.decode_wire v rest W new_dec eq_refl eq_refl in
                         ex_intro _ d H).
Qed.
Print Assumptions C12_decode_wire.

(** A whole pipeline of values, in any fragments. *)
Theorem C12_stream_round_trip : forall chunks vs, Forall wf_rval vs -> concat chunks = concat (map wire vs) ->
  feed_all new_dec chunks = Ok (vs, false).
Proof. exact RespRound.stream_round. Qed.
Print Assumptions C12_stream_round_trip.

(** A command is encoded as the array of its words, each a bulk string (words and word count below 2^32). *)
Theorem C12_command_is_array_of_bulks : forall cmd args,
  Forall (fun a => Z.of_nat (length a) < 2 ^ 32) (cmd :: args) -> Z.of_nat (length args) + 1 < 2 ^ 32 ->
  encode_cmd cmd args = wire (RArray (map RBulk (cmd :: args))).
Proof. exact RespRound.encode_cmd_wire. Qed.
Print Assumptions C12_command_is_array_of_bulks.

(** The numbers in [wire] and in encoded commands are decimal text, as RESP requires. *)
Theorem C12_numbers_are_decimal :
  (forall n, 0 <= n < 2 ^ 64 -> decimal n (udec n) /\ sdec n = udec n) /\
  (forall n, - 2 ^ 63 <= n < 0 -> exists l, sdec n = 45 :: l /\ decimal (- n) l).
Proof.
  assert (U : forall f n, f <> O -> 0 <= n < 10 ^ Z.of_nat f -> decimal n (udec_fuel f n)).
  { induction f as [|f IH]; intros n Hf H; [congruence|].
    cbn [udec_fuel]. destruct (Z.ltb_spec n 10).
    - apply dec_digit. lia.
    - rewrite Nat2Z.inj_succ, Z.pow_succ_r in H by lia. assert (P : 0 < n / 10) by (apply Z.div_str_pos; lia).
      replace (decimal n) with (decimal (10 * (n / 10) + n mod 10)) by (f_equal; symmetry; apply Z.div_mod; lia).
      apply dec_more; auto; [|apply Z.mod_pos_bound; lia]. apply IH; [intros ->; cbn in H; lia|]. split; [lia|]. apply Z.div_lt_upper_bound; lia. }
  split; intros n H.
  - split; [apply (U 20%nat); [discriminate|change (10 ^ Z.of_nat 20) with (10 ^ 20); lia]|]. unfold sdec. now destruct (Z.ltb_spec n 0); [lia|].
  - unfold sdec. destruct (Z.ltb_spec n 0); [|lia]. exists (udec (- n)). split; auto. apply (U 20%nat); [discriminate|change (10 ^ Z.of_nat 20) with (10 ^ 20); lia].
Qed.
Print Assumptions C12_numbers_are_decimal.

Example C12_nonvacuous :
  wf_rval (RArray [RNull; RString [79; 75]; RError [69]; RInt (- 2 ^ 63); RBulk [13; 10; 255]; RArray [RArray []]]) /\
  encode_cmd [71;69;84] [[107]] = [42;50;13;10; 36;51;13;10; 71;69;84;13;10; 36;49;13;10; 107;13;10].
Proof.
  split; [|vm_compute; reflexivity].
  constructor; [cbn; lia|]. repeat (constructor; try (cbn; lia)).
Qed.

(** C13 (full statement): in every history in which the server answers each request after it was submitted, every
    request completes with exactly its own replies, in order. *)
Definition C13_statement : Prop := forall xs es,
  Forall good_exchange xs -> history xs es ->
  exists s, svc_run new_rsvc es = Ok (map (fun x => Done (xid x) (replies x)) xs, s).

(** Refuted: a request submitted while another one is in flight is sent from inside the completion callback; then
    OnDataReceived resets next_incoming_count_ to 0, so its reply is counted as 2^32-1 missing replies and the
    request never completes. *)
Theorem C13_queued_request_lost_refuted : ~ C13_statement.
Proof.
  intro H. pose (x i := mkx i [RString [79; 75]] [[43;79;75;13;10]]).
  assert (G : forall i, good_exchange (x i)).
  { intro i. repeat split; try (cbn; lia); try reflexivity. repeat constructor; lia. }
  destruct (H [x 1%nat; x 2%nat] [Submit 1 1; Submit 2 1; Data [43;79;75;13;10]; Data [43;79;75;13;10]]) as [s E].
  - constructor; [apply G|constructor; [apply G|constructor]].
  - repeat split; try reflexivity.
    intros es1 b es2 E. destruct es1 as [|e1 [|e2 [|e3 [|e4 es1]]]]; inversion E; subst; cbn; try lia.
    destruct es1; discriminate.
  - vm_compute in E. discriminate.
Qed.
Print Assumptions C13_queued_request_lost_refuted.

(** What holds: when each request is submitted after the previous one completed, every request completes with exactly
    its replies in order, for every fragmentation, and the connection is idle again afterwards. *)
Theorem C13_sequential_requests_partial : forall xs, Forall good_exchange xs ->
  exists s, svc_run new_rsvc (sequential xs) = Ok (map (fun x => Done (xid x) (replies x)) xs, s) /\
            ing s = None /\ waiting s = [] /\ next_incoming s = 0.
Proof. exact RespSvc.sequential_final. Qed.
Print Assumptions C13_sequential_requests_partial.

Example C13_nonvacuous : Forall good_exchange
  [mkx 1 [RString [79; 75]; RBulk [1; 2]] [[43]; [79;75;13;10;36]; [50;13;10;1]; [2;13;10]];
   mkx 2 [RArray [RInt 5]] [[42;49;13]; [10;58;53;13;10]]].
Proof.
  repeat constructor; cbn; try lia.
Qed.

(** C42 (full statement): dumping a response for logging leaves it unchanged. *)
Definition C42_statement : Prop := forall results, debug_dump results = results.
Theorem C42_dump_destroys_arrays_refuted : ~ C42_statement.
Proof. intro H. specialize (H [RArray [RInt 1]]). discriminate. Qed.
Print Assumptions C42_dump_destroys_arrays_refuted.
Theorem C42_dump_keeps_scalars_partial : forall results,
  Forall (fun v => match v with RArray (_ :: _) => False | _ => True end) results -> debug_dump results = results.
Proof.
  induction 1 as [|v l H Hl IH]; [reflexivity|]. unfold debug_dump in *. cbn [map]. rewrite IH. f_equal.
  destruct v as [| | | | |[|]]; try reflexivity. contradiction.
Qed.
Print Assumptions C42_dump_keeps_scalars_partial.
