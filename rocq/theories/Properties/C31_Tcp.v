(** C31, C49-C52: bytes through a TCP channel and the codec service's event handling. *)
From Verif.Model Require Import Common IOBuffer TcpChannel.
From Verif.Spec Require Import ByteQueue TcpSpec.
From Verif.Proofs Require Import Tac IOBufferProofs TcpProofs.

(** the bytes an operation hands to the channel *)
Definition handed (o : top) : list Z := match o with TSend d _ | TAppend d => d | TFlush _ => [] end.

(** C31.  For every sequence of sends, flushes and buffered writes and every kernel behaviour: the
    channel never runs into undefined behaviour; as long as no error is reported the bytes on the
    wire followed by the buffered ones are exactly the bytes handed over, in order; when an error is
    reported the wire holds a prefix of them. *)
Theorem C31_in_order_no_loss e os :
  exists c good, trun (new_chan e) os = Ok (c, good) /\
    (good = true -> c_wire c ++ as_string (c_out c) = concat (map handed os)) /\
    (exists rest, c_wire c ++ rest = concat (map handed os)).
Proof.
  destruct (trun_spec os (new_chan e) (cinv_new e)) as (c & good & E & I & C & p & rest & P & Q).
  exists c, good. split; [exact E|]. split; [exact C|]. exists rest. rewrite P. exact Q.
Qed.

(** Buffered bytes are never forgotten: after a send or flush that reported no error, if bytes are
    still buffered then the last thing the kernel said was "would block" and write events are
    enabled. *)
Theorem C31_write_interest e os o c :
  (forall d, o <> TAppend d) ->
  trun (new_chan e) (os ++ [o]) = Ok (c, true) -> as_string (c_out c) <> [] ->
  c_wr c = true /\ c_errno c = EAgain.
Proof.
  intros NA R N. destruct (trun_snoc _ _ _ _ R) as (c1 & rv & R1 & E & RV).
  destruct (trun_spec os (new_chan e) (cinv_new e)) as (c1' & good & E1 & I1 & _).
  rewrite R1 in E1. inv E1.
  destruct (tstep_spec c1' o I1) as (c' & rv' & E2 & _ & _ & _ & _ & W). rewrite E in E2. inv E2.
  apply W; auto. destruct o; auto. exfalso. eapply NA; eauto.
Qed.

(** A non-negative result of Send or HandleWrite is the number of bytes that call put on the wire. *)
Theorem C31_return_value e os o c c' rv :
  (forall d, o <> TAppend d) ->
  trun (new_chan e) os = Ok (c, true) -> tstep c o = Ok (c', rv) -> (0 <= rv)%Z ->
  exists p, c_wire c' = c_wire c ++ p /\ rv = Z.of_nat (length p).
Proof.
  intros NA R E RV. destruct (trun_spec os (new_chan e) (cinv_new e)) as (c1' & good & E1 & I1 & _).
  rewrite R in E1. inv E1.
  destruct (tstep_spec c1' o I1) as (c2 & rv' & E2 & _ & _ & _ & (p & rest & P & Q & W) & _). rewrite E in E2. inv E2.
  exists p. split; auto. apply W; auto. destruct o; auto. exfalso. eapply NA; eauto.
Qed.

Example C31_nonvacuous :
  match trun (new_chan EOther)
    [TSend [1;2;3;4;5]%Z [KTake 2; KFail EIntr; KTake 1; KFail EAgain]; TAppend [6]%Z;
     TSend [7;8]%Z [KFail EIntr; KTake 1; KFail EAgain]; TFlush [KTake 2]] with
  | Ok (c, good) => good = true /\ c_wire c = [1;2;3;4;5;6]%Z /\ as_string (c_out c) = [7;8]%Z /\ c_wr c = true
  | _ => False
  end.
Proof. vm_compute. repeat split; reflexivity. Qed.
Example C31_nonvacuous_error :
  match trun (new_chan EOther) [TSend [1;2;3;4;5]%Z [KTake 2; KFail EOther]; TSend [9]%Z [KTake 1]] with
  | Ok (c, good) => good = false /\ c_wire c = [1;2]%Z
  | _ => False
  end.
Proof. vm_compute. split; reflexivity. Qed.

(** C49.  HandleRead appends exactly what the kernel handed over, in order, never writes outside the
    buffer, and unless it reports an error it stops only when the kernel has nothing more (which an
    edge-triggered poller needs). *)
Theorem C49_read_exact c ks :
  binv (c_out c) -> binv (c_in c) ->
  exists c' rv got, handle_read ks c = Ok (c', rv, got) /\
    as_string (c_in c') = as_string (c_in c) ++ got /\
    ((rv = -1)%Z \/ (rv = Z.of_nat (length (as_string (c_in c'))) /\ c_errno c' = EAgain)).
Proof.
  intros A B. destruct (read_loop_spec ks c [] (conj A B)) as (c' & rv & more & E & _ & S & _ & _ & _ & R).
  exists c', rv, more. split; [exact E|]. auto.
Qed.

(** Nothing of what the kernel offers in pieces of at most 2 KiB is cut off. *)
Theorem C49_read_everything_offered c ks :
  binv (c_out c) -> binv (c_in c) ->
  (forall b bs, In (KGot b bs) ks -> length (b :: bs) <= 2048) ->
  exists c' rv, handle_read ks c = Ok (c', rv, got_of ks).
Proof. intros A B H. apply (read_loop_all ks c [] (conj A B) H). Qed.

(** A service that is not about to close hands everything received to the codec before it reports
    the close, also when the same event ends in EOF or an error, and reports the close at most once. *)
Theorem C49_data_before_close ci cs s ev kw kr s' es :
  binv (c_out (s_chan s)) -> binv (c_in (s_chan s)) -> s_sched s = false ->
  handle_event ci cs s ev kw kr = Ok (s', es) ->
  exists data closed, es = data ++ closed /\
    (data = [] \/ exists bs, data = [SData bs]) /\ (closed = [] \/ closed = [SClosed]) /\
    (has_read ev = true -> forall c1 rv got,
       handle_read kr (fst (if has_write ev then handle_write kw (s_chan s) else (s_chan s, 0%Z))) = Ok (c1, rv, got) ->
       (has_write ev = true -> (0 <= snd (handle_write kw (s_chan s)))%Z) ->
       as_string (c_in (s_chan s)) ++ got <> [] -> data = [SData (as_string (c_in (s_chan s)) ++ got)]).
Proof.
  intros A B SC H. unfold handle_event in H.
  assert (W : exists s1 ok, socket_read_write s ev kw kr = Ok (s1, ok, []) /\ s_sched s1 = false /\
     binv (c_out (s_chan s1)) /\ binv (c_in (s_chan s1)) /\
     (has_read ev = true -> forall c1 rv got,
       handle_read kr (fst (if has_write ev then handle_write kw (s_chan s) else (s_chan s, 0%Z))) = Ok (c1, rv, got) ->
       (has_write ev = true -> (0 <= snd (handle_write kw (s_chan s)))%Z) ->
       as_string (c_in (s_chan s1)) = as_string (c_in (s_chan s)) ++ got)).
  { unfold socket_read_write.
    assert (RD : forall c0, binv (c_out c0) -> binv (c_in c0) -> c_in c0 = c_in (s_chan s) ->
      exists c2 rv got, handle_read kr c0 = Ok (c2, rv, got) /\ binv (c_out c2) /\ binv (c_in c2) /\
        as_string (c_in c2) = as_string (c_in (s_chan s)) ++ got).
    { intros c0 A0 B0 I0. destruct (read_loop_spec kr c0 [] (conj A0 B0)) as (c' & rv & more & E & [I1 I2] & S & _).
      exists c', rv, more. rewrite I0 in S. repeat split; try apply I1; try apply I2; auto. }
    destruct (has_write ev) eqn:HW.
    - destruct (handle_write kw (s_chan s)) as [c1 rv] eqn:EW.
      destruct (handle_write_spec _ _ _ _ (conj A B) EW) as ([I1 I2] & IN & _). cbn [fst snd] in *.
      destruct (rv <? 0)%Z eqn:N.
      + eexists _, _. split; [reflexivity|]. cbn [s_sched s_chan]. repeat (split; auto); try apply I1; try apply I2.
        intros _ ? ? ? _ P. b2p. specialize (P eq_refl). lia.
      + replace (if (0 <? rv)%Z && (can_read (c_out c1) =? 0)
                then let '(s2, es) := on_finish (mksvc c1 (s_sched s) (s_open s)) in (s2, true, es)
                else (mksvc c1 (s_sched s) (s_open s), true, [])) with (mksvc c1 (s_sched s) (s_open s), true, @nil sev).
        2:{ destruct (_ && _); auto. unfold on_finish. cbn [s_sched]. rewrite SC. auto. }
        destruct (has_read ev).
        * cbn [s_chan]. destruct (RD c1 I1 I2 IN) as (c2 & rv2 & got & E & J1 & J2 & S). rewrite E. cbn [obind].
          eexists _, _. split; [reflexivity|]. cbn [s_sched s_chan]. repeat (split; auto); try apply J1; try apply J2.
          intros _ c3 rv3 got3 E3 _. inv E3. exact S.
        * eexists _, _. split; [reflexivity|]. cbn [s_sched s_chan]. repeat (split; auto); try apply I1; try apply I2. discriminate.
    - destruct (has_read ev).
      + cbn [fst]. destruct (RD (s_chan s) A B eq_refl) as (c2 & rv2 & got & E & J1 & J2 & S). rewrite E. cbn [obind].
        eexists _, _. split; [reflexivity|]. cbn [s_sched s_chan]. repeat (split; auto); try apply J1; try apply J2.
        intros _ c3 rv3 got3 E3 _. inv E3. exact S.
      + eexists _, _. split; [reflexivity|]. repeat (split; auto); try apply A; try apply B. discriminate. }
  destruct W as (s1 & ok & E & SC1 & A1 & B1 & RDS). rewrite E in H. cbn [obind app] in H.
  set (data := if can_read (c_in (s_chan s1)) =? 0 then [] else [SData (as_string (c_in (s_chan s1)))]).
  exists data. 
  assert (HH : exists closed, es = data ++ closed /\ (closed = [] \/ closed = [SClosed])).
  { unfold data. destruct (can_read (c_in (s_chan s1)) =? 0);
    cbn [close_service] in H; destruct (ok && _ && _) in H; inv H; eexists; (split; [reflexivity|]); auto. }
  destruct HH as (closed & -> & CL). exists closed. split; [auto|]. split; [|split; [auto|]].
  - unfold data. destruct (_ =? 0); eauto.
  - intros HR c1 rv got E1 P NE. specialize (RDS HR _ _ _ E1 P). unfold data.
    destruct (can_read (c_in (s_chan s1)) =? 0) eqn:Z0; b2p.
    + exfalso. apply NE. rewrite <- RDS. now apply can_read_nil.
    + now rewrite RDS.
Qed.

Example C49_nonvacuous :
  match handle_event (fun b => consume b (can_read b)) (fun _ => false)
    (mksvc (new_chan EAgain) false true) {| has_read := true; has_write := true; has_error := false |}
    [] [KGot 1%Z [2]%Z; KRFail EIntr; KGot 3%Z []; KEof] with
  | Ok (_, es) => es = [SData [1;2;3]%Z; SClosed]
  | _ => False
  end.
Proof. vm_compute. reflexivity. Qed.

(** C50.  Full statement: sending no bytes succeeds. *)
Definition C50_statement : Prop := forall e os c ks c' rv,
  trun (new_chan e) os = Ok (c, true) -> send ks c [] = Ok (c', rv) -> (0 <= rv)%Z.

(** False: write(2) of zero bytes returns 0 and Send then looks at an errno left by some earlier,
    unrelated call; if it is neither EAGAIN nor EINTR the send "fails".  A raw heartbeat (empty
    content, raw_message.cc:89-95) is such a send: its header is on the wire, yet it is reported as
    failed. *)
Theorem C50_statement_refuted : ~ C50_statement.
Proof.
  intro S. specialize (S EOther [TSend [1]%Z [KTake 1]]).
  cbv -[Z.le] in S. specialize (S _ [] _ _ eq_refl eq_refl). lia.
Qed.

(** What holds: it never changes the wire or the buffered bytes, and it succeeds whenever the last
    errno was EAGAIN or EINTR, or bytes are buffered and the kernel does not fail. *)
Theorem C50_empty_send_keeps_bytes_partial e os c ks c' rv :
  trun (new_chan e) os = Ok (c, true) -> send ks c [] = Ok (c', rv) ->
  (0 <= rv)%Z -> c_wire c' ++ as_string (c_out c') = c_wire c ++ as_string (c_out c).
Proof.
  intros R E RV. destruct (trun_spec os (new_chan e) (cinv_new e)) as (c1' & good & E1 & I1 & _).
  rewrite R in E1. inv E1.
  destruct (tstep_spec c1' (TSend [] ks) I1) as (c2 & rv' & E2 & _ & _ & W & _). cbn [tstep] in E2. rewrite E in E2. inv E2.
  rewrite (W RV). cbn. now rewrite app_nil_r.
Qed.
Theorem C50_empty_send_ok_partial c ks :
  binv (c_out c) -> can_read (c_out c) = 0 -> c_errno c <> EOther ->
  exists c', send ks c [] = Ok (c', 0%Z) /\ c_wire c' = c_wire c /\ as_string (c_out c') = [].
Proof.
  intros I Z0 NE. unfold send. rewrite Z0. cbn [Nat.ltb Nat.leb].
  assert (S : as_string (c_out c) = []) by (now apply can_read_nil).
  destruct (write_spec (c_out c) [] I) as (o & E & I1 & S1).
  destruct ks; cbn [send_loop]; (destruct (c_errno c); [rewrite E; cbn [obind]| |congruence]);
    eexists; (split; [reflexivity|]); (split; [reflexivity|]); cbn [c_out]; rewrite ?S1, S; reflexivity.
Qed.

(** C51.  Full statement: the owner of a service is told about its close at most once. *)
Definition closes (es : list sev) : nat :=
  length (filter (fun e => match e with SClosed => true | _ => false end) es).
Definition C51_statement : Prop := forall ci cs s ev kw kr s' es,
  binv (c_out (s_chan s)) -> binv (c_in (s_chan s)) ->
  handle_event ci cs s ev kw kr = Ok (s', es) -> closes es <= 1.

(** False: a service that is to close after its response ("Connection: close") and whose response
    is completed by a write event closes inside SocketReadWrite and again at the end of HandleEvent;
    bytes that arrive with the same event are even delivered between the two. *)
Definition c51_chan : chan :=
  match trun (new_chan EAgain) [TSend [7]%Z []] with Ok (c, _) => c | _ => new_chan EAgain end.
Definition c51_outcome := handle_event (fun b => consume b (can_read b)) (fun _ => false) (mksvc c51_chan true true)
     {| has_read := true; has_write := true; has_error := false |} [KTake 1] [KGot 9%Z []].
Example C51_history :
  match c51_outcome with Ok (_, es) => es = [SClosed; SData [9]%Z; SClosed] | _ => False end.
Proof. vm_compute. reflexivity. Qed.
Theorem C51_statement_refuted : ~ C51_statement.
Proof.
  intro S.
  assert (I : cinv c51_chan).
  { unfold c51_chan. destruct (trun_spec [TSend [7]%Z []] (new_chan EAgain) (cinv_new EAgain)) as (c & g & E & I & _).
    rewrite E. exact I. }
  destruct I as [I1 I2]. pose proof C51_history as H. unfold c51_outcome in H.
  destruct (handle_event _ _ _ _ _ _) as [[s' es]| |] eqn:E; try contradiction.
  subst es. apply S in E; auto. unfold closes in E. cbn in E. lia.
Qed.
Theorem C51_once_unless_scheduled_partial ci cs s ev kw kr s' es :
  binv (c_out (s_chan s)) -> binv (c_in (s_chan s)) -> s_sched s = false ->
  handle_event ci cs s ev kw kr = Ok (s', es) -> closes es <= 1.
Proof.
  intros A B SC H. destruct (C49_data_before_close _ _ _ _ _ _ _ _ A B SC H) as (data & closed & -> & [->|[bs ->]] & [->| ->] & _);
    cbn; lia.
Qed.

Print Assumptions C31_in_order_no_loss.
Print Assumptions C31_write_interest.
Print Assumptions C31_return_value.
Print Assumptions C49_read_exact.
Print Assumptions C49_read_everything_offered.
Print Assumptions C49_data_before_close.
Print Assumptions C50_statement_refuted.
Print Assumptions C50_empty_send_keeps_bytes_partial.
Print Assumptions C50_empty_send_ok_partial.
Print Assumptions C51_statement_refuted.
Print Assumptions C51_once_unless_scheduled_partial.
