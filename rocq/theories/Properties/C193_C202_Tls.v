(** C193-C202: TLS channels (net_io/tcp_channel_ssl.cc), TLS contexts (base/crypto/lt_ssl.cc) and protocol selection
    (net_io/codec/http/h2/h2_tls_context.cc). *)
From Verif.Model Require Import Common TlsChannel TlsCtx.
From Verif.Spec Require Import TlsSpec.
From Verif.Proofs Require Import Tac TlsProofs TlsProofs2 TlsProofs3.
Local Open Scope nat_scope.
Local Opaque kBlock.

(** The channel as the code configures it: moving write buffers are not accepted. *)
Definition run (h : bool) (os : list op) : tls := do_ops false (new_tls h EAgain) os.

(** * C193: the bytes handed to OpenSSL are the bytes sent, in order, without loss or repetition. *)
Theorem C193_tls_stream : forall moving h e os,
  let c := do_ops moving (new_tls h e) os in let s := sent moving (new_tls h e) os in
  prefix_of (t_wire c) s /\ (t_dead c = false -> t_wire c ++ t_out c = s).
Proof.
  intros moving h e os. cbn zeta. destruct (ops_intact moving os (new_tls h e) [] (new_intact h e)) as [I _]. cbn [app] in I. unfold intact in I.
  destruct (t_dead _); [split; [exact I|discriminate]|]. destruct I as [I _]. rewrite <- I. split; [exists (t_out (do_ops moving (new_tls h e) os)); reflexivity|reflexivity].
Qed.
(** Sent while the handshake runs, written when it is done; a second piece while the first is queued. *)
Example C193_case : let os := [OSend [1; 2; 3]%Z 100 200 EAgain [Ans false AWantRead]; OSend [4]%Z 300 200 EAgain [Ans false AWantRead];
    ORead EAgain [RAns true (RFail AWantRead)]; OWrite EAgain [Ans false ADone]; OSend [5; 6]%Z 400 500 EAgain [Ans false (ASyscall EIntr); Ans false ADone]] in
  t_wire (run false os) = [1; 2; 3; 4; 5; 6]%Z /\ t_dead (run false os) = false.
Proof. vm_compute. tauto. Qed.

(** * C194: a connection is not closed because the socket's buffer is full for a while. *)
Definition C194_statement : Prop := forall h e os, (forall o, In o os -> mild_op o) -> t_dead (do_ops false (new_tls h e) os) = false.
(** Send gets WANT_WRITE and copies the rest into its own buffer; the retry from there is refused by OpenSSL. *)
Definition full_socket : list op := [OSend [1; 2; 3]%Z 100 200 EAgain [Ans false AWantWrite]; OWrite EAgain [Ans false ADone]].
Theorem C194_statement_refuted : ~ C194_statement.
Proof.
  intros S. assert (D : t_dead (do_ops false (new_tls true EAgain) full_socket) = true) by (vm_compute; reflexivity).
  rewrite S in D; [discriminate|]. intros o [<- |[<- |[]]]; cbn; (split; [discriminate|]); intros x [<- |[]]; exact Logic.I.
Qed.
(** Every Send of non-empty data that meets a full socket on an idle, established connection leads to the close at the next
    writable event, whatever OpenSSL would have answered, unless the buffer happens to lie at the same address. *)
Theorem C194_full_socket_closes_partial : forall c d a na e ks e' ks', t_dead c = false -> hs (t_ssl c) = true -> pend (t_ssl c) = None ->
  t_out c = [] -> d <> [] -> na <> a -> ks' <> [] ->
  t_dead (do_ops false c [OSend d a na e (Ans false AWantWrite :: ks); OWrite e' ks']) = true.
Proof.
  intros [[h p w] out inp ad wr rd en wire dead] d a na e ks e' ks' D H P O N Na K. cbn in D, H, P, O. subst.
  assert (B : (length (firstn kBlock d) =? 0) = false). { destruct d; [congruence|]. destruct kBlock_S as [n ->]. reflexivity. }
  assert (E : (a =? na)%Z = false) by (apply Z.eqb_neq; congruence).
  destruct ks' as [|k ks']; [congruence|]. cbn [do_ops fold_left].
  assert (S1 : exists w1, do_op false (Tls (Ssl true None w) [] inp ad wr rd en wire false) (OSend d a na e (Ans false AWantWrite :: ks)) =
    Tls (Ssl true (Some (a, firstn kBlock d)) true) d inp na w1 rd EAgain wire false).
  { unfold do_op, Send. cbn [t_dead set_errno t_out length Nat.eqb negb send_loop hd]. unfold send_round, ssl_write.
    cbn [t_ssl set_errno a_hs a_res is_done hs orb negb]. rewrite B. eexists. cbn. reflexivity. }
  destruct S1 as [w1 ->]. unfold do_op, HandleWrite. cbn [t_dead set_errno write_loop hd]. unfold write_round, ssl_write.
  cbn [t_ssl set_errno hs orb negb t_out o_addr]. rewrite B. unfold bad_retry. cbn [pend]. rewrite E. reflexivity.
Qed.
Theorem C194_moving_buffers_partial : forall h e os, (forall o, In o os -> mild_op o) -> t_dead (do_ops true (new_tls h e) os) = false.
Proof.
  intros h e os M. apply (ops_mild true os (new_tls h e)); [split; [reflexivity|intros pa p Q; discriminate Q]|].
  intros o I. split; [exact (M o I)|left; reflexivity].
Qed.
(** As long as the socket takes all data; afterwards, as long as the queue is only written by writable events. *)
Theorem C194_no_backpressure_partial : forall h e os os', (forall o, In o os -> mild_op o /\ unblocked o) ->
  (forall o, In o os' -> mild_op o /\ events_only o) -> t_dead (do_ops false (new_tls h e) (os ++ os')) = false.
Proof.
  intros h e os os' A B. unfold do_ops. rewrite fold_left_app. apply (ops_mild false os' (do_ops false (new_tls h e) os)).
  - apply clean_good, ops_open; [split; reflexivity|exact A].
  - intros o I. destruct (B o I). tauto.
Qed.
Example C194_case : t_dead (run false [OSend [1; 2; 3]%Z 100 200 EAgain [Ans false AWantRead]; ORead EAgain [RAns true (RFail AWantRead)];
  OWrite EAgain [Ans false AWantWrite]; OWrite EAgain [Ans false (ASyscall EIntr); Ans false AWantWrite]; OWrite EAgain [Ans false ADone]]) = false.
Proof. vm_compute. reflexivity. Qed.
Example C194_moving_case : let c := do_ops true (new_tls true EAgain) (full_socket ++ [OSend [9]%Z 7 8 EAgain [Ans false ADone]]) in
  t_dead c = false /\ t_wire c = [1; 2; 3; 9]%Z.
Proof. vm_compute. tauto. Qed.

(** * C195: a writable event (or an empty Send) with nothing to send does not close an established connection. *)
Definition C195_statement : Prop := forall c e, t_dead c = false -> hs (t_ssl c) = true -> t_out c = [] ->
  t_dead (do_op false c (OWrite e [Ans false ADone])) = false.
Theorem C195_statement_refuted : ~ C195_statement.
Proof. intros S. discriminate (S (new_tls true EAgain) EOther eq_refl eq_refl eq_refl). Qed.
Theorem C195_idle_write_partial : forall c e ks, t_dead c = false -> hs (t_ssl c) = true -> t_out c = [] -> e <> EOther ->
  (forall c', c' = do_op false c (OWrite e ks) \/ (exists a na, c' = do_op false c (OSend [] a na e ks)) ->
    t_dead c' = false /\ t_wire c' = t_wire c /\ t_out c' = [] /\ t_wr c' = false).
Proof.
  intros c e ks D H O E c' [-> |(a & na & ->)]; unfold do_op; rewrite D.
  - unfold HandleWrite. destruct ks as [|k ks]; cbn [write_loop hd]; unfold write_round, ssl_write; cbn [t_ssl set_errno t_out]; rewrite H, O, firstn_nil;
      cbn; destruct e; try congruence; cbn; rewrite ?O; cbn; rewrite ?O, ?D; tauto.
  - unfold Send. cbn [t_out set_errno]. rewrite O. cbn [length Nat.eqb negb].
    destruct ks as [|k ks]; cbn [send_loop hd]; unfold send_round, ssl_write; cbn [t_ssl set_errno t_out]; rewrite H, firstn_nil;
      cbn; destruct e; try congruence; cbn; rewrite ?O; cbn; rewrite ?O, ?D; tauto.
Qed.
Example C195_case : hs (t_ssl (new_tls true EAgain)) = true /\ t_out (new_tls true EAgain) = [] /\ EIntr <> EOther.
Proof. repeat split. discriminate. Qed.

(** * C196: reading delivers exactly the decrypted bytes, and reads until OpenSSL has no more. *)
Theorem C196_reading : forall ks c,
  let '(c', n) := HandleRead ks c in
  t_in c' = t_in c ++ plaintext ks /\ t_out c' = t_out c /\ t_wire c' = t_wire c /\
  (n = (-1)%Z /\ t_dead c' = true <-> match ending ks with AZeroReturn | ASslError | ASyscall EOther | ADone => True | _ => False end) /\
  (n <> (-1)%Z -> n = Z.of_nat (length (t_in c')) /\ t_dead c' = t_dead c).
Proof.
  intros ks c. unfold HandleRead. destruct (read_loop ks c) as [c1 r] eqn:W.
  apply read_loop_ok in W as (R1 & R2 & R3 & R4 & R5 & R6 & R7 & R8 & R9 & R10 & R11).
  destruct r as [n|]; cbn; do 3 (split; [assumption|]).
  - rewrite <- R10. split; [split; [intros [Q _]; lia|discriminate]|]. intros _. split; [f_equal; apply R11; reflexivity|exact R3].
  - split; [|congruence]. rewrite <- R10. tauto.
Qed.
Theorem C196_history : forall moving h e os, t_in (do_ops moving (new_tls h e) os) = received moving (new_tls h e) os.
Proof. intros moving h e os. exact (proj2 (ops_intact moving os (new_tls h e) [] (new_intact h e))). Qed.
Example C196_case : t_in (run true [ORead EAgain [RAns false (RData 1 [2%Z]); RAns false (RFail (ASyscall EIntr)); RAns false (RData 3 []); RAns false (RFail AZeroReturn)]]) = [1; 2; 3]%Z.
Proof. vm_compute. reflexivity. Qed.

(** * C197: queued data is always waiting for a writable socket, and the channel always listens for data. *)
Theorem C197_interest : forall moving h e os, let c := do_ops moving (new_tls h e) os in
  t_dead c = false -> (t_out c <> [] -> t_wr c = true) /\ t_rd c = true.
Proof. intros moving h e os. exact (ops_listening moving os (new_tls h e) [] (new_intact h e) (new_listening h e)). Qed.
(** No busy loop: after a write the interest is on only if data is queued. *)
Theorem C197_no_spin : forall moving ks c, (snd (HandleWrite moving ks c) = -1)%Z \/
  (t_wr (fst (HandleWrite moving ks c)) = true <-> t_out (fst (HandleWrite moving ks c)) <> []).
Proof. exact write_interest. Qed.
Theorem C197_no_spin_send : forall moving ks c d a na, (snd (Send moving ks c d a na) = -1)%Z \/
  (t_wr (fst (Send moving ks c d a na)) = true <-> t_out (fst (Send moving ks c d a na)) <> []).
Proof. exact send_interest. Qed.
Example C197_case : let c := run false [OSend [1]%Z 5 6 EAgain [Ans false AWantRead]] in t_dead c = false /\ t_out c = [1]%Z /\ t_wr c = true.
Proof. vm_compute. tauto. Qed.

(** * C198: when OpenSSL is waiting to write, the channel waits for a writable socket. *)
Definition C198_statement : Prop := forall h e os, let c := do_ops false (new_tls h e) os in
  t_dead c = false -> want_write (t_ssl c) = true -> t_wr c = true.
(** A writable event during the handshake, with nothing queued: the handshake's own data blocks again, and the interest is removed. *)
Theorem C198_statement_refuted : ~ C198_statement.
Proof. intros S. discriminate (S false EAgain [OWrite EAgain [Ans false AWantWrite]] eq_refl eq_refl). Qed.
Theorem C198_queued_partial : forall h e os, let c := do_ops false (new_tls h e) os in
  t_dead c = false -> t_out c <> [] -> want_write (t_ssl c) = true -> t_wr c = true.
Proof. intros h e os c D O _. exact (proj1 (C197_interest false h e os D) O). Qed.
Theorem C198_reading_partial : forall ks c, let c' := fst (HandleRead ks c) in
  (snd (HandleRead ks c) <> -1)%Z -> want_write (t_ssl c') = true -> t_wr c' = true.
Proof.
  intros ks c. unfold HandleRead. destruct (read_loop ks c) as [c1 r] eqn:W.
  apply read_loop_ok in W as (R1 & R2 & R3 & R4 & R5 & R6 & R7 & R8 & R9 & R10 & R11).
  destruct r as [n|]; cbn; [|congruence]. intros _. apply R9. discriminate.
Qed.
Example C198_reading_case : let c := fst (HandleRead [RAns false (RFail AWantWrite)] (set_wr (new_tls false EAgain) false)) in
  want_write (t_ssl c) = true /\ t_wr c = true.
Proof. vm_compute. tauto. Qed.
Example C198_queued_case : let c := run false [OSend [1]%Z 5 6 EAgain [Ans false AWantWrite]] in
  t_dead c = false /\ t_out c = [1]%Z /\ want_write (t_ssl c) = true.
Proof. vm_compute. tauto. Qed.

(** * C199: a context that trusts one CA file (or one CA directory) can be created when that file (directory) loads. *)
Definition C199_statement : Prop := forall fs p, crt_file p = [] -> key_file p = [] ->
  (ca_file p <> [] /\ cafile_ok fs (ca_file p) = true /\ ca_path p = []) \/ (ca_path p <> [] /\ cadir_ok fs (ca_path p) = true /\ ca_file p = []) ->
  exists c, new_ctx fs p = Some c.
Definition all_files : files := Files (fun _ => true) (fun _ => true) (fun _ _ => true) (fun _ => true) (fun _ => true).
Theorem C199_statement_refuted : ~ C199_statement.
Proof.
  intros S. destruct (S all_files (Param Server false [] [] [97%Z] []) eq_refl eq_refl) as [c C]; [|discriminate C].
  left. repeat split. discriminate.
Qed.
(** It never can: the constructor fails, and using the context crashes. *)
Theorem C199_single_ca_fails_partial : forall fs p, (ca_file p = [] <-> ca_path p <> []) -> new_ctx fs p = None /\ NewSSLSession (new_ctx fs p) = UB.
Proof.
  intros fs p H. assert (N : new_ctx fs p = None).
  { unfold new_ctx. destruct (ca_file p) eqn:F, (ca_path p) eqn:P; cbn; rewrite ?andb_false_r; try reflexivity;
      exfalso; destruct H as [H1 H2]; [apply (H1 eq_refl); reflexivity|]. discriminate H2. discriminate. }
  rewrite N. split; reflexivity.
Qed.
(** With both, or neither, the context has exactly the requested settings whenever everything loads. *)
Theorem C199_settings_partial : forall fs p, (ca_file p = [] <-> ca_path p = []) ->
  match new_ctx fs p with
  | Some c =>
      (ca_file p <> [] -> trust_files c = [ca_file p] /\ trust_dirs c = [ca_path p] /\ trust_system c = false /\
         cafile_ok fs (ca_file p) = true /\ cadir_ok fs (ca_path p) = true) /\
      (ca_file p = [] -> trust_files c = [] /\ trust_dirs c = [] /\ trust_system c = verify_peer p) /\
      cert c = crt_file p /\ key c = key_file p /\ verify c = verify_peer p /\
      (crt_file p <> [] -> crt_ok fs (crt_file p) = true) /\ (key_file p <> [] -> key_ok fs (key_file p) = true /\ key_fits fs (key_file p) (crt_file p) = true)
  | None =>
      ca_file p <> [] /\ (cafile_ok fs (ca_file p) = false \/ cadir_ok fs (ca_path p) = false) \/
      crt_file p <> [] /\ crt_ok fs (crt_file p) = false \/
      key_file p <> [] /\ (key_ok fs (key_file p) = false \/ key_fits fs (key_file p) (crt_file p) = false)
  end.
Proof.
  intros fs p H. unfold new_ctx, load_verify_locations.
  assert (Hc : ca_file p = [] /\ ca_path p = [] \/ ca_file p <> [] /\ ca_path p <> []).
  { destruct (ca_file p), (ca_path p); [left; tauto| | |right; split; discriminate]; exfalso; [discriminate (proj1 H eq_refl)|discriminate (proj2 H eq_refl)]. }
  assert (Em : forall s : str, s <> [] -> empty s = false) by (intros [|]; cbn; congruence).
  destruct Hc as [[F P]|[F P]].
  - rewrite F, P. cbn. destruct (crt_file p) as [|x xs] eqn:C; cbn.
    + destruct (key_file p) as [|y ys] eqn:K; cbn.
      * rewrite ?andb_true_r. intuition congruence.
      * destruct (key_ok fs (y :: ys)) eqn:A, (key_fits fs (y :: ys) []) eqn:B; cbn; rewrite ?andb_true_r; intuition (try congruence; try discriminate; eauto).
    + destruct (crt_ok fs (x :: xs)) eqn:A0; cbn; [|right; left; split; [discriminate|reflexivity]].
      destruct (key_file p) as [|y ys] eqn:K; cbn.
      * rewrite ?andb_true_r. intuition congruence.
      * destruct (key_ok fs (y :: ys)) eqn:A, (key_fits fs (y :: ys) (x :: xs)) eqn:B; cbn; rewrite ?andb_true_r; intuition (try congruence; try discriminate; eauto).
  - rewrite (Em _ F), (Em _ P). cbn. destruct (cafile_ok fs (ca_file p)) eqn:A1; cbn; [|left; tauto]. destruct (cadir_ok fs (ca_path p)) eqn:A2; cbn; [|left; tauto].
    rewrite !andb_false_r.
    destruct (crt_file p) as [|x xs] eqn:C; cbn.
    + destruct (key_file p) as [|y ys] eqn:K; cbn.
      * intuition congruence.
      * destruct (key_ok fs (y :: ys)) eqn:A, (key_fits fs (y :: ys) []) eqn:B; cbn; rewrite ?andb_true_r; intuition (try congruence; try discriminate; eauto).
    + destruct (crt_ok fs (x :: xs)) eqn:A0; cbn; [|right; left; split; [discriminate|reflexivity]].
      destruct (key_file p) as [|y ys] eqn:K; cbn.
      * intuition congruence.
      * destruct (key_ok fs (y :: ys)) eqn:A, (key_fits fs (y :: ys) (x :: xs)) eqn:B; cbn; rewrite ?andb_true_r; intuition (try congruence; try discriminate; eauto).
Qed.
Example C199_case : exists c, new_ctx all_files (Param Server false [1%Z] [2%Z] [3%Z] [4%Z]) = Some c /\ trust_dirs c = [[4%Z]].
Proof. eexists. split; reflexivity. Qed.

(** * C200: UseVerifyCA(file, path) makes the context trust the given file and the given directory. *)
Definition C200_statement : Prop := forall fs c file path c', UseVerifyCA fs c file path = (c', true) ->
  (file <> [] -> In file (trust_files c')) /\ (path <> [] -> In path (trust_dirs c')).
Definition bare : ctx := Ctx [] [] false [] [] true.
Theorem C200_statement_refuted : ~ C200_statement.
Proof.
  intros S. destruct (S all_files bare [102%Z] [100%Z] _ eq_refl) as [_ D]. destruct D as [D|[]]; [discriminate|]. discriminate D.
Qed.
Theorem C200_file_only_partial : forall fs c file, file <> [] ->
  UseVerifyCA fs c file [] = if cafile_ok fs file then (Ctx (trust_files c ++ [file]) (trust_dirs c) (trust_system c) (cert c) (key c) (verify c), true) else (c, false).
Proof.
  intros fs c [|x file] N; [congruence|]. unfold UseVerifyCA, load_verify_locations. cbn. destruct (cafile_ok fs (x :: file)); cbn; [|reflexivity].
  rewrite app_nil_r. reflexivity.
Qed.
(** A directory alone is never used: false is returned, or the directory trusted is another one. *)
Theorem C200_directory_partial : forall fs c file path c' ok, UseVerifyCA fs c file path = (c', ok) ->
  (ok = false -> c' = c) /\ (forall d, In d (trust_dirs c') -> In d (trust_dirs c) \/ d = file) /\
  (forall f, In f (trust_files c) -> In f (trust_files c')) /\ verify c' = verify c /\ cert c' = cert c.
Proof.
  intros fs c file path c' ok. unfold UseVerifyCA. destruct (empty file && empty path); [intros H; inv H; tauto|].
  destruct (load_verify_locations _ _ _); intros H; inv H; [|tauto]. cbn. split; [discriminate|]. split; [|split; [|tauto]].
  - intros d I. apply in_app_iff in I as [I|I]; [left; exact I|]. right. destruct (empty path); cbn in I; [tauto|]. destruct I as [I|[]]. congruence.
  - intros f I. apply in_app_iff. left. exact I.
Qed.
Example C200_case : UseVerifyCA all_files bare [102%Z] [] = (Ctx [[102%Z]] [] false [] [] true, true).
Proof. reflexivity. Qed.

(** * C201: the default server context has the settings of a server: clients are not asked for certificates. *)
Definition C201_statement : Prop := forall fs c, DefaultServerCtx fs = Some c -> verify c = verify_peer (default_param Server).
Theorem C201_statement_refuted : ~ C201_statement.
Proof. intros S. discriminate (S all_files _ eq_refl). Qed.
(** It always exists, has no certificate, and is the client's context. *)
Theorem C201_shared_partial : forall fs, DefaultServerCtx fs = DefaultClientCtx fs /\
  exists c, DefaultServerCtx fs = Some c /\ verify c = true /\ trust_system c = true /\ cert c = [].
Proof. intros fs. split; [reflexivity|]. eexists. split; [reflexivity|]. repeat split. Qed.

(** * C202: HTTP/2 is selected when offered, and selection is memory safe on every input. *)
Theorem C202_alpn_safe : forall inp, exists r, select_h2 inp = Ok r /\ (forall o n, r = Some (o, n) -> (0 <= n)%Z /\ o + Z.to_nat n <= length inp).
Proof. exact select_h2_safe. Qed.
Theorem C202_alpn_select : forall names, Forall good_name names ->
  exists r, select_h2 (encode names) = Ok r /\
    ((In h2 names /\ exists x, r = Some x /\ name_at (encode names) x = h2) \/
     (~ In h2 names /\ In h2_16 names /\ exists x, r = Some x /\ name_at (encode names) x = h2_16) \/
     (~ In h2 names /\ ~ In h2_16 names /\ In h2_14 names /\ exists x, r = Some x /\ name_at (encode names) x = h2_14) \/
     (~ In h2 names /\ ~ In h2_16 names /\ ~ In h2_14 names /\ r = None)).
Proof. exact select_h2_ok. Qed.
(** What this program itself offers is well formed and would be accepted. *)
Theorem C202_own_offer : default_alpn = encode [h2; h2_16; h2_14].
Proof. reflexivity. Qed.
Example C202_case : let l := [[104; 116; 116; 112; 47; 49; 46; 49]%Z; h2_16; h2] in
  Forall good_name l /\ select_h2 (encode l) = Ok (Some (16, 2%Z)).
Proof. split; [repeat constructor; cbn; lia|]. vm_compute. reflexivity. Qed.
Example C202_garbage_case : select_h2 [255; 104; 50]%Z = Ok None.
Proof. vm_compute. reflexivity. Qed.

Print Assumptions C193_tls_stream.
Print Assumptions C194_statement_refuted.
Print Assumptions C194_full_socket_closes_partial.
Print Assumptions C194_moving_buffers_partial.
Print Assumptions C194_no_backpressure_partial.
Print Assumptions C195_statement_refuted.
Print Assumptions C195_idle_write_partial.
Print Assumptions C196_reading.
Print Assumptions C196_history.
Print Assumptions C197_interest.
Print Assumptions C197_no_spin.
Print Assumptions C197_no_spin_send.
Print Assumptions C198_statement_refuted.
Print Assumptions C198_queued_partial.
Print Assumptions C198_reading_partial.
Print Assumptions C199_statement_refuted.
Print Assumptions C199_single_ca_fails_partial.
Print Assumptions C199_settings_partial.
Print Assumptions C200_statement_refuted.
Print Assumptions C200_file_only_partial.
Print Assumptions C200_directory_partial.
Print Assumptions C201_statement_refuted.
Print Assumptions C201_shared_partial.
Print Assumptions C202_alpn_safe.
Print Assumptions C202_alpn_select.
Print Assumptions C202_own_offer.
