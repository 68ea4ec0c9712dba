(** Whole histories of a TLS channel; TLS contexts; ALPN selection. *)
From Verif.Model Require Import Common TlsChannel TlsCtx.
From Verif.Spec Require Import TlsSpec.
From Verif.Proofs Require Import Tac TlsProofs TlsProofs2.
Local Open Scope nat_scope.
Local Opaque kBlock.

Section P.
Variable moving : bool.
Lemma dead_stays c o : t_dead c = true -> do_op moving c o = c.
Proof. intros D. unfold do_op. rewrite D. reflexivity. Qed.
Lemma dead_ops os : forall c, t_dead c = true -> do_ops moving c os = c /\ sent moving c os = [] /\ received moving c os = [].
Proof.
  induction os as [|o os IH]; intros c D; [tauto|]. cbn. rewrite dead_stays, D by exact D. cbn. apply IH. exact D.
Qed.
Definition data_of (o : op) : list Z := match o with OSend d _ _ _ _ => d | _ => [] end.
Definition read_of (o : op) : list Z := match o with ORead _ ks => plaintext ks | _ => [] end.
Lemma op_intact c o d : t_dead c = false -> intact c d -> intact (do_op moving c o) (d ++ data_of o) /\ t_in (do_op moving c o) = t_in c ++ read_of o.
Proof.
  intros D I. unfold do_op. rewrite D. assert (Ie : forall e, intact (set_errno c e) d) by (intros e; exact I).
  destruct o as [dt a na e ks|e ks|e ks]; cbn [data_of read_of]; rewrite ?app_nil_r.
  - destruct (send_intact moving ks (set_errno c e) d dt a na (Ie e) D) as [A B]. tauto.
  - destruct (write_intact moving ks (set_errno c e) d (Ie e) D) as [A B]. tauto.
  - unfold HandleRead. destruct (read_loop ks (set_errno c e)) as [c1 r] eqn:W.
    apply read_loop_ok in W as (R1 & R2 & R3 & R4 & R5 & R6 & R7 & R8 & R9 & R10 & R11). cbn in *.
    unfold intact in *. rewrite D in I. destruct I as [I K].
    destruct r as [n|]; cbn; (split; [|exact R6]).
    + rewrite R3, D, R1, R2. split; [exact I|]. intros pa p Q. rewrite R4 in Q. exact (K pa p Q).
    + exists (t_out c). rewrite R2. symmetry. exact I.
Qed.
Lemma ops_intact os : forall c d, intact c d -> intact (do_ops moving c os) (d ++ sent moving c os) /\
  t_in (do_ops moving c os) = t_in c ++ received moving c os.
Proof.
  induction os as [|o os IH]; intros c d I; cbn; [rewrite !app_nil_r; tauto|].
  destruct (t_dead c) eqn:D.
  - destruct (dead_ops os c D) as (A & B & C). rewrite dead_stays by exact D. unfold do_ops in A. rewrite A, B, C. cbn. rewrite !app_nil_r. tauto.
  - destruct (op_intact c o d D I) as [A B]. destruct (IH _ _ A) as [A' B']. unfold do_ops in *.
    rewrite B', B, !app_assoc in *. split; [exact A'|reflexivity].
Qed.

(** Interests. *)
Lemma write_loop_rd ks : forall c total c' r, write_loop moving ks c total = (c', r) -> t_rd c = true -> t_rd c' = true.
Proof.
  assert (R : forall c total x c' r, write_round moving c total x = (c', r) -> t_rd c = true -> t_rd c' = true).
  { unfold write_round. intros c total x c' r H P. destruct (ssl_write _ _ _ _ _) as [c1 [e|]] eqn:W;
      apply ssl_write_ok in W as [(E1 & E2 & E3 & E4 & E5 & E6) _].
    - destruct (handle_openssl_err c1 e) as [c2 k] eqn:Hd. apply handle_err_ok in Hd as (_ & _ & _ & _ & _ & _ & _ & _ & S & _).
      rewrite E5 in S. destruct k; inv H; tauto.
    - inv H. cbn. congruence. }
  induction ks as [|k ks IH]; intros c total c' r H P; cbn [write_loop hd] in H; destruct (write_round _ _ _ _) as [c1 o] eqn:W; apply R in W; try exact P.
  - destruct o as [[t' ag]|]; [destruct ag|]; inv H; exact W.
  - destruct o as [[t' ag]|]; [destruct ag|]; [|inv H; exact W|inv H; exact W]. apply IH in H; assumption.
Qed.
Lemma send_loop_rd ks : forall c a rest nw na c' r, send_loop moving ks c a rest nw na = (c', r) -> t_rd c = true -> t_rd c' = true.
Proof.
  assert (R : forall c a rest nw na x c' r, send_round moving c a rest nw na x = (c', r) -> t_rd c = true -> t_rd c' = true).
  { unfold send_round. intros c a rest nw na x c' r H P. destruct (ssl_write _ _ _ _ _) as [c1 [e|]] eqn:W;
      apply ssl_write_ok in W as [(E1 & E2 & E3 & E4 & E5 & E6) _].
    - destruct (handle_openssl_err c1 e) as [c2 k] eqn:Hd. apply handle_err_ok in Hd as (_ & _ & _ & _ & _ & _ & _ & _ & S & _).
      rewrite E5 in S. destruct k; inv H; cbn; tauto.
    - inv H. cbn. congruence. }
  induction ks as [|k ks IH]; intros c a rest nw na c' r H P; cbn [send_loop hd] in H; destruct (send_round _ _ _ _ _ _ _) as [c1 o] eqn:W; apply R in W; try exact P.
  - destruct o as [[[t' n'] ag]|]; [destruct ag|]; inv H; exact W.
  - destruct o as [[[t' n'] ag]|]; [destruct ag|]; [|inv H; exact W|inv H; exact W]. apply IH in H; assumption.
Qed.
Lemma ret_interest c r : (snd (ret (c, r)) = -1)%Z \/ (t_wr (fst (ret (c, r))) = true <-> t_out (fst (ret (c, r))) <> []).
Proof.
  destruct r; cbn; [right|left; reflexivity]. rewrite negb_true_iff, Nat.eqb_neq. destruct (t_out c); cbn; split; congruence.
Qed.
Lemma write_interest ks c : (snd (HandleWrite moving ks c) = -1)%Z \/
  (t_wr (fst (HandleWrite moving ks c)) = true <-> t_out (fst (HandleWrite moving ks c)) <> []).
Proof. unfold HandleWrite. destruct (write_loop _ _ _ _) as [c1 r]. apply ret_interest. Qed.
Lemma send_interest ks c d a na : (snd (Send moving ks c d a na) = -1)%Z \/
  (t_wr (fst (Send moving ks c d a na)) = true <-> t_out (fst (Send moving ks c d a na)) <> []).
Proof. unfold Send. destruct (negb _); [apply write_interest|]. destruct (send_loop _ _ _ _ _ _ _) as [c1 r]. apply ret_interest. Qed.
Definition listening (c : tls) : Prop := t_dead c = false -> (t_out c <> [] -> t_wr c = true) /\ t_rd c = true.
Lemma dead_ret c r : t_dead c = false -> t_dead (fst (ret (c, r))) = false <-> snd (ret (c, r)) <> (-1)%Z.
Proof. intros D. destruct r; cbn; [|split; congruence]. split; [intros _; lia|intros _; exact D]. Qed.
Lemma op_listening c o d : intact c d -> listening c -> listening (do_op moving c o).
Proof.
  intros I L. destruct (t_dead c) eqn:D; [rewrite dead_stays; assumption|]. destruct (L D) as [L1 L2]. unfold do_op. rewrite D.
  unfold intact in I. rewrite D in I. destruct I as [I K].
  destruct o as [dt a na e ks|e ks|e ks].
  - intros A. split.
    + destruct (send_interest ks (set_errno c e) dt a na) as [S|S]; [|apply S].
      exfalso. revert A S. unfold Send, HandleWrite. destruct (negb _).
      * destruct (write_loop _ _ _ _) as [c1 [n|]]; cbn; [lia|discriminate].
      * destruct (send_loop _ _ _ _ _ _ _) as [c1 [n|]]; cbn; [lia|discriminate].
    + unfold Send, HandleWrite. destruct (negb _).
      * destruct (write_loop _ _ _ _) as [c1 r] eqn:W. apply write_loop_rd in W; [destruct r; exact W|exact L2].
      * destruct (send_loop _ _ _ _ _ _ _) as [c1 r] eqn:W. apply send_loop_rd in W; [destruct r; exact W|exact L2].
  - intros A. split.
    + destruct (write_interest ks (set_errno c e)) as [S|S]; [|apply S].
      exfalso. revert A S. unfold HandleWrite. destruct (write_loop _ _ _ _) as [c1 [n|]]; cbn; [lia|discriminate].
    + unfold HandleWrite. destruct (write_loop _ _ _ _) as [c1 r] eqn:W. apply write_loop_rd in W; [destruct r; exact W|exact L2].
  - unfold HandleRead. destruct (read_loop ks (set_errno c e)) as [c1 r] eqn:W.
    apply read_loop_ok in W as (R1 & R2 & R3 & R4 & R5 & R6 & R7 & R8 & R9 & R10 & R11). cbn in *.
    destruct r as [n|]; intros A; cbn in *; [|discriminate]. rewrite R1. tauto.
Qed.
Lemma ops_listening os : forall c d, intact c d -> listening c -> listening (do_ops moving c os).
Proof.
  induction os as [|o os IH]; intros c d I L; [exact L|]. cbn. destruct (t_dead c) eqn:D.
  - destruct (dead_ops os c D) as (A & _). rewrite dead_stays by exact D. unfold do_ops in A. rewrite A. exact L.
  - eapply IH; [apply (op_intact c o d D I)|eapply op_listening; eassumption].
Qed.
Lemma new_intact h e : intact (new_tls h e) [].
Proof. split; [reflexivity|]. intros a p Q. discriminate Q. Qed.
Lemma new_listening h e : listening (new_tls h e).
Proof. intros _. cbn. tauto. Qed.
End P.

(** ALPN. *)
Lemma prefix_eq_spec k l : prefix_eq k l = true <-> prefix_of k l.
Proof.
  revert l; induction k as [|x k IH]; intros l; cbn; [split; [exists l; reflexivity|reflexivity]|].
  destruct l as [|y l]; [split; [discriminate|intros [r R]; discriminate]|]. rewrite andb_true_iff, Z.eqb_eq, IH. split.
  - intros [-> [r ->]]. exists r. reflexivity.
  - intros [r R]. injection R as -> ->. split; [reflexivity|]. exists r. reflexivity.
Qed.
Lemma skipn_nth n (l : list Z) x r : skipn n l = x :: r -> nth_error l n = Some x /\ n < length l.
Proof. revert l; induction n as [|n IH]; intros [|y l] H; cbn in *; try discriminate; [injection H as -> ->; split; [reflexivity|lia]|]. destruct (IH _ H). split; [assumption|lia]. Qed.
Lemma select_safe fuel : forall inp k ks off, exists r, select_from fuel inp (k :: ks) off = Ok r /\
  (forall o n, r = Some (o, n) -> n = k /\ 0 < o /\ prefix_of (k :: ks) (skipn (o - 1) inp)).
Proof.
  induction fuel as [|fuel IH]; intros inp k ks off; cbn [select_from]; [exists None; split; [reflexivity|discriminate]|].
  destruct (Nat.leb _ _) eqn:L; [|exists None; split; [reflexivity|discriminate]]. apply Nat.leb_le in L. cbn [length] in L.
  destruct (nth_error inp off) as [l|] eqn:E; [|apply nth_error_None in E; lia].
  destruct (prefix_eq _ _) eqn:P.
  - exists (Some (off + 1, l)). split; [reflexivity|]. intros o n Q. injection Q as <- <-. apply prefix_eq_spec in P.
    replace (off + 1 - 1) with off by lia. split; [|split; [lia|exact P]]. destruct P as [r R]. apply skipn_nth in R as [R _]. congruence.
  - apply IH.
Qed.
(** On well-formed lists the search finds the name iff it is there. *)
Lemma encode_cons n ns : encode (n :: ns) = Z.of_nat (length n) :: n ++ encode ns.
Proof. reflexivity. Qed.
Lemma prefix_name n m ns : good_name n -> good_name m -> prefix_of (Z.of_nat (length n) :: n) (encode (m :: ns)) -> m = n.
Proof.
  intros _ _ [r R]. rewrite encode_cons in R. injection R as L R. apply Nat2Z.inj in L.
  assert (Q := f_equal (firstn (length n)) R). rewrite !firstn_app, L, !Nat.sub_diag in Q. rewrite <- L in Q at 1. rewrite !firstn_all in Q.
  cbn in Q. rewrite !app_nil_r in Q. exact Q.
Qed.
Lemma skipn_exact (a b : list Z) : skipn (length a) (a ++ b) = b.
Proof. rewrite skipn_app, skipn_all, Nat.sub_diag. reflexivity. Qed.
Lemma select_encoded n : good_name n -> forall names fuel pre, Forall good_name names -> length (encode names) < fuel ->
  exists r, select_from fuel (pre ++ encode names) (Z.of_nat (length n) :: n) (length pre) = Ok r /\ (r = None <-> ~ In n names).
Proof.
  intros G. induction names as [|m names IH]; intros fuel pre W F; (destruct fuel as [|fuel]; [lia|]); cbn [select_from].
  - rewrite app_nil_r. destruct (Nat.leb _ _) eqn:L; [apply Nat.leb_le in L; cbn in L; lia|]. exists None. cbn. tauto.
  - inversion W as [|? ? Gm Wn]; subst. rewrite skipn_exact. assert (E : nth_error (pre ++ encode (m :: names)) (length pre) = Some (Z.of_nat (length m))).
    { rewrite nth_error_app2, Nat.sub_diag by lia. reflexivity. }
    rewrite E, Nat2Z.id. rewrite encode_cons in F. cbn [length] in F. rewrite app_length in F.
    assert (Next : exists r, select_from fuel (pre ++ encode (m :: names)) (Z.of_nat (length n) :: n) (length pre + length m + 1) = Ok r /\ (r = None <-> ~ In n names)).
    { destruct (IH fuel (pre ++ Z.of_nat (length m) :: m) Wn ltac:(lia)) as (r & R & S). exists r. split; [|exact S].
      rewrite <- R. f_equal; [rewrite encode_cons, <- app_assoc; reflexivity|rewrite app_length; cbn; lia]. }
    destruct (Nat.leb _ _) eqn:L.
    + destruct (prefix_eq _ _) eqn:P.
      * eexists. split; [reflexivity|]. apply prefix_eq_spec, prefix_name in P; [|exact G|exact Gm]. subst m. cbn. split; [discriminate|tauto].
      * destruct Next as (r & R & S). exists r. split; [exact R|]. rewrite S. cbn. enough (m <> n) by tauto.
        intros ->. assert (prefix_eq (Z.of_nat (length n) :: n) (encode (n :: names)) = true); [|congruence].
        apply prefix_eq_spec. rewrite encode_cons. exists (encode names). reflexivity.
    + exists None. split; [reflexivity|]. apply Nat.leb_gt in L. split; [|reflexivity]. intros _ I.
      assert (length n < length (encode (m :: names))); [|rewrite app_length in L; cbn [length] in *; lia].
      clear -I. revert I. generalize (m :: names). intros l. induction l as [|x l IH]; [intros []|]. rewrite encode_cons. cbn [length]. rewrite app_length.
      intros [-> |I]; [lia|]. specialize (IH I). lia.
Qed.
Lemma skipn_S n (l : list Z) x r : skipn n l = x :: r -> skipn (S n) l = r.
Proof. revert l; induction n as [|n IH]; intros [|y l] H; cbn in *; try discriminate; [injection H as _ H; exact H|]. exact (IH _ H). Qed.
Lemma select_proto_ok names n : good_name n -> Forall good_name names ->
  exists r, select_proto (encode names) (Z.of_nat (length n) :: n) = Ok r /\ (r = None <-> ~ In n names) /\
    (forall x, r = Some x -> name_at (encode names) x = n).
Proof.
  intros G W. destruct (select_encoded n G names (S (length (encode names))) [] W ltac:(lia)) as (r & R & S). exists r. split; [exact R|]. split; [exact S|].
  intros [o l] ->. destruct (select_safe (Datatypes.S (length (encode names))) (encode names) (Z.of_nat (length n)) n 0) as (r' & R' & Q).
  cbn [length app] in R. rewrite R' in R. injection R as ->. destruct (Q o l eq_refl) as (-> & Po & [t T]).
  unfold name_at. cbn [fst snd]. rewrite Nat2Z.id. assert (T' : skipn o (encode names) = n ++ t).
  { replace o with (Datatypes.S (o - 1)) by lia. rewrite (skipn_S _ _ _ _ T). reflexivity. }
  rewrite T', firstn_app, firstn_all, Nat.sub_diag, app_nil_r. reflexivity.
Qed.
Lemma select_h2_ok names : Forall good_name names ->
  exists r, select_h2 (encode names) = Ok r /\
    ((In h2 names /\ exists x, r = Some x /\ name_at (encode names) x = h2) \/
     (~ In h2 names /\ In h2_16 names /\ exists x, r = Some x /\ name_at (encode names) x = h2_16) \/
     (~ In h2 names /\ ~ In h2_16 names /\ In h2_14 names /\ exists x, r = Some x /\ name_at (encode names) x = h2_14) \/
     (~ In h2 names /\ ~ In h2_16 names /\ ~ In h2_14 names /\ r = None)).
Proof.
  intros W. unfold select_h2.
  destruct (select_proto_ok names h2 ltac:(split; cbn; lia) W) as (r1 & R1 & N1 & S1).
  destruct (select_proto_ok names h2_16 ltac:(split; cbn; lia) W) as (r2 & R2 & N2 & S2).
  destruct (select_proto_ok names h2_14 ltac:(split; cbn; lia) W) as (r3 & R3 & N3 & S3).
  change (Z.of_nat (length h2) :: h2) with H2_ALPN in R1. change (Z.of_nat (length h2_16) :: h2_16) with H2_16_ALPN in R2.
  change (Z.of_nat (length h2_14) :: h2_14) with H2_14_ALPN in R3. rewrite R1. cbn [obind].
  assert (Dec : forall l, {In l names} + {~ In l names}) by (intros l; apply (in_dec (list_eq_dec Z.eq_dec))).
  destruct r1 as [x|].
  - exists (Some x). split; [reflexivity|]. left. destruct (Dec h2) as [I|I]; [|apply N1 in I; discriminate]. split; [exact I|]. exists x. split; [reflexivity|apply S1; reflexivity].
  - assert (I1 := proj1 N1 eq_refl). rewrite R2. cbn [obind]. destruct r2 as [x|].
    + exists (Some x). split; [reflexivity|]. right; left. destruct (Dec h2_16) as [I|I]; [|apply N2 in I; discriminate]. split; [exact I1|]. split; [exact I|].
      exists x. split; [reflexivity|apply S2; reflexivity].
    + assert (I2 := proj1 N2 eq_refl). rewrite R3. exists r3. split; [reflexivity|]. destruct r3 as [x|].
      * right; right; left. destruct (Dec h2_14) as [I|I]; [|apply N3 in I; discriminate]. do 3 (split; [assumption|]). exists x. split; [reflexivity|apply S3; reflexivity].
      * right; right; right. assert (I3 := proj1 N3 eq_refl). tauto.
Qed.
Lemma select_h2_safe inp : exists r, select_h2 inp = Ok r /\ (forall o n, r = Some (o, n) -> (0 <= n)%Z /\ o + Z.to_nat n <= length inp).
Proof.
  unfold select_h2, select_proto.
  assert (G : forall k ks, (0 <= k)%Z -> length ks = Z.to_nat k -> exists r, select_from (S (length inp)) inp (k :: ks) 0 = Ok r /\
    (forall o n, r = Some (o, n) -> (0 <= n)%Z /\ o + Z.to_nat n <= length inp)).
  { intros k ks K L. destruct (select_safe (S (length inp)) inp k ks 0) as (r & R & Q). exists r. split; [exact R|]. intros o n E.
    destruct (Q o n E) as (-> & P & [t T]). split; [exact K|]. assert (X := f_equal (@length Z) T). rewrite skipn_length, app_length in X. cbn in X. lia. }
  destruct (G 2%Z [104; 50]%Z ltac:(lia) eq_refl) as (r1 & R1 & S1). destruct (G 5%Z [104; 50; 45; 49; 54]%Z ltac:(lia) eq_refl) as (r2 & R2 & S2).
  destruct (G 5%Z [104; 50; 45; 49; 52]%Z ltac:(lia) eq_refl) as (r3 & R3 & S3).
  unfold H2_ALPN, H2_16_ALPN, H2_14_ALPN. rewrite R1. cbn [obind]. destruct r1; [eauto|]. rewrite R2. cbn [obind]. destruct r2; [eauto|]. eauto.
Qed.

