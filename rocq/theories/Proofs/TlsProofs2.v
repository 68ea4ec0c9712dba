(** The TLS channel: survival and interests; whole histories. *)
From Verif.Model Require Import Common TlsChannel.
From Verif.Spec Require Import TlsSpec.
From Verif.Proofs Require Import Tac TlsProofs.
Local Open Scope nat_scope.
Local Opaque kBlock.

Section P.
Variable moving : bool.
Notation ssl_write := (ssl_write moving).
Notation send_round := (send_round moving).
Notation send_loop := (send_loop moving).
Notation write_round := (write_round moving).
Notation write_loop := (write_loop moving).

(** A retry of [l] at [a] will be accepted. *)
Definition fits (s : ssl) (a : Z) (l : list Z) : Prop :=
  forall pa p, pend s = Some (pa, p) -> (moving = true \/ pa = a) /\ length p <= length (firstn kBlock l) /\ prefix_of p l.
Lemma fits_kept s a l : fits s a l -> kept_ok s l.
Proof. intros F pa p Q. apply (F pa p Q). Qed.
Lemma fits_retry s a l : fits s a l -> bad_retry moving s a (firstn kBlock l) = false.
Proof.
  intros F. unfold bad_retry. destruct (pend s) as [[pa p]|] eqn:P; [|reflexivity]. destruct (F _ _ P) as (A & B & _).
  apply orb_false_iff. split; [|apply Nat.ltb_ge; exact B]. destruct A as [->| ->]; [reflexivity|]. rewrite Z.eqb_refl, andb_false_r. reflexivity.
Qed.
Lemma fits_none s a l : pend s = None -> fits s a l.
Proof. intros P pa p Q. congruence. Qed.
Lemma fits_keep s s' a l : fits s a l -> pend s' = pend s \/ bad_retry moving s a (firstn kBlock l) = false /\ pend s' = keep s a (firstn kBlock l) -> fits s' a l.
Proof.
  intros F [P|[B P]] pa p Q; [rewrite P in Q; exact (F _ _ Q)|].
  rewrite (keep_ok moving s a l kBlock (fits_kept _ _ _ F) B) in P. rewrite P in Q. injection Q as <- <-.
  split; [right; reflexivity|]. split; [lia|]. apply prefix_first.
Qed.
Lemma first_nil (l : list Z) : firstn kBlock l = [] -> l = [].
Proof. destruct kBlock_S as [n ->]. destruct l; [reflexivity|discriminate]. Qed.

Lemma write_round_mild c total x c' r : write_round c total x = (c', r) -> mild (a_res x) -> fits (t_ssl c) (o_addr c) (t_out c) ->
  (t_out c = [] -> t_errno c <> EOther) ->
  fits (t_ssl c') (o_addr c') (t_out c') /\ exists t' ag, r = Some (t', ag) /\ (ag = true -> t_out c' <> []).
Proof.
  unfold TlsChannel.write_round. intros H M F N. destruct (ssl_write c (o_addr c) (firstn kBlock (t_out c)) x) as [c1 w] eqn:W.
  destruct (ssl_write_ok _ _ _ _ _ _ _ W) as [(E1 & E2 & E3 & E4 & E5 & E6) [(-> & A & B & D & _ & P & T)|(e & -> & T & P & K)]].
  - inv H. cbn [t_ssl set_out]. split; [apply fits_none; exact P|]. eexists _, _. split; [reflexivity|]. cbn. rewrite negb_true_iff, Nat.eqb_neq.
    intros L Q. rewrite Q in L. apply L. reflexivity.
  - specialize (K M). destruct (handle_openssl_err c1 e) as [c2 k] eqn:Hd.
    apply handle_err_ok in Hd as (S1 & S2 & S3 & S4 & S5 & S6 & S7 & S8 & S9 & S10 & S11 & S12).
    assert (G : fits (t_ssl c2) (o_addr c2) (t_out c2)).
    { rewrite S1, S4, S2, E1, E3. eapply fits_keep; [exact F|]. tauto. }
    destruct k.
    + exfalso. assert (C := proj1 S11 eq_refl). rewrite (fits_retry _ _ _ F) in K.
      destruct K as [-> |[-> |[[-> K]|(_ & _ & K)]]]; try (destruct C as [C|[C|[C _]]]; discriminate); try discriminate.
      destruct C as [C|[C|[_ C]]]; try discriminate. destruct K as [K|[K L]]; [tauto|]. apply first_nil in K. apply N; congruence.
    + inv H. split; [exact G|]. eexists _, _. split; [reflexivity|]. discriminate.
    + inv H. split; [exact G|]. eexists _, _. split; [reflexivity|]. rewrite negb_true_iff, Nat.eqb_neq. intros L Q. rewrite Q in L. apply L. reflexivity.
Qed.
Lemma hd_mild ks (x : answer) : (forall x, In x ks -> mild (a_res x)) -> mild (a_res (hd dflt_w ks)).
Proof. destruct ks; cbn; [intros _; exact Logic.I|]. intros H. apply H. left. reflexivity. Qed.
Lemma write_loop_mild ks : forall c total c' r, write_loop ks c total = (c', r) -> (forall x, In x ks -> mild (a_res x)) ->
  fits (t_ssl c) (o_addr c) (t_out c) -> (t_out c = [] -> t_errno c <> EOther) ->
  fits (t_ssl c') (o_addr c') (t_out c') /\ r <> None.
Proof.
  induction ks as [|k ks IH]; intros c total c' r H M F N; cbn [TlsChannel.write_loop hd] in H;
    destruct (write_round _ _ _) as [c1 o] eqn:W; apply write_round_mild in W as (A & t' & ag & -> & B); try assumption.
  - destruct ag; inv H; (split; [exact A|discriminate]).
  - exact Logic.I.
  - destruct ag; [|inv H; split; [exact A|discriminate]]. apply IH in H; [exact H| |exact A|intros Q; destruct (B eq_refl Q)].
    intros x I. apply M. right. exact I.
  - apply M. left. reflexivity.
Qed.

Lemma send_round_mild c a rest nw na x c' r : send_round c a rest nw na x = (c', r) -> mild (a_res x) -> fits (t_ssl c) a rest ->
  (rest = [] -> t_errno c <> EOther) ->
  exists rest' nw' ag, r = Some (rest', nw', ag) /\
    (ag = true -> rest' <> [] /\ fits (t_ssl c') (a + Z.of_nat (nw' - nw)) rest') /\
    (ag = false -> t_out c = [] -> moving = true -> fits (t_ssl c') (o_addr c') (t_out c')).
Proof.
  unfold TlsChannel.send_round. intros H M F N. destruct (ssl_write c a (firstn kBlock rest) x) as [c1 w] eqn:W.
  destruct (ssl_write_ok _ _ _ _ _ _ _ W) as [(E1 & E2 & E3 & E4 & E5 & E6) [(-> & A & B & D & _ & P & T)|(e & -> & T & P & K)]].
  - inv H. eexists _, _, _. split; [reflexivity|]. split; [|intros; apply fits_none; exact P]. rewrite negb_true_iff, Nat.eqb_neq.
    intros L. split; [|apply fits_none; exact P]. intros Q. rewrite Q in L. apply L. reflexivity.
  - specialize (K M). destruct (handle_openssl_err c1 e) as [c2 k] eqn:Hd.
    apply handle_err_ok in Hd as (S1 & S2 & S3 & S4 & S5 & S6 & S7 & S8 & S9 & S10 & S11 & S12).
    assert (G : fits (t_ssl c2) a rest). { rewrite S1. eapply fits_keep; [exact F|]. tauto. }
    assert (G2 : forall b, moving = true -> fits (t_ssl c2) b rest).
    { intros b Mv pa p Q. destruct (G pa p Q) as (_ & X & Y). tauto. }
    destruct k.
    + exfalso. assert (C := proj1 S11 eq_refl). rewrite (fits_retry _ _ _ F) in K.
      destruct K as [-> |[-> |[[-> K]|(_ & _ & K)]]]; try (destruct C as [C|[C|[C _]]]; discriminate); try discriminate.
      destruct C as [C|[C|[_ C]]]; try discriminate. destruct K as [K|[K L]]; [tauto|]. apply first_nil in K. apply N; congruence.
    + inv H. eexists _, _, _. split; [reflexivity|]. split; [discriminate|]. cbn. rewrite S2, E1. intros _ -> Mv. cbn. exact (G2 na Mv).
    + injection H as Q1 Q2; subst c' r. eexists _, _, _. split; [reflexivity|]. rewrite negb_true_iff, Nat.eqb_neq. split.
      * intros L. split; [intros Q; rewrite Q in L; apply L; reflexivity|]. rewrite Nat.sub_diag, Z.add_0_r. exact G.
      * rewrite negb_false_iff, Nat.eqb_eq. intros L O Mv pa p Q. destruct (G pa p Q) as (_ & X & Y). rewrite S2, E1, O.
        destruct rest; [tauto|discriminate].
Qed.
Lemma send_loop_mild ks : forall c a rest nw na c' r, send_loop ks c a rest nw na = (c', r) -> (forall x, In x ks -> mild (a_res x)) ->
  t_out c = [] -> fits (t_ssl c) a rest -> (rest = [] -> t_errno c <> EOther) ->
  r <> None /\ (moving = true -> fits (t_ssl c') (o_addr c') (t_out c')).
Proof.
  induction ks as [|k ks IH]; intros c a rest nw na c' r H M O F N; cbn [TlsChannel.send_loop hd] in H;
    destruct (send_round _ _ _ _ _ _) as [c1 o] eqn:W; assert (W' := W); apply send_round_mild in W as (rest' & nw' & ag & -> & A & B);
    try assumption.
  - destruct ag; [exfalso; exact (send_round_nil _ _ _ _ _ _ _ _ _ W')|]. inv H. split; [discriminate|]. intros Mv. exact (B eq_refl O Mv).
  - exact Logic.I.
  - destruct ag.
    + apply send_round_ok in W' as (_ & _ & O' & _); [|exact O|exact (fits_kept _ _ _ F)]. destruct (A eq_refl) as [A1 A2].
      apply IH in H; [exact H| |exact O'|exact A2|intros Q; destruct (A1 Q)]. intros x I. apply M. right. exact I.
    + inv H. split; [discriminate|]. intros Mv. exact (B eq_refl O Mv).
  - apply M. left. reflexivity.
Qed.
(** Nothing is kept when the socket never refuses data. *)
Definition open_answer (x : answer) : Prop := a_res x = ADone \/ a_res x = AWantRead.
Lemma ssl_write_open c a data x c' r : ssl_write c a data x = (c', r) -> open_answer x -> pend (t_ssl c) = None -> pend (t_ssl c') = None.
Proof.
  intros W X P. destruct (ssl_write_ok _ _ _ _ _ _ _ W) as [_ [(_ & _ & _ & _ & _ & Q & _)|(e & _ & _ & [Q|(_ & _ & _ & Q)] & _)]]; try congruence.
  destruct X as [X|X], Q as [Q|[en Q]]; congruence.
Qed.
Lemma err_pend c e c' k : handle_openssl_err c e = (c', k) -> pend (t_ssl c') = pend (t_ssl c).
Proof. intros H. apply handle_err_ok in H as (-> & _). reflexivity. Qed.
Lemma write_loop_open ks : forall c total c' r, write_loop ks c total = (c', r) -> (forall x, In x ks -> open_answer x) ->
  pend (t_ssl c) = None -> pend (t_ssl c') = None.
Proof.
  assert (R : forall c total x c' r, write_round c total x = (c', r) -> open_answer x -> pend (t_ssl c) = None -> pend (t_ssl c') = None).
  { unfold TlsChannel.write_round. intros c total x c' r H X P. destruct (ssl_write _ _ _ _) as [c1 [e|]] eqn:W; apply ssl_write_open in W; try assumption.
    - destruct (handle_openssl_err c1 e) as [c2 k] eqn:Hd. apply err_pend in Hd. destruct k; inv H; congruence.
    - inv H. exact W. }
  induction ks as [|k ks IH]; intros c total c' r H M P; cbn [TlsChannel.write_loop hd] in H; destruct (write_round _ _ _) as [c1 o] eqn:W.
  - apply R in W; [|right; reflexivity|exact P]. destruct o as [[t' ag]|]; [destruct ag|]; inv H; exact W.
  - apply R in W; [|apply M; left; reflexivity|exact P]. destruct o as [[t' ag]|]; [destruct ag|]; [|inv H; exact W|inv H; exact W].
    apply IH in H; [exact H| |exact W]. intros x I. apply M. right. exact I.
Qed.
Lemma send_loop_open ks : forall c a rest nw na c' r, send_loop ks c a rest nw na = (c', r) -> (forall x, In x ks -> open_answer x) ->
  pend (t_ssl c) = None -> pend (t_ssl c') = None.
Proof.
  assert (R : forall c a rest nw na x c' r, send_round c a rest nw na x = (c', r) -> open_answer x -> pend (t_ssl c) = None -> pend (t_ssl c') = None).
  { unfold TlsChannel.send_round. intros c a rest nw na x c' r H X P. destruct (ssl_write _ _ _ _) as [c1 [e|]] eqn:W; apply ssl_write_open in W; try assumption.
    - destruct (handle_openssl_err c1 e) as [c2 k] eqn:Hd. apply err_pend in Hd. destruct k; inv H; cbn; congruence.
    - inv H. exact W. }
  induction ks as [|k ks IH]; intros c a rest nw na c' r H M P; cbn [TlsChannel.send_loop hd] in H; destruct (send_round _ _ _ _ _ _) as [c1 o] eqn:W.
  - apply R in W; [|right; reflexivity|exact P]. destruct o as [[[t' n'] ag]|]; [destruct ag|]; inv H; exact W.
  - apply R in W; [|apply M; left; reflexivity|exact P]. destruct o as [[[t' n'] ag]|]; [destruct ag|]; [|inv H; exact W|inv H; exact W].
    apply IH in H; [exact H| |exact W]. intros x I. apply M. right. exact I.
Qed.
Lemma ending_mild ks : (forall x, In x ks -> mild_r (r_res x)) ->
  match ending ks with AZeroReturn | ASslError | ASyscall EOther | ADone => True | _ => False end -> False.
Proof.
  induction ks as [|[h [b bs|r]] ks IH]; cbn; intros M.
  - tauto.
  - apply IH. intros x I. apply M. right. exact I.
  - assert (Mr := M _ (or_introl eq_refl)). cbn in Mr. destruct r as [| | | |[]|]; try tauto. apply IH. intros x I. apply M. right. exact I.
Qed.

(** Three invariants of living channels. *)
Definition alive (c : tls) : Prop := t_dead c = false.
Definition good (c : tls) : Prop := alive c /\ fits (t_ssl c) (o_addr c) (t_out c).
Definition clean (c : tls) : Prop := alive c /\ pend (t_ssl c) = None.
Lemma clean_good c : clean c -> good c.
Proof. intros [A P]. split; [exact A|apply fits_none; exact P]. Qed.
Lemma ret_ok c r : r <> None -> alive c -> alive (fst (ret (c, r))) /\ t_ssl (fst (ret (c, r))) = t_ssl c /\ t_out (fst (ret (c, r))) = t_out c /\ o_addr (fst (ret (c, r))) = o_addr c.
Proof. destruct r; [|congruence]. intros _ A. cbn. unfold alive in *. cbn. tauto. Qed.
Lemma write_mild e ks c : (t_out c = [] -> e <> EOther) -> (forall x, In x ks -> mild (a_res x)) -> good c -> good (fst (HandleWrite moving ks (set_errno c e))).
Proof.
  intros E M [A F]. unfold HandleWrite. destruct (write_loop ks (set_errno c e) 0) as [c1 r] eqn:W.
  assert (D : alive c1). { apply write_loop_ok in W as (_ & _ & _ & D); [unfold alive in *; cbn in D; congruence|exact (fits_kept _ _ _ F)]. }
  apply write_loop_mild in W as [F1 R]; [|exact M|exact F|exact E]. destruct (ret_ok c1 r R D) as (X1 & X2 & X3 & X4).
  split; [exact X1|]. rewrite X2, X3, X4. exact F1.
Qed.
Lemma read_mild e ks c : (forall x, In x ks -> mild_r (r_res x)) -> alive c ->
  alive (fst (HandleRead ks (set_errno c e))) /\ pend (t_ssl (fst (HandleRead ks (set_errno c e)))) = pend (t_ssl c) /\ o_addr (fst (HandleRead ks (set_errno c e))) = o_addr c /\ t_out (fst (HandleRead ks (set_errno c e))) = t_out c.
Proof.
  intros M A. unfold HandleRead. destruct (read_loop ks (set_errno c e)) as [c1 r] eqn:W.
  apply read_loop_ok in W as (R1 & R2 & R3 & R4 & R5 & R6 & R7 & R8 & R9 & R10 & R11).
  destruct r as [n|]; cbn in *; [unfold alive in *; split; [congruence|]; split; [exact R4|]; split; [exact R5|exact R1]|].
  destruct (ending_mild ks M). apply R10. reflexivity.
Qed.
Lemma op_mild c o : good c -> mild_op o -> (moving = true \/ events_only o) -> good (do_op moving c o).
Proof.
  intros G M Mv. assert (G' := G). destruct G' as [A F]. unfold do_op. unfold alive in A. rewrite A. destruct o as [d a na e ks|e ks|e ks]; cbn in M.
  - destruct Mv as [Mv|[]]. destruct M as [E M]. unfold Send. destruct (negb _) eqn:N.
    + change (set_out (set_errno c e) (t_out (set_errno c e) ++ d) na) with (set_errno (set_out c (t_out c ++ d) na) e).
      apply write_mild; [intros _; exact E|exact M|]. split; [exact A|]. cbn. intros pa p Q. destruct (F pa p Q) as (_ & L & [r R]).
      split; [left; exact Mv|]. split; [rewrite firstn_app, app_length; lia|]. exists (r ++ d). rewrite app_assoc, <- R. reflexivity.
    + apply negb_false_iff, Nat.eqb_eq in N. assert (O : t_out (set_errno c e) = []) by (destruct (t_out (set_errno c e)); [reflexivity|discriminate]).
      assert (F' : fits (t_ssl (set_errno c e)) a d).
      { intros pa p Q. cbn in *. destruct (F pa p Q) as (_ & L & [r R]). rewrite O in R. destruct p; [|discriminate]. cbn.
        split; [left; exact Mv|]. split; [lia|]. exists d. reflexivity. }
      destruct (send_loop ks (set_errno c e) a d 0 na) as [c1 r] eqn:W.
      assert (D : alive c1). { apply send_loop_ok in W as (_ & D & _); [unfold alive in *; cbn in D; congruence|exact O|exact (fits_kept _ _ _ F')]. }
      apply send_loop_mild in W as [R F1]; [|exact M|exact O|exact F'|intros _; exact E].
      destruct (ret_ok c1 r R D) as (X1 & X2 & X3 & X4). split; [exact X1|]. rewrite X2, X3, X4. exact (F1 Mv).
  - destruct M as [E M]. apply write_mild; [intros _; exact E|exact M|exact G].
  - destruct (read_mild e ks c M A) as (X1 & X2 & X3 & X4). split; [exact X1|]. rewrite X3, X4. intros pa p Q. rewrite X2 in Q. exact (F pa p Q).
Qed.
Lemma op_open c o : clean c -> mild_op o -> unblocked o -> clean (do_op moving c o).
Proof.
  intros C M U. assert (C' := C). destruct C' as [A P]. unfold do_op. unfold alive in A. rewrite A. destruct o as [d a na e ks|e ks|e ks]; cbn in M, U.
  - destruct M as [E M]. unfold Send. destruct (negb _) eqn:N.
    + change (set_out (set_errno c e) (t_out (set_errno c e) ++ d) na) with (set_errno (set_out c (t_out c ++ d) na) e).
      assert (G : good (set_out c (t_out c ++ d) na)) by (apply clean_good; split; [exact A|exact P]).
      assert (G2 := write_mild e ks _ (fun _ => E) M G). split; [apply G2|]. unfold HandleWrite.
      destruct (write_loop _ _ _) as [c1 r] eqn:W. apply write_loop_open in W; [|exact U|exact P]. destruct r; exact W.
    + apply negb_false_iff, Nat.eqb_eq in N. assert (O : t_out (set_errno c e) = []) by (destruct (t_out (set_errno c e)); [reflexivity|discriminate]).
      assert (F' : fits (t_ssl (set_errno c e)) a d) by (apply fits_none; exact P).
      destruct (send_loop ks (set_errno c e) a d 0 na) as [c1 r] eqn:W. assert (W' := W).
      assert (D : alive c1). { apply send_loop_ok in W as (_ & D & _); [unfold alive in *; cbn in D; congruence|exact O|exact (fits_kept _ _ _ F')]. }
      apply send_loop_mild in W as [R _]; [|exact M|exact O|exact F'|intros _; exact E].
      destruct (ret_ok c1 r R D) as (X1 & X2 & X3 & X4). split; [exact X1|]. rewrite X2. apply send_loop_open in W'; assumption.
  - destruct M as [E M]. assert (G2 := write_mild e ks _ (fun _ => E) M (clean_good _ C)). split; [apply G2|]. unfold HandleWrite.
    destruct (write_loop _ _ _) as [c1 r] eqn:W. apply write_loop_open in W; [|exact U|exact P]. destruct r; exact W.
  - destruct (read_mild e ks c M A) as (X1 & X2 & _). split; [exact X1|congruence].
Qed.
Lemma ops_mild os : forall c, good c -> (forall o, In o os -> mild_op o /\ (moving = true \/ events_only o)) -> good (do_ops moving c os).
Proof.
  induction os as [|o os IH]; intros c G M; [exact G|]. cbn. destruct (M o (or_introl eq_refl)). apply IH; [apply op_mild; assumption|].
  intros o' I. apply M. right. exact I.
Qed.
Lemma ops_open os : forall c, clean c -> (forall o, In o os -> mild_op o /\ unblocked o) -> clean (do_ops moving c os).
Proof.
  induction os as [|o os IH]; intros c G M; [exact G|]. cbn. destruct (M o (or_introl eq_refl)). apply IH; [apply op_open; assumption|].
  intros o' I. apply M. right. exact I.
Qed.

End P.
