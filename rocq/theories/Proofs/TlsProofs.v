(** The TLS channel: stream integrity, survival, interests. *)
From Verif.Model Require Import Common TlsChannel.
From Verif.Spec Require Import TlsSpec.
From Verif.Proofs Require Import Tac.
Local Open Scope nat_scope.

Local Opaque kBlock.
Lemma kBlock_S : exists n, kBlock = S n.
Proof. exists (Z.to_nat 8191). reflexivity. Qed.
Section P.
Variable moving : bool.
Notation ssl_write := (ssl_write moving).
Notation send_round := (send_round moving).
Notation send_loop := (send_loop moving).
Notation write_round := (write_round moving).
Notation write_loop := (write_loop moving).

(** What an SSL_write does to everything but errno. *)
Definition same_but (c c' : tls) : Prop :=
  t_out c' = t_out c /\ t_in c' = t_in c /\ o_addr c' = o_addr c /\ t_wr c' = t_wr c /\ t_rd c' = t_rd c /\ t_dead c' = t_dead c.
Lemma ssl_write_ok c a data x c' r : ssl_write c a data x = (c', r) ->
  same_but c c' /\
  ((r = None /\ a_res x = ADone /\ bad_retry moving (t_ssl c) a data = false /\ data <> [] /\ hs (t_ssl c') = true /\ pend (t_ssl c') = None /\
    t_wire c' = t_wire c ++ kept (t_ssl c) ++ skipn (length (kept (t_ssl c))) data) \/
   (exists e, r = Some e /\ t_wire c' = t_wire c /\
     (pend (t_ssl c') = pend (t_ssl c) \/
      bad_retry moving (t_ssl c) a data = false /\ data <> [] /\ pend (t_ssl c') = keep (t_ssl c) a data /\
      (a_res x = AWantWrite \/ exists en, a_res x = ASyscall en)) /\
     (mild (a_res x) ->
       e = EWantRead \/ e = EWantWrite \/ e = ESyscall /\ (t_errno c' <> EOther \/ data = [] /\ t_errno c' = t_errno c) \/
       e = ESsl /\ data <> [] /\ bad_retry moving (t_ssl c) a data = true))).
Proof.
  unfold TlsChannel.ssl_write, same_but. intros H.
  destruct (negb _) eqn:N in H.
  - apply negb_true_iff, orb_false_iff in N as [N D]. destruct (a_res x) eqn:A; cbn in D; try discriminate; cbn in H; inv H; cbn;
      (split; [tauto|]); right; eexists; (split; [reflexivity|]; split; [reflexivity|]; split; [left; reflexivity|]); cbn; try tauto.
    destruct e; intros []; right; right; left; (split; [reflexivity|]); left; discriminate.
  - destruct (length data =? 0) eqn:L in H.
    + apply Nat.eqb_eq in L. inv H. cbn. split; [tauto|]. right. eexists. split; [reflexivity|]. split; [reflexivity|]. split; [left; reflexivity|].
      intros _. right; right; left. split; [reflexivity|]. right. split; [destruct data; [reflexivity|discriminate]|reflexivity].
    + apply Nat.eqb_neq in L. assert (D : data <> []) by (intros ->; apply L; reflexivity).
      destruct (bad_retry moving (t_ssl c) a data) eqn:B in H.
      * inv H. cbn. split; [tauto|]. right. eexists. split; [reflexivity|]. split; [reflexivity|]. split; [left; reflexivity|].
        intros _. right; right; right. tauto.
      * destruct (a_res x) eqn:A; cbn in H; inv H; cbn; (split; [tauto|]).
        -- left. tauto.
        -- right. eexists. split; [reflexivity|]. split; [reflexivity|]. split; [left; reflexivity|]. tauto.
        -- right. eexists. split; [reflexivity|]. split; [reflexivity|]. split; [right; tauto|]. tauto.
        -- right. eexists. split; [reflexivity|]. split; [reflexivity|]. split; [left; reflexivity|]. intros [].
        -- right. eexists. split; [reflexivity|]. split; [reflexivity|]. split; [right; intuition eauto|].
           destruct e; intros []; right; right; left; (split; [reflexivity|]); left; discriminate.
        -- right. eexists. split; [reflexivity|]. split; [reflexivity|]. split; [left; reflexivity|]. intros [].
Qed.

Lemma handle_err_ok c e c' k : handle_openssl_err c e = (c', k) ->
  t_ssl c' = t_ssl c /\ t_out c' = t_out c /\ t_in c' = t_in c /\ o_addr c' = o_addr c /\ t_wire c' = t_wire c /\ t_dead c' = t_dead c /\
  t_errno c' = t_errno c /\ (t_wr c = true -> t_wr c' = true) /\ (t_rd c = true -> t_rd c' = true) /\ (e = EWantWrite -> t_wr c' = true) /\
  (k = Close <-> e = EZeroReturn \/ e = ESsl \/ e = ESyscall /\ t_errno c = EOther) /\
  (k = FastRetry <-> e = ESyscall /\ t_errno c = EIntr).
Proof.
  destruct e; cbn; [| | | destruct (t_errno c) eqn:E | ]; intros H; inv H; cbn; do 10 (split; [tauto || congruence|]);
    (split; split; intros; try discriminate; try tauto; exfalso; intuition congruence).
Qed.

(** The record OpenSSL keeps is a prefix of what is to be written next. *)
Definition kept_ok (s : ssl) (l : list Z) : Prop := forall a p, pend s = Some (a, p) -> prefix_of p l.
Lemma prefix_firstn p l n : prefix_of p l -> length p <= length (firstn n l) -> prefix_of p (firstn n l).
Proof.
  intros [r ->] L. rewrite firstn_app in *. rewrite app_length in L.
  rewrite firstn_all2.
  - eexists. reflexivity.
  - rewrite !firstn_length in L. destruct (Nat.le_gt_cases (length p) n); [lia|]. replace (n - length p) with 0 in L by lia. cbn in L. lia.
Qed.
Lemma prefix_skip p l : prefix_of p l -> p ++ skipn (length p) l = l.
Proof. intros [r ->]. rewrite skipn_app, skipn_all, Nat.sub_diag. reflexivity. Qed.
Lemma kept_batch s a l n : kept_ok s l -> bad_retry moving s a (firstn n l) = false ->
  kept s ++ skipn (length (kept s)) (firstn n l) = firstn n l.
Proof.
  intros K B. unfold kept, bad_retry in *. destruct (pend s) as [[pa p]|] eqn:P; [|reflexivity].
  apply orb_false_iff in B as [_ B]. apply Nat.ltb_ge in B. apply prefix_skip, prefix_firstn; [exact (K _ _ P)|exact B].
Qed.
Lemma keep_ok s a l n : kept_ok s l -> bad_retry moving s a (firstn n l) = false -> keep s a (firstn n l) = Some (a, firstn n l).
Proof. intros K B. unfold keep. rewrite (kept_batch s a l n K B). reflexivity. Qed.
Lemma prefix_first n l : prefix_of (firstn n l) l.
Proof. exists (skipn n l). symmetry. apply firstn_skipn. Qed.
Lemma skip_first n (l : list Z) : skipn (length (firstn n l)) l = skipn n l.
Proof. rewrite firstn_length. destruct (Nat.le_gt_cases n (length l)); [rewrite Nat.min_l by lia; reflexivity|].
  rewrite Nat.min_r by lia. rewrite !skipn_all2 by lia. reflexivity. Qed.

Lemma write_round_ok c total x c' r : write_round c total x = (c', r) -> kept_ok (t_ssl c) (t_out c) ->
  t_wire c' ++ t_out c' = t_wire c ++ t_out c /\ kept_ok (t_ssl c') (t_out c') /\ t_in c' = t_in c /\ t_dead c' = t_dead c.
Proof.
  unfold TlsChannel.write_round. intros H K. destruct (ssl_write c (o_addr c) (firstn kBlock (t_out c)) x) as [c1 w] eqn:W.
  destruct (ssl_write_ok _ _ _ _ _ _ W) as [(E1 & E2 & E3 & E4 & E5 & E6) [(-> & A & B & D & _ & P & T)|(e & -> & T & P & _)]].
  - inv H. cbn. rewrite T, E1, (kept_batch _ _ _ _ K B). rewrite skip_first, <- app_assoc, firstn_skipn.
    split; [reflexivity|]. split; [|tauto]. intros a p Q. congruence.
  - destruct (handle_openssl_err c1 e) as [c2 k] eqn:Hd. apply handle_err_ok in Hd as (S1 & S2 & S3 & S4 & S5 & S6 & _).
    assert (G : t_wire c2 ++ t_out c2 = t_wire c ++ t_out c /\ kept_ok (t_ssl c2) (t_out c2) /\ t_in c2 = t_in c /\ t_dead c2 = t_dead c).
    { rewrite S5, S2, T, E1, S1, S3, S6, E2, E6. split; [reflexivity|]. split; [|tauto].
      destruct P as [P|(B & _ & P & _)]; intros a p Q; [exact (K a p (eq_trans (eq_sym P) Q))|].
      rewrite (keep_ok _ _ _ _ K B) in P. rewrite P in Q. injection Q as <- <-. apply prefix_first. }
    destruct k; inv H; exact G.
Qed.
Lemma write_loop_ok ks : forall c total c' r, write_loop ks c total = (c', r) -> kept_ok (t_ssl c) (t_out c) ->
  t_wire c' ++ t_out c' = t_wire c ++ t_out c /\ kept_ok (t_ssl c') (t_out c') /\ t_in c' = t_in c /\ t_dead c' = t_dead c.
Proof.
  induction ks as [|k ks IH]; intros c total c' r H K; cbn [TlsChannel.write_loop hd] in H;
    destruct (write_round _ _ _) as [c1 [[t' ag]|]] eqn:W; apply write_round_ok in W as (A & B & C & D); try exact K.
  - destruct ag; inv H; tauto.
  - inv H. tauto.
  - destruct ag.
    + destruct (IH _ _ _ _ H B) as (A' & B' & C' & D'). split; [congruence|]. split; [exact B'|]. split; congruence.
    + inv H. tauto.
  - inv H. tauto.
Qed.

Lemma send_round_ok c a rest nw na x c' r : send_round c a rest nw na x = (c', r) -> t_out c = [] -> kept_ok (t_ssl c) rest ->
  t_in c' = t_in c /\ t_dead c' = t_dead c /\
  match r with
  | None => t_wire c' = t_wire c
  | Some (rest', nw', true) => t_out c' = [] /\ t_wire c' ++ rest' = t_wire c ++ rest /\ kept_ok (t_ssl c') rest' /\ rest' <> []
  | Some (_, _, false) => t_wire c' ++ t_out c' = t_wire c ++ rest /\ kept_ok (t_ssl c') (t_out c')
  end.
Proof.
  unfold TlsChannel.send_round. intros H O K. destruct (ssl_write c a (firstn kBlock rest) x) as [c1 w] eqn:W.
  destruct (ssl_write_ok _ _ _ _ _ _ W) as [(E1 & E2 & E3 & E4 & E5 & E6) [(-> & A & B & D & _ & P & T)|(e & -> & T & P & _)]].
  - inv H. split; [exact E2|]. split; [exact E6|]. rewrite skip_first. rewrite (kept_batch _ _ _ _ K B) in T.
    destruct (negb _) eqn:N; cbn.
    + split; [congruence|]. split; [rewrite T, <- app_assoc, firstn_skipn; reflexivity|]. split; [intros ? ? Q; congruence|].
      apply negb_true_iff, Nat.eqb_neq in N. intros Z. rewrite Z in N. apply N. reflexivity.
    + apply negb_false_iff, Nat.eqb_eq in N. split; [|intros ? ? Q; congruence]. rewrite T, E1, O, app_nil_r. f_equal.
      destruct (skipn kBlock rest) eqn:S; [|discriminate]. rewrite <- (firstn_skipn kBlock rest) at 2. rewrite S, app_nil_r. reflexivity.
  - destruct (handle_openssl_err c1 e) as [c2 k] eqn:Hd. apply handle_err_ok in Hd as (S1 & S2 & S3 & S4 & S5 & S6 & _).
    assert (K2 : kept_ok (t_ssl c2) rest).
    { rewrite S1. destruct P as [P|(B & _ & P & _)]; intros b p Q; [exact (K b p (eq_trans (eq_sym P) Q))|].
      rewrite (keep_ok _ _ _ _ K B) in P. rewrite P in Q. injection Q as <- <-. apply prefix_first. }
    destruct k; inv H; cbn; (split; [congruence|]); (split; [congruence|]); [congruence| |].
    + rewrite S2, E1, O, S5, T. cbn. split; [reflexivity|exact K2].
    + destruct (negb (length rest =? 0)) eqn:N.
      * apply negb_true_iff, Nat.eqb_neq in N. rewrite S2, E1, O, S5, T. split; [reflexivity|]. split; [reflexivity|]. split; [exact K2|].
        intros ->. apply N. reflexivity.
      * apply negb_false_iff, Nat.eqb_eq in N. destruct rest; [|discriminate]. rewrite S2, E1, O, S5, T. split; [reflexivity|exact K2].
Qed.
Lemma send_round_nil c a rest nw na c' rest' nw' : send_round c a rest nw na dflt_w = (c', Some (rest', nw', true)) -> False.
Proof.
  unfold TlsChannel.send_round. intros H. destruct (ssl_write c a (firstn kBlock rest) dflt_w) as [c1 w] eqn:W.
  unfold TlsChannel.ssl_write in W. cbn [dflt_w a_hs a_res is_done] in W.
  destruct (negb _) in W; [cbn in W; inv W; cbn in H; inv H|].
  destruct (length _ =? 0) eqn:L in W.
  - apply Nat.eqb_eq in L. inv W. cbn in H. destruct (t_errno c); inv H.
    destruct rest'; [discriminate|]. destruct kBlock_S as [n Q]. rewrite Q in L. discriminate.
  - destruct (bad_retry _ _ _ _) in W; cbn in W; inv W; cbn in H; inv H.
Qed.
Lemma send_loop_ok ks : forall c a rest nw na c' r, send_loop ks c a rest nw na = (c', r) -> t_out c = [] -> kept_ok (t_ssl c) rest ->
  t_in c' = t_in c /\ t_dead c' = t_dead c /\
  match r with
  | None => prefix_of (t_wire c') (t_wire c ++ rest)
  | Some _ => t_wire c' ++ t_out c' = t_wire c ++ rest /\ kept_ok (t_ssl c') (t_out c')
  end.
Proof.
  induction ks as [|k ks IH]; intros c a rest nw na c' r H O K; cbn [TlsChannel.send_loop hd] in H;
    destruct (send_round _ _ _ _ _ _) as [c1 [[[rest' nw'] ag]|]] eqn:W; assert (W' := W);
    apply send_round_ok in W as (A & D & C); try exact K; try exact O.
  - destruct ag; [exfalso; exact (send_round_nil _ _ _ _ _ _ _ _ W')|]. inv H. tauto.
  - inv H. split; [exact A|]. split; [exact D|]. rewrite C. exists rest. reflexivity.
  - destruct ag.
    + destruct C as (O' & T & K' & _). destruct (IH _ _ _ _ _ _ _ H O' K') as (A' & D' & G).
      split; [congruence|]. split; [congruence|]. rewrite T in G. exact G.
    + inv H. tauto.
  - inv H. split; [exact A|]. split; [exact D|]. rewrite C. exists rest. reflexivity.
Qed.

(** The invariant of a living channel that has been given [d] to send; of a dead one. *)
Definition intact (c : tls) (d : list Z) : Prop :=
  if t_dead c then prefix_of (t_wire c) d else t_wire c ++ t_out c = d /\ kept_ok (t_ssl c) (t_out c).

Lemma write_intact ks c d : intact c d -> t_dead c = false -> intact (fst (HandleWrite moving ks c)) d /\ t_in (fst (HandleWrite moving ks c)) = t_in c.
Proof.
  unfold intact, HandleWrite. intros I D. rewrite D in I. destruct I as [I K]. destruct (write_loop ks c 0) as [c1 r] eqn:W.
  apply write_loop_ok in W as (A & B & C & E); [|exact K]. destruct r; cbn.
  - rewrite E, D. split; [|exact C]. split; [congruence|exact B].
  - split; [|exact C]. exists (t_out c1). congruence.
Qed.
Lemma send_intact ks c d data a na : intact c d -> t_dead c = false ->
  intact (fst (Send moving ks c data a na)) (d ++ data) /\ t_in (fst (Send moving ks c data a na)) = t_in c.
Proof.
  unfold Send. intros I D. destruct (negb _) eqn:N.
  - apply (write_intact ks (set_out c (t_out c ++ data) na) (d ++ data)); [|exact D]. unfold intact in *. cbn. rewrite D in *. destruct I as [I K].
    split; [rewrite app_assoc, I; reflexivity|]. intros b p Q. destruct (K b p Q) as [r R]. exists (r ++ data). rewrite app_assoc, <- R. reflexivity.
  - apply negb_false_iff, Nat.eqb_eq in N. assert (O : t_out c = []) by (destruct (t_out c); [reflexivity|discriminate]).
    unfold intact in *. rewrite D in I. destruct I as [I K]. rewrite O, app_nil_r in *. subst d.
    destruct (send_loop ks c a data 0 na) as [c1 r] eqn:W. apply send_loop_ok in W as (A & E & G); [|exact O|].
    + destruct r; cbn; [rewrite E, D; tauto|]. split; [exact G|exact A].
    + intros b p Q. destruct (K b p Q) as [r' R]. destruct p; [exists data; reflexivity|discriminate].
Qed.
Lemma r_fail_ok c x r c' e : r_fail c x r = (c', e) -> t_out c' = t_out c /\ t_in c' = t_in c /\ t_wire c' = t_wire c /\ t_dead c' = t_dead c /\
  o_addr c' = o_addr c /\ t_wr c' = t_wr c /\ t_rd c' = t_rd c /\ pend (t_ssl c') = pend (t_ssl c) /\ want_write (t_ssl c') = is_want_write r /\
  e = fst (fail_of r (t_errno c)) /\ t_errno c' = snd (fail_of r (t_errno c)).
Proof. unfold r_fail. destruct (fail_of r (t_errno c)) as [e' en]. intros H. inv H. cbn. tauto. Qed.
Lemma read_loop_ok ks : forall c c' r, read_loop ks c = (c', r) ->
  t_out c' = t_out c /\ t_wire c' = t_wire c /\ t_dead c' = t_dead c /\ pend (t_ssl c') = pend (t_ssl c) /\ o_addr c' = o_addr c /\
  t_in c' = t_in c ++ plaintext ks /\ (t_wr c = true -> t_wr c' = true) /\ (t_rd c = true -> t_rd c' = true) /\
  (r <> None -> want_write (t_ssl c') = true -> t_wr c' = true) /\
  (r = None <-> match ending ks with AZeroReturn | ASslError | ASyscall EOther | ADone => True | _ => False end) /\
  (forall n, r = Some n -> n = length (t_in c')).
Proof.
  induction ks as [|[rh [b bs|rr]] ks IH]; intros c c' r H.
  - cbn in H. inv H. cbn. rewrite app_nil_r. do 8 (split; [tauto || congruence|]). split; [intros; discriminate|]. split; [split; [discriminate|tauto]|congruence].
  - cbn in H. apply IH in H as (A1 & A2 & A3 & A4 & A5 & A6 & A7 & A8 & A9 & A10 & A11). cbn in *.
    rewrite <- app_assoc in A6. cbn in A6. tauto.
  - cbn [read_loop hd] in H. unfold read_round in H. cbn [r_res] in H. destruct (r_fail c {| r_hs := rh; r_res := RFail rr |} rr) as [c1 e] eqn:F.
    apply r_fail_ok in F as (B1 & B2 & B3 & B4 & B5 & B6 & B7 & B8 & B9 & B10 & B11).
    destruct (handle_openssl_err c1 e) as [c2 k] eqn:Hd.
    apply handle_err_ok in Hd as (S1 & S2 & S3 & S4 & S5 & S6 & S7 & S8 & S9 & S10 & S11 & S12).
    assert (X1 : t_out c2 = t_out c) by congruence. assert (X2 : t_wire c2 = t_wire c) by congruence. assert (X3 : t_dead c2 = t_dead c) by congruence.
    assert (X4 : pend (t_ssl c2) = pend (t_ssl c)) by (rewrite S1; exact B8). assert (X5 : o_addr c2 = o_addr c) by congruence.
    assert (X6 : t_in c2 = t_in c) by congruence. assert (X7 : t_wr c = true -> t_wr c2 = true) by (rewrite B6 in S8; exact S8).
    assert (X8 : t_rd c = true -> t_rd c2 = true) by (rewrite B7 in S9; exact S9).
    destruct k.
    + injection H as Q1 Q2; subst c' r. assert (C := proj1 S11 eq_refl). rewrite B10, B11 in C. 
      assert (P : plaintext ({| r_hs := rh; r_res := RFail rr |} :: ks) = [] /\ ending ({| r_hs := rh; r_res := RFail rr |} :: ks) = rr).
      { cbn. destruct rr as [| | | |[]|]; cbn in C; try tauto. intuition discriminate. }
      destruct P as [-> ->]. rewrite app_nil_r. repeat (split; [assumption|]). split; [congruence|]. split; [|congruence].
      split; [intros _|tauto]. destruct rr as [| | | |[]|]; cbn in C; intuition discriminate.
    + injection H as Q1 Q2; subst c' r. assert (C := fun Q => proj2 S11 Q). assert (C2 := fun Q => proj2 S12 Q). rewrite B10, B11 in *.
      assert (P : plaintext ({| r_hs := rh; r_res := RFail rr |} :: ks) = [] /\ ending ({| r_hs := rh; r_res := RFail rr |} :: ks) = rr).
      { cbn. destruct rr as [| | | |[]|]; cbn in C2; try tauto. discriminate (C2 (conj eq_refl eq_refl)). }
      destruct P as [-> ->]. rewrite app_nil_r. repeat (split; [assumption|]). split; [|split; [split; [discriminate|]|congruence]].
      * intros _ Q. rewrite S1, B9 in Q. destruct rr; try discriminate. cbn in S10. tauto.
      * intros Q. exfalso. destruct rr as [| | | |[]|]; cbn in C; try tauto; assert (F : WaitIO = Close) by tauto; discriminate F.
    + assert (C := proj1 S12 eq_refl). rewrite B10, B11 in C.
      assert (rr = ASyscall EIntr). { destruct C as [C1 C2]. destruct rr; cbn in C1, C2; try discriminate. congruence. } subst rr.
      apply IH in H as (A1 & A2 & A3 & A4 & A5 & A6 & A7 & A8 & A9 & A10 & A11). cbn [plaintext ending].
      rewrite X6 in A6. do 5 (split; [congruence|]). split; [exact A6|]. split; [tauto|]. split; [tauto|]. split; [exact A9|]. split; [exact A10|exact A11].
Qed.
End P.
