(** The redis client codec under a queued channel. *)
From Verif.Model Require Import Common Decimal Resp.
From Verif.Spec Require Import RespSpec.
From Verif.Proofs Require Import Tac DecimalProofs RespProofs RespRound.
Open Scope Z_scope.

Definition idle_lex (l : lex) (fs : frs) : Prop := l = LStart /\ fs = [].

Lemma lstep_not_start l c : lstep l c <> Lcont LStart.
Proof. destruct l; cbn [lstep]; unfold num_step; dmatch; discriminate. Qed.

Lemma complete_inr_nonempty v fs fs' : complete v fs = inr fs' -> fs' <> [].
Proof.
  revert v; induction fs as [|[n its] fs IH]; intro v; cbn [complete]; [discriminate|].
  destruct (n =? 1); [apply IH|]. intro H. inv H. discriminate.
Qed.

Lemma srun_busy p : forall l fs l' fs', ~ idle_lex l fs \/ p <> [] ->
  srun l fs p = SOk [] false l' fs' -> ~ idle_lex l' fs'.
Proof.
  induction p as [|c p IH]; intros l fs l' fs' Hb H; cbn [srun] in H.
  - inv H. destruct Hb; [auto|congruence].
  - pose proof (lstep_not_start l c). destruct (lstep l c) as [| |v|n|l2] eqn:E; try discriminate.
    + destruct (complete v fs) as [w|fs2] eqn:E2.
      * destruct (srun LStart [] p); discriminate.
      * eapply IH; [|eassumption]. left. intros [_ ->]. now apply complete_inr_nonempty in E2.
    + eapply IH; [|eassumption]. left. intros [_ ?]. discriminate.
    + eapply IH; [|eassumption]. left. intros [-> _]. congruence.
Qed.

Lemma srun_idle_nil p : srun LStart [] p = SOk [] false LStart [] -> p = [].
Proof.
  intro H. destruct p as [|c p]; auto. exfalso. eapply srun_busy; [|exact H|split; reflexivity]. right. discriminate.
Qed.

Lemma recv_ok f : forall d p cnt cur w g ws l' fs', (length p < f)%nat -> wfl (absl d) -> wff (frames d) ->
  0 < cnt < 2 ^ 32 -> srun (absl d) (rev (frames d)) p = SOk ws false l' fs' ->
  Z.of_nat (length ws) <= cnt -> (Z.of_nat (length ws) = cnt -> idle_lex l' fs') ->
  exists d', recv_loop f (mkrsvc d cnt cur p w g) = Ok (mkrsvc d' (cnt - Z.of_nat (length ws)) (cur ++ ws) [] w g) /\
    absl d' = l' /\ frames d' = rev fs'.
Proof.
  induction f as [|f IH]; intros d p cnt cur w g ws l' fs' Hf Hl Hw Hc Hs Hle Hid; [lia|]. cbn [recv_loop ndec inbuf].
  assert (A := decode_sim d p Hl Hw).
  destruct (srun_run p (absl d) (rev (frames d))) as (l0 & f0 & E). rewrite Hs in E.
  destruct (run (absl d) (rev (frames d)) p) as [k v|l fs|k|] eqn:Er; cbn [sim] in A.
  - destruct A as (d2 & -> & Hl2 & Hf2). cbn [obind next_incoming current waiting ing].
    assert (K := run_done_pos _ _ _ _ _ Er).
    destruct (srun LStart [] (skipn k p)) as [ws2 e2 l2 f2|] eqn:E2; [|discriminate]. cbn [scons] in E. inv E.
    cbn [length] in *.
    rewrite Z.mod_small by lia.
    destruct (0 <? cnt - 1) eqn:E3; b2p.
    + assert (B := IH d2 (skipn k p) (cnt - 1) (cur ++ [v]) w g ws2 l2 f2 ltac:(rewrite skipn_length; lia)).
      rewrite Hl2, Hf2 in B. specialize (B I (Forall_nil _) ltac:(lia) E2 ltac:(lia) ltac:(intro; apply Hid; lia)).
      destruct B as (d' & -> & ? & ?). exists d'. split; auto. f_equal. f_equal. lia. rewrite <- app_assoc. reflexivity.
    + assert (ws2 = []) by (destruct ws2; auto; cbn in Hle; lia). subst ws2.
      assert (I2 : idle_lex l2 f2) by (apply Hid; cbn [length] in *; lia). destruct I2 as [-> ->].
      apply srun_idle_nil in E2. rewrite E2. exists d2. rewrite Hl2, Hf2. split; auto.

  - destruct A as (d2 & -> & Hl2 & Hf2). cbn [obind next_incoming current waiting ing]. inv E.
    rewrite skipn_all, app_nil_r. cbn [length]. rewrite Z.sub_0_r. eauto.
  - discriminate.
  - discriminate.
Qed.

(** Idle service between requests. *)
Definition idle (s : rsvc) : Prop :=
  exists d, s = mkrsvc d 0 [] [] [] None /\ absl d = LStart /\ frames d = [].

Lemma data_done s : idle s -> exists s', on_data s [] = Ok ([], s') /\ idle s'.
Proof.
  intros (d & -> & Hl & Hf). unfold on_data. cbn [ndec next_incoming current inbuf waiting ing app length].
  cbn [recv_loop Nat.add]. cbn [ndec inbuf].
  assert (A := decode_sim d []). rewrite Hl, Hf in A. specialize (A I (Forall_nil _)). cbn [run sim] in A.
  destruct A as (d2 & -> & ? & ?). cbn [obind next_incoming current waiting ing length skipn].
  change (0 =? 0) with true. cbv iota. unfold on_codec_message. cbn [ing obind ndec inbuf waiting].
  eexists. split; [reflexivity|]. exists d2. auto.
Qed.

Lemma data_many_done n : forall s, idle s -> exists s', svc_run s (map Data (repeat [] n)) = Ok ([], s') /\ idle s'.
Proof.
  induction n as [|n IH]; intros s H; cbn [repeat map svc_run]; [eauto|].
  destruct (data_done s H) as (s1 & -> & H1). cbn [obind]. destruct (IH s1 H1) as (s2 & -> & H2). cbn [obind].
  exists s2. split; auto.
Qed.

Lemma concat_nil_repeat (l : list (list Z)) : concat l = [] -> l = repeat [] (length l).
Proof.
  induction l as [|a l IH]; intro H; [reflexivity|]. cbn [concat] in H. apply app_eq_nil in H. destruct H as [-> H].
  cbn [length repeat]. f_equal. now apply IH.
Qed.

Lemma classic_nil (l : list Z) : l = [] \/ l <> [].
Proof. destruct l; [left|right]; congruence. Qed.

Lemma exchange_data chunks : forall d cur id n ws, wfl (absl d) -> wff (frames d) -> ws <> [] ->
  Z.of_nat (length ws) < 2 ^ 32 ->
  srun (absl d) (rev (frames d)) (concat chunks) = SOk ws false LStart [] ->
  exists s', svc_run (mkrsvc d (Z.of_nat (length ws)) cur [] [] (Some (id, n))) (map Data chunks) = Ok ([Done id (cur ++ ws)], s') /\ idle s'.
Proof.
  induction chunks as [|p rest IH]; intros d cur id n ws Hl Hw Hne Hlt Hs.
  - cbn [concat srun] in Hs. inv Hs. congruence.
  - cbn [concat map svc_run] in *. rewrite srun_app in Hs.
    destruct (srun (absl d) (rev (frames d)) p) as [vs e l fs|] eqn:E; [|discriminate].
    destruct e; [discriminate|].
    destruct (srun l fs (concat rest)) as [us e l2 f2|] eqn:E2; [|discriminate]. inv Hs.
    assert (W : wfl l /\ wff fs).
    { assert (F := feed_f_sim (S (length p)) d p ltac:(lia) Hl Hw). rewrite E in F. cbn [feed_sim] in F. destruct F as (? & _ & _ & _ & ? & ?). auto. }
    destruct W as [W1 W2].
    assert (Hid : Z.of_nat (length vs) = Z.of_nat (length (vs ++ us)) -> us = []).
    { intro A. rewrite app_length in A. destruct us; auto. cbn [length] in A. lia. }
    unfold on_data. cbn [ndec next_incoming current inbuf waiting ing app].
    set (fu := (2 + length p)%nat). assert (Hfu : (length p < fu)%nat) by lia. clearbody fu.
    (* is everything delivered by this piece? *)
    destruct us as [|u us].
    + rewrite app_nil_r in *. 
      destruct (classic_nil (concat rest)) as [Er|Er].
      * rewrite Er in E2. cbn [srun] in E2. inv E2.
        destruct (recv_ok fu d p (Z.of_nat (length vs)) cur [] (Some (id, n)) vs LStart [] Hfu Hl Hw) as (d2 & -> & Hl2 & Hf2); auto; try lia.
        { destruct vs; [congruence|cbn [length] in *; lia]. }
        { intro; split; reflexivity. }
        cbn [obind next_incoming]. rewrite Z.sub_diag. change (0 =? 0) with true. cbv iota.
        unfold on_codec_message. cbn [ing ndec next_incoming current inbuf waiting]. unfold try_send_next. cbn [ing waiting obind].
        destruct (data_many_done (length rest) (mkrsvc d2 0 [] [] [] None)) as (s' & R & I').
        { exists d2. auto. }
        rewrite <- (concat_nil_repeat rest Er) in R.
        cbn [ndec inbuf waiting ing]. rewrite R. cbn [obind]. exists s'. split; auto.
      * exfalso. eapply srun_busy; [|exact E2|split; reflexivity]. right. exact Er.
    + destruct (recv_ok fu d p (Z.of_nat (length (vs ++ u :: us))) cur [] (Some (id, n)) vs l fs Hfu Hl Hw) as (d2 & -> & Hl2 & Hf2); auto.
      { rewrite app_length in *. cbn [length] in *. lia. }
      { rewrite app_length. lia. }
      { intro A. rewrite app_length in A. cbn [length] in A. lia. }
      cbn [obind next_incoming]. rewrite app_length in *. cbn [length] in *.
      destruct (Z.of_nat (length vs + S (length us)) - Z.of_nat (length vs) =? 0) eqn:E3; b2p; [lia|]. cbn [obind].
      replace (Z.of_nat (length vs + S (length us)) - Z.of_nat (length vs)) with (Z.of_nat (length (u :: us))) by (cbn [length]; lia).
      destruct (IH d2 (cur ++ vs) id n (u :: us)) as (s' & R & I').
      { now rewrite Hl2. } { rewrite Hf2. now apply wff_rev. } { discriminate. } { cbn [length]. lia. }
      { rewrite Hl2, Hf2, rev_involutive. exact E2. }
      rewrite R. cbn [obind]. exists s'. split; auto. rewrite <- app_assoc. reflexivity.
Qed.

Lemma svc_run_app a : forall s b,
  svc_run s (a ++ b) = obind (svc_run s a) (fun '(o, s) => obind (svc_run s b) (fun '(o2, s) => Ok (o ++ o2, s))).
Proof.
  induction a as [|[id n|x] a IH]; intros s b; cbn [app svc_run obind].
  - destruct (svc_run s b) as [[o s2]| |]; reflexivity.
  - destruct (submit s (id, n)) as [s2| |]; cbn [obind]; auto.
  - destruct (on_data s x) as [[o s2]| |]; cbn [obind]; auto. rewrite IH.
    destruct (svc_run s2 a) as [[o2 s3]| |]; cbn [obind]; auto.
    destruct (svc_run s3 b) as [[o3 s4]| |]; cbn [obind]; auto. now rewrite app_assoc.
Qed.

Lemma one_exchange x s : good_exchange x -> idle s ->
  exists s', svc_run s (Submit (xid x) (Z.of_nat (length (replies x))) :: map Data (pieces x)) = Ok ([Done (xid x) (replies x)], s') /\ idle s'.
Proof.
  intros (W & Hn & Hlt & Hc) (d & -> & Hl & Hf). cbn [svc_run]. unfold submit, try_send_next.
  cbn [ndec next_incoming current inbuf waiting ing app]. change (0 =? 0) with true. cbv iota. cbn [obind].
  assert (A := exchange_data (pieces x) d [] (xid x) (Z.of_nat (length (replies x))) (replies x)).
  apply A; try (rewrite Hl; exact I); try (rewrite Hf; constructor); auto.
  - destruct (replies x); [cbn in Hn; lia|discriminate].
  - rewrite Hl, Hf, Hc. cbn [rev]. rewrite <- (app_nil_r (concat (map wire (replies x)))).
    rewrite srun_wires by auto. cbn [srun]. now rewrite app_nil_r.
Qed.

Lemma sequential_ok xs : Forall good_exchange xs -> forall s, idle s ->
  exists s', svc_run s (sequential xs) = Ok (map (fun x => Done (xid x) (replies x)) xs, s') /\ idle s'.
Proof.
  induction 1 as [|x xs Hx Hxs IH]; intros s Hs; [exists s; split; auto; reflexivity|].
  unfold sequential. cbn [map concat]. rewrite svc_run_app.
  destruct (one_exchange x s Hx Hs) as (s1 & E & I1). rewrite E. cbn [obind].
  destruct (IH s1 I1) as (s2 & E2 & I2). unfold sequential in E2. rewrite E2. cbn [obind]. exists s2. split; auto.
Qed.

Lemma new_idle : idle new_rsvc.
Proof. exists new_dec. split; [reflexivity|split; reflexivity]. Qed.

Lemma sequential_final xs : Forall good_exchange xs ->
  exists s', svc_run new_rsvc (sequential xs) = Ok (map (fun x => Done (xid x) (replies x)) xs, s') /\
             ing s' = None /\ waiting s' = [] /\ next_incoming s' = 0.
Proof.
  intro H. destruct (sequential_ok xs H new_rsvc new_idle) as (s & E & (d & -> & _)). eexists. split; [exact E|]. auto.
Qed.
