From Verif.Model Require Import Common Bytes IpAddress FdEvents Acceptor UdpService.
From Verif.Spec Require Import IpSpec AcceptSpec.
From Verif.Proofs Require Import Tac IpProofs IpProofs2 IpProofs3 AcceptProofs.
Local Open Scope Z_scope.
Local Opaque kMtu.

Definition sender (b : list Z) (e : IPEndPoint) : Prop := v4_addr b e \/ v6_addr b e.
Lemma report_ok d old e : sender (snd d) e -> length old = 128%nat -> report d old = Ok (firstn kMtu (fst d), e).
Proof.
  intros H L. unfold report, k_getname. cbn [fst]. destruct H as [(a & p & LA & P & E & ->)|(f & a & p & s & LF & LA & LS & P & E & ->)]; rewrite E.
  - rewrite firstn_all2 by (rewrite sin_len; auto; lia). unfold sockaddr_in. rewrite <- !app_assoc. rewrite from_v4; auto. lia.
  - rewrite firstn_all2 by (rewrite sin6_len; auto; lia). unfold sockaddr_in6. rewrite <- !app_assoc. rewrite from_v6; auto. lia.
Qed.
Lemma getname_len real old : (length real <= length old)%nat -> length (fst (k_getname real old)) = length old.
Proof. intros H. unfold k_getname. cbn [fst]. rewrite app_length, firstn_length, skipn_length. lia. Qed.
Lemma sender_len b e : sender b e -> (length b <= 128)%nat.
Proof. intros [(a & p & L & _ & -> & _)|(f & a & p & s & LF & L & LS & _ & -> & _)]; [rewrite sin_len; auto; lia|rewrite sin6_len; auto; lia]. Qed.

Definition said (q : list dgram) (es : list IPEndPoint) : list (list Z * IPEndPoint) := combine (map (fun d => firstn kMtu (fst d)) q) es.
Lemma reports_ok q es olds : Forall2 (fun d e => sender (snd d) e) q es -> Forall (fun b => length b = 128%nat) olds -> (length q <= length olds)%nat ->
  reports q olds = Ok (said q es).
Proof.
  intros F. revert olds. induction F as [|d e q es H F IH]; intros olds B L; [reflexivity|]. destruct olds as [|old olds]; [cbn in L; lia|]. inv B. cbn [reports].
  rewrite (report_ok d old e) by auto. cbn [obind]. rewrite IH by (auto; cbn in L; lia). reflexivity.
Qed.
Lemma refill_ok q es olds : Forall2 (fun d e => sender (snd d) e) q es -> Forall (fun b => length b = 128%nat) olds -> (length q <= length olds)%nat ->
  Forall (fun b => length b = 128%nat) (refill q olds) /\ length (refill q olds) = length olds.
Proof.
  intros F. revert olds. unfold refill. induction F as [|d e q es H F IH]; intros olds B L; [split; [exact B|reflexivity]|]. destruct olds as [|old olds]; [cbn in L; lia|]. inv B.
  cbn [combine map length skipn app]. destruct (IH olds) as [I1 I2]; [auto|cbn in L; lia|]. split.
  - constructor; [|exact I1]. rewrite getname_len; auto. apply sender_len in H. lia.
  - now rewrite I2.
Qed.
Lemma Forall2_firstn {A B} (R : A -> B -> Prop) n : forall a b, Forall2 R a b -> Forall2 R (firstn n a) (firstn n b).
Proof. induction n as [|n IH]; intros a b H; [constructor|]. destruct H; cbn; constructor; auto. Qed.
Lemma Forall2_skipn {A B} (R : A -> B -> Prop) n : forall a b, Forall2 R a b -> Forall2 R (skipn n a) (skipn n b).
Proof. induction n as [|n IH]; intros a b H; [exact H|]. destruct H; cbn; [constructor|auto]. Qed.
Lemma Forall2_length {A B} (R : A -> B -> Prop) a b : Forall2 R a b -> length a = length b.
Proof. induction 1; cbn; auto. Qed.
Lemma said_app n q es k : said (firstn n q) (firstn n es) ++ said (firstn k (skipn n q)) (firstn k (skipn n es)) = said (firstn (n + k) q) (firstn (n + k) es) \/ (length q < n)%nat \/ length q <> length es.
Proof.
  destruct (Nat.eq_dec (length q) (length es)) as [E|E]; [|auto]. destruct (Nat.le_gt_cases n (length q)) as [L|L]; [|auto]. left.
  unfold said. rewrite !firstn_add, map_app. revert q es E L. induction n as [|n IH]; intros q es E L; [reflexivity|].
  destruct q as [|d q], es as [|e es]; cbn in *; try lia. f_equal. apply IH; lia.
Qed.
Lemma handle_read_ok : forall fuel cuts q es bufs, Forall2 (fun d e => sender (snd d) e) q es -> Forall (fun b => length b = 128%nat) bufs -> length bufs = kBatch ->
  exists k b, HandleRead fuel cuts q bufs = Ok (said (firstn k q) (firstn k es), skipn k q, b) /\ (k <= length q)%nat /\
    ((length q <= fuel)%nat -> (length q <= length cuts)%nat -> Forall (eq None) cuts -> k = length q).
Proof.
  assert (BK : kBatch = 100%nat) by reflexivity. Local Opaque kBatch.
  induction fuel as [|fuel IH]; intros cuts q es bufs F B LB.
  - exists 0%nat, bufs. cbn. destruct q; (split; [reflexivity|]; split; [lia|]); cbn; intros; lia.
  - destruct q as [|d q]; [exists 0%nat, bufs; cbn; split; [reflexivity|]; split; [lia|]; auto|]. set (Q := d :: q) in *. cbn [HandleRead].
    assert (QL : (1 <= length Q)%nat) by (unfold Q; cbn; lia).
    change (match Q with [] => _ | _ :: _ => ?x end) with x.
    destruct cuts as [|c cuts]; [exists 0%nat, bufs; cbn [firstn skipn]; split; [reflexivity|]; split; [lia|]; intros _ H _; cbn in H; lia|].
    assert (GO : forall n, (1 <= n <= kBatch)%nat -> exists k b, obind (reports (firstn n Q) bufs) (fun rs =>
            obind (HandleRead fuel cuts (skipn n Q) (refill (firstn n Q) bufs)) (fun '(rs', q', b') => Ok (rs ++ rs', q', b'))) = Ok (said (firstn k Q) (firstn k es), skipn k Q, b) /\ (k <= length Q)%nat /\
              ((length Q <= S fuel)%nat -> (length Q <= S (length cuts))%nat -> Forall (eq None) cuts -> k = length Q)).
    { intros n Hn. pose proof (Forall2_firstn _ n _ _ F) as F1. assert (L1 : (length (firstn n Q) <= length bufs)%nat) by (rewrite firstn_length; lia).
      rewrite (reports_ok _ _ _ F1 B L1). cbn [obind]. destruct (refill_ok _ _ _ F1 B L1) as [R1 R2].
      destruct (IH cuts (skipn n Q) (skipn n es) (refill (firstn n Q) bufs) (Forall2_skipn _ n _ _ F) R1 ltac:(lia)) as (k & b & E & K1 & K2). rewrite E. cbn [obind].
      rewrite skipn_length in K1, K2. destruct (Nat.le_gt_cases (length Q) n) as [A|A].
      - assert (k = 0%nat) by lia. subst k. exists (length Q), b. split; [|split; [lia|auto]].
        cbn [firstn said map combine]. replace (skipn 0 (skipn n Q)) with (skipn n Q) by reflexivity. rewrite (skipn_all2 Q) by lia. rewrite skipn_all. change (said [] []) with (@nil (list Z * IPEndPoint)). rewrite app_nil_r. pose proof (Forall2_length _ _ _ F) as EL.
        assert (X1 : firstn n Q = Q) by (apply firstn_all2; lia). assert (X2 : firstn n es = es) by (apply firstn_all2; lia). assert (X3 : firstn (length Q) es = es) by (apply firstn_all2; lia).
        rewrite X1, X2, X3, firstn_all. reflexivity.
      - exists (n + k)%nat, b. split; [|split; [lia|]].
        + destruct (said_app n Q es k) as [S0|[S0|S0]]; [|exfalso; exact (Nat.lt_irrefl n (Nat.lt_trans _ _ _ A S0))|exfalso; exact (S0 (Forall2_length _ _ _ F))]. rewrite skipn_add. f_equal. f_equal. f_equal. exact S0.
        + intros H1 H2 H3. rewrite K2; auto; lia. }
    destruct c as [[|n]|].
    + exists 0%nat, bufs. cbn [firstn skipn]. split; [reflexivity|]. split; [lia|]. intros _ _ H. inv H. discriminate.
    + destruct (GO (Nat.min (S n) kBatch) ltac:(lia)) as (k & b & E & K1 & K2). exists k, b. split; [exact E|]. split; [exact K1|]. intros _ _ H. inv H. discriminate.
    + destruct (GO kBatch ltac:(lia)) as (k & b & E & K1 & K2). exists k, b. split; [exact E|]. split; [exact K1|]. intros H1 H2 H3. inv H3. cbn [length] in H2. apply K2; auto.
Qed.

(** Descriptors. *)
Lemma started limit l fd o s : 0 <= fd < limit -> evs s fd = None -> ep s l fd = None -> objs s o = None -> fdopen s fd = false ->
  exists s', runs limit s (start_ops l fd o None) = Ok s' /\ fdopen s' fd = true /\ evs s' fd = Some o /\ objs s' o = Some (mkfd fd true EV_READ false (Some l) true (gen s fd)) /\
    ep s' l fd = Some (to_epoll_event EV_READ) /\ (forall o', o' <> o -> objs s' o' = objs s o') /\ (forall f, f <> fd -> evs s' f = evs s f /\ fdopen s' f = fdopen s f /\ ep s' l f = ep s l f).
Proof.
  intros H E P O F.
  assert (BD : (fd <? 0) || (limit <=? fd) = false) by (apply orb_false_intro; [apply Z.ltb_ge|apply Z.leb_gt]; lia).
  unfold start_ops. cbn [app runs]. cbn [FdEvents.step obind]. unfold set_obj, upd. cbn [objs evs ep fdopen gen fired]. unfold with_obj. cbn [objs]. rewrite Nat.eqb_refl. cbn [f_alive f_watch].
  unfold mgr_add. cbn [f_fd evs]. rewrite BD, E. cbn [obind runs]. unfold ctl_add, set_evs, set_obj, upd. cbn [objs evs ep fdopen gen fired f_fd]. rewrite P, Z.eqb_refl. cbn [andb obind].
  eexists. split; [reflexivity|]. unfold set_ep, upd. cbn [objs evs ep fdopen gen fired f_fd f_own f_event f_et f_gen]. rewrite !Nat.eqb_refl, !Z.eqb_refl.
  split; [reflexivity|]. split; [reflexivity|]. split; [reflexivity|]. split; [reflexivity|]. split.
  - intros o' N. now rewrite !(proj2 (Nat.eqb_neq o' o)) by auto.
  - intros f N. now rewrite !(proj2 (Z.eqb_neq f fd)) by auto.
Qed.
