From Verif.Model Require Import Common FdEvents ClientPool.
From Verif.Spec Require Import PoolSpec.
From Verif.Proofs Require Import Tac.
Open Scope Z_scope.

Ltac pj := cbn [p_req p_stopping p_alive p_chans p_cnt p_inuse p_ccnt p_inprog p_q p_delayed p_ival p_next p_socks p_detach
  w_q w_delayed w_ival w_chans w_inprog w_ccnt w_next w_sock w_detach] in *.

(** ** Case analysis of a step into a small number of effects *)

(** [fr]: OnConnectFailed's effect besides the report. *)
Inductive failed_to (s : pool) : pool -> list pev -> Prop :=
| ft_none : p_stopping s = true \/ p_req s <= p_cnt s -> failed_to s s []
| ft_giveup : p_stopping s = false -> p_cnt s < p_req s -> 10 < p_ccnt s -> failed_to s (w_ival s (u32 (p_ival s + 10))) []
| ft_redial : p_stopping s = false -> p_cnt s < p_req s -> p_ccnt s <= 10 ->
    failed_to s (w_delayed (w_ival s (u32 (p_ival s + 10))) (S (p_delayed s))) [PDelay (Z.min (u32 (p_ival s + 10)) 10000)].
Inductive launched (s : pool) : pool -> Prop :=
| la_none : p_stopping s = true \/ p_req s <= p_cnt s + p_ccnt s -> launched s s
| la_dial : p_stopping s = false -> p_cnt s + p_ccnt s < p_req s -> launched s (w_q s (p_q s ++ [TDial])).

Lemma failed_inv a s r : OnConnectFailed a s = Ok r -> p_alive s = true /\ exists s' l, r = (s', PFail a :: l) /\ failed_to s s' l.
Proof.
  unfold OnConnectFailed. destruct (p_alive s); [|discriminate]. cbn [negb]. intro H. split; [reflexivity|].
  destruct (p_stopping s) eqn:St; cbn [orb] in H.
  - inv H. exists s, []. split; [reflexivity|]. constructor. auto.
  - destruct (p_req s <=? p_cnt s) eqn:E.
    + inv H. exists s, []. split; [reflexivity|]. constructor. right. lia.
    + cbn zeta in H. unfold kConnetBatchCount, kMaxReconInterval in H. pj. destruct (10 <? p_ccnt s) eqn:F; inv H; do 2 eexists; (split; [reflexivity|]); constructor; auto; lia.
Qed.
Lemma launch_inv s : launched s (launch_next_if_need s).
Proof.
  unfold launch_next_if_need. destruct (p_stopping s) eqn:St; cbn [orb]; [constructor; auto|].
  destruct (p_req s <=? p_cnt s + p_ccnt s) eqn:E; constructor; auto; lia.
Qed.
Lemma connected_inv a s r : OnConnected a s = Ok r ->
  p_alive s = true /\ exists s', r = (s', [POk a]) /\ launched (w_sock (w_chans (w_ival s 0) (p_chans s ++ [a])) a SHanded) s'.
Proof.
  unfold OnConnected. destruct (p_alive s); [|discriminate]. cbn [negb]. intro H. inv H. split; [reflexivity|]. eexists. split; [reflexivity|]. apply launch_inv.
Qed.
Lemma closed_inv c s r : OnClientChannelClosed c s = Ok r ->
  p_alive s = true /\ exists s' l, r = (s', l) /\ launched (w_chans s (without c (p_chans s))) s' /\ (l = [] \/ l = [PBroken]).
Proof.
  unfold OnClientChannelClosed. destruct (p_alive s); [|discriminate]. cbn [negb]. intro H. inv H. split; [reflexivity|].
  eexists. eexists. split; [reflexivity|]. split; [apply launch_inv|]. dmatch; auto.
Qed.

(** The outcome of a step, for attempt [a]. *)
Inductive effect (s : pool) : pact -> pool -> list pev -> Prop :=
| ef_dial_fail act s0 x s' l : (exists d, act = ATask d /\ exists q, p_q s = TDial :: q /\ s0 = w_q s q) \/ (exists d n, act = ADelayed d /\ p_delayed s = S n /\ s0 = w_delayed s n) ->
    x = SNone \/ x = SClosed -> p_alive s = true ->
    failed_to (match x with SNone => w_next s0 (S (p_next s)) | _ => w_sock (w_next s0 (S (p_next s))) (p_next s) x end) s' l ->
    effect s act s' (PDialed (p_next s) :: PFail (p_next s) :: l)
| ef_dial_ok act s0 s' : (exists d, act = ATask d /\ exists q, p_q s = TDial :: q /\ s0 = w_q s q) \/ (exists d n, act = ADelayed d /\ p_delayed s = S n /\ s0 = w_delayed s n) ->
    p_alive s = true ->
    launched (w_sock (w_chans (w_ival (w_sock (w_next s0 (S (p_next s))) (p_next s) SOpen) 0) (p_chans s ++ [p_next s])) (p_next s) SHanded) s' ->
    effect s act s' [PDialed (p_next s); POk (p_next s)]
| ef_dial_prog act s0 : (exists d, act = ATask d /\ exists q, p_q s = TDial :: q /\ s0 = w_q s q) \/ (exists d n, act = ADelayed d /\ p_delayed s = S n /\ s0 = w_delayed s n) ->
    effect s act (w_inprog (w_sock (w_next s0 (S (p_next s))) (p_next s) SOpen) (p_inprog s ++ [p_next s])) [PDialed (p_next s)]
| ef_stop d q : p_q s = TStop :: q -> effect s (ATask d) (fst (StopConnector (w_q s q))) (map PCancel (p_inprog s))
| ef_closed_task d q c s' l : p_q s = TClosed c :: q -> p_alive s = true ->
    launched (w_chans (w_q s q) (without c (p_chans s))) s' -> l = [] \/ l = [PBroken] -> effect s (ATask d) s' l
| ef_ev_ok a e s' : In a (p_inprog s) -> hasb (to_lt_event e) EV_READ = true -> p_alive s = true ->
    launched (w_sock (w_chans (w_ival (w_inprog s (without a (p_inprog s))) 0) (p_chans s ++ [a])) a SHanded) s' ->
    effect s (AEvent a e true false) s' [POk a]
| ef_ev_leak a e self s' l : In a (p_inprog s) -> hasb (to_lt_event e) EV_READ = true -> p_alive s = true ->
    failed_to (w_sock (w_inprog s (without a (p_inprog s))) a SLeaked) s' l ->
    effect s (AEvent a e false self) s' (PFail a :: l)
| ef_ev_fail a e peer self s' l : In a (p_inprog s) -> hasb (to_lt_event e) EV_READ = false \/ (peer = true /\ self = true) -> p_alive s = true ->
    failed_to s s' l ->
    effect s (AEvent a e peer self)
      (w_ccnt (w_sock (w_inprog s' (without a (p_inprog s))) a SClosed) (Z.of_nat (length (without a (p_inprog s))))) (PFail a :: l)
| ef_closed c il s' l : p_socks s c = SHanded -> p_alive s = true -> il = true \/ p_stopping s = true ->
    launched (w_chans (w_detach (w_sock s c SClosed) (without c (p_detach s))) (without c (p_chans s))) s' -> l = [] \/ l = [PBroken] ->
    effect s (AClosed c il) s' l
| ef_closed_post c : p_socks s c = SHanded -> p_alive s = true -> p_stopping s = false ->
    effect s (AClosed c false) (w_q (w_detach (w_sock s c SClosed) (without c (p_detach s))) (p_q s ++ [TClosed c])) []
| ef_final : p_alive s = true -> effect s AFinalize (Finalize s) []
| ef_detach c : In c (p_detach s) -> effect s (ADetach c) (w_detach (w_sock s c SClosed) (without c (p_detach s))) []
| ef_destroy : p_alive s = true -> effect s ADestroy
    (mkP (p_req s) true false [] (p_cnt (Finalize s)) (p_inuse (Finalize s)) (p_ccnt (Finalize s)) (p_inprog (Finalize s)) (p_q (Finalize s)) (p_delayed (Finalize s)) (p_ival (Finalize s)) (p_next (Finalize s)) (p_socks (Finalize s)) (p_detach (Finalize s))) [].

Lemma existsb_In a l : existsb (Nat.eqb a) l = true <-> In a l.
Proof. rewrite existsb_exists. split; [intros (x & A & B); apply Nat.eqb_eq in B; now subst|intro H; exists a; now rewrite Nat.eqb_refl]. Qed.

Lemma dial_effect s act s0 d r :
  (exists d, act = ATask d /\ exists q, p_q s = TDial :: q /\ s0 = w_q s q) \/ (exists d n, act = ADelayed d /\ p_delayed s = S n /\ s0 = w_delayed s n) ->
  Dial d s0 = Ok r -> effect s act (fst r) (snd r).
Proof.
  intros W H.
  assert (N : p_next s0 = p_next s /\ p_alive s0 = p_alive s /\ p_chans s0 = p_chans s /\ p_inprog s0 = p_inprog s)
    by (destruct W as [(? & _ & q & _ & ->)|(? & n & _ & _ & ->)]; repeat split).
  destruct N as (N & Al & Nc & Ni). unfold Dial in H. rewrite N in H.
  destruct d; cbn zeta in H.
  - destruct (OnConnectFailed _ _) as [r'| |] eqn:F; cbn in H; try discriminate. destruct (failed_inv _ _ _ F) as (A & s' & l & -> & G).
    cbn in H. inv H. cbn [fst snd]. eapply (ef_dial_fail s act s0 SNone); eauto; pj; congruence.
  - destruct (OnConnectFailed _ _) as [r'| |] eqn:F; cbn in H; try discriminate. destruct (failed_inv _ _ _ F) as (A & s' & l & -> & G).
    cbn in H. inv H. cbn [fst snd]. eapply (ef_dial_fail s act s0 SClosed); eauto; pj; congruence.
  - destruct (OnConnectFailed _ _) as [r'| |] eqn:F; cbn in H; try discriminate. destruct (failed_inv _ _ _ F) as (A & s' & l & -> & G).
    cbn in H. inv H. cbn [fst snd]. eapply (ef_dial_fail s act s0 SClosed); eauto; pj; congruence.
  - destruct (OnConnected _ _) as [r'| |] eqn:F; cbn in H; try discriminate. destruct (connected_inv _ _ _ F) as (A & s' & -> & G).
    cbn in H. inv H. cbn [fst snd]. eapply ef_dial_ok; eauto; pj; congruence.
  - pj. inv H. cbn [fst snd]. rewrite Ni. eapply ef_dial_prog; eauto.
Qed.

Lemma pstep_effect s act s' l : pstep s act = Some (Ok (s', l)) -> effect s act s' l.
Proof.
  intro H. destruct act as [d|d|a e peer self|c il| |c|]; cbn in H.
  - destruct (p_q s) as [|[| |c] q] eqn:Q; try discriminate.
    + change (effect s (ATask d) (fst (s', l)) (snd (s', l))). apply dial_effect with (s0 := w_q s q) (d := d); [left; eauto 6|congruence].
    + assert (X : Ok (StopConnector (w_q s q)) = Ok (s', l)) by congruence. inv X. now apply ef_stop.
    + assert (X : OnClientChannelClosed c (w_q s q) = Ok (s', l)) by congruence.
      destruct (closed_inv _ _ _ X) as (A & s1 & l1 & E & L & B). inv E. eapply ef_closed_task; eauto.
  - destruct (p_delayed s) as [|n] eqn:D; [discriminate|].
    change (effect s (ADelayed d) (fst (s', l)) (snd (s', l))). apply dial_effect with (s0 := w_delayed s n) (d := d); [right; eauto 6|congruence].
  - destruct (existsb (Nat.eqb a) (p_inprog s)) eqn:Ex; [|discriminate]. apply existsb_In in Ex.
    assert (X : HandleEvent a e peer self s = Ok (s', l)) by congruence. clear H. unfold HandleEvent in X.
    assert (RM : forall r, RemoveFromInprogress a s = Ok r -> hasb (to_lt_event e) EV_READ = false \/ (peer = true /\ self = true) ->
              effect s (AEvent a e peer self) (fst r) (snd r)).
    { intros r Y C. unfold RemoveFromInprogress in Y. destruct (OnConnectFailed a s) as [r'| |] eqn:F; cbn in Y; try discriminate.
      destruct (failed_inv _ _ _ F) as (A & s1 & l1 & -> & G). cbn in Y. inv Y. cbn [fst snd].
      assert (Ei : p_inprog s1 = p_inprog s) by (destruct G; reflexivity). rewrite Ei. now apply ef_ev_fail. }
    destruct (hasb (to_lt_event e) EV_READ) eqn:R.
    + unfold HandleWrite in X. destruct peer; cbn [andb] in X.
      * destruct self; [exact (RM _ X (or_intror (conj eq_refl eq_refl)))|].
        destruct (connected_inv _ _ _ X) as (A & s1 & E & L). inv E. now apply ef_ev_ok.
      * destruct (failed_inv _ _ _ X) as (A & s1 & l1 & E & L). inv E. now apply ef_ev_leak.
    + exact (RM _ X (or_introl eq_refl)).
  - destruct (p_socks s c) eqn:Sc; try discriminate. destruct (p_alive s) eqn:Al; [|discriminate]. cbn [negb] in H.
    destruct il; cbn [orb] in H.
    + assert (X : OnClientChannelClosed c (w_detach (w_sock s c SClosed) (without c (p_detach s))) = Ok (s', l)) by congruence.
      destruct (closed_inv _ _ _ X) as (A & s1 & l1 & E & L & B). inv E. eapply ef_closed; eauto.
    + destruct (p_stopping s) eqn:St.
      * assert (X : OnClientChannelClosed c (w_detach (w_sock s c SClosed) (without c (p_detach s))) = Ok (s', l)) by congruence.
        destruct (closed_inv _ _ _ X) as (A & s1 & l1 & E & L & B). inv E. eapply ef_closed; eauto.
      * inv H. apply ef_closed_post; auto.
  - destruct (p_alive s) eqn:Al; [|discriminate]. inv H. now apply ef_final.
  - destruct (existsb (Nat.eqb c) (p_detach s)) eqn:Ex; [|discriminate]. inv H. apply existsb_In in Ex. now apply ef_detach.
  - destruct (p_alive s) eqn:Al; [|discriminate]. inv H. unfold Finalize. destruct (p_stopping s) eqn:St; pj; apply (ef_destroy s Al) || (pose proof (ef_destroy s Al) as X; unfold Finalize in X; rewrite St in X; pj; exact X).
Qed.

(** ** General invariant *)
Record pinv (s : pool) : Prop := {
  v_nd : NoDup (p_inprog s);
  v_lt : forall a, In a (p_inprog s) -> (a < p_next s)%nat;
  v_open : forall a, p_socks s a = SOpen <-> In a (p_inprog s);
  v_hand : forall a, p_socks s a = SHanded -> (a < p_next s)%nat /\ (p_alive s = true -> In a (p_chans s));
  v_none : forall a, (p_next s <= a)%nat -> p_socks s a = SNone;
  v_chlt : forall a, In a (p_chans s) -> (a < p_next s)%nat;
  v_chnd : NoDup (p_chans s);
  v_chs : forall a, In a (p_chans s) -> p_socks s a = SHanded \/ p_socks s a = SClosed;
  v_cnt : p_stopping s = false -> p_cnt s = Z.of_nat (length (p_chans s));
  v_use : p_alive s = true -> p_inuse s = p_chans s;
  v_ccnt : 0 <= p_ccnt s;
  v_cnt0 : 0 <= p_cnt s;
  v_alive : p_alive s = false -> p_stopping s = true /\ p_chans s = [] }.

Lemma pinv_launched s s' : launched s s' -> pinv s -> pinv s'.
Proof. destruct 1; [auto|]. intros [A B C D E F G M HC I J K L]. constructor; pj; auto. Qed.
Lemma pinv_failed s s' l : failed_to s s' l -> pinv s -> pinv s'.
Proof. destruct 1; [auto| |]; intros [A B C D E F G M HC I J K L]; constructor; pj; auto. Qed.
Lemma pinv_init req iv : pinv (pinit req iv).
Proof. constructor; cbn; intros; try discriminate; try constructor; try contradiction; auto; try lia. discriminate. Qed.

Lemma in_without a x l : In x (without a l) <-> In x l /\ x <> a.
Proof. unfold without. rewrite filter_In, negb_true_iff, Nat.eqb_neq. tauto. Qed.
Lemma nd_without a l : NoDup l -> NoDup (without a l).
Proof. apply NoDup_filter. Qed.
Lemma nd_snoc (a : nat) l : NoDup l -> ~ In a l -> NoDup (l ++ [a]).
Proof.
  intros A B. induction A as [|x l N A IH]; cbn; [repeat constructor; auto|]. constructor.
  - rewrite in_app_iff. cbn. intros [X|[X|[]]]; [auto|]. apply B. left. auto.
  - apply IH. intro X. apply B. now right.
Qed.

Lemma pinv_q s q : pinv s -> pinv (w_q s q).
Proof. intros [A B C D E F G M HC I J K L]; constructor; pj; auto. Qed.
Lemma pinv_delayed s q : pinv s -> pinv (w_delayed s q).
Proof. intros [A B C D E F G M HC I J K L]; constructor; pj; auto. Qed.
Lemma pinv_detach s q : pinv s -> pinv (w_detach s q).
Proof. intros [A B C D E F G M HC I J K L]; constructor; pj; auto. Qed.
Lemma pinv_ccnt s c : 0 <= c -> pinv s -> pinv (w_ccnt s c).
Proof. intros ? [A B C D E F G M HC I J K L]; constructor; pj; auto. Qed.

(** A new attempt that is over at once. *)
Lemma pinv_new_over s x : x = SNone \/ x = SClosed -> pinv s ->
  pinv (match x with SNone => w_next s (S (p_next s)) | _ => w_sock (w_next s (S (p_next s))) (p_next s) x end).
Proof.
  intros Hx [A B C D E F G M HC I J K L].
  assert (N : ~ In (p_next s) (p_inprog s)) by (intro X; apply B in X; lia).
  destruct Hx as [-> | ->]; constructor; pj; auto; try (intros a X; first [apply B in X|apply F in X]; lia).
  - intros a X. destruct (D a X). split; [lia|assumption].
  - intros a X. apply E. lia.
  - intros a. destruct (Nat.eqb_spec a (p_next s)) as [->|X]; [split; [discriminate|contradiction]|apply C].
  - intros a. destruct (Nat.eqb_spec a (p_next s)) as [->|Y]; [discriminate|]. intro X. destruct (D a X). split; [lia|assumption].
  - intros a X. destruct (Nat.eqb_spec a (p_next s)) as [->|Y]; [lia|]. apply E. lia.
  - intros a X. destruct (Nat.eqb_spec a (p_next s)) as [->|Y]; [auto|]. auto.
Qed.
Lemma pinv_new_prog s : pinv s -> pinv (w_inprog (w_sock (w_next s (S (p_next s))) (p_next s) SOpen) (p_inprog s ++ [p_next s])).
Proof.
  intros [A B C D E F G M HC I J K L].
  assert (N : ~ In (p_next s) (p_inprog s)) by (intro X; apply B in X; lia).
  constructor; pj; auto; try (intros a X; apply F in X; lia).
  - now apply nd_snoc.
  - intros a X. apply in_app_or in X. destruct X as [X|[<-|[]]]; [apply B in X|]; lia.
  - intros a. rewrite in_app_iff. cbn. destruct (Nat.eqb_spec a (p_next s)) as [->|X]; [tauto|]. rewrite C. intuition congruence.
  - intros a. destruct (Nat.eqb_spec a (p_next s)) as [->|Y]; [discriminate|]. intro X. destruct (D a X). split; [lia|assumption].
  - intros a X. destruct (Nat.eqb_spec a (p_next s)) as [->|Y]; [lia|]. apply E. lia.
  - intros a X. destruct (Nat.eqb_spec a (p_next s)) as [->|Y]; [apply F in X; lia|]. auto.
Qed.
Lemma pinv_new_ok s : p_alive s = true -> pinv s ->
  pinv (w_sock (w_chans (w_ival (w_sock (w_next s (S (p_next s))) (p_next s) SOpen) 0) (p_chans s ++ [p_next s])) (p_next s) SHanded).
Proof.
  intros Al [A B C D E F G M HC I J K L].
  assert (N : ~ In (p_next s) (p_inprog s)) by (intro X; apply B in X; lia).
  constructor; pj; auto; try lia; try congruence; try (intros a X; first [apply B in X]; lia).
  - intros a. destruct (Nat.eqb_spec a (p_next s)) as [->|X]; [split; [discriminate|contradiction]|apply C].
  - intros a. rewrite in_app_iff. cbn. destruct (Nat.eqb_spec a (p_next s)) as [->|Y]; [split; [lia|auto]|]. intro X. destruct (D a X). split; [lia|auto].
  - intros a X. destruct (Nat.eqb_spec a (p_next s)) as [->|Y]; [lia|]. apply E. lia.
  - intros a X. apply in_app_or in X. destruct X as [X|[<-|[]]]; [apply F in X|]; lia.
  - apply nd_snoc; auto. intro X. apply F in X. lia.
  - intros a X. destruct (Nat.eqb_spec a (p_next s)) as [->|Y]; [auto|]. apply in_app_or in X. destruct X as [X|[X|[]]]; [auto|congruence].
Qed.
Lemma pinv_ev_ok s a : p_alive s = true -> In a (p_inprog s) -> pinv s ->
  pinv (w_sock (w_chans (w_ival (w_inprog s (without a (p_inprog s))) 0) (p_chans s ++ [a])) a SHanded).
Proof.
  intros Al Hin [A B C D E F G M HC I J K L]. pose proof (B a Hin) as La.
  assert (Nc : p_socks s a = SOpen) by (now apply C).
  constructor; pj; auto; try lia; try congruence.
  - now apply nd_without.
  - intros x X. apply in_without in X. apply B. tauto.
  - intros x. rewrite in_without. destruct (Nat.eqb_spec x a) as [->|X]; [split; [discriminate|tauto]|]. rewrite C. tauto.
  - intros x. rewrite in_app_iff. cbn. destruct (Nat.eqb_spec x a) as [->|Y]; [split; [lia|auto]|]. intro X. destruct (D x X). split; [lia|auto].
  - intros x X. destruct (Nat.eqb_spec x a) as [->|Y]; [lia|]. apply E. lia.
  - intros x X. apply in_app_or in X. destruct X as [X|[<-|[]]]; [apply F in X|]; lia.
  - apply nd_snoc; auto. intro X. destruct (M _ X); congruence.
  - intros x X. destruct (Nat.eqb_spec x a) as [->|Y]; [auto|]. apply in_app_or in X. destruct X as [X|[X|[]]]; [auto|congruence].
Qed.
Lemma pinv_ev_over s a x : x = SLeaked \/ x = SClosed -> In a (p_inprog s) -> pinv s -> pinv (w_sock (w_inprog s (without a (p_inprog s))) a x).
Proof.
  intros Hx Hin [A B C D E F G M HC I J K L]. pose proof (B a Hin) as La.
  assert (Nc : p_socks s a = SOpen) by (now apply C).
  constructor; pj; auto; try lia; try congruence.
  - now apply nd_without.
  - intros y X. apply in_without in X. apply B. tauto.
  - intros y. rewrite in_without. destruct (Nat.eqb_spec y a) as [->|X]; [destruct Hx as [-> | ->]; split; [discriminate|tauto|discriminate|tauto]|]. rewrite C. tauto.
  - intros y. destruct (Nat.eqb_spec y a) as [->|Y]; [destruct Hx as [-> | ->]; discriminate|]. intro X. apply (D y X).
  - intros y X. destruct (Nat.eqb_spec y a) as [->|Y]; [lia|]. apply E. lia.
  - intros y X. destruct (Nat.eqb_spec y a) as [->|Y]; [destruct (M _ X); congruence|]. auto.
Qed.
Lemma pinv_close s c : p_socks s c = SHanded \/ In c (p_chans s) \/ p_socks s c = SClosed -> pinv s -> pinv (w_sock s c SClosed).
Proof.
  intros Hc [A B C D E F G M HC I J K L].
  assert (X0 : p_socks s c <> SOpen /\ p_socks s c <> SNone).
  { destruct Hc as [X|[X|X]]; [split; congruence|destruct (M _ X) as [Y|Y]; split; congruence|split; congruence]. }
  constructor; pj; auto.
  - intro a. destruct (Nat.eqb_spec a c) as [->|Y]; [|apply C]. split; [discriminate|]. intro X. apply C in X. tauto.
  - intro a. destruct (Nat.eqb_spec a c) as [->|Y]; [discriminate|]. apply D.
  - intros a X. destruct (Nat.eqb_spec a c) as [->|Y]; [|auto]. apply E in X. tauto.
  - intros a X. destruct (Nat.eqb_spec a c) as [->|Y]; auto.
Qed.
Lemma pinv_drop s c : p_socks s c = SClosed -> p_alive s = true -> pinv s -> pinv (w_chans s (without c (p_chans s))).
Proof.
  intros Hc Al [A B C D E F G M HC I J K L]. constructor; pj; auto; try lia; try congruence.
  - intros a X. destruct (D a X) as (Y & Z). split; [assumption|]. intro W. apply in_without. split; [auto|congruence].
  - intros a X. apply in_without in X. apply F. tauto.
  - now apply nd_without.
  - intros a X. apply in_without in X. apply M. tauto.
Qed.
Lemma pinv_final s : pinv s -> pinv (Finalize s).
Proof.
  intro I0. unfold Finalize. destruct (p_stopping s) eqn:St; [assumption|]. destruct I0 as [A B C D E F G M HC I J K L].
  constructor; pj; auto; try lia; try discriminate. intro X. apply L in X. destruct X. congruence.
Qed.

(** Channels closed by their peer, and channels to be detached, are not open attempts. *)
Definition cinv' (s : pool) : Prop :=
  (forall c, In (TClosed c) (p_q s) -> p_socks s c = SClosed) /\
  (forall c, In c (p_detach s) -> p_socks s c = SHanded \/ p_socks s c = SClosed).

Lemma closed_lt s c : pinv s -> p_socks s c = SClosed -> (c < p_next s)%nat.
Proof. intros I H. destruct (Nat.lt_ge_cases c (p_next s)) as [L|L]; [exact L|]. rewrite (v_none _ I c L) in H. discriminate. Qed.
Lemma handed_lt s c : pinv s -> p_socks s c = SHanded -> (c < p_next s)%nat.
Proof. intros I H. destruct (Nat.lt_ge_cases c (p_next s)) as [L|L]; [exact L|]. rewrite (v_none _ I c L) in H. discriminate. Qed.

(** What the two effects leave alone. *)
Lemma failed_same s s' l : failed_to s s' l ->
  p_req s' = p_req s /\ p_stopping s' = p_stopping s /\ p_alive s' = p_alive s /\ p_chans s' = p_chans s /\ p_cnt s' = p_cnt s /\
  p_inuse s' = p_inuse s /\ p_ccnt s' = p_ccnt s /\ p_inprog s' = p_inprog s /\ p_q s' = p_q s /\ p_next s' = p_next s /\
  p_socks s' = p_socks s /\ p_detach s' = p_detach s.
Proof. destruct 1; repeat split. Qed.
Lemma launched_same s s' : launched s s' ->
  p_req s' = p_req s /\ p_stopping s' = p_stopping s /\ p_alive s' = p_alive s /\ p_chans s' = p_chans s /\ p_cnt s' = p_cnt s /\
  p_inuse s' = p_inuse s /\ p_ccnt s' = p_ccnt s /\ p_inprog s' = p_inprog s /\ p_delayed s' = p_delayed s /\ p_next s' = p_next s /\
  p_socks s' = p_socks s /\ p_detach s' = p_detach s /\ p_ival s' = p_ival s.
Proof. destruct 1; repeat split. Qed.
Lemma launched_closed s s' c : launched s s' -> In (TClosed c) (p_q s') -> In (TClosed c) (p_q s).
Proof. destruct 1; [auto|]. pj. rewrite in_app_iff. cbn. intuition discriminate. Qed.
Lemma cinv_failed s s' l : failed_to s s' l -> cinv' s -> cinv' s'.
Proof. intros F. destruct (failed_same _ _ _ F) as (_ & _ & _ & _ & _ & _ & _ & _ & Q & _ & S & D). unfold cinv'. now rewrite Q, S, D. Qed.
Lemma cinv_launched s s' : launched s s' -> cinv' s -> cinv' s'.
Proof.
  intros F [A B]. destruct (launched_same _ _ F) as (_ & _ & _ & _ & _ & _ & _ & _ & _ & _ & S & D & _).
  split; [intros c X; rewrite S; apply A; eapply launched_closed; eauto|now rewrite S, D].
Qed.

Lemma dial_base s act s0 :
  (exists d, act = ATask d /\ exists q, p_q s = TDial :: q /\ s0 = w_q s q) \/ (exists d n, act = ADelayed d /\ p_delayed s = S n /\ s0 = w_delayed s n) ->
  pinv s -> cinv' s -> pinv s0 /\ cinv' s0 /\ p_next s0 = p_next s /\ p_chans s0 = p_chans s /\ p_inprog s0 = p_inprog s /\ p_alive s0 = p_alive s.
Proof.
  intros W I [C1 C2]. destruct W as [(d & -> & q & E & ->)|(d & n & -> & E & ->)].
  - split; [now apply pinv_q|]. split; [|repeat split]. split; [|exact C2]. pj. intros c X. apply C1. rewrite E. now right.
  - split; [now apply pinv_delayed|]. split; [|repeat split]. split; assumption.
Qed.

(** Changing the socket of an attempt that is neither closed nor handed over keeps [cinv']. *)
Lemma cinv_sock s a x : p_socks s a <> SClosed -> p_socks s a <> SHanded -> cinv' s -> cinv' (w_sock s a x).
Proof.
  intros N1 N2 [A B]. split; pj; intros c X; destruct (Nat.eqb_spec c a) as [->|Y]; auto.
  - apply A in X. contradiction.
  - destruct (B _ X); contradiction.
Qed.
Lemma cinv_sock_closed s a : cinv' s -> cinv' (w_sock s a SClosed).
Proof. intros [A B]. split; pj; intros c X; destruct (Nat.eqb_spec c a) as [->|Y]; auto. Qed.
Lemma cinv_sock_handed s a : p_socks s a <> SClosed -> cinv' s -> cinv' (w_sock s a SHanded).
Proof. intros N [A B]. split; pj; intros c X; destruct (Nat.eqb_spec c a) as [->|Y]; auto. apply A in X. contradiction. Qed.

Lemma effect_inv s act s' l : effect s act s' l -> pinv s -> cinv' s -> pinv s' /\ cinv' s'.
Proof.
  intros H I C. destruct H as [act s0 x s' l W Hx Al F|act s0 s' W Al L|act s0 W|d q Q|d q c s' l Q Al L B|a e s' Ia R Al L|a e self s' l Ia R Al F
    |a e peer self s' l Ia R Al F|c il s' l Sc Al Il L B|c Sc Al St|Al|c Ic|Al].
  - destruct (dial_base _ _ _ W I C) as (I0 & C0 & N & _ & _ & _).
    split.
    + eapply pinv_failed; [exact F|]. rewrite <- N. now apply pinv_new_over.
    + eapply cinv_failed; [exact F|]. assert (E : p_socks s0 (p_next s) = SNone) by (apply (v_none _ I0); lia).
      destruct Hx as [-> | ->]; [exact C0|]. apply cinv_sock_closed. exact C0.
  - destruct (dial_base _ _ _ W I C) as (I0 & C0 & N & Nc & _ & Na).
    assert (E : p_socks s0 (p_next s) = SNone) by (apply (v_none _ I0); lia). split.
    + eapply pinv_launched; [exact L|]. rewrite <- N, <- Nc. apply pinv_new_ok; congruence.
    + eapply cinv_launched; [exact L|]. apply cinv_sock_handed; [pj; rewrite Nat.eqb_refl; discriminate|].
      change (cinv' (w_sock s0 (p_next s) SOpen)). apply cinv_sock; [congruence|congruence|exact C0].
  - destruct (dial_base _ _ _ W I C) as (I0 & C0 & N & _ & Ni & _). rewrite <- N, <- Ni. split; [now apply pinv_new_prog|].
    assert (E : p_socks s0 (p_next s0) = SNone) by (apply (v_none _ I0); lia).
    change (cinv' (w_sock s0 (p_next s0) SOpen)). apply cinv_sock; [congruence|congruence|exact C0].
  - destruct I as [A B C' D E F G M HC I J K L]. destruct C as [C1 C2]. cbn [fst StopConnector]. unfold StopConnector. cbn [fst]. split.
    + constructor; pj; unfold close_all; auto; try lia; try (now constructor).
      * intros a [].
      * intro a. split; [|intros []]. intro X. destruct (existsb (Nat.eqb a) (p_inprog s)) eqn:Ex; [discriminate|]. apply C' in X. apply existsb_In in X. congruence.
      * intros a X. destruct (existsb (Nat.eqb a) (p_inprog s)); [discriminate|]. apply D; auto.
      * intros a X. destruct (existsb (Nat.eqb a) (p_inprog s)) eqn:Ex; [|auto]. apply existsb_In in Ex. apply B in Ex. lia.
      * intros a X. destruct (existsb (Nat.eqb a) (p_inprog s)); auto.
    + split; pj; unfold close_all; intros c X; destruct (existsb (Nat.eqb c) (p_inprog s)); auto. apply C1. rewrite Q. now right.
  - destruct C as [C1 C2]. assert (Sc : p_socks s c = SClosed) by (apply C1; rewrite Q; now left). split.
    + eapply pinv_launched; [exact L|]. apply (pinv_drop (w_q s q)); auto. now apply pinv_q.
    + eapply cinv_launched; [exact L|]. split; pj; auto. intros x X. apply C1. rewrite Q. now right.
  - assert (E : p_socks s a = SOpen) by (now apply (v_open _ I)). split.
    + eapply pinv_launched; [exact L|]. now apply pinv_ev_ok.
    + eapply cinv_launched; [exact L|]. apply cinv_sock_handed; [pj; congruence|]. exact C.
  - assert (E : p_socks s a = SOpen) by (now apply (v_open _ I)). split.
    + eapply pinv_failed; [exact F|]. apply pinv_ev_over; auto.
    + eapply cinv_failed; [exact F|]. apply cinv_sock; [pj; congruence|pj; congruence|]. exact C.
  - pose proof (failed_same _ _ _ F) as (_ & _ & _ & _ & _ & _ & _ & Ei & Eq & _ & Es & Ed).
    pose proof (pinv_failed _ _ _ F I) as I'. pose proof (cinv_failed _ _ _ F C) as C'. rewrite <- Ei in *. split.
    + apply pinv_ccnt; [lia|]. apply pinv_ev_over; auto.
    + change (cinv' (w_sock s' a SClosed)). apply cinv_sock_closed. exact C'.
  - assert (I1 : pinv (w_detach (w_sock s c SClosed) (without c (p_detach s)))) by (apply pinv_detach, pinv_close; auto). split.
    + eapply pinv_launched; [exact L|]. apply (pinv_drop (w_detach (w_sock s c SClosed) (without c (p_detach s)))); auto. pj. now rewrite Nat.eqb_refl.
    + eapply cinv_launched; [exact L|]. destruct (cinv_sock_closed s c C) as [C1 C2]. split; pj; auto. intros x X. apply C2. apply in_without in X. tauto.
  - split.
    + apply pinv_q, pinv_detach, pinv_close; auto.
    + destruct (cinv_sock_closed s c C) as [C1 C2]. split; pj; [|intros x X; apply C2; apply in_without in X; tauto].
      intros x X. apply in_app_or in X. destruct X as [X|[X|[]]]; [auto|]. inv X. now rewrite Nat.eqb_refl.
  - split; [now apply pinv_final|]. unfold Finalize. destruct (p_stopping s); [assumption|]. destruct C as [C1 C2]. split; pj; intros x X; apply in_app_or in X.
    + destruct X as [X|[X|[]]]; [auto|discriminate].
    + destruct X as [X|X]; [auto|]. rewrite (v_use _ I Al) in X. apply (v_chs _ I x X).
  - split.
    + apply pinv_detach, pinv_close; auto. destruct C as [_ C2]. destruct (C2 _ Ic); auto.
    + destruct (cinv_sock_closed s c C) as [C1 C2]. split; pj; auto. intros x X. apply C2. apply in_without in X. tauto.
  - assert (If : pinv (Finalize s)) by now apply pinv_final.
    assert (Cf : cinv' (Finalize s)).
    { unfold Finalize. destruct (p_stopping s); [assumption|]. destruct C as [C1 C2]. split; pj; intros x X; apply in_app_or in X.
      + destruct X as [X|[X|[]]]; [auto|discriminate].
      + destruct X as [X|X]; [auto|]. rewrite (v_use _ I Al) in X. apply (v_chs _ I x X). }
    assert (Sf : p_stopping (Finalize s) = true) by (unfold Finalize; destruct (p_stopping s) eqn:E; [exact E|reflexivity]).
    split; [|exact Cf]. destruct If as [A B C' D E F G M HC I1 J K L]. constructor; pj; auto; try (now constructor); try discriminate; try (intros a []; fail); try (now intros a []).
    intros a X. destruct (D a X). split; [assumption|discriminate].
Qed.

Lemma phist_inv req iv h s : phist req iv h s -> pinv s /\ cinv' s.
Proof.
  induction 1 as [|h s a s' l H [I C] E].
  - split; [apply pinv_init|]. split; cbn; [|contradiction]. intros c X. apply repeat_spec in X. discriminate.
  - exact (effect_inv _ _ _ _ (pstep_effect _ _ _ _ E) I C).
Qed.
