From Verif.Model Require Import Common FdEvents ClientPool.
From Verif.Spec Require Import PoolSpec.
From Verif.Proofs Require Import Tac PoolProofs.
Open Scope Z_scope.

(** ** Every attempt is accounted for *)
Definition one (a : nat) (l : list nat) : nat := if existsb (Nat.eqb a) l then 1 else 0.
Lemma filter_len_app {A} (f : A -> bool) l1 l2 : length (filter f (l1 ++ l2)) = (length (filter f l1) + length (filter f l2))%nat.
Proof. induction l1 as [|x l1 IH]; cbn; [reflexivity|]. destruct (f x); cbn; rewrite IH; reflexivity. Qed.
Lemma reports_app a l1 l2 : reports a (l1 ++ l2) = (reports a l1 + reports a l2)%nat. Proof. apply filter_len_app. Qed.
Lemma cancels_app a l1 l2 : cancels a (l1 ++ l2) = (cancels a l1 + cancels a l2)%nat. Proof. apply filter_len_app. Qed.
Lemma dialed_app a l1 l2 : dialed a (l1 ++ l2) = (dialed a l1 + dialed a l2)%nat. Proof. apply filter_len_app. Qed.
Lemma failed_silent s s' l a : failed_to s s' l -> reports a l = O /\ cancels a l = O /\ dialed a l = O.
Proof. destruct 1; repeat split. Qed.
Lemma map_cancel_r a l : reports a (map PCancel l) = O /\ dialed a (map PCancel l) = O.
Proof. induction l as [|x l [IH1 IH2]]; [split; reflexivity|]. split; [exact IH1|exact IH2]. Qed.
Lemma map_cancel_c a l : NoDup l -> cancels a (map PCancel l) = one a l.
Proof.
  unfold one, cancels. induction 1 as [|x l N D IH]; [reflexivity|]. cbn. rewrite (Nat.eqb_sym a x). destruct (Nat.eqb_spec x a) as [->|X]; cbn.
  - rewrite IH. destruct (existsb (Nat.eqb a) l) eqn:E; [|reflexivity]. apply existsb_In in E. contradiction.
  - exact IH.
Qed.
Lemma one_app a l b : ~ In b l -> one a (l ++ [b]) = (one a l + if Nat.eqb a b then 1 else 0)%nat.
Proof.
  unfold one. intro N. rewrite existsb_app. cbn. rewrite orb_false_r. destruct (Nat.eqb_spec a b) as [->|X]; [|rewrite orb_false_r; lia].
  destruct (existsb (Nat.eqb b) l) eqn:E; [apply existsb_In in E; contradiction|reflexivity].
Qed.
Lemma one_without a b l : In b l -> (one a (without b l) + if Nat.eqb a b then 1 else 0)%nat = one a l.
Proof.
  unfold one. intro H. destruct (Nat.eqb_spec a b) as [->|X].
  - assert (E : existsb (Nat.eqb b) (without b l) = false).
    { destruct (existsb (Nat.eqb b) (without b l)) eqn:E; [|reflexivity]. apply existsb_In, in_without in E. tauto. }
    apply existsb_In in H. rewrite E, H. reflexivity.
  - destruct (existsb (Nat.eqb a) l) eqn:E.
    + apply existsb_In in E. assert (E' : In a (without b l)) by (apply in_without; tauto). apply existsb_In in E'. rewrite E'. reflexivity.
    + destruct (existsb (Nat.eqb a) (without b l)) eqn:E'; [|reflexivity]. apply existsb_In, in_without in E'. destruct E' as [E' _]. apply existsb_In in E'. congruence.
Qed.

Definition accounted (s : pool) (l : list pev) : Prop := forall a,
  dialed a l = (if (a <? p_next s)%nat then 1 else 0)%nat /\ (reports a l + cancels a l + one a (p_inprog s) = dialed a l)%nat.

Lemma next_ltb a n : (if (a <? S n)%nat then 1 else 0)%nat = ((if (a <? n)%nat then 1 else 0) + if Nat.eqb a n then 1 else 0)%nat.
Proof. destruct (Nat.ltb_spec a (S n)), (Nat.ltb_spec a n), (Nat.eqb_spec a n); lia. Qed.

Lemma acc_step s act s' l L : effect s act s' l -> pinv s -> accounted s L -> accounted s' (L ++ l).
Proof.
  intros H I A a. rewrite dialed_app, reports_app, cancels_app. destruct (A a) as [A1 A2]. clear A.
  destruct H as [act s0 x s' l W Hx Al F|act s0 s' W Al Lc|act s0 W|d q Q|d q c s' l Q Al Lc B|b e s' Ia R Al Lc|b e self s' l Ia R Al F
    |b e peer self s' l Ia R Al F|c il s' l Sc Al Il Lc B|c Sc Al St|Al|c Ic|Al].
  - destruct (failed_silent _ _ _ a F) as (F1 & F2 & F3). pose proof (failed_same _ _ _ F) as (_ & _ & _ & _ & _ & _ & _ & Ei & _ & En & _ & _).
    assert (E : p_inprog s' = p_inprog s /\ p_next s' = S (p_next s)).
    { rewrite Ei, En. destruct W as [(d & _ & q & _ & ->)|(d & n & _ & _ & ->)]; destruct Hx as [-> | ->]; split; reflexivity. }
    destruct E as [-> ->]. rewrite next_ltb. unfold dialed, reports, cancels in *. cbn [filter length]. rewrite (Nat.eqb_sym (p_next s) a).
    destruct (Nat.eqb a (p_next s)); cbn [filter length]; lia.
  - pose proof (launched_same _ _ Lc) as (_ & _ & _ & _ & _ & _ & _ & Ei & _ & En & _ & _ & _).
    assert (E : p_inprog s' = p_inprog s /\ p_next s' = S (p_next s)).
    { rewrite Ei, En. destruct W as [(d & _ & q & _ & ->)|(d & n & _ & _ & ->)]; split; reflexivity. }
    destruct E as [-> ->]. rewrite next_ltb. unfold dialed, reports, cancels in *. cbn [filter length]. rewrite (Nat.eqb_sym (p_next s) a).
    destruct (Nat.eqb a (p_next s)); cbn [filter length]; lia.
  - assert (N : ~ In (p_next s) (p_inprog s)) by (intro X; apply (v_lt _ I) in X; lia).
    assert (E : p_next (w_inprog (w_sock (w_next s0 (S (p_next s))) (p_next s) SOpen) (p_inprog s ++ [p_next s])) = S (p_next s)) by reflexivity.
    rewrite E, next_ltb. cbn [p_inprog w_inprog]. rewrite one_app by exact N. unfold dialed, reports, cancels in *. cbn [filter length]. rewrite (Nat.eqb_sym (p_next s) a).
    destruct (Nat.eqb a (p_next s)); cbn [filter length]; lia.
  - destruct (map_cancel_r a (p_inprog s)) as [E1 E2]. rewrite E1, E2, (map_cancel_c a _ (v_nd _ I)). cbn [fst StopConnector p_next p_inprog w_q].
    change (one a []) with O. lia.
  - pose proof (launched_same _ _ Lc) as (_ & _ & _ & _ & _ & _ & _ & Ei & _ & En & _ & _ & _). rewrite Ei, En.
    cbn [p_inprog p_next w_chans w_q]. destruct B as [-> | ->]; unfold dialed, reports, cancels in *; cbn [filter length]; lia.
  - pose proof (launched_same _ _ Lc) as (_ & _ & _ & _ & _ & _ & _ & Ei & _ & En & _ & _ & _). rewrite Ei, En.
    cbn [p_inprog p_next w_chans w_q w_sock w_ival w_inprog]. pose proof (one_without a b _ Ia). unfold dialed, reports, cancels in *. cbn [filter length]. rewrite (Nat.eqb_sym b a).
    destruct (Nat.eqb a b); cbn [filter length]; lia.
  - destruct (failed_silent _ _ _ a F) as (F1 & F2 & F3). pose proof (failed_same _ _ _ F) as (_ & _ & _ & _ & _ & _ & _ & Ei & _ & En & _ & _). rewrite Ei, En.
    cbn [p_inprog p_next w_chans w_q w_sock w_ival w_inprog]. pose proof (one_without a b _ Ia). unfold dialed, reports, cancels in *. cbn [filter length]. rewrite (Nat.eqb_sym b a).
    destruct (Nat.eqb a b); cbn [filter length]; lia.
  - destruct (failed_silent _ _ _ a F) as (F1 & F2 & F3). pose proof (failed_same _ _ _ F) as (_ & _ & _ & _ & _ & _ & _ & Ei & _ & En & _ & _).
    cbn [p_inprog p_next w_ccnt w_chans w_q w_sock w_ival w_inprog]. rewrite En. pose proof (one_without a b _ Ia). unfold dialed, reports, cancels in *. cbn [filter length]. rewrite (Nat.eqb_sym b a).
    destruct (Nat.eqb a b); cbn [filter length]; lia.
  - pose proof (launched_same _ _ Lc) as (_ & _ & _ & _ & _ & _ & _ & Ei & _ & En & _ & _ & _). rewrite Ei, En.
    cbn [p_inprog p_next w_chans w_detach w_sock]. destruct B as [-> | ->]; unfold dialed, reports, cancels in *; cbn [filter length]; lia.
  - cbn [p_inprog p_next w_q w_chans w_detach w_sock]. unfold dialed, reports, cancels in *; cbn [filter length]; lia.
  - assert (E : p_inprog (Finalize s) = p_inprog s /\ p_next (Finalize s) = p_next s) by (unfold Finalize; destruct (p_stopping s); split; reflexivity).
    destruct E as [-> ->]. unfold dialed, reports, cancels in *; cbn [filter length]; lia.
  - cbn [p_inprog p_next w_detach w_sock]. unfold dialed, reports, cancels in *; cbn [filter length]; lia.
  - assert (E : p_inprog (Finalize s) = p_inprog s /\ p_next (Finalize s) = p_next s) by (unfold Finalize; destruct (p_stopping s); split; reflexivity).
    cbn [p_inprog p_next]. destruct E as [-> ->]. unfold dialed, reports, cancels in *; cbn [filter length]; lia.
Qed.

Lemma pseen_snoc h a l : pseen (h ++ [(a, l)]) = pseen h ++ l.
Proof. unfold pseen. rewrite map_app, concat_app. cbn. now rewrite app_nil_r. Qed.
Lemma phist_acc req iv h s : phist req iv h s -> accounted s (pseen h).
Proof.
  induction 1 as [|h s a s' l H IH E]; [intro a; split; reflexivity|]. rewrite pseen_snoc.
  eapply acc_step; [apply (pstep_effect _ _ _ _ E)|apply (phist_inv _ _ _ _ H)|exact IH].
Qed.

(** ** Closed channels waiting to be dropped are still counted, once *)
Definition tcl (q : list ptask) : list nat := concat (map (fun t => match t with TClosed c => [c] | _ => [] end) q).
Lemma tcl_app q1 q2 : tcl (q1 ++ q2) = tcl q1 ++ tcl q2.
Proof. unfold tcl. now rewrite map_app, concat_app. Qed.
Lemma in_tcl c q : In c (tcl q) <-> In (TClosed c) q.
Proof.
  unfold tcl. induction q as [|[| |x] q IH]; cbn; [tauto| | |]; rewrite ?in_app_iff, ?IH; cbn.
  - intuition discriminate.
  - intuition discriminate.
  - split; [intros [->|X]; auto|]. intros [X|X]; [left; congruence|auto].
Qed.
Definition qinv (s : pool) : Prop := NoDup (tcl (p_q s)) /\ (p_alive s = true -> forall c, In c (tcl (p_q s)) -> In c (p_chans s)).

Lemma tcl_launched s s' : launched s s' -> tcl (p_q s') = tcl (p_q s).
Proof. destruct 1; [reflexivity|]. pj. rewrite tcl_app. cbn. now rewrite app_nil_r. Qed.

Lemma qinv_launched s s' : launched s s' -> qinv s -> qinv s'.
Proof.
  intros L [A B]. destruct (launched_same _ _ L) as (_ & _ & Ea & Ec & _). split; rewrite (tcl_launched _ _ L); [exact A|]. now rewrite Ea, Ec.
Qed.
Lemma qinv_failed s s' l : failed_to s s' l -> qinv s -> qinv s'.
Proof. intros F [A B]. destruct (failed_same _ _ _ F) as (_ & _ & Ea & Ec & _ & _ & _ & _ & Eq & _). split; rewrite Eq; [exact A|]. now rewrite Ea, Ec. Qed.
Lemma qinv_base s act s0 :
  (exists d, act = ATask d /\ exists q, p_q s = TDial :: q /\ s0 = w_q s q) \/ (exists d n, act = ADelayed d /\ p_delayed s = S n /\ s0 = w_delayed s n) ->
  qinv s -> qinv s0.
Proof. intros W [A B]. destruct W as [(d & -> & q & E & ->)|(d & n & -> & E & ->)]; [|split; assumption]. split; pj; rewrite E in A, B; assumption. Qed.
Lemma qinv_more s l : qinv s -> qinv (w_chans s (p_chans s ++ l)).
Proof. intros [A B]. split; pj; [exact A|]. intros X c Y. apply in_or_app. auto. Qed.

Lemma qinv_step s act s' l : effect s act s' l -> pinv s -> cinv' s -> qinv s -> qinv s'.
Proof.
  intros H I C Q0.
  destruct H as [act s0 x s' l W Hx Al F|act s0 s' W Al Lc|act s0 W|d q Q|d q c s' l Q Al Lc B|b e s' Ia R Al Lc|b e self s' l Ia R Al F
    |b e peer self s' l Ia R Al F|c il s' l Sc Al Il Lc B|c Sc Al St|Al|c Ic|Al].
  - eapply qinv_failed; [exact F|]. pose proof (qinv_base _ _ _ W Q0). destruct Hx as [-> | ->]; exact H.
  - eapply qinv_launched; [exact Lc|]. pose proof (qinv_base _ _ _ W Q0) as H.
    assert (Ec : p_chans s0 = p_chans s) by (destruct W as [(d & _ & q & _ & ->)|(d & n & _ & _ & ->)]; reflexivity).
    rewrite <- Ec. exact (qinv_more _ [p_next s] H).
  - exact (qinv_base _ _ _ W Q0).
  - destruct Q0 as [A B]. rewrite Q in A, B. split; assumption.
  - eapply qinv_launched; [exact Lc|]. destruct Q0 as [A B0]. rewrite Q in A, B0. cbn in A, B0. inversion A as [|? ? N A']; subst. split; pj; [assumption|].
    intros X y Y. apply in_without. split; [apply B0; auto|]. intros ->. contradiction.
  - eapply qinv_launched; [exact Lc|]. exact (qinv_more _ [b] Q0).
  - eapply qinv_failed; [exact F|]. exact Q0.
  - exact (qinv_failed _ _ _ F Q0).
  - eapply qinv_launched; [exact Lc|]. destruct Q0 as [A B0]. split; pj; [assumption|]. intros X y Y. apply in_without. split; [auto|].
    intros ->. apply in_tcl in Y. destruct C as [C _]. apply C in Y. congruence.
  - destruct Q0 as [A B0]. split; pj; rewrite tcl_app; cbn.
    + apply nd_snoc; [exact A|]. intro X. apply in_tcl in X. destruct C as [C _]. apply C in X. congruence.
    + intros X y Y. apply in_app_or in Y. destruct Y as [Y|[<-|[]]]; [auto|]. apply (v_hand _ I); auto.
  - unfold Finalize. destruct (p_stopping s); [exact Q0|]. destruct Q0 as [A B]. split; pj; rewrite tcl_app; cbn; rewrite app_nil_r; assumption.
  - exact Q0.
  - unfold Finalize. destruct Q0 as [A B]. destruct (p_stopping s); split; pj; try discriminate; rewrite ?tcl_app; cbn; rewrite ?app_nil_r; assumption.
Qed.

Lemma phist_qinv req iv h s : phist req iv h s -> qinv s.
Proof.
  induction 1 as [|h s a s' l H IH E].
  - assert (X : tcl (p_q (pinit req iv)) = []).
    { cbn. generalize (Z.to_nat (Z.min kConnetBatchCount req)). intro n. induction n; [reflexivity|exact IHn]. }
    split; rewrite X; [constructor|]. intros _ c [].
  - destruct (phist_inv _ _ _ _ H). eapply qinv_step; eauto. exact (pstep_effect _ _ _ _ E).
Qed.

(** ** Numbers of dials *)
Lemma dials_app q1 q2 : dials (q1 ++ q2) = (dials q1 + dials q2)%nat. Proof. apply filter_len_app. Qed.
Lemma dials_repeat n : dials (repeat TDial n) = n.
Proof. unfold dials. induction n; cbn; [reflexivity|]. now rewrite IHn. Qed.

Lemma att_base s act s0 :
  (exists d, act = ATask d /\ exists q, p_q s = TDial :: q /\ s0 = w_q s q) \/ (exists d n, act = ADelayed d /\ p_delayed s = S n /\ s0 = w_delayed s n) ->
  attempts s0 = attempts s - 1 /\ p_chans s0 = p_chans s /\ p_cnt s0 = p_cnt s /\ p_ccnt s0 = p_ccnt s /\ p_stopping s0 = p_stopping s /\ p_req s0 = p_req s /\ p_inprog s0 = p_inprog s.
Proof.
  intros W. unfold attempts. destruct W as [(d & -> & q & E & ->)|(d & n & -> & E & ->)]; pj; rewrite E; repeat split; unfold dials; cbn [filter length]; lia.
Qed.
Lemma att_launched s s' : launched s s' ->
  attempts s' = attempts s + (if p_stopping s || (p_req s <=? p_cnt s + p_ccnt s) then 0 else 1).
Proof.
  destruct 1 as [H|St H]; unfold attempts.
  - assert (E : p_stopping s || (p_req s <=? p_cnt s + p_ccnt s) = true) by (destruct H as [-> |H]; [reflexivity|]; rewrite orb_true_iff; right; lia).
    rewrite E. lia.
  - assert (E : p_stopping s || (p_req s <=? p_cnt s + p_ccnt s) = false) by (rewrite St; cbn; lia). rewrite E. pj. rewrite dials_app. cbn. lia.
Qed.
Lemma att_failed s s' l : failed_to s s' l ->
  attempts s' = attempts s + (if p_stopping s || (p_req s <=? p_cnt s) || (10 <? p_ccnt s) then 0 else 1).
Proof.
  destruct 1 as [H|St H1 H2|St H1 H2]; unfold attempts; pj.
  - assert (E : p_stopping s || (p_req s <=? p_cnt s) = true) by (destruct H as [-> |H]; [reflexivity|]; rewrite orb_true_iff; right; lia). rewrite E. cbn. lia.
  - assert (E : (10 <? p_ccnt s) = true) by lia. rewrite E, orb_true_r. lia.
  - assert (E : p_stopping s || (p_req s <=? p_cnt s) || (10 <? p_ccnt s) = false) by (rewrite St; cbn; lia). rewrite E. lia.
Qed.
Lemma len_without a l : NoDup l -> In a l -> Z.of_nat (length (without a l)) = Z.of_nat (length l) - 1.
Proof.
  intros D H. cut (S (length (without a l)) = length l); [lia|]. revert H. unfold without. induction D as [|x l N D IH]; [intros []|]. intros [->|H]; cbn [filter length].
  - rewrite Nat.eqb_refl. cbn [negb]. assert (E : filter (fun y => negb (Nat.eqb y a)) l = l).
    { clear IH D. induction l as [|y l IH]; [reflexivity|]. cbn [filter]. destruct (Nat.eqb_spec y a) as [->|Y]; [destruct N; now left|]. cbn [negb]. f_equal. apply IH. intro X. apply N. now right. }
    now rewrite E.
  - destruct (Nat.eqb_spec x a) as [->|Y]; [contradiction|]. cbn [negb length]. f_equal. auto.
Qed.
Lemma att_nonneg s : 0 <= attempts s. Proof. unfold attempts. lia. Qed.

(** What one step does to the numbers of connections and of attempts; [conn']: connections after the step. *)
Definition conn (s : pool) : Z := Z.of_nat (length (p_chans s)).
Inductive flow (s : pool) (act : pact) (s' : pool) : Prop :=
| fl_keep : conn s' = conn s \/ (conn s' = 0 /\ p_stopping s' = true) -> attempts s' <= attempts s -> flow s act s'      (* nothing, a failure, or Stop *)
| fl_got : conn s' = conn s + 1 -> attempts s' = attempts s - 1 + (if p_stopping s || (p_req s <=? conn s + 1 + p_ccnt s) then 0 else 1) -> flow s act s'
| fl_lost c : (act = AClosed c true \/ (exists d, act = ATask d /\ In (TClosed c) (p_q s)) \/ (act = AClosed c false /\ p_stopping s = true)) ->
    conn s' = conn s - 1 -> attempts s' = attempts s + (if p_stopping s || (p_req s <=? conn s - 1 + p_ccnt s) then 0 else 1) -> flow s act s'.

Lemma flow_step s act s' l : effect s act s' l -> pinv s -> cinv' s -> qinv s -> flow s act s'.
Proof.
  intros H I C Q0.
  destruct H as [act s0 x s' l W Hx Al F|act s0 s' W Al Lc|act s0 W|d q Q|d q c s' l Q Al Lc B|b e s' Ia R Al Lc|b e self s' l Ia R Al F
    |b e peer self s' l Ia R Al F|c il s' l Sc Al Il Lc B|c Sc Al St|Al|c Ic|Al].
  - destruct (att_base _ _ _ W) as (E1 & E2 & _). pose proof (att_failed _ _ _ F) as E. pose proof (failed_same _ _ _ F) as (_ & _ & _ & Ec & _).
    apply fl_keep.
    + left. unfold conn. rewrite Ec. destruct Hx as [-> | ->]; pj; now rewrite E2.
    + assert (Eb : attempts (match x with SNone => w_next s0 (S (p_next s)) | _ => w_sock (w_next s0 (S (p_next s))) (p_next s) x end) = attempts s0) by (destruct Hx as [-> | ->]; reflexivity).
      rewrite Eb in E. rewrite E. destruct (_ || _); lia.
  - destruct (att_base _ _ _ W) as (E1 & E2 & E3 & E4 & E5 & E6 & _). pose proof (att_launched _ _ Lc) as E. pose proof (launched_same _ _ Lc) as (_ & _ & _ & Ec & _).
    apply fl_got.
    + unfold conn. rewrite Ec. pj. rewrite app_length. cbn. lia.
    + rewrite E. pj. rewrite app_length. cbn [length]. rewrite E4, E5, E6. unfold conn.
      replace (Z.of_nat (length (p_chans s) + 1)) with (Z.of_nat (length (p_chans s)) + 1) by lia.
      assert (Eb : forall y, attempts (w_sock (w_chans (w_ival (w_sock (w_next s0 (S (p_next s))) (p_next s) SOpen) 0) y) (p_next s) SHanded) = attempts s0) by reflexivity.
      rewrite Eb, E1. reflexivity.
  - destruct (att_base _ _ _ W) as (E1 & E2 & _ & _ & _ & _ & E7). apply fl_keep; [left; unfold conn; pj; now rewrite E2|].
    unfold attempts in *. pj. rewrite app_length. cbn [length]. rewrite E7 in E1. lia.
  - apply fl_keep; [left; reflexivity|]. unfold attempts. cbn [fst StopConnector p_q p_delayed p_inprog w_q length]. rewrite Q. unfold dials. cbn. lia.
  - pose proof (att_launched _ _ Lc) as E. pose proof (launched_same _ _ Lc) as (_ & _ & _ & Ec & _).
    assert (Ic : In c (p_chans s)) by (apply (proj2 Q0 Al), in_tcl; rewrite Q; now left).
    pose proof (len_without c _ (v_chnd _ I) Ic) as Ew. apply (fl_lost s (ATask d) s' c).
    + right. left. exists d. split; [reflexivity|]. rewrite Q. now left.
    + unfold conn. rewrite Ec. pj. lia.
    + rewrite E. pj. unfold conn. rewrite Ew. assert (Eb : attempts (w_chans (w_q s q) (without c (p_chans s))) = attempts s) by (unfold attempts; pj; rewrite Q; reflexivity).
      rewrite Eb. reflexivity.
  - pose proof (att_launched _ _ Lc) as E. pose proof (launched_same _ _ Lc) as (_ & _ & _ & Ec & _). pose proof (len_without b _ (v_nd _ I) Ia) as Ew.
    apply fl_got; [unfold conn; rewrite Ec; pj; rewrite app_length; cbn; lia|]. rewrite E. pj. rewrite app_length. cbn [length]. unfold conn.
    replace (Z.of_nat (length (p_chans s) + 1)) with (Z.of_nat (length (p_chans s)) + 1) by lia. unfold attempts at 1 2. pj. lia.
  - pose proof (att_failed _ _ _ F) as E. pose proof (failed_same _ _ _ F) as (_ & _ & _ & Ec & _). pose proof (len_without b _ (v_nd _ I) Ia) as Ew.
    apply fl_keep; [left; unfold conn; rewrite Ec; reflexivity|]. rewrite E. assert (attempts (w_sock (w_inprog s (without b (p_inprog s))) b SLeaked) = attempts s - 1) by (unfold attempts; pj; lia).
    destruct (_ || _); lia.
  - pose proof (att_failed _ _ _ F) as E. pose proof (failed_same _ _ _ F) as (_ & _ & _ & Ec & _ & _ & _ & Ei & _). pose proof (len_without b _ (v_nd _ I) Ia) as Ew.
    apply fl_keep; [left; unfold conn; pj; rewrite Ec; reflexivity|]. unfold attempts in *. pj. rewrite Ei in E. destruct (_ || _); lia.
  - pose proof (att_launched _ _ Lc) as E. pose proof (launched_same _ _ Lc) as (_ & _ & _ & Ec & _).
    assert (Ic : In c (p_chans s)) by (apply (v_hand _ I); auto).
    pose proof (len_without c _ (v_chnd _ I) Ic) as Ew. apply (fl_lost s (AClosed c il) s' c).
    + destruct il; [auto|]. destruct Il as [Il|Il]; [discriminate|auto].
    + unfold conn. rewrite Ec. pj. lia.
    + rewrite E. pj. unfold conn. rewrite Ew. reflexivity.
  - apply fl_keep; [left; reflexivity|]. unfold attempts. pj. rewrite dials_app. cbn. lia.
  - apply fl_keep; unfold Finalize; destruct (p_stopping s); try (left; reflexivity); try lia. unfold attempts. pj. rewrite dials_app. cbn. lia.
  - apply fl_keep; [left; reflexivity|]. unfold attempts. pj. lia.
  - apply fl_keep; [right; split; reflexivity|]. unfold Finalize, attempts. destruct (p_stopping s); pj; rewrite ?dials_app; cbn; lia.
Qed.

Lemma req_same s act s' l : effect s act s' l -> p_req s' = p_req s.
Proof.
  intros H.
  destruct H as [act s0 x s' l W Hx Al F|act s0 s' W Al Lc|act s0 W|d q Q|d q c s' l Q Al Lc B|b e s' Ia R Al Lc|b e self s' l Ia R Al F
    |b e peer self s' l Ia R Al F|c il s' l Sc Al Il Lc B|c Sc Al St|Al|c Ic|Al]; try reflexivity.
  - pose proof (failed_same _ _ _ F) as (E & _). rewrite E. destruct W as [(d & _ & q & _ & ->)|(d & n & _ & _ & ->)]; destruct Hx as [-> | ->]; reflexivity.
  - pose proof (launched_same _ _ Lc) as (E & _). rewrite E. destruct W as [(d & _ & q & _ & ->)|(d & n & _ & _ & ->)]; reflexivity.
  - destruct W as [(d & _ & q & _ & ->)|(d & n & _ & _ & ->)]; reflexivity.
  - pose proof (launched_same _ _ Lc) as (E & _). exact E.
  - pose proof (launched_same _ _ Lc) as (E & _). exact E.
  - pose proof (failed_same _ _ _ F) as (E & _). exact E.
  - pose proof (failed_same _ _ _ F) as (E & _). exact E.
  - pose proof (launched_same _ _ Lc) as (E & _). exact E.
  - unfold Finalize. destruct (p_stopping s); reflexivity.
Qed.
Lemma phist_req req iv h s : phist req iv h s -> p_req s = req.
Proof. induction 1 as [|h s a s' l H IH E]; [reflexivity|]. rewrite <- IH. exact (req_same _ _ _ _ (pstep_effect _ _ _ _ E)). Qed.

Lemma stop_keeps s act s' l : effect s act s' l -> p_stopping s = true -> p_stopping s' = true.
Proof.
  intros H St.
  destruct H as [act s0 x s' l W Hx Al F|act s0 s' W Al Lc|act s0 W|d q Q|d q c s' l Q Al Lc B|b e s' Ia R Al Lc|b e self s' l Ia R Al F
    |b e peer self s' l Ia R Al F|c il s' l Sc Al Il Lc B|c Sc Al St'|Al|c Ic|Al]; try assumption; try reflexivity.
  - pose proof (failed_same _ _ _ F) as (_ & E & _). rewrite E. destruct W as [(d & _ & q & _ & ->)|(d & n & _ & _ & ->)]; destruct Hx as [-> | ->]; assumption.
  - pose proof (launched_same _ _ Lc) as (_ & E & _). rewrite E. destruct W as [(d & _ & q & _ & ->)|(d & n & _ & _ & ->)]; assumption.
  - destruct W as [(d & _ & q & _ & ->)|(d & n & _ & _ & ->)]; assumption.
  - pose proof (launched_same _ _ Lc) as (_ & E & _). now rewrite E.
  - pose proof (launched_same _ _ Lc) as (_ & E & _). now rewrite E.
  - pose proof (failed_same _ _ _ F) as (_ & E & _). now rewrite E.
  - pose proof (failed_same _ _ _ F) as (_ & E & _). cbn. now rewrite E.
  - pose proof (launched_same _ _ Lc) as (_ & E & _). now rewrite E.
  - unfold Finalize. now rewrite St.
Qed.

(** One connection wanted: never more than one connection or attempt. *)
Lemma single_bound iv h s : phist 1 iv h s -> conn s + attempts s <= 1.
Proof.
  remember 1 as req. induction 1 as [|h s a s' l H IH E]; [subst; vm_compute; discriminate|].
  destruct (phist_inv _ _ _ _ H) as [I C]. pose proof (phist_qinv _ _ _ _ H) as Q. pose proof (phist_req _ _ _ _ H) as R. pose proof (v_ccnt _ I) as Hc.
  pose proof (pstep_effect _ _ _ _ E) as Ef. pose proof (att_nonneg s) as Ha. assert (0 <= conn s) by (unfold conn; lia).
  destruct (flow_step _ _ _ _ Ef I C Q) as [[X|[X _]] Y|X Y|c Z X Y].
  - lia.
  - lia.
  - assert (B : (p_req s <=? conn s + 1 + p_ccnt s) = true) by lia. rewrite B, orb_true_r in Y. lia.
  - destruct (_ || _); lia.
Qed.

(** No peer closes a connection: at most [req - 1] more than the batch of dials that Initialize posts. *)
Lemma no_tcl req iv h s : phist req iv h s -> (forall c il l, ~ In (AClosed c il, l) h) -> tcl (p_q s) = [].
Proof.
  induction 1 as [|h s a s' l H IH E]; intro N.
  - cbn. generalize (Z.to_nat (Z.min kConnetBatchCount req)). intro n. induction n; [reflexivity|exact IHn].
  - assert (N' : forall c il l, ~ In (AClosed c il, l) h) by (intros c il l0 X; apply (N c il l0), in_or_app; now left).
    specialize (IH N'). pose proof (pstep_effect _ _ _ _ E) as Ef. clear E.
    destruct Ef as [act s0 x s' l W Hx Al F|act s0 s' W Al Lc|act s0 W|d q Q|d q c s' l Q Al Lc B|b e s' Ia R Al Lc|b e self s' l Ia R Al F
      |b e peer self s' l Ia R Al F|c il s' l Sc Al Il Lc B|c Sc Al St|Al|c Ic|Al].
    + pose proof (failed_same _ _ _ F) as (_ & _ & _ & _ & _ & _ & _ & _ & Eq & _). rewrite Eq.
      destruct W as [(d & _ & q & Q & ->)|(d & n & _ & _ & ->)]; destruct Hx as [-> | ->]; pj; rewrite ?Q in IH; exact IH.
    + rewrite (tcl_launched _ _ Lc). destruct W as [(d & _ & q & Q & ->)|(d & n & _ & _ & ->)]; pj; rewrite ?Q in IH; exact IH.
    + destruct W as [(d & _ & q & Q & ->)|(d & n & _ & _ & ->)]; pj; rewrite ?Q in IH; exact IH.
    + cbn. rewrite Q in IH. exact IH.
    + rewrite Q in IH. discriminate.
    + rewrite (tcl_launched _ _ Lc). exact IH.
    + pose proof (failed_same _ _ _ F) as (_ & _ & _ & _ & _ & _ & _ & _ & Eq & _). rewrite Eq. exact IH.
    + pose proof (failed_same _ _ _ F) as (_ & _ & _ & _ & _ & _ & _ & _ & Eq & _). cbn. rewrite Eq. exact IH.
    + destruct (N c il l). apply in_or_app. right. now left.
    + destruct (N c false []). apply in_or_app. right. now left.
    + unfold Finalize. destruct (p_stopping s); [exact IH|]. pj. rewrite tcl_app, IH. reflexivity.
    + exact IH.
    + unfold Finalize. destruct (p_stopping s); [exact IH|]. pj. rewrite tcl_app, IH. reflexivity.
Qed.
Lemma noclose_bound req iv h s : 1 <= req -> phist req iv h s -> (forall c il l, ~ In (AClosed c il, l) h) ->
  conn s + attempts s <= req - 1 + Z.min 10 req /\
  (p_stopping s = false -> conn s + attempts s + Z.max 0 (req - 1 - conn s) <= req - 1 + Z.min 10 req).
Proof.
  intros Hr. induction 1 as [|h s a s' l H IH E]; intro N.
  - assert (B : conn (pinit req iv) = 0 /\ attempts (pinit req iv) = Z.min 10 req).
    { unfold conn, attempts. cbn [pinit p_chans p_q p_delayed p_inprog length]. rewrite dials_repeat. unfold kConnetBatchCount. lia. }
    lia.
  - assert (N' : forall c il l, ~ In (AClosed c il, l) h) by (intros c il l0 X; apply (N c il l0), in_or_app; now left).
    specialize (IH N'). destruct IH as [IH1 IH2]. pose proof (no_tcl _ _ _ _ H N') as T.
    destruct (phist_inv _ _ _ _ H) as [I C]. pose proof (phist_qinv _ _ _ _ H) as Q. pose proof (phist_req _ _ _ _ H) as R. pose proof (v_ccnt _ I) as Hc.
    pose proof (pstep_effect _ _ _ _ E) as Ef. pose proof (att_nonneg s) as Ha. assert (0 <= conn s) by (unfold conn; lia).
    assert (St : p_stopping s' = false -> p_stopping s = false).
    { intro X. destruct (p_stopping s) eqn:Y; [|reflexivity]. rewrite (stop_keeps _ _ _ _ Ef Y) in X. discriminate. }
    destruct (flow_step _ _ _ _ Ef I C Q) as [[X|[X X']] Y|X Y|c Z X Y].
    + split; [lia|]. intro Z. specialize (IH2 (St Z)). lia.
    + split; [lia|congruence].
    + destruct (p_stopping s) eqn:Ps; cbn [orb] in Y; [split; [lia|intro Z; specialize (St Z); discriminate]|].
      specialize (IH2 eq_refl). destruct (p_req s <=? conn s + 1 + p_ccnt s) eqn:B; (split; [|intros _]); lia.
    + exfalso. destruct Z as [-> |[(d & -> & Z)|[-> _]]]; [destruct (N c true l); apply in_or_app; right; now left| |destruct (N c false l); apply in_or_app; right; now left].
      apply in_tcl in Z. rewrite T in Z. destruct Z.
Qed.

(** ** The pool keeps trying *)
Lemma tstop_inv req iv h s : phist req iv h s -> In TStop (p_q s) -> p_stopping s = true.
Proof.
  induction 1 as [|h s a s' l H IH E]; intro X.
  - cbn in X. apply repeat_spec in X. discriminate.
  - pose proof (pstep_effect _ _ _ _ E) as Ef. destruct (in_dec (fun x y : ptask => ltac:(decide equality; apply Nat.eq_dec)) TStop (p_q s)) as [Y|Y]; [exact (stop_keeps _ _ _ _ Ef (IH Y))|].
    clear E IH. revert X.
    destruct Ef as [act s0 x s' l W Hx Al F|act s0 s' W Al Lc|act s0 W|d q Q|d q c s' l Q Al Lc B|b e s' Ia R Al Lc|b e self s' l Ia R Al F
      |b e peer self s' l Ia R Al F|c il s' l Sc Al Il Lc B|c Sc Al St|Al|c Ic|Al].
    + pose proof (failed_same _ _ _ F) as (_ & _ & _ & _ & _ & _ & _ & _ & Eq & _). rewrite Eq.
      destruct W as [(d & _ & q & Q & ->)|(d & n & _ & _ & ->)]; destruct Hx as [-> | ->]; pj; intro X; destruct Y; rewrite ?Q; try right; exact X.
    + intro X. assert (X' : In TStop (p_q s0)) by (destruct Lc; pj; [exact X|]; apply in_app_or in X; destruct X as [X|[X|[]]]; [exact X|discriminate]).
      destruct W as [(d & _ & q & Q & ->)|(d & n & _ & _ & ->)]; pj; destruct Y; rewrite ?Q; try right; exact X'.
    + destruct W as [(d & _ & q & Q & ->)|(d & n & _ & _ & ->)]; pj; intro X; destruct Y; rewrite ?Q; try right; exact X.
    + destruct Y. rewrite Q. now left.
    + intro X. assert (X' : In TStop q) by (destruct Lc; pj; [exact X|]; apply in_app_or in X; destruct X as [X|[X|[]]]; [exact X|discriminate]).
      destruct Y. rewrite Q. now right.
    + intro X. destruct Y. destruct Lc; pj; [exact X|]; apply in_app_or in X; destruct X as [X|[X|[]]]; [exact X|discriminate].
    + pose proof (failed_same _ _ _ F) as (_ & _ & _ & _ & _ & _ & _ & _ & Eq & _). rewrite Eq. contradiction.
    + pose proof (failed_same _ _ _ F) as (_ & _ & _ & _ & _ & _ & _ & _ & Eq & _). cbn. rewrite Eq. contradiction.
    + intro X. destruct Y. destruct Lc; pj; [exact X|]; apply in_app_or in X; destruct X as [X|[X|[]]]; [exact X|discriminate].
    + pj. intro X. apply in_app_or in X. destruct X as [X|[X|[]]]; [contradiction|discriminate].
    + unfold Finalize. destruct (p_stopping s) eqn:St; [intros _; exact St|reflexivity].
    + contradiction.
    + reflexivity.
Qed.

Definition trying (s : pool) : Prop :=
  p_ccnt s <= Z.of_nat (length (p_inprog s)) /\ (p_req s <= conn s \/ 1 <= attempts s \/ tcl (p_q s) <> []).

Lemma inprog_att s : Z.of_nat (length (p_inprog s)) <= attempts s. Proof. unfold attempts. lia. Qed.
Lemma try_failed s s' l : failed_to s s' l -> p_stopping s = false -> p_cnt s = conn s ->
  p_req s <= conn s' \/ (attempts s' = attempts s + 1 /\ p_ccnt s <= 10) \/ (attempts s' = attempts s /\ 10 < p_ccnt s).
Proof.
  intros F St Ec. pose proof (att_failed _ _ _ F) as E. pose proof (failed_same _ _ _ F) as (_ & _ & _ & Ech & _). rewrite St in E. cbn [orb] in E.
  unfold conn in *. rewrite Ech. destruct (p_req s <=? p_cnt s) eqn:A; [left; lia|]. destruct (10 <? p_ccnt s) eqn:B; [right; right|right; left]; cbn [orb] in E; lia.
Qed.
Lemma try_launched s s' : launched s s' -> p_stopping s = false -> p_cnt s = conn s -> p_ccnt s <= Z.of_nat (length (p_inprog s)) ->
  p_req s <= conn s' \/ 1 <= attempts s'.
Proof.
  intros L St Ec Hc. pose proof (att_launched _ _ L) as E. pose proof (launched_same _ _ L) as (_ & _ & _ & Ech & _). rewrite St in E. cbn [orb] in E.
  pose proof (inprog_att s). pose proof (att_nonneg s). unfold conn in *. rewrite Ech. destruct (p_req s <=? p_cnt s + p_ccnt s) eqn:A; lia.
Qed.

Lemma try_step s act s' l : effect s act s' l -> pinv s -> (In TStop (p_q s) -> p_stopping s = true) ->
  (forall a e peer self, act = AEvent a e peer self -> hasb (to_lt_event e) EV_READ = false) ->
  (p_stopping s = false -> trying s) -> p_stopping s' = false -> trying s'.
Proof.
  intros H I TS NR K St'.
  assert (St : p_stopping s = false) by (destruct (p_stopping s) eqn:X; [rewrite (stop_keeps _ _ _ _ H X) in St'; discriminate|reflexivity]).
  destruct (K St) as [Hc Ht]. pose proof (v_cnt _ I St) as Ec.
  destruct H as [act s0 x s' l W Hx Al F|act s0 s' W Al Lc|act s0 W|d q Q|d q c s' l Q Al Lc B|b e s' Ia R Al Lc|b e self s' l Ia R Al F
    |b e peer self s' l Ia R Al F|c il s' l Sc Al Il Lc B|c Sc Al St0|Al|c Ic|Al].
  - destruct (att_base _ _ _ W) as (E1 & E2 & E3 & E4 & E5 & E6 & E7).
    remember (match x with SNone => w_next s0 (S (p_next s)) | _ => w_sock (w_next s0 (S (p_next s))) (p_next s) x end) as s1 eqn:Es1.
    assert (Es : p_stopping s1 = false /\ p_cnt s1 = conn s1 /\ p_ccnt s1 = p_ccnt s /\ p_inprog s1 = p_inprog s /\ p_req s1 = p_req s /\ attempts s1 = attempts s - 1).
    { unfold conn. rewrite Es1. destruct Hx as [-> | ->]; pj; rewrite E5, E3, E2, E4, E7, E6; repeat split; auto; try (unfold attempts in *; pj; exact E1). }
    destruct Es as (S1 & S2 & S3 & S4 & S5 & S6). pose proof (failed_same _ _ _ F) as (Fr & _ & _ & _ & _ & _ & Fc & Fi & _).
    split; [rewrite Fc, Fi, S3, S4; exact Hc|]. rewrite Fr, S5. pose proof (inprog_att s'). pose proof (att_nonneg s1). rewrite Fi, S4 in *. destruct (try_failed _ _ _ F S1 S2) as [X|[X|X]]; lia.
  - destruct (att_base _ _ _ W) as (E1 & E2 & E3 & E4 & E5 & E6 & E7). pose proof (launched_same _ _ Lc) as (Fr & _ & _ & _ & _ & _ & Fc & Fi & _).
    split; [rewrite Fc, Fi; pj; rewrite E4, E7; exact Hc|]. rewrite Fr. pj. rewrite E6. apply try_launched in Lc; pj.
    + rewrite E6 in Lc. tauto.
    + now rewrite E5.
    + reflexivity.
    + now rewrite E4, E7.
  - destruct (att_base _ _ _ W) as (E1 & E2 & E3 & E4 & E5 & E6 & E7). split; pj; [rewrite app_length, E4; cbn [length]; lia|]. right. left. unfold attempts. pj. rewrite app_length. cbn [length]. lia.
  - rewrite TS in St by (rewrite Q; now left). discriminate.
  - pose proof (launched_same _ _ Lc) as (Fr & _ & _ & _ & _ & _ & Fc & Fi & _). split; [rewrite Fc, Fi; exact Hc|]. rewrite Fr. pj.
    apply try_launched in Lc; pj; auto. tauto.
  - rewrite (NR _ _ _ _ eq_refl) in R. discriminate.
  - rewrite (NR _ _ _ _ eq_refl) in R. discriminate.
  - pose proof (failed_same _ _ _ F) as (Fr & _ & _ & Fch & _ & _ & Fc & Fi & Fq & _).
    pose proof (len_without b _ (v_nd _ I) Ia) as Ew. split; pj; [lia|]. rewrite Fr.
    assert (Ea : attempts (w_ccnt (w_sock (w_inprog s' (without b (p_inprog s))) b SClosed) (Z.of_nat (length (without b (p_inprog s))))) = attempts s' - 1) by (unfold attempts; pj; rewrite Fi; lia).
    rewrite Ea. pose proof (inprog_att s') as Y. rewrite Fi in Y. unfold conn. pj.
    assert (Ai : In b (p_inprog s)) by assumption. assert (1 <= attempts s) by (pose proof (inprog_att s); destruct (p_inprog s); [destruct Ai|cbn [length] in *; lia]).
    destruct (try_failed _ _ _ F St Ec) as [X|[X|X]]; unfold conn in X; lia.
  - pose proof (launched_same _ _ Lc) as (Fr & _ & _ & _ & _ & _ & Fc & Fi & _). split; [rewrite Fc, Fi; exact Hc|]. rewrite Fr. pj.
    apply try_launched in Lc; pj; auto. tauto.
  - split; pj; [exact Hc|]. right. right. rewrite tcl_app. cbn. destruct (tcl (p_q s)); discriminate.
  - unfold Finalize in *. rewrite St in *. discriminate.
  - exact (conj Hc Ht).
  - discriminate.
Qed.

Lemma phist_trying req iv h s : 1 <= req -> phist req iv h s ->
  (forall a e peer self l, In (AEvent a e peer self, l) h -> hasb (to_lt_event e) EV_READ = false) -> p_stopping s = false -> trying s.
Proof.
  intro Hr. induction 1 as [|h s a s' l H IH E]; intro N.
  - intros _. split; [cbn; lia|]. right. left. unfold attempts. cbn [pinit p_q p_delayed p_inprog length]. rewrite dials_repeat. unfold kConnetBatchCount. lia.
  - apply (try_step s a s' l); [exact (pstep_effect _ _ _ _ E)|apply (phist_inv _ _ _ _ H)|apply (tstop_inv _ _ _ _ H)| |].
    + intros b e peer self ->. apply (N b e peer self l). apply in_or_app. right. now left.
    + apply IH. intros b e peer self l0 X. apply (N b e peer self l0). apply in_or_app. now left.
Qed.

(** ** Finalize with nothing under way *)
Definition winding (s : pool) : Prop :=
  p_stopping s = true /\ attempts s = 0 /\ forall a, p_socks s a = SHanded -> In a (p_detach s).
Lemma wind_launched s s' : launched s s' -> winding s -> winding s'.
Proof. intros L W. destruct L as [X|X Y]; [exact W|]. destruct W. congruence. Qed.
Lemma wind_inprog s : winding s -> p_inprog s = [].
Proof. intros (_ & A & _). unfold attempts in A. destruct (p_inprog s); [reflexivity|cbn [length] in A; lia]. Qed.
Lemma wind_step s act s' l : effect s act s' l -> winding s -> winding s'.
Proof.
  intros H W0. pose proof (wind_inprog _ W0) as Wi. pose proof W0 as (St & At & Hd).
  destruct H as [act s0 x s' l W Hx Al F|act s0 s' W Al Lc|act s0 W|d q Q|d q c s' l Q Al Lc B|b e s' Ia R Al Lc|b e self s' l Ia R Al F
    |b e peer self s' l Ia R Al F|c il s' l Sc Al Il Lc B|c Sc Al St0|Al|c Ic|Al]; try (rewrite Wi in Ia; destruct Ia; fail).
  - destruct (att_base _ _ _ W) as (E1 & _). pose proof (att_nonneg s0). lia.
  - destruct (att_base _ _ _ W) as (E1 & _). pose proof (att_nonneg s0). lia.
  - destruct (att_base _ _ _ W) as (E1 & _). pose proof (att_nonneg s0). lia.
  - split; [exact St|]. unfold attempts, StopConnector, close_all in *. cbn [fst]. pj. rewrite Wi in *. rewrite Q in At. split; [exact At|exact Hd].
  - eapply wind_launched; [exact Lc|]. split; [exact St|]. unfold attempts in *. pj. rewrite Q in At. split; [exact At|exact Hd].
  - eapply wind_launched; [exact Lc|]. split; [exact St|]. split; [exact At|]. pj. intros a X. destruct (Nat.eqb_spec a c) as [Y|Y]; [discriminate|]. apply in_without. split; auto.
  - congruence.
  - unfold Finalize. rewrite St. exact W0.
  - split; [exact St|]. split; [exact At|]. pj. intros a X. destruct (Nat.eqb_spec a c) as [Y|Y]; [discriminate|]. apply in_without. split; auto.
  - unfold Finalize. rewrite St. split; [reflexivity|]. split; assumption.
Qed.
Lemma wind_start s : pinv s -> p_alive s = true -> p_stopping s = false -> attempts s = 0 -> winding (Finalize s).
Proof.
  intros I Al St At. unfold Finalize. rewrite St. split; [reflexivity|]. unfold attempts in *. pj. rewrite dials_app. cbn [dials filter length]. split; [lia|].
  intros a X. apply in_or_app. right. rewrite (v_use _ I Al). apply (v_hand _ I); auto.
Qed.
Lemma pruns_inv s h s' : pruns s h s' -> pinv s -> cinv' s -> pinv s' /\ cinv' s'.
Proof. induction 1 as [s|s a s1 l h s2 E R IH]; intros I C; [auto|]. destruct (effect_inv _ _ _ _ (pstep_effect _ _ _ _ E) I C). auto. Qed.
Lemma pruns_wind s h s' : pruns s h s' -> winding s -> winding s'.
Proof. induction 1 as [s|s a s1 l h s2 E R IH]; intros W; [auto|]. apply IH. exact (wind_step _ _ _ _ (pstep_effect _ _ _ _ E) W). Qed.

(** ** Reconnect delay *)
Definition quiet_ok (l : list pev) : Prop := forall a, ~ In (POk a) l.
Definition paced (s : pool) (l : list pev) : Prop :=
  forall l1 a l2, l = l1 ++ POk a :: l2 -> quiet_ok l2 -> 10 * fails l2 < 2 ^ 32 -> 10 * delays l2 <= p_ival s <= 10 * fails l2.

Lemma fails_app l1 l2 : fails (l1 ++ l2) = fails l1 + fails l2. Proof. unfold fails. rewrite filter_len_app. lia. Qed.
Lemma delays_app l1 l2 : delays (l1 ++ l2) = delays l1 + delays l2. Proof. unfold delays. rewrite filter_len_app. lia. Qed.
Lemma fails_pos l : 0 <= fails l. Proof. unfold fails. lia. Qed.
Lemma delays_pos l : 0 <= delays l. Proof. unfold delays. lia. Qed.

Lemma split_quiet L l l1 a l2 : quiet_ok l -> L ++ l = l1 ++ POk a :: l2 -> exists l3, L = l1 ++ POk a :: l3 /\ l2 = l3 ++ l.
Proof.
  intros Q E. apply app_eq_app in E. destruct E as (m & [[E1 E2]|[E1 E2]]).
  - destruct m as [|x m]; cbn in E2.
    + destruct (Q a). rewrite <- E2. now left.
    + inv E2. exists m. auto.
  - destruct (Q a). rewrite E2. apply in_or_app. right. now left.
Qed.
Lemma split_last L x l1 a l2 : quiet_ok l2 -> L ++ [POk x] = l1 ++ POk a :: l2 -> l2 = [].
Proof.
  intros Q E. destruct l2 as [|y0 l0]; [reflexivity|].
  destruct (exists_last (l := y0 :: l0) ltac:(discriminate)) as (m & y & Ey). rewrite Ey in *.
  assert (E' : L ++ [POk x] = (l1 ++ POk a :: m) ++ [y]) by (rewrite E, <- app_assoc; reflexivity).
  apply app_inj_tail in E'. destruct E' as [_ <-]. destruct (Q x). apply in_or_app. right. now left.
Qed.

Lemma pace_step s act s' l L : effect s act s' l -> 0 <= p_ival s -> paced s L ->
  0 <= p_ival s' /\ paced s' (L ++ l) /\ (forall d, In (PDelay d) l -> d = Z.min (p_ival s') 10000) .
Proof.
  intros H P0 P.
  assert (Pk : forall s1 l1, p_ival s1 = p_ival s -> quiet_ok l1 -> (forall d, ~ In (PDelay d) l1) -> delays l1 = 0 -> 0 <= p_ival s1 /\ paced s1 (L ++ l1) /\ (forall d, In (PDelay d) l1 -> d = Z.min (p_ival s1) 10000)).
  { intros s1 l1 E Q D D0. rewrite E. split; [exact P0|]. split; [|intros d X; destruct (D d X)].
    intros a1 a a2 Es Qa B. rewrite E. destruct (split_quiet _ _ _ _ _ Q Es) as (l3 & -> & ->).
    rewrite fails_app, delays_app in *. pose proof (fails_pos l1). specialize (P _ _ _ eq_refl). assert (quiet_ok l3) by (intros z Z; apply (Qa z), in_or_app; now left).
    specialize (P H1). lia. }
  assert (Pok : forall s1 l1 b, p_ival s1 = 0 -> (forall d, ~ In (PDelay d) (l1 ++ [POk b])) -> 0 <= p_ival s1 /\ paced s1 (L ++ (l1 ++ [POk b])) /\ (forall d, In (PDelay d) (l1 ++ [POk b]) -> d = Z.min (p_ival s1) 10000)).
  { intros s1 l1 b E D. rewrite E. split; [lia|]. split; [|intros d X; destruct (D d X)]. intros a1 a a2 Es Qa B. rewrite app_assoc in Es.
    rewrite (split_last _ _ _ _ _ Qa Es) in *. rewrite E. unfold fails, delays. cbn. lia. }
  assert (Pf : forall s0 s1 l0 l1, failed_to s0 s1 l1 -> p_ival s0 = p_ival s -> quiet_ok l0 -> (forall d, ~ In (PDelay d) l0) -> delays l0 = 0 -> fails l0 = 1 ->
     0 <= p_ival s1 /\ paced s1 (L ++ (l0 ++ l1)) /\ (forall d, In (PDelay d) (l0 ++ l1) -> d = Z.min (p_ival s1) 10000)).
  { intros s0 s1 l0 l1 F E Q D D0 F0. destruct F as [X|X Y Z|X Y Z].
    - rewrite app_nil_r. apply Pk; auto.
    - rewrite app_nil_r. pj. split; [unfold u32; apply Z.mod_pos_bound; lia|]. split; [|intros d U; destruct (D d U)].
      intros a1 a a2 Es Qa B. destruct (split_quiet _ _ _ _ _ Q Es) as (l3 & -> & ->). rewrite fails_app, delays_app in *. specialize (P _ _ _ eq_refl).
      assert (Q3 : quiet_ok l3) by (intros z U; apply (Qa z), in_or_app; now left). specialize (P Q3). pj. rewrite E. unfold u32. rewrite Z.mod_small by lia. lia.
    - assert (Qd : forall d, quiet_ok (l0 ++ [PDelay d])) by (intros d z U; apply in_app_or in U; destruct U as [U|[U|[]]]; [exact (Q z U)|discriminate]).
      pj. split; [unfold u32; apply Z.mod_pos_bound; lia|]. split.
      + intros a1 a a2 Es Qa B. destruct (split_quiet _ _ _ _ _ (Qd _) Es) as (l3 & -> & ->).
        rewrite !fails_app, !delays_app in *. specialize (P _ _ _ eq_refl).
        assert (Q3 : quiet_ok l3) by (intros z U; apply (Qa z), in_or_app; now left). specialize (P Q3).
        change (fails [PDelay (Z.min (u32 (p_ival s0 + 10)) 10000)]) with 0 in *. change (delays [PDelay (Z.min (u32 (p_ival s0 + 10)) 10000)]) with 1.
        pj. rewrite E. unfold u32. rewrite Z.mod_small by lia. lia.
      + intros d U. apply in_app_or in U. destruct U as [U|[U|[]]]; [destruct (D d U)|]. inv U. reflexivity. }
  destruct H as [act s0 x s' l W Hx Al F|act s0 s' W Al Lc|act s0 W|d q Q|d q c s' l Q Al Lc B|b e s' Ia R Al Lc|b e self s' l Ia R Al F
    |b e peer self s' l Ia R Al F|c il s' l Sc Al Il Lc B|c Sc Al St0|Al|c Ic|Al].
  - apply (Pf _ _ [PDialed (p_next s); PFail (p_next s)] l F); try reflexivity.
    + destruct W as [(d & _ & q & _ & ->)|(d & n & _ & _ & ->)]; destruct Hx as [-> | ->]; reflexivity.
    + intros z [Z|[Z|[]]]; discriminate.
    + intros z [Z|[Z|[]]]; discriminate.
  - pose proof (launched_same _ _ Lc) as (_ & _ & _ & _ & _ & _ & _ & _ & _ & _ & _ & _ & Ei). apply (Pok s' [PDialed (p_next s)] (p_next s)); [rewrite Ei; reflexivity|].
    intros z [Z|[Z|[]]]; discriminate.
  - apply Pk; [destruct W as [(d & _ & q & _ & ->)|(d & n & _ & _ & ->)]; reflexivity|intros z [Z|[]]; discriminate|intros z [Z|[]]; discriminate|reflexivity].
  - apply Pk; [reflexivity| | |].
    + intros z Z. apply in_map_iff in Z. destruct Z as (y & Z & _). discriminate.
    + intros z Z. apply in_map_iff in Z. destruct Z as (y & Z & _). discriminate.
    + induction (p_inprog s); [reflexivity|exact IHl].
  - pose proof (launched_same _ _ Lc) as (_ & _ & _ & _ & _ & _ & _ & _ & _ & _ & _ & _ & Ei).
    apply Pk; [exact Ei|destruct B as [-> | ->]; intros z; [intros []|intros [Z|[]]; discriminate]|destruct B as [-> | ->]; intros z; [intros []|intros [Z|[]]; discriminate]|destruct B as [-> | ->]; reflexivity].
  - pose proof (launched_same _ _ Lc) as (_ & _ & _ & _ & _ & _ & _ & _ & _ & _ & _ & _ & Ei). apply (Pok s' [] b); [rewrite Ei; reflexivity|].
    intros z [Z|[]]; discriminate.
  - apply (Pf _ _ [PFail b] l F); try reflexivity; intros z [Z|[]]; discriminate.
  - destruct (Pf _ _ [PFail b] l F) as (X & Y & Z); try reflexivity; try (intros z [Z|[]]; discriminate). split; [exact X|]. split; [exact Y|exact Z].
  - pose proof (launched_same _ _ Lc) as (_ & _ & _ & _ & _ & _ & _ & _ & _ & _ & _ & _ & Ei).
    apply Pk; [exact Ei|destruct B as [-> | ->]; intros z; [intros []|intros [Z|[]]; discriminate]|destruct B as [-> | ->]; intros z; [intros []|intros [Z|[]]; discriminate]|destruct B as [-> | ->]; reflexivity].
  - apply Pk; [reflexivity|intros z []|intros z []|reflexivity].
  - apply Pk; [unfold Finalize; destruct (p_stopping s); reflexivity|intros z []|intros z []|reflexivity].
  - apply Pk; [reflexivity|intros z []|intros z []|reflexivity].
  - apply Pk; [unfold Finalize; destruct (p_stopping s); reflexivity|intros z []|intros z []|reflexivity].
Qed.
Lemma phist_paced req iv h s : 0 <= iv -> phist req iv h s -> 0 <= p_ival s /\ paced s (pseen h).
Proof.
  intro Hi. induction 1 as [|h s a s' l H [IH1 IH2] E].
  - split; [exact Hi|]. intros l1 a l2 X. destruct l1; discriminate.
  - rewrite pseen_snoc. destruct (pace_step _ _ _ _ _ (pstep_effect _ _ _ _ E) IH1 IH2) as (A & B & _). auto.
Qed.

(** ** Where sockets come from *)
Definition traced (h : list (pact * list pev)) (s : pool) : Prop := forall a,
  (p_socks s a = SLeaked -> exists e self l, In (AEvent a e false self, l) h /\ hasb (to_lt_event e) EV_READ = true) /\
  (p_socks s a = SHanded -> In (POk a) (pseen h)).
Lemma trace_keep h s act l s' : traced h s -> (forall a, p_socks s' a = SLeaked -> p_socks s a = SLeaked) ->
  (forall a, p_socks s' a = SHanded -> p_socks s a = SHanded \/ In (POk a) l) -> traced (h ++ [(act, l)]) s'.
Proof.
  intros T A B a. split; intro X.
  - destruct (proj1 (T a) (A _ X)) as (e & self & l0 & Y & Z). exists e, self, l0. split; [apply in_or_app; now left|exact Z].
  - rewrite pseen_snoc. apply in_or_app. destruct (B _ X) as [Y|Y]; [left; now apply T|now right].
Qed.
Lemma trace_step h s act l s' : effect s act s' l -> traced h s -> traced (h ++ [(act, l)]) s'.
Proof.
  intros H T.
  destruct H as [act s0 x s' l W Hx Al F|act s0 s' W Al Lc|act s0 W|d q Q|d q c s' l Q Al Lc B|b e s' Ia R Al Lc|b e self s' l Ia R Al F
    |b e peer self s' l Ia R Al F|c il s' l Sc Al Il Lc B|c Sc Al St0|Al|c Ic|Al].
  - pose proof (failed_same _ _ _ F) as (_ & _ & _ & _ & _ & _ & _ & _ & _ & _ & Es & _).
    assert (E0 : p_socks s0 = p_socks s) by (destruct W as [(d & _ & q & _ & ->)|(d & n & _ & _ & ->)]; reflexivity).
    apply (trace_keep h s); [exact T| |]; intros a; rewrite Es; destruct Hx as [-> | ->]; pj; rewrite E0; try destruct (Nat.eqb a (p_next s)); try discriminate; auto.
  - pose proof (launched_same _ _ Lc) as (_ & _ & _ & _ & _ & _ & _ & _ & _ & _ & Es & _).
    assert (E0 : p_socks s0 = p_socks s) by (destruct W as [(d & _ & q & _ & ->)|(d & n & _ & _ & ->)]; reflexivity).
    apply (trace_keep h s); [exact T| |]; intros a; rewrite Es; pj; rewrite E0; destruct (Nat.eqb_spec a (p_next s)) as [Y|Y]; try discriminate; auto. subst a. cbn. auto.
  - assert (E0 : p_socks s0 = p_socks s) by (destruct W as [(d & _ & q & _ & ->)|(d & n & _ & _ & ->)]; reflexivity).
    apply (trace_keep h s); [exact T| |]; intros a; pj; rewrite E0; destruct (Nat.eqb_spec a (p_next s)) as [Y|Y]; try discriminate; auto.
  - apply (trace_keep h s); [exact T| |]; intros a; unfold StopConnector, close_all; cbn [fst]; pj; destruct (existsb (Nat.eqb a) (p_inprog s)); try discriminate; auto.
  - pose proof (launched_same _ _ Lc) as (_ & _ & _ & _ & _ & _ & _ & _ & _ & _ & Es & _).
    apply (trace_keep h s); [exact T| |]; intros a; rewrite Es; pj; auto.
  - pose proof (launched_same _ _ Lc) as (_ & _ & _ & _ & _ & _ & _ & _ & _ & _ & Es & _).
    apply (trace_keep h s); [exact T| |]; intros a; rewrite Es; pj; destruct (Nat.eqb_spec a b) as [Y|Y]; try discriminate; auto. subst a. cbn. auto.
  - pose proof (failed_same _ _ _ F) as (_ & _ & _ & _ & _ & _ & _ & _ & _ & _ & Es & _). intro a. rewrite Es. pj.
    destruct (Nat.eqb_spec a b) as [Y|Y]; [subst a; split; [|discriminate]|].
    + intros _. exists e, self, (PFail b :: l). split; [apply in_or_app; right; now left|exact R].
    + destruct (trace_keep h s (AEvent b e false self) (PFail b :: l) s T) with (a := a) as [A B]; auto.
  - pose proof (failed_same _ _ _ F) as (_ & _ & _ & _ & _ & _ & _ & _ & _ & _ & Es & _).
    apply (trace_keep h s); [exact T| |]; intros a; pj; rewrite Es; destruct (Nat.eqb_spec a b) as [Y|Y]; try discriminate; auto.
  - pose proof (launched_same _ _ Lc) as (_ & _ & _ & _ & _ & _ & _ & _ & _ & _ & Es & _).
    apply (trace_keep h s); [exact T| |]; intros a; rewrite Es; pj; destruct (Nat.eqb_spec a c) as [Y|Y]; try discriminate; auto.
  - apply (trace_keep h s); [exact T| |]; intros a; pj; destruct (Nat.eqb_spec a c) as [Y|Y]; try discriminate; auto.
  - assert (E0 : p_socks (Finalize s) = p_socks s) by (unfold Finalize; destruct (p_stopping s); reflexivity). apply (trace_keep h s); [exact T| |]; intros a; rewrite E0; auto.
  - apply (trace_keep h s); [exact T| |]; intros a; pj; destruct (Nat.eqb_spec a c) as [Y|Y]; try discriminate; auto.
  - assert (E0 : p_socks (Finalize s) = p_socks s) by (unfold Finalize; destruct (p_stopping s); reflexivity). apply (trace_keep h s); [exact T| |]; intros a; pj; rewrite E0; auto.
Qed.
Lemma phist_traced req iv h s : phist req iv h s -> traced h s.
Proof.
  induction 1 as [|h s a s' l H IH E]; [intro a; split; discriminate|]. exact (trace_step _ _ _ _ _ (pstep_effect _ _ _ _ E) IH).
Qed.
Lemma reports_two a l : In (PFail a) l -> In (POk a) l -> (2 <= reports a l)%nat.
Proof.
  unfold reports. induction l as [|x l IH]; [intros []|]. intros [->|A] [B|B]; cbn [filter].
  - discriminate.
  - rewrite Nat.eqb_refl. cbn [length]. assert (In (POk a) (filter (fun e => match e with POk b | PFail b => (b =? a)%nat | _ => false end) l)) by (apply filter_In; split; [exact B|apply Nat.eqb_refl]).
    destruct (filter _ l); [destruct H|cbn; lia].
  - subst x. rewrite Nat.eqb_refl. cbn [length]. assert (In (PFail a) (filter (fun e => match e with POk b | PFail b => (b =? a)%nat | _ => false end) l)) by (apply filter_In; split; [exact A|apply Nat.eqb_refl]).
    destruct (filter _ l); [destruct H|cbn; lia].
  - specialize (IH A B). destruct (match x with POk b | PFail b => (b =? a)%nat | _ => false end); cbn [length]; lia.
Qed.
