From Verif.Model Require Import Common CoTasks.
From Verif.Spec Require Import CoTaskSpec.
From Verif.Proofs Require Import Tac CoTasksProofs CoTasksProofs2.

(** How a step looks from loop [r] when it is not a step of its thread. *)
Lemma step_other (I : runner -> Prop) s e s' r :
  (forall x l, I x -> I (set_posted x (posted x ++ l))) ->
  (forall x l, I x -> I (set_nest x (nest x ++ l))) ->
  (forall x l, I x -> I (set_sched x (sched x ++ l))) ->
  (forall x l, I x -> I (set_remote x (remote x ++ l))) ->
  I (rs s r) -> step s e s' ->
  I (rs s' r) \/ (exists g, lstep r (gq s) (rs s r) e (rs s' r) g /\ gq s' = g).
Proof. intros A B C D H S. destruct S; simpl; auto.
  - destruct (Nat.eq_dec r r0) as [->|N]; [rewrite upd_same; right; eauto|rewrite upd_other by assumption; auto].
  - left. destruct (bg s); [assumption|]. destruct (Nat.eq_dec r 0) as [->|N]; [rewrite upd_same|rewrite upd_other by assumption; assumption]. auto.
  - left. destruct (Nat.eq_dec r r0) as [->|N]; [rewrite upd_same|rewrite upd_other by assumption; assumption]. auto.
  - left. destruct (Nat.eq_dec r r0) as [->|N]; [rewrite upd_same|rewrite upd_other by assumption; assumption]. auto.
  - left. destruct (Nat.eq_dec r r0) as [->|N]; [rewrite upd_same|rewrite upd_other by assumption; assumption]. auto.
  - left. destruct (Nat.eq_dec r r0) as [->|N]; [rewrite upd_same|rewrite upd_other by assumption; assumption]. auto.
  - left. destruct (Nat.eq_dec r r0) as [->|N]; [rewrite upd_same|rewrite upd_other by assumption; assumption]. auto.
Qed.

Definition evloop (e : ev) : option nat :=
  match e with
  | ETake r _ | EStart r _ | EFinish r _ | ESuspend r _ | ESchedCall r _ | EWake r _ | EDrained r | EIter r | ERunBegin r | ERunEnd r | EQuit r | EDone r => Some r
  | ESubmit _ | ETau => None
  end.

Lemma lstep_evloop r g x e x' g' q : lstep r g x e x' g' -> evloop e = Some q -> q = r.
Proof. intros S E. destruct S; simpl in E; try congruence. destruct (fin x); simpl in E; congruence. Qed.

Lemma step_evloop s e s' r : step s e s' -> evloop e = Some r -> exists g, lstep r (gq s) (rs s r) e (rs s' r) g /\ gq s' = g.
Proof. intros S E. destruct S; try discriminate. pose proof (lstep_evloop _ _ _ _ _ _ _ H E). subst r0. simpl. rewrite upd_same. eauto. Qed.

Lemma WA_step s e s' r c id : (forall q, wf (rs s q)) -> WA c id (rs s r) -> step s e s' -> WA c id (rs s' r) \/ e = EWake r c.
Proof. intros W H S. destruct (step_other (WA c id) s e s' r) as [K|(g & K & _)]; auto.
  - intros x l [A B]. split; [exact A|]. simpl. rewrite in_app_iff. destruct B as [?|[?|[?|?]]]; auto.
  - eapply WA_lstep; eauto. Qed.

Lemma WB_step s e s' r c id : (forall q, wf (rs s q)) -> WB c id (rs s r) -> step s e s' -> (WB c id (rs s' r) \/ e = EWake r c) /\ ~ round_end r e.
Proof. intros W H S. assert (D : (exists g, lstep r (gq s) (rs s r) e (rs s' r) g) \/ (WB c id (rs s' r) /\ evloop e <> Some r)).
  { destruct (evloop e) as [q|] eqn:E.
    - destruct (Nat.eq_dec q r) as [->|N]; [left; destruct (step_evloop _ _ _ _ S E) as (g & K & _); eauto|].
      right. split; [|congruence]. destruct (step_other (WB c id) s e s' r) as [K|(g & K & _)]; auto.
      + intros x l [A B]. split; [exact A|]. simpl. destruct (ph x); auto; rewrite in_app_iff; tauto.
      + pose proof (lstep_evloop _ _ _ _ _ _ _ K E). congruence.
    - destruct (step_other (WB c id) s e s' r) as [K|(g & K & _)]; eauto.
      + intros x l [A B]. split; [exact A|]. simpl. destruct (ph x); auto; rewrite in_app_iff; tauto.
      + right. split; [assumption|discriminate]. }
  destruct D as [[g D]|[D N]].
  - eapply WB_lstep; eauto.
  - split; [auto|]. intros [->| ->]; apply N; reflexivity. Qed.

Lemma WA_steps s h s' r c id : steps s h s' -> (forall q, wf (rs s q)) -> WA c id (rs s r) -> WA c id (rs s' r) \/ In (EWake r c) h.
Proof. induction 1 as [|s e0 s1 h s2 S SS IH]; intros W H; [auto|].
  destruct (WA_step _ _ _ r c id W H S) as [K| ->]; [|right; left; reflexivity].
  destruct IH as [?|?]; auto. eapply step_wf; eauto. right; right; assumption. Qed.

Lemma WB_steps s h s' r c id e : steps s h s' -> (forall q, wf (rs s q)) -> WB c id (rs s r) -> In e h -> round_end r e -> In (EWake r c) h.
Proof. induction 1 as [|s e0 s1 h s2 S SS IH]; intros W H I E; [contradiction|].
  destruct (WB_step _ _ _ r c id W H S) as [[K| ->] N]; [|left; reflexivity].
  destruct I as [->|I]; [contradiction|]. right. apply IH; auto. eapply step_wf; eauto. Qed.

Lemma steps_wf s h s' : steps s h s' -> (forall q, wf (rs s q)) -> forall q, wf (rs s' q).
Proof. induction 1; auto. intros W. apply IHsteps. eapply step_wf; eauto. Qed.

Lemma steps_split s h s' a e b : steps s h s' -> h = a ++ e :: b -> exists s1 s2, steps s a s1 /\ step s1 e s2 /\ steps s2 b s'.
Proof. intros S. revert a. induction S as [|s e0 s1 h s2 S0 S IH]; intros a E.
  - destruct a; discriminate.
  - destruct a as [|y a]; simpl in E; inv E.
    + exists s, s1. repeat split; auto. constructor.
    + destruct (IH a eq_refl) as (p & q & A & B & C). exists p, q. repeat split; auto. econstructor; eassumption. Qed.

Theorem sched_returns h1 r c h2 h3 e h4 s : run (h1 ++ ESchedCall r c :: h2 ++ ERunBegin r :: h3 ++ e :: h4) s ->
  round_end r e -> In (EWake r c) (h2 ++ ERunBegin r :: h3).
Proof. intros R E.
  destruct (run_split1 _ _ h1 (ESchedCall r c) (h2 ++ ERunBegin r :: h3 ++ e :: h4) R eq_refl) as (a & b & Ra & Sa & Rb & Sb).
  destruct (steps_split _ _ _ h2 (ERunBegin r) (h3 ++ e :: h4) Sb eq_refl) as (b1 & b2 & S1 & S2 & S3).
  destruct (steps_split _ _ _ h3 e h4 S3 eq_refl) as (b3 & b4 & S4 & S5 & _).
  assert (HA : WA c (rid (rs a r) c) (rs b r)).
  { destruct (step_evloop _ _ _ r Sa eq_refl) as (g & K & _). remember (rs b r) as yb eqn:EY. clear EY. inversion K; subst.
    - destruct (fin (rs a r)); discriminate.
    - split; [split; simpl|].
      + rewrite upd_same. eauto.
      + reflexivity.
      + simpl. right. left. apply in_or_app. right. left. reflexivity. }
  pose proof (run_wf _ _ Rb) as Wb. destruct (WA_steps _ _ _ r c _ S1 Wb HA) as [HB|I]; [|apply in_or_app; auto].
  pose proof (steps_wf _ _ _ S1 Wb) as W1.
  assert (HC : WB c (rid (rs a r) c) (rs b2 r)).
  { destruct (step_evloop _ _ _ r S2 eq_refl) as (g & K & _). destruct HB as [X Y]. specialize (W1 r). remember (rs b2 r) as yb eqn:EY. clear EY. inversion K; subst.
    - assert (CE : cur (rs b1 r) = None) by (apply idle_cur; [assumption|rewrite H; auto]).
      assert (BE : batch (rs b1 r) = []) by (apply nb; [assumption|congruence]).
      split; [exact X|]. simpl. rewrite BE in Y. destruct Y as [?|[?|[[]|G]]]; auto. exfalso. eapply gotR_none; eassumption.
    - destruct (fin (rs b1 r)); discriminate. }
  pose proof (step_wf _ _ _ W1 S2) as W2.
  assert (S6 : steps b2 (h3 ++ [e]) b4). { clear -S4 S5. induction S4; simpl; [econstructor; [eassumption|constructor]|econstructor; eauto]. }
  assert (I : In (EWake r c) (h3 ++ [e])). { eapply WB_steps; eauto. apply in_or_app. right. left. reflexivity. }
  apply in_app_or in I. apply in_or_app. right. right. destruct I as [I|[I|[]]]; [assumption|]. subst e. destruct E; discriminate.
Qed.

(** ** Order. *)
Lemma who_eqb_eq a b : who_eqb a b = true <-> a = b.
Proof. destruct a, b; simpl; try rewrite Nat.eqb_eq; split; intros; congruence. Qed.
Lemma dest_eqb_eq a b : dest_eqb a b = true <-> a = b.
Proof. destruct a, b; simpl; try rewrite Nat.eqb_eq; split; intros; congruence. Qed.

Lemma from_app w d a b : from w d (a ++ b) = from w d a ++ from w d b.
Proof. apply filter_app. Qed.
Lemma from_none w d l : (forall t, In t l -> by_ t = w -> to_ t = d -> False) -> from w d l = [].
Proof. intros H. unfold from. induction l as [|t l IH]; [reflexivity|]. simpl. destruct (who_eqb (by_ t) w && dest_eqb (to_ t) d) eqn:E.
  - apply andb_true_iff in E. destruct E as [E1 E2]. apply who_eqb_eq in E1. apply dest_eqb_eq in E2. exfalso. apply (H t); simpl; auto.
  - apply IH. intros u I. apply H. right; assumption. Qed.

Arguments from : simpl never.
Arguments via : simpl never.
Definition line (x : runner) : list task := got x ++ itT (batch x) ++ itT (sched x) ++ phl (ph x) ++ nest x.

Definition newst (r : nat) (e : ev) : list task := match e with EStart q t => if Nat.eqb q r then [t] else [] | _ => [] end.

Lemma line_lstep r g x e x' g' w : wf x -> prov r x -> provg g -> lstep r g x e x' g' ->
  from w (OnLoop r) (newst r e ++ line x' ++ postT (posted x')) = from w (OnLoop r) (line x ++ postT (posted x)).
Proof. intros W P G S. unfold line.
  assert (Z : forall l a, (forall t, In t a -> to_ t = OnLoop r -> False) -> from w (OnLoop r) (a ++ l) = from w (OnLoop r) l).
  { intros l a H. rewrite from_app, (from_none _ _ a); [reflexivity|]. intros t I _. exact (H t I). }
  destruct S; simpl.
  - rewrite H. reflexivity.
  - apply deq_split in H0. destruct H0 as (a & b & E & -> & N).
    assert (EP : phl (ph x) = []) by (destruct H as [H|H]; rewrite H; reflexivity).
    rewrite E. rewrite run_posted_posted. simpl. rewrite !postT_app. simpl. destruct p; simpl.
    + rewrite EP, itT_app. simpl. change (got (set_sched (set_inst (set_posted x (a ++ b))) (sched x ++ [IUser t]))) with (got x).
      assert (I : In (w0, PGo t) (posted x)) by (rewrite E; apply in_or_app; right; left; reflexivity).
      destruct (pv_post _ _ P _ _ I) as (-> & B & T).
      change (t :: postT b) with ([t] ++ postT b). repeat rewrite from_app. destruct (from w (OnLoop r) [t]) as [|u l] eqn:F.
      * simpl. rewrite app_nil_r. repeat rewrite <- app_assoc. reflexivity.
      * assert (by_ t = w) as EW. { unfold from in F. simpl in F. destruct (who_eqb (by_ t) w) eqn:Y; [apply who_eqb_eq in Y; assumption|discriminate]. }
        rewrite (from_none _ _ (nest x)) by (intros v J; apply (pv_nest _ _ P) in J; destruct J; congruence).
        rewrite (from_none _ _ (postT a)).
        2:{ intros v J K _. apply in_postT in J. destruct J as [w1 J]. assert (J' : In (w1, PGo v) (posted x)) by (rewrite E; apply in_or_app; left; assumption).
            destruct (pv_post _ _ P _ _ J') as (-> & _ & _). apply (N (PGo v)). rewrite EW, <- K. assumption. }
        simpl. rewrite ?app_nil_r. repeat rewrite <- app_assoc. reflexivity.
    + change (got (set_inst (set_posted x (a ++ b)))) with (got x). reflexivity.
  - rewrite H. reflexivity.
  - rewrite H. reflexivity.
  - reflexivity.
  - rewrite H. simpl. rewrite app_nil_r. reflexivity.
  - rewrite H. simpl. rewrite itT_app. simpl. change (got (set_ph (set_sched (set_inst x) (sched x ++ [IUser t])) (Nest l))) with (got x).
    simpl. repeat (rewrite <- app_assoc; simpl). reflexivity.
  - rewrite H. reflexivity.
  - rewrite H. replace (newst r (if fin x then EDone r else ETau)) with (@nil task) by (destruct (fin x); reflexivity).
    unfold after_nested. destruct (fin x); [|destruct (running x)]; reflexivity.
  - rewrite got_switch, (got_cur_none _ H0). reflexivity.
  - rewrite H, (nb x W) by congruence. reflexivity.
  - destruct (remain0 _ H1) as [B _]. rewrite H, B. change (got (set_ph (set_sched (set_run x (sched x) 0 false) []) FromSched)) with (got x). reflexivity.
  - destruct (remain0 _ H1) as [B _]. rewrite H, B. reflexivity.
  - rewrite H. reflexivity.
  - rewrite H. unfold after_nested. destruct (fin x); [|destruct (running x)]; reflexivity.
  - rewrite H. reflexivity.
  - rewrite got_switch, (got_cur_none _ H0). reflexivity.
  - rewrite got_set_co_s, (got_cos x c _ H H0), H1. simpl. repeat rewrite <- app_assoc. reflexivity.
  - rewrite got_set_co_s, (got_cos x c _ H H0), H1. simpl. rewrite <- app_assoc. apply Z. intros t I. apply ui_in in I. subst i.
    apply deq_in in H4. destruct H4 as [I _]. apply (pv_rem _ _ P) in I. destruct I. congruence.
  - rewrite got_set_co_s, (got_cos x c _ H H0), H1. simpl. apply (Z _ [t]). intros u [<-|[]] T.
    apply deq_in in H4. destruct H4 as [I _]. apply G in I. destruct I. congruence.
  - rewrite (got_cos x c _ H H0), H1. reflexivity.
  - rewrite Nat.eqb_refl. rewrite got_set_co_s, (got_cos x c _ H H0). reflexivity.
  - rewrite got_set_co_s, (got_cos x c _ H H0). destruct (do_resume_cases x c' id) as [->|(-> & _)]; reflexivity.
  - rewrite got_set_co_s, (got_cos x c _ H H0). reflexivity.
  - rewrite (got_cos x c _ H H0). reflexivity.
  - rewrite (got_cos x c _ H H0), itT_app. simpl. rewrite app_nil_r. reflexivity.
  - destruct (do_resume_cases x c id) as [->|(-> & _)]; reflexivity.
Qed.

Lemma started_on_snoc r h e : started_on r (h ++ [e]) = started_on r h ++ newst r e.
Proof. unfold started_on. rewrite flat_map_app. simpl. rewrite app_nil_r. reflexivity. Qed.
Lemma submitted_snoc h e : submitted (h ++ [e]) = submitted h ++ match e with ESubmit t => [t] | _ => [] end.
Proof. unfold submitted. rewrite flat_map_app. simpl. rewrite app_nil_r. reflexivity. Qed.

Lemma lstep_nosub r g x t x' g' : ~ lstep r g x (ESubmit t) x' g'.
Proof. intros S. inversion S. destruct (fin x); discriminate. Qed.

Lemma newst_other r q g x e x' g' : lstep q g x e x' g' -> r <> q -> newst r e = [].
Proof. intros S N. destruct e; try reflexivity. simpl. pose proof (lstep_evloop _ _ _ _ _ _ _ S eq_refl). subst.
  destruct (Nat.eqb q r) eqn:E; [apply Nat.eqb_eq in E; congruence|reflexivity]. Qed.

Lemma order_inv h s r w : run h s ->
  from w (OnLoop r) (started_on r h ++ line (rs s r) ++ postT (posted (rs s r))) = from w (OnLoop r) (submitted h).
Proof. induction 1 as [|h s e s' Rn IH S]; [reflexivity|]. rewrite started_on_snoc, submitted_snoc. destruct (run_prov _ _ Rn) as [P G].
  assert (F1 : forall t d, to_ t = d -> d <> OnLoop r -> from w (OnLoop r) [t] = []).
  { intros t d T N. apply from_none. intros u [<-|[]]. congruence. }
  destruct S; simpl.
  - destruct (Nat.eq_dec r r0) as [->|N].
    + rewrite upd_same. rewrite <- app_assoc, from_app. rewrite (line_lstep _ _ _ _ _ _ w (run_wf _ _ Rn r0) (P r0) G H).
      rewrite <- from_app, IH. destruct e; try (rewrite app_nil_r; reflexivity). exfalso. eapply lstep_nosub; eassumption.
    + rewrite upd_other by assumption. rewrite (newst_other _ _ _ _ _ _ _ H N), app_nil_r, IH.
      destruct e; try (rewrite app_nil_r; reflexivity). exfalso. eapply lstep_nosub; eassumption.
  - rewrite app_nil_r, IH, from_app, (F1 t Anywhere), app_nil_r; auto; discriminate.
  - rewrite (from_app w (OnLoop r) (submitted h)), (F1 t Anywhere), app_nil_r by (auto; discriminate). rewrite <- IH, app_nil_r. destruct (bg s); [reflexivity|].
    destruct (Nat.eq_dec r 0) as [->|N]; [rewrite upd_same|rewrite upd_other by assumption; reflexivity].
    unfold line. simpl. rewrite postT_app. simpl. rewrite app_nil_r. reflexivity.
  - rewrite app_nil_r, (from_app w (OnLoop r) (submitted h)), <- IH. destruct (Nat.eq_dec r r0) as [->|N]; [rewrite upd_same|rewrite upd_other by assumption].
    + unfold line. simpl. change (got (set_nest (rs s r0) (nest (rs s r0) ++ [t]))) with (got (rs s r0)). repeat rewrite from_app. repeat rewrite <- app_assoc.
      destruct (who_dec (by_ t) w) as [EW|NW].
      * rewrite (from_none _ _ (postT (posted (rs s r0)))); [simpl; rewrite ?app_nil_r; reflexivity|]. intros u I B T. apply in_postT in I. destruct I as [w1 I]. apply (pv_post _ _ (P r0)) in I. destruct I as (_ & K & _). congruence.
      * assert (FN : from w (OnLoop r0) [t] = []) by (apply from_none; intros u [<-|[]]; congruence). rewrite !FN. simpl. rewrite ?app_nil_r. reflexivity.
    + rewrite (F1 t (OnLoop r0)), app_nil_r; auto; congruence.
  - rewrite app_nil_r, (from_app w (OnLoop r) (submitted h)), <- IH. destruct (Nat.eq_dec r r0) as [->|N]; [rewrite upd_same|rewrite upd_other by assumption].
    + unfold line. simpl. change (got (set_posted (rs s r0) (posted (rs s r0) ++ [(by_ t, PGo t)]))) with (got (rs s r0)). rewrite postT_app. simpl.
      rewrite <- from_app. f_equal. repeat rewrite <- app_assoc. reflexivity.
    + rewrite (F1 t (OnLoop r0)), app_nil_r; auto; congruence.
  - rewrite app_nil_r, (from_app w (OnLoop r) (submitted h)), <- IH, (F1 t (CoTasks.Sched r0)), app_nil_r by (auto; discriminate).
    destruct (Nat.eq_dec r r0) as [->|N]; [rewrite upd_same|rewrite upd_other by assumption; reflexivity].
    unfold line. simpl. change (got (set_sched (rs s r0) (sched (rs s r0) ++ [IUser t]))) with (got (rs s r0)). rewrite itT_app. simpl.
    repeat rewrite from_app. rewrite (F1 t (CoTasks.Sched r0)) by (auto; discriminate). rewrite app_nil_r. reflexivity.
  - rewrite app_nil_r, (from_app w (OnLoop r) (submitted h)), <- IH, (F1 t (CoTasks.Sched r0)), app_nil_r by (auto; discriminate).
    destruct (Nat.eq_dec r r0) as [->|N]; [rewrite upd_same|rewrite upd_other by assumption; reflexivity]. reflexivity.
  - rewrite !app_nil_r, <- IH. destruct (Nat.eq_dec r r0) as [->|N]; [rewrite upd_same|rewrite upd_other by assumption; reflexivity]. reflexivity.
Qed.

Theorem starts_in_order h s r w : run h s -> begins (from w (OnLoop r) (started_on r h)) (from w (OnLoop r) (submitted h)).
Proof. intros R. rewrite <- (order_inv _ _ r w R), from_app. eexists; reflexivity. Qed.

(** The shared queue. *)
Definition newtk (e : ev) : list task := match e with ETake _ t => [t] | _ => [] end.
Lemma taken_snoc h e : taken (h ++ [e]) = taken h ++ newtk e.
Proof. unfold taken. rewrite flat_map_app. simpl. rewrite app_nil_r. reflexivity. Qed.

Lemma lstep_g r g x e x' g' : lstep r g x e x' g' -> (g' = g /\ newtk e = []) \/ (exists t w, e = ETake r t /\ deq g w t g').
Proof. intros S. destruct S; auto; try (left; split; [reflexivity|destruct (fin x); reflexivity]). right. eauto. Qed.

Lemma take_inv h s w : run h s -> from w Anywhere (taken h ++ map snd (gq s)) = from w Anywhere (submitted h).
Proof. induction 1 as [|h s e s' Rn IH S]; [reflexivity|]. rewrite taken_snoc, submitted_snoc. destruct (run_prov _ _ Rn) as [P G].
  assert (F1 : forall t d, to_ t = d -> d <> Anywhere -> from w Anywhere [t] = []).
  { intros t d T N. apply from_none. intros u [<-|[]]. congruence. }
  destruct S; simpl.
  - destruct (lstep_g _ _ _ _ _ _ H) as [[-> E]|(t & w1 & -> & D)].
    + rewrite E, app_nil_r, IH. destruct e; try (rewrite app_nil_r; reflexivity). exfalso. eapply lstep_nosub; eassumption.
    + simpl. rewrite app_nil_r. rewrite <- IH. inv D. rewrite !map_app. simpl. repeat rewrite <- app_assoc. rewrite !(from_app _ _ (taken h)). f_equal. simpl.
      change (t :: map snd a ++ map snd b) with ([t] ++ map snd a ++ map snd b). change (t :: map snd b) with ([t] ++ map snd b). repeat rewrite from_app.
      assert (I : In (w1, t) (gq s)) by (rewrite <- H0; apply in_or_app; right; left; reflexivity). destruct (G _ _ I) as [-> T].
      destruct (who_dec (by_ t) w) as [E|E].
      * rewrite (from_none _ _ (map snd a)); [simpl; rewrite ?app_nil_r; reflexivity|]. intros u J B _. apply in_map_iff in J. destruct J as ((w2 & v) & K & J). simpl in K. subst v.
        assert (J' : In (w2, u) (gq s)) by (rewrite <- H0; apply in_or_app; left; assumption). destruct (G _ _ J') as [-> _]. apply (H1 u). rewrite E, <- B. assumption.
      * rewrite (from_none _ _ [t]); [reflexivity|]. intros u [<-|[]]. congruence.
  - rewrite app_nil_r, map_app, app_assoc, from_app, IH, <- from_app. reflexivity.
  - rewrite app_nil_r, map_app, app_assoc, from_app, IH, <- from_app. reflexivity.
  - rewrite app_nil_r, IH, from_app, (F1 t (OnLoop r)), app_nil_r; auto; discriminate.
  - rewrite app_nil_r, IH, from_app, (F1 t (OnLoop r)), app_nil_r; auto; discriminate.
  - rewrite app_nil_r, IH, from_app, (F1 t (CoTasks.Sched r)), app_nil_r; auto; discriminate.
  - rewrite app_nil_r, IH, from_app, (F1 t (CoTasks.Sched r)), app_nil_r; auto; discriminate.
  - rewrite !app_nil_r, IH. reflexivity.
Qed.

Theorem taken_in_order h s w : run h s -> begins (from w Anywhere (taken h)) (from w Anywhere (submitted h)).
Proof. intros R. rewrite <- (take_inv _ _ w R), from_app. eexists; reflexivity. Qed.

Lemma via_app d a b : via d (a ++ b) = via d a ++ via d b.
Proof. apply filter_app. Qed.
Lemma via_none d l : (forall t, In t l -> to_ t <> d) -> via d l = [].
Proof. intros H. unfold via. induction l as [|t l IH]; [reflexivity|]. simpl. destruct (dest_eqb (to_ t) d) eqn:E.
  - apply dest_eqb_eq in E. exfalso. apply (H t); simpl; auto.
  - apply IH. intros u I. apply H. right; assumption. Qed.

Definition newtr (r : nat) (e : ev) : list task := match e with ETake q t => if Nat.eqb q r then [t] else [] | _ => [] end.
Lemma taken_on_snoc r h e : taken_on r (h ++ [e]) = taken_on r h ++ newtr r e.
Proof. unfold taken_on. rewrite flat_map_app. simpl. rewrite app_nil_r. reflexivity. Qed.

Lemma got_lstep r g x e x' g' : prov r x -> provg g -> lstep r g x e x' g' ->
  via Anywhere (newst r e ++ got x') = via Anywhere (got x ++ newtr r e).
Proof. intros P G S. destruct S; simpl; rewrite ?app_nil_r; try reflexivity.
  - destruct p; reflexivity.
  - replace (newst r (if fin x then EDone r else ETau)) with (@nil task) by (destruct (fin x); reflexivity).
    replace (newtr r (if fin x then EDone r else ETau)) with (@nil task) by (destruct (fin x); reflexivity). rewrite app_nil_r. reflexivity.
  - rewrite got_switch, (got_cur_none _ H0). reflexivity.
  - rewrite got_switch, (got_cur_none _ H0). reflexivity.
  - rewrite got_set_co_s, (got_cos x c _ H H0). simpl. apply via_none. intros t I. apply ui_in in I. subst i.
    assert (I : In (IUser t) (batch x)) by (rewrite H1; left; reflexivity). apply (pv_batch _ _ P) in I. destruct I; congruence.
  - rewrite got_set_co_s, (got_cos x c _ H H0). simpl. apply via_none. intros t I. apply ui_in in I. subst i.
    apply deq_in in H4. destruct H4 as [I _]. apply (pv_rem _ _ P) in I. destruct I. congruence.
  - rewrite got_set_co_s, (got_cos x c _ H H0), Nat.eqb_refl. reflexivity.
  - rewrite (got_cos x c _ H H0). reflexivity.
  - rewrite got_set_co_s, (got_cos x c _ H H0), Nat.eqb_refl. reflexivity.
  - rewrite got_set_co_s, (got_cos x c _ H H0). reflexivity.
  - rewrite got_set_co_s, (got_cos x c _ H H0). reflexivity.
  - rewrite (got_cos x c _ H H0). reflexivity.
  - rewrite (got_cos x c _ H H0). reflexivity.
  - rewrite got_do_resume. reflexivity.
Qed.

Lemma newtr_other r q g x e x' g' : lstep q g x e x' g' -> r <> q -> newtr r e = [].
Proof. intros S N. destruct e; try reflexivity. simpl. pose proof (lstep_evloop _ _ _ _ _ _ _ S eq_refl). subst.
  destruct (Nat.eqb q r) eqn:E; [apply Nat.eqb_eq in E; congruence|reflexivity]. Qed.

Lemma got_inv h s r : run h s -> via Anywhere (started_on r h ++ got (rs s r)) = via Anywhere (taken_on r h).
Proof. induction 1 as [|h s e s' Rn IH S]; [reflexivity|]. rewrite started_on_snoc, taken_on_snoc. destruct (run_prov _ _ Rn) as [P G].
  destruct S; simpl; rewrite ?app_nil_r; auto.
  - destruct (Nat.eq_dec r r0) as [->|N].
    + rewrite upd_same, <- app_assoc, via_app, (got_lstep _ _ _ _ _ _ (P r0) G H), <- via_app, app_assoc, via_app, IH, <- via_app. reflexivity.
    + rewrite upd_other by assumption. rewrite (newst_other _ _ _ _ _ _ _ H N), (newtr_other _ _ _ _ _ _ _ H N), !app_nil_r. assumption.
  - rewrite <- IH. destruct (bg s); [reflexivity|]. destruct (Nat.eq_dec r 0) as [->|N]; [rewrite upd_same|rewrite upd_other by assumption]; reflexivity.
  - rewrite <- IH. destruct (Nat.eq_dec r r0) as [->|N]; [rewrite upd_same|rewrite upd_other by assumption]; reflexivity.
  - rewrite <- IH. destruct (Nat.eq_dec r r0) as [->|N]; [rewrite upd_same|rewrite upd_other by assumption]; reflexivity.
  - rewrite <- IH. destruct (Nat.eq_dec r r0) as [->|N]; [rewrite upd_same|rewrite upd_other by assumption]; reflexivity.
  - rewrite <- IH. destruct (Nat.eq_dec r r0) as [->|N]; [rewrite upd_same|rewrite upd_other by assumption]; reflexivity.
  - rewrite <- IH. destruct (Nat.eq_dec r r0) as [->|N]; [rewrite upd_same|rewrite upd_other by assumption]; reflexivity.
Qed.

Theorem starts_as_taken h s r : run h s -> begins (via Anywhere (started_on r h)) (via Anywhere (taken_on r h)).
Proof. intros R. rewrite <- (got_inv _ _ r R), via_app. eexists; reflexivity. Qed.
