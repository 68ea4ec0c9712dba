From Verif.Model Require Import Common CoTasks.
From Verif.Spec Require Import CoTaskSpec.
From Verif.Proofs Require Import Tac CoTasksProofs.

Inductive steps : sys -> list ev -> sys -> Prop :=
| steps_nil s : steps s [] s
| steps_cons s e s1 h s2 : step s e s1 -> steps s1 h s2 -> steps s (e :: h) s2.

Lemma run_steps h s : run h s -> forall h' s', steps s h' s' -> run (h ++ h') s'.
Proof. intros R h' s' S. revert h R. induction S; intros h0 R; [rewrite app_nil_r; assumption|].
  replace (h0 ++ e :: h) with ((h0 ++ [e]) ++ h) by (rewrite <- app_assoc; reflexivity). apply IHS. econstructor; eassumption. Qed.

Lemma exists_last_or {A} (l : list A) : l = [] \/ exists l' x, l = l' ++ [x].
Proof. destruct l; [auto|right]. destruct (@exists_last _ (a :: l)) as (l' & x & E); [discriminate|eauto]. Qed.

Lemma run_split h s : run h s -> forall a b, h = a ++ b -> exists s0, run a s0 /\ steps s0 b s.
Proof. induction 1 as [|h s e s' R IH S]; intros a b E.
  - destruct a; [|discriminate]. destruct b; [|discriminate]. exists sys0. split; constructor.
  - destruct (exists_last_or b) as [->|(b' & x & ->)].
    + rewrite app_nil_r in E. subst a. exists s'. split; [econstructor; eassumption|constructor].
    + rewrite app_assoc in E. apply app_inj_tail in E. destruct E as [E <-]. destruct (IH _ _ E) as (s0 & R0 & S0). exists s0. split; [assumption|].
      clear -S0 S. induction S0; [econstructor; [eassumption|constructor]|]. simpl. econstructor; eauto.
Qed.

Lemma run_split1 h s a e b : run h s -> h = a ++ e :: b -> exists s0 s1, run a s0 /\ step s0 e s1 /\ run (a ++ [e]) s1 /\ steps s1 b s.
Proof. intros R E. destruct (run_split _ _ R a (e :: b) E) as (s0 & R0 & S0). inversion S0 as [|? ? sx ? ? SA SB]; subst. exists s0, sx. repeat split; auto. econstructor; eassumption. Qed.

(** ** Where tasks come from. *)
Record prov (r : nat) (x : runner) : Prop := {
  pv_post : forall w t, In (w, PGo t) (posted x) -> w = by_ t /\ by_ t <> InLoop r /\ to_ t = OnLoop r;
  pv_nest : forall t, In t (nest x) -> by_ t = InLoop r /\ to_ t = OnLoop r;
  pv_phl : forall t, In t (phl (ph x)) -> by_ t = InLoop r /\ to_ t = OnLoop r;
  pv_rem : forall w t, In (w, IUser t) (remote x) -> w = by_ t /\ to_ t = CoTasks.Sched r;
  pv_sched : forall t, In (IUser t) (sched x) -> to_ t = OnLoop r \/ to_ t = CoTasks.Sched r;
  pv_batch : forall t, In (IUser t) (batch x) -> to_ t = OnLoop r \/ to_ t = CoTasks.Sched r;
  pv_got : forall t, In t (got x) -> to_ t = OnLoop r \/ to_ t = CoTasks.Sched r \/ to_ t = Anywhere
}.

Definition provg (g : list (who * task)) : Prop := forall w t, In (w, t) g -> w = by_ t /\ to_ t = Anywhere.

Lemma deq_in {A} q w (x : A) q' : deq q w x q' -> In (w, x) q /\ (forall e, In e q' -> In e q).
Proof. intros H. inv H. split; [apply in_or_app; right; left; reflexivity|]. intros e I. apply in_or_app. apply in_app_or in I. simpl. tauto. Qed.

Lemma prov_run0 r : prov r run0.
Proof. constructor; simpl; intros; contradiction. Qed.

Lemma ui_in i t : In t (ui i) -> i = IUser t.
Proof. destruct i; simpl; [intros [<-|[]]; reflexivity|contradiction]. Qed.

Lemma got_none x : cur x = None -> forall t, ~ In t (got x).
Proof. intros H t. rewrite (got_cur_none _ H). auto. Qed.

Lemma lstep_prov r g x e x' g' : wf x -> prov r x -> provg g -> lstep r g x e x' g' -> prov r x' /\ provg g'.
Proof. intros W P G S. destruct S; try (split; [|assumption]).
  - destruct P; constructor; simpl; auto; contradiction.
  - apply deq_in in H0. destruct H0 as [I J]. destruct P; destruct p; constructor; simpl; auto;
      try (intros w0 t0 K; apply (pv_post0 w0 t0); auto).
    intros t0 K. apply in_app_or in K. destruct K as [K|[K|[]]]; auto. inv K. left. apply (pv_post0 _ _ I).
  - destruct P; constructor; simpl; auto; contradiction.
  - destruct P; constructor; simpl; auto; contradiction.
  - destruct P; constructor; simpl; auto.
  - destruct P; constructor; simpl; auto; contradiction.
  - destruct P. rewrite H in *. simpl in *. constructor; simpl; auto.
    intros t0 K. apply in_app_or in K. destruct K as [K|[K|[]]]; auto. inv K. left. apply pv_phl0. auto.
  - destruct P; constructor; simpl; auto; contradiction.
  - destruct P; constructor; simpl; auto. unfold after_nested. destruct (fin x); [|destruct (running x)]; simpl; contradiction.
  - destruct P; constructor; simpl; auto. intros u. rewrite got_switch. simpl. contradiction.
  - destruct P; constructor; simpl; auto; contradiction.
  - destruct P; constructor; simpl; auto; contradiction.
  - destruct P; constructor; simpl; auto; contradiction.
  - destruct P; constructor; simpl; auto; contradiction.
  - destruct P; constructor; simpl; auto. unfold after_nested. destruct (fin x); [|destruct (running x)]; simpl; contradiction.
  - destruct P; constructor; simpl; auto; contradiction.
  - destruct P; constructor; simpl; auto. intros u. rewrite got_switch. simpl. contradiction.
  - destruct P. rewrite H1 in *. simpl in *. constructor; simpl; auto. intros u. rewrite got_set_co_s. intros K. apply ui_in in K. subst i. destruct (pv_batch0 u); auto.
  - apply deq_in in H4. destruct H4 as [I J]. destruct P. constructor; simpl; auto; try contradiction.
    intros u. rewrite got_set_co_s. intros K. apply ui_in in K. subst i. destruct (pv_rem0 _ _ I); auto.
  - apply deq_in in H4. destruct H4 as [I J]. destruct (G _ _ I) as [_ TA]. split.
    + destruct P. constructor; simpl; auto; try contradiction. intros u. rewrite got_set_co_s. simpl. intros [<-|[]]. auto.
    + intros w0 t0 K. apply G. auto.
  - destruct P. constructor; simpl; auto; contradiction.
  - destruct P. constructor; simpl; auto. intros u. rewrite got_set_co_s. simpl. contradiction.
  - destruct (do_resume_cases x c' id) as [->|(-> & _)]; destruct P; constructor; simpl; auto; intros u; rewrite got_set_co_s; simpl; contradiction.
  - destruct P. constructor; simpl; auto. intros u. rewrite got_set_co_s. simpl. contradiction.
  - destruct P. constructor; simpl; auto; contradiction.
  - destruct P. constructor; simpl; auto; try contradiction. intros u K. apply in_app_or in K. destruct K as [K|[K|[]]]; [auto|discriminate].
  - destruct (do_resume_cases x c id) as [->|(-> & _)]; [assumption|]. destruct P; constructor; simpl; auto.
Qed.

Lemma run_prov h s : run h s -> (forall r, prov r (rs s r)) /\ provg (gq s).
Proof. induction 1 as [|h s e s' Rn [P G] S]; [split; [intros; apply prov_run0|intros ? ? []]|].
  destruct S; simpl.
  - destruct (lstep_prov _ _ _ _ _ _ (run_wf _ _ Rn r) (P r) G H) as [A B]. split; [|assumption].
    intros q. destruct (Nat.eq_dec q r) as [->|N]; [rewrite upd_same; assumption|rewrite upd_other by assumption; apply P].
  - split; [assumption|]. intros w u I. apply in_app_or in I. destruct I as [I|[I|[]]]; [auto|]. inv I. auto.
  - split.
    + destruct (bg s); [assumption|]. intros q. destruct (Nat.eq_dec q 0) as [->|N]; [rewrite upd_same|rewrite upd_other by assumption; apply P].
      destruct (P 0). constructor; simpl; auto. intros w u I. apply in_app_or in I. destruct I as [I|[I|[]]]; [auto|]. inv I.
    + intros w u I. apply in_app_or in I. destruct I as [I|[I|[]]]; [auto|]. inv I. auto.
  - split; [|assumption]. intros q. destruct (Nat.eq_dec q r) as [->|N]; [rewrite upd_same|rewrite upd_other by assumption; apply P].
    destruct (P r). constructor; simpl; auto. intros u I. apply in_app_or in I. destruct I as [I|[<-|[]]]; auto.
  - split; [|assumption]. intros q. destruct (Nat.eq_dec q r) as [->|N]; [rewrite upd_same|rewrite upd_other by assumption; apply P].
    destruct (P r). constructor; simpl; auto. intros w u I. apply in_app_or in I. destruct I as [I|[I|[]]]; [auto|inv I; auto].
  - split; [|assumption]. intros q. destruct (Nat.eq_dec q r) as [->|N]; [rewrite upd_same|rewrite upd_other by assumption; apply P].
    destruct (P r). constructor; simpl; auto. intros u I. apply in_app_or in I. destruct I as [I|[I|[]]]; [auto|inv I; auto].
  - split; [|assumption]. intros q. destruct (Nat.eq_dec q r) as [->|N]; [rewrite upd_same|rewrite upd_other by assumption; apply P].
    destruct (P r). constructor; simpl; auto. intros w u I. apply in_app_or in I. destruct I as [I|[I|[]]]; [auto|inv I; auto].
  - split; [|assumption]. intros q. destruct (Nat.eq_dec q r) as [->|N]; [rewrite upd_same|rewrite upd_other by assumption; apply P].
    destruct (P r). constructor; simpl; auto. intros w' u I. apply in_app_or in I. destruct I as [I|[I|[]]]; [auto|inv I].
Qed.

(** ** A task for a loop is started by that loop. *)
Definition stays (r : nat) (t : task) : Prop := match to_ t with Anywhere => True | OnLoop q | CoTasks.Sched q => q = r end.

Lemma in_postT l t : In t (postT l) -> exists w, In (w, PGo t) l.
Proof. unfold postT. rewrite in_flat_map. intros ((w & p) & I & J). destruct p; simpl in J; [|contradiction]. destruct J as [<-|[]]. eauto. Qed.
Lemma in_remT l t : In t (remT l) -> exists w, In (w, IUser t) l.
Proof. unfold remT. rewrite in_flat_map. intros ((w & p) & I & J). destruct p; simpl in J; [|contradiction]. destruct J as [<-|[]]. eauto. Qed.
Lemma in_itT l t : In t (itT l) -> In (IUser t) l.
Proof. unfold itT. rewrite in_flat_map. intros (p & I & J). destruct p; simpl in J; [|contradiction]. destruct J as [<-|[]]. assumption. Qed.

Lemma prov_held r x t : prov r x -> In t (held x) -> stays r t.
Proof. intros P I. unfold stays, held in *. repeat rewrite in_app_iff in I. destruct I as [I|[I|[I|[I|[I|[I|I]]]]]].
  - apply in_postT in I. destruct I as [w I]. apply (pv_post _ _ P) in I. destruct I as (_ & _ & ->). reflexivity.
  - apply (pv_nest _ _ P) in I. destruct I as [_ ->]. reflexivity.
  - apply (pv_phl _ _ P) in I. destruct I as [_ ->]. reflexivity.
  - apply in_itT in I. apply (pv_sched _ _ P) in I. destruct I as [->| ->]; reflexivity.
  - apply in_remT in I. destruct I as [w I]. apply (pv_rem _ _ P) in I. destruct I as [_ ->]. reflexivity.
  - apply in_itT in I. apply (pv_batch _ _ P) in I. destruct I as [->| ->]; reflexivity.
  - apply (pv_got _ _ P) in I. destruct I as [->|[->| ->]]; auto. Qed.

Lemma start_got r g x q t x' g' : lstep r g x (EStart q t) x' g' -> q = r /\ In t (got x).
Proof. intros S. inversion S; subst.
  - destruct (fin x); discriminate.
  - split; [reflexivity|]. match goal with A : cur _ = Some _, B : cos _ _ = CoGot _ |- _ => rewrite (got_cos _ _ _ A B) end. left. reflexivity. Qed.

Lemma affinity h s r t : run h s -> In (EStart r t) h -> stays r t.
Proof. induction 1 as [|h s e s' Rn IH S]; [contradiction|]. intros I. apply in_app_or in I. destruct I as [I|[I|[]]]; [auto|]. subst e.
  inversion S; subst. apply start_got in H. destruct H as [<- K]. apply (prov_held r (rs s r)); [apply (run_prov _ _ Rn)|].
  unfold held. repeat rewrite in_app_iff. tauto. Qed.

(** ** A task that has reached a loop's runner starts in the next round. *)
Definition Q (t : task) (x : runner) : Prop :=
  match ph x with
  | Pump | Drain | Final | Ready1 | FromRemote => In (IUser t) (sched x)
  | Nest l => In t l \/ In (IUser t) (sched x)
  | FromSched => In (IUser t) (batch x) \/ In t (got x)
  | _ => False
  end.

Lemma Q_do_resume t x c id : Q t x -> Q t (do_resume x c id).
Proof. intros H. destruct (do_resume_cases x c id) as [->|(-> & _)]; assumption. Qed.

Lemma Q_lstep r g x e x' g' t : wf x -> Q t x -> lstep r g x e x' g' -> (Q t x' \/ e = EStart r t) /\ ~ round_end r e.
Proof. intros W HQ S. unfold round_end. assert (N : forall l, In (IUser t) l -> l <> []) by (intros l I ->; contradiction).
  destruct S; unfold Q in HQ; (split; [|intros [E|E]; try discriminate; try (rewrite H in HQ; contradiction)]).
  - left. unfold Q. simpl. rewrite H in HQ. assumption.
  - left. unfold Q. destruct p; simpl; destruct H as [E|E]; rewrite E in *; simpl; try (apply in_or_app; left; assumption); assumption.
  - left. unfold Q. simpl. rewrite H in HQ. assumption.
  - left. unfold Q. simpl. rewrite H in HQ. assumption.
  - left. unfold Q. simpl. rewrite H in *. assumption.
  - left. unfold Q. simpl. rewrite H in HQ. auto.
  - left. unfold Q. simpl. rewrite H in HQ. rewrite in_app_iff. simpl. destruct HQ as [[->|?]|?]; auto.
  - left. unfold Q. simpl. rewrite H in HQ. destruct HQ as [[]|?]; assumption.
  - exfalso. rewrite H in HQ. destruct HQ as [[]|K]. apply N in K. apply (wf_sched _ W) in K. congruence.
  - exfalso. destruct (fin x); discriminate.
  - rewrite H in HQ. destruct HQ as [[]|K]. apply N in K. apply (wf_sched _ W) in K. congruence.
  - left. unfold Q. destruct H as [E|E]; simpl; rewrite E in *; assumption.
  - left. unfold Q. simpl. rewrite H in HQ. assumption.
  - left. unfold Q. simpl. rewrite H in HQ. auto.
  - rewrite H in HQ. destruct (remain0 _ H1) as [B _]. rewrite B, (got_cur_none _ H0) in HQ. destruct HQ as [[]|[]].
  - rewrite H in HQ. contradiction.
  - rewrite H in HQ. contradiction.
  - rewrite H in HQ. contradiction.
  - left. unfold Q. simpl. destruct H as [E|[E|E]]; rewrite E in *; simpl; auto. destruct HQ as [?|K]; [auto|]. rewrite (got_cur_none _ H0) in K. contradiction.
  - left. unfold Q. simpl. assert (E : ph x = FromSched) by (apply (wf_batch _ W); congruence). rewrite E in *. rewrite got_set_co_s.
    rewrite H1 in HQ. rewrite (got_cos x c _ H H0) in HQ. destruct HQ as [[->|?]|[]]; simpl; auto.
  - left. unfold Q. simpl. destruct (ph x); auto. rewrite H1, (got_cos x c _ H H0) in HQ. destruct HQ as [[]|[]].
  - left. unfold Q. simpl. destruct (ph x); auto. rewrite H1, (got_cos x c _ H H0) in HQ. destruct HQ as [[]|[]].
  - left. unfold Q. simpl. destruct (ph x); auto. rewrite H1, (got_cos x c _ H H0) in HQ. destruct HQ as [[]|[]].
  - unfold Q. simpl. rewrite got_set_co_s. destruct (ph x); auto. rewrite (got_cos x c _ H H0) in HQ. destruct HQ as [?|[->|[]]]; auto.
  - left. assert (K : Q t (do_resume x c' id)) by (apply Q_do_resume; assumption). unfold Q in *. simpl. rewrite got_set_co_s.
    destruct (do_resume_cases x c' id) as [E|(E & _)]; rewrite E in *; simpl in *; destruct (ph x); auto; rewrite (got_cos x c _ H H0) in HQ; destruct HQ as [?|[]]; auto.
  - left. unfold Q. simpl. rewrite got_set_co_s. destruct (ph x); auto. rewrite (got_cos x c _ H H0) in HQ. destruct HQ as [?|[]]; auto.
  - left. unfold Q. simpl. destruct (ph x); auto. rewrite (got_cos x c _ H H0) in HQ. destruct HQ as [?|[]]; auto.
  - left. unfold Q. simpl. destruct (ph x); auto; try (apply in_or_app; auto); try (rewrite in_app_iff; tauto). rewrite (got_cos x c _ H H0) in HQ. destruct HQ as [?|[]]; auto.
  - left. apply Q_do_resume. assumption.
Qed.

Lemma Q_step s e s' r t : (forall q, wf (rs s q)) -> Q t (rs s r) -> step s e s' -> (Q t (rs s' r) \/ e = EStart r t) /\ ~ round_end r e.
Proof. intros W HQ S. destruct S; simpl; try (split; [left|intros [?|?]; discriminate]).
  - destruct (Nat.eq_dec r r0) as [->|N].
    + rewrite upd_same. eapply Q_lstep; eauto.
    + rewrite upd_other by assumption. split; [auto|]. intros [E|E]; subst e; inversion H; subst; try congruence; destruct (fin (rs s r0)); congruence.
  - assumption.
  - destruct (bg s); [assumption|]. destruct (Nat.eq_dec r 0) as [->|N]; [rewrite upd_same|rewrite upd_other by assumption; assumption]. exact HQ.
  - destruct (Nat.eq_dec r r0) as [->|N]; [rewrite upd_same|rewrite upd_other by assumption; assumption]. exact HQ.
  - destruct (Nat.eq_dec r r0) as [->|N]; [rewrite upd_same|rewrite upd_other by assumption; assumption]. exact HQ.
  - destruct (Nat.eq_dec r r0) as [->|N]; [rewrite upd_same|rewrite upd_other by assumption; assumption].
    unfold Q in *. simpl. destruct (ph (rs s r0)); auto; rewrite in_app_iff; tauto.
  - destruct (Nat.eq_dec r r0) as [->|N]; [rewrite upd_same|rewrite upd_other by assumption; assumption]. exact HQ.
  - destruct (Nat.eq_dec r r0) as [->|N]; [rewrite upd_same|rewrite upd_other by assumption; assumption]. exact HQ.
Qed.

Lemma Q_steps s h s' r t e : steps s h s' -> (forall q, wf (rs s q)) -> Q t (rs s r) -> In e h -> round_end r e -> In (EStart r t) h.
Proof. induction 1 as [|s e0 s1 h s2 S SS IH]; intros W HQ I E; [contradiction|].
  destruct (Q_step _ _ _ r t W HQ S) as [[K| ->] N]; [|left; reflexivity].
  destruct I as [->|I]; [contradiction|]. right. apply IH; auto. eapply step_wf; eauto. Qed.

(** A task that was submitted and has not started is with its loop. *)
Lemma waits_held h s t r : run h s -> In (ESubmit t) h -> to_ t = OnLoop r \/ to_ t = CoTasks.Sched r -> ~ In (EStart r t) h -> In t (held (rs s r)).
Proof. intros R I T N. apply (start_or_waits h s t R) in I. destruct (run_prov _ _ R) as [P G]. destruct I as [I|[I|[q I]]].
  - apply in_startT in I. destruct I as [q I]. pose proof (affinity _ _ _ _ R I) as A. unfold stays in A. destruct T as [T|T]; rewrite T in A; subst q; contradiction.
  - apply in_map_iff in I. destruct I as ((w & u) & E & I). simpl in E. subst u. apply G in I. destruct I as [_ I]. destruct T; congruence.
  - pose proof (prov_held _ _ _ (P q) I) as A. unfold stays in A. destruct T as [T|T]; rewrite T in A; subst q; assumption. Qed.

Lemma start_dec h r t : In (EStart r t) h \/ ~ In (EStart r t) h.
Proof. induction h as [|e h IH]; [auto|]. destruct IH as [?|N]; [left; right; assumption|].
  destruct e; try (right; intros [?|?]; [discriminate|contradiction]).
  destruct (Nat.eq_dec r0 r) as [->|M]; [|right; intros [?|?]; [congruence|contradiction]].
  destruct (task_dec t0 t) as [->|M]; [left; left; reflexivity|right; intros [?|?]; [congruence|contradiction]]. Qed.

Lemma in_it_l l t : In (IUser t) l -> In t (itT l).
Proof. intros I. unfold itT. apply in_flat_map. exists (IUser t). split; [assumption|left; reflexivity]. Qed.

(** Everything posted before RunScheduledTask came to its end is with the runner. *)
Lemma drained_Q h s s' r t : run h s -> step s (EDrained r) s' -> In (ESubmit t) h -> to_ t = OnLoop r -> by_ t <> InLoop r ->
  ~ In (EStart r t) h -> Q t (rs s' r).
Proof. intros R S I T B N. pose proof (waits_held _ _ _ r R I (or_introl T) N) as K. destruct (run_prov _ _ R) as [P _]. specialize (P r).
  pose proof (run_wf _ _ R r) as W.
  assert (E : posted (rs s r) = [] /\ (ph (rs s r) = Drain \/ ph (rs s r) = Final) /\ ph (rs s' r) = Pump /\ sched (rs s' r) = sched (rs s r)).
  { inversion S; subst. inversion H; subst; simpl; try rewrite upd_same; simpl; auto. destruct (fin (rs s r0)); discriminate. }
  destruct E as (E1 & E2 & E3 & E4). unfold Q. rewrite E3, E4. unfold held in K. rewrite E1 in K. repeat rewrite in_app_iff in K.
  assert (BE : batch (rs s r) = []) by (apply nb; [assumption|destruct E2; congruence]).
  assert (CE : cur (rs s r) = None) by (apply idle_cur; [assumption|destruct E2 as [E2|E2]; rewrite E2; auto]).
  rewrite BE, (got_cur_none _ CE) in K. destruct K as [[]|[K|[K|[K|[K|[[]|[]]]]]]].
  - apply (pv_nest _ _ P) in K. tauto.
  - apply (pv_phl _ _ P) in K. tauto.
  - apply in_itT. assumption.
  - apply in_remT in K. destruct K as [w K]. apply (pv_rem _ _ P) in K. destruct K as [_ K]. congruence. Qed.

Lemma iter_Q h s s' r t : run h s -> step s (EIter r) s' -> In (ESubmit t) h -> by_ t = InLoop r -> to_ t = OnLoop r \/ to_ t = CoTasks.Sched r ->
  ~ In (EStart r t) h -> Q t (rs s' r) \/ (to_ t = CoTasks.Sched r /\ In t (remT (remote (rs s r)))).
Proof. intros R S I B T N. pose proof (waits_held _ _ _ r R I T N) as K. destruct (run_prov _ _ R) as [P _]. specialize (P r).
  pose proof (run_wf _ _ R r) as W.
  assert (E : ph (rs s r) = Pump /\ ph (rs s' r) = Nest (nest (rs s r)) /\ sched (rs s' r) = sched (rs s r)).
  { inversion S; subst. inversion H; subst; simpl; try rewrite upd_same; simpl; auto. destruct (fin (rs s r0)); discriminate. }
  destruct E as (E1 & E2 & E3). unfold Q. rewrite E2, E3. unfold held in K. rewrite E1 in K. repeat rewrite in_app_iff in K.
  assert (BE : batch (rs s r) = []) by (apply nb; [assumption|congruence]).
  assert (CE : cur (rs s r) = None) by (apply idle_cur; [assumption|rewrite E1; auto]).
  rewrite BE, (got_cur_none _ CE) in K. destruct K as [K|[K|[[]|[K|[K|[[]|[]]]]]]].
  - apply in_postT in K. destruct K as [w K]. apply (pv_post _ _ P) in K. tauto.
  - auto.
  - left. right. apply in_itT. assumption.
  - right. split; [|assumption]. apply in_remT in K. destruct K as [w K]. apply (pv_rem _ _ P) in K. tauto. Qed.

Theorem posted_starts h1 t h2 r h3 e h4 s : run (h1 ++ ESubmit t :: h2 ++ EDrained r :: h3 ++ e :: h4) s ->
  to_ t = OnLoop r -> by_ t <> InLoop r -> round_end r e -> In (EStart r t) (h1 ++ ESubmit t :: h2 ++ EDrained r :: h3 ++ [e]).
Proof. intros R T B E.
  destruct (run_split1 _ _ (h1 ++ ESubmit t :: h2 ++ EDrained r :: h3) e h4 R) as (s0 & s1 & _ & _ & R1 & _); [rewrite <- app_assoc; simpl; rewrite <- app_assoc; reflexivity|].
  clear R. destruct (run_split1 _ _ (h1 ++ ESubmit t :: h2) (EDrained r) (h3 ++ [e]) R1) as (a & b & Ra & Sa & Rb & Sb); [rewrite <- !app_assoc; simpl; rewrite <- app_assoc; reflexivity|].
  destruct (start_dec (h1 ++ ESubmit t :: h2) r t) as [I|N].
  - apply in_app_or in I. apply in_or_app. destruct I as [I|[I|I]]; [auto|discriminate|]. right. right. apply in_or_app. auto.
  - assert (HQ : Q t (rs b r)) by (apply (drained_Q _ _ _ r t Ra Sa); auto; apply in_or_app; right; left; reflexivity).
    pose proof (Q_steps _ _ _ r t e Sb (run_wf _ _ Rb) HQ) as K. apply in_or_app. right. right. apply in_or_app. right. right. apply K; [|assumption]. apply in_or_app. right. left. reflexivity.
Qed.

Theorem nested_starts h1 t h2 r h3 e h4 s : run (h1 ++ ESubmit t :: h2 ++ EIter r :: h3 ++ e :: h4) s ->
  to_ t = OnLoop r -> by_ t = InLoop r -> round_end r e -> In (EStart r t) (h1 ++ ESubmit t :: h2 ++ EIter r :: h3 ++ [e]).
Proof. intros R T B E.
  destruct (run_split1 _ _ (h1 ++ ESubmit t :: h2 ++ EIter r :: h3) e h4 R) as (s0 & s1 & _ & _ & R1 & _); [rewrite <- app_assoc; simpl; rewrite <- app_assoc; reflexivity|].
  clear R. destruct (run_split1 _ _ (h1 ++ ESubmit t :: h2) (EIter r) (h3 ++ [e]) R1) as (a & b & Ra & Sa & Rb & Sb); [rewrite <- !app_assoc; simpl; rewrite <- app_assoc; reflexivity|].
  destruct (start_dec (h1 ++ ESubmit t :: h2) r t) as [I|N].
  - apply in_app_or in I. apply in_or_app. destruct I as [I|[I|I]]; [auto|discriminate|]. right. right. apply in_or_app. auto.
  - assert (HQ : Q t (rs b r)).
    { destruct (iter_Q _ _ _ r t Ra Sa) as [?|[? _]]; auto; [apply in_or_app; right; left; reflexivity|congruence]. }
    pose proof (Q_steps _ _ _ r t e Sb (run_wf _ _ Rb) HQ) as K. apply in_or_app. right. right. apply in_or_app. right. right. apply K; [|assumption]. apply in_or_app. right. left. reflexivity.
Qed.

(** ** The end of a loop. *)
Definition P0 (t : task) (x : runner) : Prop :=
  (In t (postT (posted x)) /\ fin x = false /\ ph x <> Done) \/ Q t x.

Lemma in_post_l l w t : In (w, PGo t) l -> In t (postT l).
Proof. intros I. unfold postT. apply in_flat_map. exists (w, PGo t). split; [assumption|left; reflexivity]. Qed.

Lemma deq_postT q w p q' t : deq q w p q' -> In t (postT q) -> p = PGo t \/ In t (postT q').
Proof. intros D I. apply in_postT in I. destruct I as [w' I]. inv D. apply in_app_or in I. destruct I as [I|[I|I]].
  - right. rewrite postT_app, in_app_iff. left. eapply in_post_l; eassumption.
  - inv I. auto.
  - right. rewrite postT_app, in_app_iff. right. eapply in_post_l; eassumption. Qed.

Lemma run_posted_posted x p : posted (run_posted x p) = posted x.
Proof. destruct p; reflexivity. Qed.
Lemma run_posted_fin x p : fin (run_posted x p) = fin x.
Proof. destruct p; reflexivity. Qed.
Lemma run_posted_ph x p : ph (run_posted x p) = ph x.
Proof. destruct p; reflexivity. Qed.

Lemma P0_lstep r g x e x' g' t : wf x -> P0 t x -> lstep r g x e x' g' -> (P0 t x' \/ e = EStart r t) /\ e <> EDone r.
Proof. intros W [(I & F & D)|HQ] S.
  2:{ destruct (Q_lstep _ _ _ _ _ _ _ W HQ S) as [A B]. split; [destruct A; [left; right; assumption|auto]|intros ->; apply B; right; reflexivity]. }
  assert (KK : forall y, posted y = posted x -> fin y = fin x -> ph y <> Done -> P0 t y) by (intros y A B C; left; rewrite A, B; auto).
  destruct S; (split; [|try discriminate; try (destruct (fin x); discriminate)]); try (left; apply KK; simpl; auto; discriminate).
  - left. destruct (deq_postT _ _ _ _ _ H0 I) as [->|J].
    + right. unfold Q. simpl. destruct H as [E|E]; rewrite E; apply in_or_app; right; left; reflexivity.
    + left. rewrite run_posted_posted, run_posted_fin, run_posted_ph. simpl. auto.
  - rewrite H0 in I. contradiction.
  - left. apply KK; auto. simpl. unfold after_nested. rewrite F. destruct (running x); discriminate.
  - left. apply KK; auto. simpl. unfold after_nested. rewrite F. destruct (running x); discriminate.
  - congruence.
  - left. destruct (do_resume_cases x c' id) as [E|(E & _)]; rewrite E; apply KK; auto.
  - left. destruct (do_resume_cases x c id) as [E|(E & _)]; rewrite E; apply KK; auto.
Qed.

Lemma P0_step s e s' r t : (forall q, wf (rs s q)) -> P0 t (rs s r) -> step s e s' -> (P0 t (rs s' r) \/ e = EStart r t) /\ e <> EDone r.
Proof. intros W HP S. destruct HP as [(I & F & D)|HQ].
  2:{ destruct (Q_step _ _ _ r t W HQ S) as [A B]. split; [destruct A; [left; right; assumption|auto]|intros ->; apply B; right; reflexivity]. }
  destruct S; simpl; try (split; [left; left|discriminate]).
  - destruct (Nat.eq_dec r r0) as [->|N].
    + rewrite upd_same. eapply P0_lstep; eauto. left. auto.
    + rewrite upd_other by assumption. split; [left; left; auto|]. intros E; subst e; inversion H; subst; try congruence; destruct (fin (rs s r0)); congruence.
  - auto.
  - destruct (bg s); [auto|]. destruct (Nat.eq_dec r 0) as [->|N]; [rewrite upd_same|rewrite upd_other by assumption; auto]. simpl. rewrite postT_app, in_app_iff. auto.
  - destruct (Nat.eq_dec r r0) as [->|N]; [rewrite upd_same|rewrite upd_other by assumption; auto]. simpl. auto.
  - destruct (Nat.eq_dec r r0) as [->|N]; [rewrite upd_same|rewrite upd_other by assumption; auto]. simpl. rewrite postT_app, in_app_iff. auto.
  - destruct (Nat.eq_dec r r0) as [->|N]; [rewrite upd_same|rewrite upd_other by assumption; auto]. simpl. auto.
  - destruct (Nat.eq_dec r r0) as [->|N]; [rewrite upd_same|rewrite upd_other by assumption; auto]. simpl. auto.
  - destruct (Nat.eq_dec r r0) as [->|N]; [rewrite upd_same|rewrite upd_other by assumption; auto]. simpl. auto.
Qed.

Lemma P0_steps s h s' r t : steps s h s' -> (forall q, wf (rs s q)) -> P0 t (rs s r) -> In (EDone r) h -> In (EStart r t) h.
Proof. induction 1 as [|s e0 s1 h s2 S SS IH]; intros W HQ I; [contradiction|].
  destruct (P0_step _ _ _ r t W HQ S) as [[K| ->] N]; [|left; reflexivity].
  destruct I as [->|I]; [congruence|]. right. apply IH; auto. eapply step_wf; eauto. Qed.

(** At the moment a loop is told to quit, what was posted to it is still posted or with its runner, unless it started. *)
Lemma quit_P0 h s s' r t : run h s -> step s (EQuit r) s' -> In (ESubmit t) h -> to_ t = OnLoop r -> by_ t <> InLoop r ->
  ~ In (EStart r t) h -> P0 t (rs s' r).
Proof. intros R S I T B N. pose proof (waits_held _ _ _ r R I (or_introl T) N) as K. destruct (run_prov _ _ R) as [P _]. specialize (P r).
  pose proof (run_wf _ _ R r) as W.
  assert (E : ph (rs s r) = Pump /\ running (rs s r) = true /\ rs s' r = set_quit (rs s r)).
  { inversion S; subst. inversion H; subst; simpl; try rewrite upd_same; simpl; auto. destruct (fin (rs s r0)); discriminate. }
  destruct E as (E1 & E2 & E3). rewrite E3. destruct (wf_rn _ W E2) as (F & _ & _). unfold P0, Q. simpl. rewrite E1, F.
  unfold held in K. rewrite E1 in K. repeat rewrite in_app_iff in K.
  assert (BE : batch (rs s r) = []) by (apply nb; [assumption|congruence]).
  assert (CE : cur (rs s r) = None) by (apply idle_cur; [assumption|rewrite E1; auto]).
  rewrite BE, (got_cur_none _ CE) in K. destruct K as [K|[K|[[]|[K|[K|[[]|[]]]]]]].
  - left. repeat split; auto. discriminate.
  - apply (pv_nest _ _ P) in K. tauto.
  - right. apply in_itT. assumption.
  - apply in_remT in K. destruct K as [w K]. apply (pv_rem _ _ P) in K. destruct K as [_ K]. congruence. Qed.

Theorem quit_starts h1 t h2 r h3 h4 s : run (h1 ++ ESubmit t :: h2 ++ EQuit r :: h3 ++ EDone r :: h4) s ->
  to_ t = OnLoop r -> by_ t <> InLoop r -> In (EStart r t) (h1 ++ ESubmit t :: h2 ++ EQuit r :: h3 ++ [EDone r]).
Proof. intros R T B.
  destruct (run_split1 _ _ (h1 ++ ESubmit t :: h2 ++ EQuit r :: h3) (EDone r) h4 R) as (s0 & s1 & _ & _ & R1 & _); [rewrite <- app_assoc; simpl; rewrite <- app_assoc; reflexivity|].
  clear R. destruct (run_split1 _ _ (h1 ++ ESubmit t :: h2) (EQuit r) (h3 ++ [EDone r]) R1) as (a & b & Ra & Sa & Rb & Sb); [rewrite <- !app_assoc; simpl; rewrite <- app_assoc; reflexivity|].
  destruct (start_dec (h1 ++ ESubmit t :: h2) r t) as [I|N].
  - apply in_app_or in I. apply in_or_app. destruct I as [I|[I|I]]; [auto|discriminate|]. right. right. apply in_or_app. auto.
  - assert (HQ : P0 t (rs b r)) by (apply (quit_P0 _ _ _ r t Ra Sa); auto; apply in_or_app; right; left; reflexivity).
    pose proof (P0_steps _ _ _ r t Sb (run_wf _ _ Rb) HQ) as K. apply in_or_app. right. right. apply in_or_app. right. right. apply K. apply in_or_app. right. left. reflexivity.
Qed.

(** ** Sched(): control comes back in the next round. *)
Definition sus (c id : nat) (x : runner) : Prop := (exists t, cos x c = CoSusp t) /\ rid x c = id.
Definition gotR (x : runner) (c id : nat) : Prop := exists c0, cur x = Some c0 /\ cos x c0 = CoGot (IResume c id).
Definition WA (c id : nat) (x : runner) : Prop :=
  sus c id x /\ (In c (ready x) \/ In (IResume c id) (sched x) \/ In (IResume c id) (batch x) \/ gotR x c id).
Definition WB (c id : nat) (x : runner) : Prop :=
  sus c id x /\
  match ph x with
  | Ready1 | FromRemote => In c (ready x) \/ In (IResume c id) (sched x)
  | FromSched => In c (ready x) \/ In (IResume c id) (batch x) \/ gotR x c id
  | FromGlobal | Ready2 => In c (ready x)
  | _ => False
  end.

Lemma sus_lstep r g x e x' g' c id : sus c id x -> lstep r g x e x' g' -> sus c id x' \/ e = EWake r c.
Proof. intros [[t A] B] S. unfold sus.
  assert (U : forall c0 y, (forall u, cos x c0 <> CoSusp u) -> exists u, upd (cos x) c0 y c = CoSusp u).
  { intros c0 y N. destruct (Nat.eq_dec c c0) as [->|M]; [exfalso; eapply N; eassumption|rewrite upd_other by assumption; eauto]. }
  destruct S; simpl; try (left; split; [solve [eauto]|assumption]);
  try (left; split; [apply U; congruence|assumption]).
  - destruct p; simpl; left; split; eauto.
  - destruct (Nat.eq_dec c c0) as [->|M]; [right; reflexivity|]. left. rewrite !upd_other by assumption. eauto.
  - assert (M : c <> c0) by congruence. left. rewrite !upd_other by assumption. eauto.
  - left. destruct (do_resume_cases x c' id0) as [E|(E & _)]; rewrite E; simpl; (split; [apply U; congruence|assumption]).
  - left. destruct (do_resume_cases x c0 id0) as [E|(E & _)]; rewrite E; simpl; eauto.
Qed.

Lemma sus_resume x c id : sus c id x -> In c (ready (do_resume x c id)).
Proof. intros [[t A] B]. unfold do_resume. rewrite A, B, Nat.eqb_refl. simpl. destruct (existsb (Nat.eqb c) (ready x)) eqn:E; simpl.
  - apply existsb_exists in E. destruct E as (d & I & J). apply Nat.eqb_eq in J. subst d. assumption.
  - apply in_or_app. right. left. reflexivity. Qed.
Lemma ready_mono x c0 id0 c : In c (ready x) -> In c (ready (do_resume x c0 id0)).
Proof. intros I. destruct (do_resume_cases x c0 id0) as [->|(-> & _)]; [assumption|]. apply in_or_app. auto. Qed.
Lemma dr_sched x c id : sched (do_resume x c id) = sched x.
Proof. destruct (do_resume_cases x c id) as [->|(-> & _)]; reflexivity. Qed.
Lemma dr_batch x c id : batch (do_resume x c id) = batch x.
Proof. destruct (do_resume_cases x c id) as [->|(-> & _)]; reflexivity. Qed.
Lemma dr_ph x c id : ph (do_resume x c id) = ph x.
Proof. destruct (do_resume_cases x c id) as [->|(-> & _)]; reflexivity. Qed.
Lemma dr_cur x c id : cur (do_resume x c id) = cur x.
Proof. destruct (do_resume_cases x c id) as [->|(-> & _)]; reflexivity. Qed.
Lemma dr_cos x c id : cos (do_resume x c id) = cos x.
Proof. destruct (do_resume_cases x c id) as [->|(-> & _)]; reflexivity. Qed.

Lemma gotR_no x c id k y : cur x = Some k -> cos x k = y -> (forall i, y <> CoGot i) -> ~ gotR x c id.
Proof. intros A B C (d & D & E). apply (C (IResume c id)). congruence. Qed.
Lemma gotR_none x c id : cur x = None -> ~ gotR x c id.
Proof. intros A (d & D & E). congruence. Qed.
Lemma gotR_dr x c id c0 id0 : gotR x c id -> gotR (do_resume x c0 id0) c id.
Proof. intros (d & D & E). exists d. rewrite dr_cur, dr_cos. auto. Qed.

Lemma WA_lstep r g x e x' g' c id : wf x -> WA c id x -> lstep r g x e x' g' -> WA c id x' \/ e = EWake r c.
Proof. intros W [A B] S. destruct (sus_lstep _ _ _ _ _ _ c id A S) as [A'|A']; [|auto].
  destruct (match e with EWake q d => Nat.eqb q r && Nat.eqb d c | _ => false end) eqn:EW.
  { destruct e; try discriminate. apply andb_true_iff in EW. destruct EW as [E1 E2]. apply Nat.eqb_eq in E1. apply Nat.eqb_eq in E2. subst. auto. }
  left. split; [assumption|]. destruct S; simpl in *; auto.
  - destruct p; simpl; auto. rewrite in_app_iff. destruct B as [?|[?|[?|?]]]; auto.
  - rewrite in_app_iff. destruct B as [?|[?|[?|?]]]; auto.
  - assert (M : c <> c0) by (intros ->; rewrite !Nat.eqb_refl in EW; discriminate).
    rewrite H1 in B. destruct B as [[?|?]|[?|[?|G]]]; auto; [congruence|]. exfalso. eapply gotR_none; eassumption.
  - rewrite (nb x W) in B by congruence. destruct B as [?|[?|[[]|G]]]; auto; exfalso; eapply gotR_none; eassumption.
  - destruct (remain0 _ H1) as [E _]. rewrite E in B. destruct B as [?|[?|[[]|G]]]; auto; exfalso; eapply gotR_none; eassumption.
  - destruct (remain0 _ H1) as [E _]. rewrite E in B. destruct B as [?|[?|[[]|G]]]; auto; exfalso; eapply gotR_none; eassumption.
  - destruct B as [?|[?|[?|G]]]; auto; exfalso; eapply gotR_none; eassumption.
  - rewrite H1 in B. destruct B as [?|[?|[[->|?]|G]]]; auto.
    + right. right. right. exists c0. simpl. rewrite upd_same. auto.
    + exfalso. eapply gotR_no; try eassumption. congruence.
  - rewrite H1 in B. destruct B as [?|[?|[[]|G]]]; auto; exfalso; eapply gotR_no; try eassumption; congruence.
  - rewrite H1 in B. destruct B as [?|[?|[[]|G]]]; auto; exfalso; eapply gotR_no; try eassumption; congruence.
  - rewrite H1 in B. destruct B as [?|[?|[[]|G]]]; auto; exfalso; eapply gotR_no; try eassumption; congruence.
  - destruct B as [?|[?|[?|(d & D & E)]]]; auto; exfalso; congruence.
  - rewrite dr_sched, dr_batch. destruct B as [?|[?|[?|(d & D & E)]]]; auto.
    + left. apply ready_mono. assumption.
    + left. assert (d = c0) by congruence. subst d. rewrite E in H0. inv H0. apply sus_resume. assumption.
  - destruct B as [?|[?|[?|(d & D & E)]]]; auto; exfalso; congruence.
  - destruct B as [?|[?|[?|(d & D & E)]]]; auto; exfalso; congruence.
  - rewrite in_app_iff. destruct B as [?|[?|[?|(d & D & E)]]]; auto; exfalso; congruence.
  - rewrite dr_sched, dr_batch. destruct B as [?|[?|[?|?]]]; auto.
    + left. apply ready_mono. assumption.
    + right. right. right. apply gotR_dr. assumption.
Qed.

Lemma WB_lstep r g x e x' g' c id : wf x -> WB c id x -> lstep r g x e x' g' -> (WB c id x' \/ e = EWake r c) /\ ~ round_end r e.
Proof. intros W [A B] S. split.
  2:{ intros [->| ->]; inversion S; subst; try (destruct (fin x); discriminate);
      match goal with H : ph x = _ |- _ => rewrite H in B end; try contradiction;
      match goal with H : ready x = [] |- _ => rewrite H in B; contradiction end. }
  destruct (sus_lstep _ _ _ _ _ _ c id A S) as [A'|A']; [|auto].
  destruct (match e with EWake q d => Nat.eqb q r && Nat.eqb d c | _ => false end) eqn:EW.
  { destruct e; try discriminate. apply andb_true_iff in EW. destruct EW as [E1 E2]. apply Nat.eqb_eq in E1. apply Nat.eqb_eq in E2. subst. auto. }
  left. split; [assumption|]. destruct S; simpl in *; try (rewrite H in B; contradiction); auto.
  - exfalso. destruct H as [H|H]; rewrite H in B; contradiction.
  - assert (M : c <> c0) by (intros ->; rewrite !Nat.eqb_refl in EW; discriminate).
    rewrite H1 in B. destruct H as [H|H]; rewrite H in *; simpl in B.
    + destruct B as [[?|?]|?]; auto; congruence.
    + destruct B as [?|?]; auto; congruence.
  - rewrite H in B. destruct B as [?|?]; auto.
  - rewrite H in B. destruct B as [?|?]; auto.
  - rewrite H in B. destruct (remain0 _ H1) as [E _]. rewrite E in B. destruct B as [?|[[]|G]]; auto; exfalso; eapply gotR_none; eassumption.
  - rewrite H in B. assumption.
  - rewrite H in B. rewrite H1 in B. contradiction.
  - rewrite H in B. rewrite H1 in B. contradiction.
  - destruct H as [H|[H|H]]; rewrite H in *; auto. destruct B as [?|[?|G]]; auto; exfalso; eapply gotR_none; eassumption.
  - assert (E : ph x = FromSched) by (apply (wf_batch _ W); congruence). rewrite E in *. rewrite H1 in B. destruct B as [?|[[->|?]|G]]; auto.
    + right. right. exists c0. simpl. rewrite upd_same. auto.
    + exfalso. eapply gotR_no; try eassumption. congruence.
  - destruct (ph x); auto. rewrite H1 in B. destruct B as [?|[[]|G]]; auto; exfalso; eapply gotR_no; try eassumption; congruence.
  - destruct (ph x); auto. rewrite H1 in B. destruct B as [?|[[]|G]]; auto; exfalso; eapply gotR_no; try eassumption; congruence.
  - destruct (ph x); auto. rewrite H1 in B. destruct B as [?|[[]|G]]; auto; exfalso; eapply gotR_no; try eassumption; congruence.
  - destruct (ph x); auto. destruct B as [?|[?|(d & D & E)]]; auto; exfalso; congruence.
  - rewrite dr_ph, dr_sched, dr_batch. pose proof (ready_mono x c' id0 c) as RM. destruct (ph x); auto; try (destruct B; auto; fail).
    destruct B as [?|[?|(d & D & E)]]; auto. left. assert (d = c0) by congruence. subst d. rewrite E in H0. inv H0. apply sus_resume. assumption.
  - destruct (ph x); auto. destruct B as [?|[?|(d & D & E)]]; auto; exfalso; congruence.
  - destruct (ph x); auto. destruct B as [?|[?|(d & D & E)]]; auto; exfalso; congruence.
  - destruct (ph x); auto; try (rewrite in_app_iff; tauto). destruct B as [?|[?|(d & D & E)]]; auto; exfalso; congruence.
  - rewrite dr_ph, dr_sched, dr_batch. pose proof (ready_mono x c0 id0 c) as RM. destruct (ph x); auto; try (destruct B; auto; fail).
    destruct B as [?|[?|?]]; auto. right. right. apply gotR_dr. assumption.
Qed.
