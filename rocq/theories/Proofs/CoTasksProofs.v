From Coq Require Import Permutation.
From Verif.Model Require Import Common CoTasks.
From Verif.Proofs Require Import Tac.

Lemma who_dec (a b : who) : {a = b} + {a <> b}.
Proof. decide equality; apply Nat.eq_dec. Defined.
Lemma dest_dec (a b : dest) : {a = b} + {a <> b}.
Proof. decide equality; apply Nat.eq_dec. Defined.
Lemma task_dec (a b : task) : {a = b} + {a <> b}.
Proof. decide equality; [apply Nat.eq_dec | apply dest_dec | apply who_dec]. Defined.

Definition ui (i : item) : list task := match i with IUser t => [t] | _ => [] end.
Definition up (p : pitem) : list task := match p with PGo t => [t] | _ => [] end.
Definition postT (l : list (who * pitem)) := flat_map (fun e => up (snd e)) l.
Definition remT (l : list (who * item)) := flat_map (fun e => ui (snd e)) l.
Definition itT (l : list item) := flat_map ui l.
Definition phl (p : phase) : list task := match p with Nest l => l | _ => [] end.
Definition got (x : runner) : list task :=
  match cur x with Some c => match cos x c with CoGot i => ui i | _ => [] end | None => [] end.
Definition held (x : runner) : list task :=
  postT (posted x) ++ nest x ++ phl (ph x) ++ itT (sched x) ++ remT (remote x) ++ itT (batch x) ++ got x.
Definition cnt (l : list task) (t : task) : nat := count_occ task_dec l t.
Arguments cnt : simpl never.

Lemma cnt_nil t : cnt [] t = 0.
Proof. reflexivity. Qed.
Ltac cl := rewrite ?cnt_nil; lia.
Lemma cnt_app a b t : cnt (a ++ b) t = cnt a t + cnt b t.
Proof. apply count_occ_app. Qed.
Lemma cnt_cons u l t : cnt (u :: l) t = cnt [u] t + cnt l t.
Proof. change (u :: l) with ([u] ++ l). apply cnt_app. Qed.
Lemma cnt_one u t : cnt [u] t = if task_dec u t then 1 else 0.
Proof. reflexivity. Qed.
Lemma cnt_in l t : 0 < cnt l t <-> In t l.
Proof. unfold cnt. symmetry. split; intros H; apply (count_occ_In task_dec); assumption. Qed.

Lemma postT_app a b : postT (a ++ b) = postT a ++ postT b.
Proof. apply flat_map_app. Qed.
Lemma remT_app a b : remT (a ++ b) = remT a ++ remT b.
Proof. apply flat_map_app. Qed.
Lemma itT_app a b : itT (a ++ b) = itT a ++ itT b.
Proof. apply flat_map_app. Qed.

Lemma upd_same {A} (f : nat -> A) i x : upd f i x i = x.
Proof. unfold upd. rewrite Nat.eqb_refl. reflexivity. Qed.
Lemma upd_other {A} (f : nat -> A) i x j : j <> i -> upd f i x j = f j.
Proof. intros H. unfold upd. apply Nat.eqb_neq in H. rewrite H. reflexivity. Qed.

(** Where the loop thread is tells what is empty. *)
Definition inrun (p : phase) : Prop := match p with Ready1 | FromRemote | FromSched | FromGlobal | Ready2 => True | _ => False end.

Record wf (x : runner) : Prop := {
  wf_batch : batch x <> [] -> ph x = FromSched;
  wf_cur : cur x <> None -> inrun (ph x);
  wf_sched : sched x <> [] -> inst x = true;
  wf_inst : inrun (ph x) -> inst x = true;
  wf_rn : running x = true -> fin x = false /\ ph x <> Final /\ ph x <> Done;
  wf_fin : fin x = true -> ph x <> Final /\ ph x <> Drain;
  wf_done : ph x = Done -> fin x = true;
  wf_rdy : forall c, In c (ready x) -> cur x <> Some c -> exists t, cos x c = CoSusp t;
  wf_act : forall c, cur x <> Some c -> (exists t, cos x c = CoSusp t) \/ cos x c = CoFree;
  wf_nd : NoDup (ready x)
}.

Lemma wf_run0 : wf run0.
Proof. constructor; simpl; try congruence; try tauto; try (intros; tauto); try (intros; discriminate).
  - intros _. repeat split; discriminate.
  - constructor. Qed.

Lemma do_resume_cases x c id :
  do_resume x c id = x \/ (do_resume x c id = set_ready x (ready x ++ [c]) /\ cos x c <> CoFree /\ ~ In c (ready x) /\ rid x c = id).
Proof. unfold do_resume. destruct (cos x c) eqn:E; auto; (destruct (Nat.eqb (rid x c) id && negb (existsb (Nat.eqb c) (ready x))) eqn:F; auto; right;
  apply andb_true_iff in F; destruct F as [F1 F2]; apply Nat.eqb_eq in F1; apply negb_true_iff in F2; split; [reflexivity|]; split; [congruence|]; split; [|assumption];
  intros I; assert (existsb (Nat.eqb c) (ready x) = true) by (apply existsb_exists; exists c; split; [assumption|apply Nat.eqb_refl]); congruence). Qed.

Lemma wf_do_resume x c id : wf x -> wf (do_resume x c id).
Proof. intros W. destruct (do_resume_cases x c id) as [->|(-> & Hf & Hn & _)]; [assumption|]. destruct W. constructor; simpl; auto.
  - intros d I Hd. apply in_app_or in I. destruct I as [I|[<-|[]]]; [auto|]. destruct (wf_act0 _ Hd) as [?|?]; [assumption|congruence].
  - clear -wf_nd0 Hn. apply NoDup_Add with (a := c) (l := ready x); [|split; assumption]. rewrite <- (app_nil_r (ready x)) at 1. apply Add_app. Qed.

Lemma remain0 x : remain x = 0 -> batch x = [] /\ maxdq x = 0.
Proof. unfold remain. intros H. destruct (batch x); simpl in *; [split; auto; lia | lia]. Qed.

Ltac wfc := constructor; simpl in *; auto; try congruence; try tauto; try (intros; discriminate).

Lemma set_co_wf x c i y k (W : wf x) : cur x = Some c -> cos x c = i -> (k = Some c \/ (k = None /\ ((exists t, y = CoSusp t) \/ (y = CoFree /\ ~ In c (ready x))))) ->
  wf (set_co x c y k).
Proof. intros Hc Hi Hk. destruct W. assert (Hr : inrun (ph x)) by (apply wf_cur0; congruence). constructor; simpl; auto.
  - intros d I Hd. destruct (Nat.eq_dec d c) as [->|N].
    + rewrite upd_same. destruct Hk as [->|[-> [[t ->]|[-> Hn]]]]; [congruence|eexists; reflexivity|contradiction].
    + rewrite upd_other by assumption. apply wf_rdy0; [assumption|congruence].
  - intros d Hd. destruct (Nat.eq_dec d c) as [->|N].
    + rewrite upd_same. destruct Hk as [->|[-> [[t ->]|[-> Hn]]]]; [congruence|left; eexists; reflexivity|right; reflexivity].
    + rewrite upd_other by assumption. apply wf_act0. congruence. Qed.

Lemma set_run_wf x b m g : wf x -> (b <> [] -> ph x = FromSched) -> wf (set_run x b m g).
Proof. intros W H. destruct W. constructor; simpl; auto. Qed.
Lemma set_remote_wf x b : wf x -> wf (set_remote x b).
Proof. intros W. destruct W. constructor; simpl; auto. Qed.
Lemma set_posted_wf x b : wf x -> wf (set_posted x b).
Proof. intros W. destruct W. constructor; simpl; auto. Qed.
Lemma set_nest_wf x b : wf x -> wf (set_nest x b).
Proof. intros W. destruct W. constructor; simpl; auto. Qed.
Lemma set_sched_wf x b : wf x -> inst x = true -> wf (set_sched x b).
Proof. intros W ?. destruct W. constructor; simpl; auto. Qed.
Lemma set_inst_wf x : wf x -> wf (set_inst x).
Proof. intros W. destruct W. constructor; simpl; auto. Qed.
Lemma run_posted_wf x p : wf x -> wf (run_posted x p).
Proof. intros W. destruct p; simpl; [|apply set_inst_wf; assumption].
  apply (set_sched_wf (set_inst x)); [apply set_inst_wf; assumption|reflexivity]. Qed.

Lemma set_ph_wf x p : wf x -> (batch x = [] \/ p = FromSched) -> (cur x = None \/ inrun p) -> (inrun p -> inst x = true) ->
  (running x = true -> fin x = false /\ p <> Final /\ p <> Done) -> (fin x = true -> p <> Final /\ p <> Drain) -> (p = Done -> fin x = true) ->
  wf (set_ph x p).
Proof. intros W A B C D E F. destruct W. constructor; simpl; auto; try (destruct A; congruence); try (destruct B; congruence). Qed.

Lemma set_fin_wf x : wf x -> running x = false -> ph x = Pump -> wf (set_fin x).
Proof. intros W A B. destruct W. constructor; simpl; auto; try congruence. intros. rewrite B. split; discriminate. Qed.

Lemma idle_cur x : wf x -> ~ inrun (ph x) -> cur x = None.
Proof. intros W H. destruct (cur x) eqn:E; auto. exfalso. apply H. apply (wf_cur _ W). congruence. Qed.
Lemma nb x : wf x -> ph x <> FromSched -> batch x = [].
Proof. intros W H. destruct (batch x) eqn:E; auto. exfalso. apply H. apply (wf_batch _ W). congruence. Qed.

Ltac rn W := let R := fresh in intros R; destruct (wf_rn _ W R) as (?&?&?); repeat split; congruence.

Ltac pf W := simpl; first [ assumption | apply set_run_wf; [assumption|congruence]
  | left; assumption | right; reflexivity | right; exact I | left; apply nb; [assumption|congruence]
  | left; apply idle_cur; [assumption|match goal with H : ph _ = _ |- _ => rewrite H; auto end]
  | intros _; apply (wf_inst _ W); match goal with H : ph _ = _ |- _ => rewrite H; exact I end
  | rn W | intros; split; congruence | intros; congruence | intros; contradiction | tauto | auto ].

Lemma lstep_wf r g x e x' g' : wf x -> lstep r g x e x' g' -> wf x'.
Proof. intros W S. destruct S.
  - apply set_ph_wf; pf W.
  - apply run_posted_wf. apply set_posted_wf. assumption.
  - apply set_ph_wf; pf W.
  - assert (R : running x = false). { destruct (running x) eqn:E; auto. destruct (wf_rn _ W E) as (_&?&_). congruence. }
    change (set_ph (set_fin x) Pump) with (set_fin (set_ph x Pump)). apply set_fin_wf; auto.
    apply set_ph_wf; pf W.
  - destruct W. constructor; simpl; auto; congruence.
  - apply set_ph_wf; try (apply set_nest_wf; assumption); pf W.
  - apply set_ph_wf; try (apply run_posted_wf; assumption); pf W.
  - apply set_ph_wf; pf W.
  - apply set_ph_wf; auto; unfold after_nested.
    + left; apply nb; [assumption|congruence].
    + left; apply idle_cur; [assumption|rewrite H; auto].
    + destruct (fin x); [|destruct (running x)]; simpl; tauto.
    + intros R. destruct (wf_rn _ W R) as (F&?&?). rewrite F, R. repeat split; congruence.
    + intros F. rewrite F. split; congruence.
    + destruct (fin x); auto. destruct (running x); congruence.
  - assert (B : batch x = []). { apply nb; auto. destruct H; congruence. }
    assert (Nd : ~ In c l) by (pose proof (wf_nd _ W) as Q; rewrite H1 in Q; inv Q; assumption).
    destruct W. constructor; simpl; auto.
    + intros _. destruct H as [->| ->]; exact I.
    + intros d I Hd. assert (d <> c) by congruence. rewrite upd_other by assumption. apply wf_rdy0; [rewrite H1; right; assumption|congruence].
    + intros d Hd. assert (d <> c) by congruence. rewrite upd_other by assumption. apply wf_act0. congruence.
    + rewrite H1 in wf_nd0. inv wf_nd0. assumption.
  - apply set_ph_wf; pf W.
  - destruct (remain0 _ H1) as [B _].
    change (set_ph (set_sched (set_run x (sched x) 0 false) []) FromSched) with (set_run (set_ph (set_sched x []) FromSched) (sched x) 0 false).
    apply set_run_wf; auto. apply set_ph_wf; auto; simpl.
    + apply set_sched_wf; auto. apply (wf_inst _ W). rewrite H; exact I.
    + intros _; apply (wf_inst _ W); rewrite H; exact I.
    + rn W.
    + split; congruence.
    + congruence.
  - destruct (remain0 _ H1) as [B _].
    apply set_ph_wf; pf W.
  - destruct (remain0 _ H1) as [B _].
    apply set_ph_wf; pf W.
  - apply set_ph_wf; auto; unfold after_nested; rewrite ?H2.
    + left; apply nb; [assumption|congruence].
    + destruct (running x); simpl; tauto.
    + intros R. rewrite R. destruct (wf_rn _ W R) as (F&?&?). repeat split; congruence.
    + congruence.
    + destruct (running x); congruence.
  - apply set_ph_wf; auto; simpl; try tauto.
    + left; apply nb; [assumption|congruence].
    + rn W.
    + split; congruence.
  - destruct W. constructor; simpl; auto.
    + intros _. destruct H as [->|[->| ->]]; exact I.
    + intros d I Hd. assert (d <> c) by congruence. rewrite upd_other by assumption. apply wf_rdy0; [assumption|congruence].
    + intros d Hd. assert (d <> c) by congruence. rewrite upd_other by assumption. apply wf_act0. congruence.
  - apply set_co_wf with (i := CoPop); auto. apply set_run_wf; auto. intros _. apply (wf_batch _ W). congruence.
  - apply set_co_wf with (i := CoPop); auto. apply set_remote_wf. apply set_run_wf; auto. congruence.
  - apply set_co_wf with (i := CoPop); auto. apply set_run_wf; auto. congruence.
  - apply set_co_wf with (i := CoPop); auto. apply set_run_wf; auto. congruence.
  - apply set_co_wf with (i := CoGot (IUser t)); auto.
  - pose proof (wf_do_resume x c' id W) as W2. apply set_co_wf with (i := CoGot (IResume c' id)); auto.
    + destruct (do_resume_cases x c' id) as [->|(-> & _)]; assumption.
    + destruct (do_resume_cases x c' id) as [->|(-> & _)]; assumption.
  - apply set_co_wf with (i := CoIn t); auto.
  - apply set_co_wf with (i := CoIn t); auto. right. split; auto. left. eexists; reflexivity.
  - apply set_co_wf with (i := CoIn t); auto; [|right; split; auto; left; eexists; reflexivity].
    apply set_sched_wf; auto. apply (wf_inst _ W). apply (wf_cur _ W). congruence.
  - apply wf_do_resume; assumption.
Qed.

Lemma step_wf s e s' : (forall r, wf (rs s r)) -> step s e s' -> forall r, wf (rs s' r).
Proof. intros W S q. destruct S; simpl; auto.
  all: try (destruct (bg s); [apply W|]).
  all: match goal with |- wf (upd _ ?a _ ?qq) => destruct (Nat.eq_dec qq a) as [->|N]; [rewrite upd_same|rewrite upd_other by assumption; apply W] end.
  - eapply lstep_wf; [apply W|eassumption].
  - apply set_posted_wf, W.
  - apply set_nest_wf, W.
  - apply set_posted_wf, W.
  - apply set_sched_wf; auto.
  - apply set_remote_wf, W.
  - apply set_remote_wf, W.
Qed.

Lemma run_wf h s : run h s -> forall r, wf (rs s r).
Proof. induction 1; [intros; apply wf_run0|]. eapply step_wf; eauto. Qed.

(** ** Every submitted task is in exactly one place. *)
Lemma deq_split {A} (q : list (who * A)) w x q' : deq q w x q' -> exists a b, q = a ++ (w, x) :: b /\ q' = a ++ b /\ (forall y, ~ In (w, y) a).
Proof. intros H. inv H. eauto 6. Qed.

Definition same_cnt (a b : list task) := forall t, cnt a t = cnt b t.

Lemma got_cur_none x : cur x = None -> got x = [].
Proof. unfold got. intros ->. reflexivity. Qed.
Lemma got_cos x c i : cur x = Some c -> cos x c = i -> got x = match i with CoGot i => ui i | _ => [] end.
Proof. unfold got. intros -> ->. reflexivity. Qed.
Lemma got_set_co x c y k : got (set_co x c y k) = match k with Some d => match upd (cos x) c y d with CoGot i => ui i | _ => [] end | None => [] end.
Proof. reflexivity. Qed.
Lemma got_set_co_s x c y : got (set_co x c y (Some c)) = match y with CoGot i => ui i | _ => [] end.
Proof. rewrite got_set_co, upd_same. reflexivity. Qed.
Lemma got_switch x c y : got (switch x c y) = match y with CoGot i => ui i | _ => [] end.
Proof. unfold got, switch; simpl. rewrite upd_same. reflexivity. Qed.

Lemma held_do_resume x c id : held (do_resume x c id) = held x.
Proof. destruct (do_resume_cases x c id) as [->|(-> & _)]; reflexivity. Qed.
Lemma got_do_resume x c id : got (do_resume x c id) = got x.
Proof. destruct (do_resume_cases x c id) as [->|(-> & _)]; reflexivity. Qed.

Lemma held_cnt x t : cnt (held x) t = cnt (postT (posted x)) t + cnt (nest x) t + cnt (phl (ph x)) t + cnt (itT (sched x)) t
  + cnt (remT (remote x)) t + cnt (itT (batch x)) t + cnt (got x) t.
Proof. unfold held. repeat rewrite cnt_app. lia. Qed.

Lemma deq_post q w p q' t : deq q w p q' -> cnt (postT q) t = cnt (up p) t + cnt (postT q') t.
Proof. intros H. inv H. rewrite !postT_app. simpl. repeat rewrite cnt_app. cl. Qed.
Lemma deq_rem q w p q' t : deq q w p q' -> cnt (remT q) t = cnt (ui p) t + cnt (remT q') t.
Proof. intros H. inv H. rewrite !remT_app. simpl. repeat rewrite cnt_app. cl. Qed.

Ltac same := left; split; [intros tt_; rewrite !held_cnt; simpl | repeat split; try congruence; try (destruct (fin _); congruence)].

Lemma lstep_shape r g x e x' g' : wf x -> lstep r g x e x' g' ->
  (same_cnt (held x') (held x) /\ g' = g /\ (forall q t, e <> EStart q t) /\ (forall t, e <> ESubmit t)) \/
  (exists t w, e = ETake r t /\ deq g w t g' /\ same_cnt (held x') (t :: held x)) \/
  (exists t, e = EStart r t /\ g' = g /\ same_cnt (held x) (t :: held x')).
Proof. intros W S. destruct S.
  - same. rewrite H. reflexivity.
  - same. rewrite (deq_post _ _ _ _ tt_ H0). destruct p; simpl; [rewrite itT_app, cnt_app; simpl|]; unfold got; simpl; cl.
  - same. rewrite H. reflexivity.
  - same. rewrite H. reflexivity.
  - same. reflexivity.
  - same. rewrite H. simpl. unfold got; simpl. cl.
  - same. rewrite H. simpl. rewrite (cnt_cons t l), itT_app, cnt_app. unfold got; simpl. cl.
  - same. rewrite H. reflexivity.
  - same. rewrite H. unfold after_nested. destruct (fin x); [|destruct (running x)]; reflexivity.
  - same. rewrite got_switch, (got_cur_none x H0). reflexivity.
  - same. rewrite H, (nb x W) by congruence. reflexivity.
  - destruct (remain0 _ H1) as [B _]. same. rewrite H, B. unfold got; simpl. cl.
  - destruct (remain0 _ H1) as [B _]. same. rewrite H, B. reflexivity.
  - same. rewrite H. reflexivity.
  - same. rewrite H. unfold after_nested. destruct (fin x); [|destruct (running x)]; reflexivity.
  - same. rewrite H. reflexivity.
  - same. rewrite got_switch, (got_cur_none x H0). reflexivity.
  - same. rewrite got_set_co_s, (got_cos x c CoPop H H0), H1. simpl. rewrite cnt_app. cl.
  - same. rewrite got_set_co_s, (got_cos x c CoPop H H0), H1, (deq_rem _ _ _ _ tt_ H4). simpl. cl.
  - right. left. exists t, w. split; [reflexivity|]. split; [assumption|]. intros u. rewrite cnt_cons, !held_cnt. simpl.
    rewrite got_set_co_s, (got_cos x c CoPop H H0), H1. simpl. cl.
  - same. rewrite (got_cos x c CoPop H H0), H1. unfold got; simpl. cl.
  - right. right. exists t. split; [reflexivity|]. split; [reflexivity|]. intros u. rewrite cnt_cons, !held_cnt. simpl.
    rewrite got_set_co_s, (got_cos x c _ H H0). simpl. cl.
  - left. split; [intros tt_|repeat split; congruence]. rewrite <- (held_do_resume x c' id). rewrite !held_cnt. simpl.
    rewrite got_set_co_s, got_do_resume, (got_cos x c _ H H0). reflexivity.
  - same. rewrite got_set_co_s, (got_cos x c _ H H0). reflexivity.
  - same. rewrite (got_cos x c _ H H0). reflexivity.
  - same. rewrite (got_cos x c _ H H0), itT_app, cnt_app. unfold got; simpl. cl.
  - left. split; [intros u; rewrite held_do_resume; reflexivity|repeat split; congruence].
Qed.

Definition startT (h : list ev) : list task := flat_map (fun e => match e with EStart _ t => [t] | _ => [] end) h.
Definition subT (h : list ev) : list task := flat_map (fun e => match e with ESubmit t => [t] | _ => [] end) h.

Inductive place := Nowhere | InG | At (r : nat) | Started.
Definition ip (b : bool) : nat := if b then 1 else 0.
Definition atr (p : place) (r : nat) : nat := match p with At q => ip (Nat.eqb q r) | _ => 0 end.

Record places (h : list ev) (s : sys) (loc : task -> place) : Prop := {
  pl_g : forall t, cnt (map snd (gq s)) t = match loc t with InG => 1 | _ => 0 end;
  pl_r : forall r t, cnt (held (rs s r)) t = atr (loc t) r;
  pl_s : forall t, cnt (startT h) t = match loc t with Started => 1 | _ => 0 end;
  pl_u : forall t, In t (used s) <-> loc t <> Nowhere;
  pl_h : forall t, In t (used s) <-> In (ESubmit t) h
}.

Definition setl (loc : task -> place) (t : task) (p : place) : task -> place := fun u => if task_dec u t then p else loc u.
Lemma setl_same loc t p : setl loc t p t = p.
Proof. unfold setl. destruct (task_dec t t); congruence. Qed.
Lemma setl_other loc t p u : u <> t -> setl loc t p u = loc u.
Proof. unfold setl. destruct (task_dec u t); congruence. Qed.

Lemma startT_snoc h e : startT (h ++ [e]) = startT h ++ match e with EStart _ t => [t] | _ => [] end.
Proof. unfold startT. rewrite flat_map_app. simpl. rewrite app_nil_r. reflexivity. Qed.

Lemma cnt_one_same t : cnt [t] t = 1.
Proof. rewrite cnt_one. destruct (task_dec t t); congruence. Qed.
Lemma cnt_one_other t u : u <> t -> cnt [t] u = 0.
Proof. rewrite cnt_one. destruct (task_dec t u); congruence. Qed.

(** A submission: [t] was nowhere and is now in one place. *)
Lemma places_submit h s loc t s' p : places h s loc -> ~ In t (used s) -> used s' = t :: used s ->
  (forall u, cnt (map snd (gq s')) u = cnt (map snd (gq s)) u + match p with InG => cnt [t] u | _ => 0 end) ->
  (forall r u, cnt (held (rs s' r)) u = cnt (held (rs s r)) u + match p with At q => if Nat.eqb q r then cnt [t] u else 0 | _ => 0 end) ->
  (p = InG \/ exists r, p = At r) ->
  exists loc', places (h ++ [ESubmit t]) s' loc'.
Proof. intros P Nu Us G R Hp. destruct P as [A B C D E]. exists (setl loc t p).
  assert (L : loc t = Nowhere). { destruct (loc t) eqn:F; auto; exfalso; apply Nu, D; congruence. }
  constructor.
  - intros u. rewrite G, A. destruct (task_dec u t) as [->|N].
    + rewrite setl_same, L, cnt_one_same. destruct p; try reflexivity; destruct Hp as [?|[? ?]]; congruence.
    + rewrite setl_other, cnt_one_other by assumption. destruct p; cl.
  - intros r u. rewrite R, B. destruct (task_dec u t) as [->|N].
    + rewrite setl_same, L, cnt_one_same. destruct p; reflexivity.
    + rewrite setl_other, cnt_one_other by assumption. destruct p; try cl. destruct (Nat.eqb r0 r); cl.
  - intros u. rewrite startT_snoc, app_nil_r, C. destruct (task_dec u t) as [->|N].
    + rewrite setl_same, L. destruct Hp as [->|[? ->]]; reflexivity.
    + rewrite setl_other by assumption. reflexivity.
  - intros u. rewrite Us. simpl. destruct (task_dec u t) as [->|N].
    + rewrite setl_same. split; [intros _; destruct Hp as [->|[? ->]]; discriminate|auto].
    + rewrite setl_other by assumption. rewrite D. split; [intros [?|?]; [congruence|assumption]|auto].
  - intros u. rewrite Us. simpl. rewrite in_app_iff, E. simpl. split; [intros [->|?]; auto|intros [?|[Q|[]]]; [auto|inv Q; auto]].
Qed.

Lemma cnt_map_snoc (l : list (who * task)) w t u : cnt (map snd (l ++ [(w, t)])) u = cnt (map snd l) u + cnt [t] u.
Proof. rewrite map_app, cnt_app. reflexivity. Qed.

Lemma step_places h s e s' loc : run h s -> places h s loc -> step s e s' -> exists loc', places (h ++ [e]) s' loc'.
Proof. intros Rn P S. destruct S.
  - pose proof (lstep_shape _ _ _ _ _ _ (run_wf _ _ Rn r) H) as Q. destruct P as [A B C D E]. destruct Q as [(Q1 & Q2 & Q3 & Q4)|[(t & w & -> & Q2 & Q3)|(t & -> & Q2 & Q3)]].
    + exists loc. subst g. constructor; simpl; auto.
      * intros q u. destruct (Nat.eq_dec q r) as [->|N]; [rewrite upd_same, Q1|rewrite upd_other by assumption]; apply B.
      * intros u. rewrite startT_snoc. destruct e; try (rewrite app_nil_r; apply C). exfalso; eapply Q3; reflexivity.
      * intros u. rewrite in_app_iff, E. simpl. split; [auto|intros [?|[K|[]]]; [assumption|exfalso; eapply Q4; eassumption]].
    + exists (setl loc t (At r)). inv Q2. rename a into ga. rename b into gb.
      assert (L : loc t = InG). { pose proof (A t) as K. rewrite <- H0 in K. rewrite map_app, cnt_app in K. simpl in K. rewrite cnt_cons, cnt_one_same in K. destruct (loc t); auto; cl. }
      constructor; simpl.
      * intros u. pose proof (A u) as K. rewrite <- H0, map_app, cnt_app in K. simpl in K. rewrite cnt_cons in K. rewrite map_app, cnt_app.
        destruct (task_dec u t) as [->|N]; [rewrite setl_same; rewrite L, cnt_one_same in K; lia|rewrite setl_other by assumption; rewrite cnt_one_other in K by assumption; cl].
      * intros q u. destruct (Nat.eq_dec q r) as [->|N]; [rewrite upd_same, Q3, cnt_cons|rewrite upd_other by assumption]; rewrite B.
        -- destruct (task_dec u t) as [->|N]; [rewrite setl_same, cnt_one_same, L; simpl; rewrite Nat.eqb_refl; reflexivity|rewrite setl_other, cnt_one_other by assumption; reflexivity].
        -- destruct (task_dec u t) as [->|N2]; [rewrite setl_same, L; simpl|rewrite setl_other by assumption; reflexivity].
           destruct (Nat.eqb r q) eqn:F; [apply Nat.eqb_eq in F; congruence|reflexivity].
      * intros u. rewrite startT_snoc, app_nil_r, C. destruct (task_dec u t) as [->|N]; [rewrite setl_same, L; reflexivity|rewrite setl_other by assumption; reflexivity].
      * intros u. rewrite D. destruct (task_dec u t) as [->|N]; [rewrite setl_same, L; split; congruence|rewrite setl_other by assumption; tauto].
      * intros u. rewrite in_app_iff, E. simpl. split; [auto|intros [?|[K|[]]]; [assumption|discriminate]].
    + exists (setl loc t Started). subst g.
      assert (L : loc t = At r). { pose proof (B r t) as K. rewrite Q3, cnt_cons, cnt_one_same in K. destruct (loc t); simpl in K; try cl. destruct (Nat.eqb r0 r) eqn:F; simpl in K; [|cl]. apply Nat.eqb_eq in F. congruence. }
      constructor; simpl.
      * intros u. rewrite A. destruct (task_dec u t) as [->|N]; [rewrite setl_same, L; reflexivity|rewrite setl_other by assumption; reflexivity].
      * intros q u. destruct (Nat.eq_dec q r) as [->|N].
        -- rewrite upd_same. pose proof (B r u) as K. rewrite Q3, cnt_cons in K.
           destruct (task_dec u t) as [->|N]; [rewrite setl_same; rewrite cnt_one_same, L in K; simpl in *; rewrite Nat.eqb_refl in K; simpl in K; lia|rewrite setl_other by assumption; rewrite cnt_one_other in K by assumption; cl].
        -- rewrite upd_other by assumption. rewrite B. destruct (task_dec u t) as [->|N2]; [rewrite setl_same, L; simpl|rewrite setl_other by assumption; reflexivity].
           destruct (Nat.eqb r q) eqn:F; [apply Nat.eqb_eq in F; congruence|reflexivity].
      * intros u. rewrite startT_snoc, cnt_app, C. destruct (task_dec u t) as [->|N]; [rewrite setl_same, L, cnt_one_same; reflexivity|rewrite setl_other, cnt_one_other by assumption; cl].
      * intros u. rewrite D. destruct (task_dec u t) as [->|N]; [rewrite setl_same, L; split; congruence|rewrite setl_other by assumption; tauto].
      * intros u. rewrite in_app_iff, E. simpl. split; [auto|intros [?|[K|[]]]; [assumption|discriminate]].
  - apply (places_submit h s loc t _ InG P); auto; simpl; intros.
    + apply cnt_map_snoc.
  - apply (places_submit h s loc t _ InG P); auto; simpl; intros.
    + apply cnt_map_snoc.
    + destruct (bg s); [lia|]. destruct (Nat.eq_dec r 0) as [->|N]; [rewrite upd_same|rewrite upd_other by assumption; cl].
      rewrite !held_cnt. simpl. rewrite postT_app. simpl. rewrite app_nil_r. unfold got; simpl. cl.
  - apply (places_submit h s loc t _ (At r) P); auto; simpl; intros; [|eauto].
    destruct (Nat.eq_dec r0 r) as [->|N]; [rewrite upd_same, Nat.eqb_refl|rewrite upd_other by assumption; destruct (Nat.eqb r r0) eqn:F; [apply Nat.eqb_eq in F; congruence|cl]].
    rewrite !held_cnt. simpl. rewrite cnt_app. unfold got; simpl. cl.
  - apply (places_submit h s loc t _ (At r) P); auto; simpl; intros; [|eauto].
    destruct (Nat.eq_dec r0 r) as [->|N]; [rewrite upd_same, Nat.eqb_refl|rewrite upd_other by assumption; destruct (Nat.eqb r r0) eqn:F; [apply Nat.eqb_eq in F; congruence|cl]].
    rewrite !held_cnt. simpl. rewrite postT_app, cnt_app. simpl. unfold got; simpl. cl.
  - apply (places_submit h s loc t _ (At r) P); auto; simpl; intros; [|eauto].
    destruct (Nat.eq_dec r0 r) as [->|N]; [rewrite upd_same, Nat.eqb_refl|rewrite upd_other by assumption; destruct (Nat.eqb r r0) eqn:F; [apply Nat.eqb_eq in F; congruence|cl]].
    rewrite !held_cnt. simpl. rewrite itT_app, cnt_app. simpl. unfold got; simpl. cl.
  - apply (places_submit h s loc t _ (At r) P); auto; simpl; intros; [|eauto].
    destruct (Nat.eq_dec r0 r) as [->|N]; [rewrite upd_same, Nat.eqb_refl|rewrite upd_other by assumption; destruct (Nat.eqb r r0) eqn:F; [apply Nat.eqb_eq in F; congruence|cl]].
    rewrite !held_cnt. simpl. rewrite remT_app, cnt_app. simpl. unfold got; simpl. cl.
  - exists loc. destruct P as [A B C D E]. constructor; simpl; auto.
    + intros q u. destruct (Nat.eq_dec q r) as [->|N]; [rewrite upd_same|rewrite upd_other by assumption; apply B]. rewrite <- B.
      rewrite !held_cnt. simpl. rewrite remT_app. simpl. rewrite app_nil_r. reflexivity.
    + intros u. rewrite startT_snoc, app_nil_r. apply C.
    + intros u. rewrite in_app_iff, E. simpl. split; [auto|intros [?|[K|[]]]; [assumption|discriminate]].
Qed.

Lemma run_places h s : run h s -> exists loc, places h s loc.
Proof. induction 1 as [|h s e s' Rn [loc P] S].
  - exists (fun _ => Nowhere). constructor; simpl; auto; try tauto.
  - eapply step_places; eassumption. Qed.

Lemma in_startT h t : In t (startT h) <-> exists r, In (EStart r t) h.
Proof. unfold startT. rewrite in_flat_map. split.
  - intros (e & I & J). destruct e; try contradiction. destruct J as [<-|[]]. eauto.
  - intros (r & I). exists (EStart r t). split; [assumption|left; reflexivity]. Qed.

Lemma start_once h s : run h s -> NoDup (startT h).
Proof. intros R. destruct (run_places _ _ R) as [loc P]. apply (NoDup_count_occ task_dec). intros t. change (cnt (startT h) t <= 1). rewrite (pl_s _ _ _ P). destruct (loc t); cl. Qed.

(** A task is started, or waits in exactly one place. *)
Definition waits (s : sys) (t : task) : Prop := In t (map snd (gq s)) \/ exists r, In t (held (rs s r)).

Lemma start_or_waits h s t : run h s -> (In (ESubmit t) h <-> In t (startT h) \/ waits s t).
Proof. intros R. destruct (run_places _ _ R) as [loc P]. rewrite <- (pl_h _ _ _ P), (pl_u _ _ _ P). unfold waits. split.
  - intros N. destruct (loc t) eqn:L; [congruence| | |].
    + right. left. apply cnt_in. rewrite (pl_g _ _ _ P), L. cl.
    + right. right. exists r. apply cnt_in. rewrite (pl_r _ _ _ P), L. simpl. rewrite Nat.eqb_refl. simpl. cl.
    + left. apply cnt_in. rewrite (pl_s _ _ _ P), L. cl.
  - intros [I|[I|[r I]]]; apply cnt_in in I.
    + rewrite (pl_s _ _ _ P) in I. destruct (loc t); try lia; congruence.
    + rewrite (pl_g _ _ _ P) in I. destruct (loc t); try lia; congruence.
    + rewrite (pl_r _ _ _ P) in I. unfold atr in I. destruct (loc t); try lia; congruence. Qed.
