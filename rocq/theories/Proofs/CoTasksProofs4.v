From Verif.Model Require Import Common CoTasks.
From Verif.Spec Require Import CoTaskSpec.
From Verif.Proofs Require Import Tac CoTasksProofs CoTasksProofs2 CoTasksProofs3.

(** ** The shared queue: a whole Run() takes what was there. *)
Lemma sub_or_taken h s t : run h s -> In (ESubmit t) h -> to_ t = Anywhere -> In (by_ t, t) (gq s) \/ exists r, In (ETake r t) h.
Proof. induction 1 as [|h s e s' Rn IH S]; [contradiction|]. intros I T.
  assert (M : (exists r, In (ETake r t) h) -> exists r, In (ETake r t) (h ++ [e])) by (intros [r J]; exists r; apply in_or_app; auto).
  apply in_app_or in I. destruct I as [I|[I|[]]].
  - destruct (IH I T) as [J|J]; [|right; auto]. destruct S; simpl; auto; try (left; apply in_or_app; auto; fail).
    destruct (lstep_g _ _ _ _ _ _ H) as [[-> E]|(u & w1 & -> & D)]; [auto|]. inv D. rewrite <- H0 in J. apply in_app_or in J. destruct J as [J|[J|J]].
    + left. apply in_or_app; auto.
    + inv J. right. exists r. apply in_or_app. right. left. reflexivity.
    + left. apply in_or_app; auto.
  - subst e. inversion S; subst; simpl; try congruence.
    + exfalso. eapply lstep_nosub; eassumption.
    + left. apply in_or_app. right. left. reflexivity.
    + left. apply in_or_app. right. left. reflexivity. Qed.

Definition others (w : who) (l : list (who * task)) : nat := length (filter (fun e => negb (who_eqb (fst e) w)) l).
Definition ahead (g : list (who * task)) (t : task) (n : nat) : Prop :=
  exists a b, g = a ++ (by_ t, t) :: b /\ length a + others (by_ t) b < n.

Definition GI (t : task) (g : list (who * task)) (x : runner) : Prop :=
  In (by_ t, t) g /\
  match ph x with
  | Nest _ => inst x = true
  | Ready1 | FromRemote | FromSched => True
  | FromGlobal => ahead g t (maxdq x) /\ glob x = true
  | _ => False
  end.

Lemma others_app w a b : others w (a ++ b) = others w a + others w b.
Proof. unfold others. rewrite filter_app, app_length. reflexivity. Qed.
Lemma others_le w a : others w a <= length a.
Proof. unfold others. induction a as [|e a IH]; simpl; [lia|]. destruct (negb _); simpl; lia. Qed.

Lemma who_eqb_refl w : who_eqb w w = true.
Proof. apply who_eqb_eq. reflexivity. Qed.

(** Two ways to cut a list at two places. *)
Lemma two_cuts {A} (a : list A) x b a' y b' : a ++ x :: b = a' ++ y :: b' ->
  (exists m, a = a' ++ y :: m /\ b' = m ++ x :: b) \/ (a = a' /\ x = y /\ b = b') \/ (exists m, a' = a ++ x :: m /\ b = m ++ y :: b').
Proof. revert a'. induction a as [|c a IH]; intros [|c' a'] E; simpl in E.
  - inv E. auto.
  - inv E. right. right. exists a'. auto.
  - inv E. left. exists a. auto.
  - inv E. destruct (IH _ H1) as [(m & -> & ->)|[(-> & -> & ->)|(m & -> & ->)]]; [left; exists m; auto|right; left; auto|right; right; exists m; auto]. Qed.

(** Taking another entry brings [t] nearer. *)
Lemma ahead_deq g t n w u g' : ahead g t (S n) -> deq g w u g' -> (w, u) <> (by_ t, t) -> ahead g' t n.
Proof. intros (a & b & E & L) D N. inv D. destruct (two_cuts _ _ _ _ _ _ H0) as [(m & -> & ->)|[(-> & X & ->)|(m & -> & ->)]].
  - (* taken behind t *) exists a, (m ++ b0). split; [rewrite <- app_assoc; reflexivity|]. rewrite others_app in *. simpl in L. unfold others in *. simpl in *.
    assert (who_eqb w (by_ t) = false). { destruct (who_eqb w (by_ t)) eqn:F; auto. apply who_eqb_eq in F. subst w. exfalso. apply (H t). apply in_or_app. right. left. reflexivity. }
    rewrite H1 in L. simpl in L. lia.
  - congruence.
  - exists (a0 ++ m), b. split; [rewrite <- app_assoc; reflexivity|]. rewrite app_length in *. simpl in L. lia. Qed.

Lemma ahead_mono g t n m : ahead g t n -> n <= m -> ahead g t m.
Proof. intros (a & b & E & L) H. exists a, b. split; [assumption|lia]. Qed.
Lemma ahead_deq0 g t n w u g' : ahead g t n -> deq g w u g' -> (w, u) <> (by_ t, t) -> ahead g' t n.
Proof. intros A D N. destruct n as [|n]; [destruct A as (? & ? & _ & ?); lia|]. apply ahead_mono with n; [|lia]. eapply ahead_deq; eassumption. Qed.
Lemma ahead_in g t n : ahead g t n -> In (by_ t, t) g.
Proof. intros (a & b & -> & _). apply in_or_app. right. left. reflexivity. Qed.
Lemma ahead_snoc g t n u : ahead g t n -> by_ u = by_ t -> ahead (g ++ [(by_ u, u)]) t n.
Proof. intros (a & b & -> & L) B. exists a, (b ++ [(by_ u, u)]). split; [rewrite <- app_assoc; reflexivity|].
  rewrite others_app. unfold others at 2. simpl. rewrite B, who_eqb_refl. simpl. lia. Qed.
Lemma ahead_len g t : In (by_ t, t) g -> ahead g t (length g).
Proof. intros I. apply in_split in I. destruct I as (a & b & ->). exists a, b. split; [reflexivity|]. rewrite app_length. simpl. pose proof (others_le (by_ t) b). lia. Qed.

Definition iter_end (r : nat) (e : ev) : Prop := round_end r e \/ e = EIter r.

Lemma GI_noend r g x e x' g' t : GI t g x -> lstep r g x e x' g' -> ~ iter_end r e.
Proof. intros [I B] S [[->| ->]| ->]; inversion S; subst;
  match goal with H : ph x = _ |- _ => rewrite H in B end; try contradiction; congruence. Qed.

Lemma GI_lstep r g x e x' g' t : wf x -> provg g -> GI t g x -> lstep r g x e x' g' -> GI t g' x' \/ e = ETake r t.
Proof. intros W G [I B] S. destruct S.
  - rewrite H in B. contradiction.
  - destruct H as [H|H]; rewrite H in B; contradiction.
  - rewrite H in B. contradiction.
  - rewrite H in B. contradiction.
  - rewrite H in B. contradiction.
  - rewrite H in B. contradiction.
  - left. split; [assumption|]. reflexivity.
  - left. split; [assumption|]. exact Logic.I.
  - rewrite H in B. congruence.
  - left. split; [assumption|]. simpl. destruct H as [H|H]; rewrite H in *; auto.
  - left. split; [assumption|]. exact Logic.I.
  - left. split; [assumption|]. exact Logic.I.
  - left. split; [assumption|]. simpl. split; [|reflexivity]. apply ahead_len. assumption.
  - exfalso. rewrite H in B. destruct B as [(a & b & _ & L) _]. destruct (remain0 _ H1) as [_ M]. lia.
  - rewrite H in B. contradiction.
  - rewrite H in B. contradiction.
  - left. split; assumption.
  - left. split; assumption.
  - left. split; [assumption|]. simpl. destruct (ph x); auto. destruct B as [_ B]. congruence.
  - assert (J : In (w, t0) g) by exact (proj1 (deq_in _ _ _ _ H4)). destruct (G _ _ J) as [Ew _]. destruct (task_dec t0 t) as [->|N]; [right; reflexivity|]. left.
    assert (NN : (w, t0) <> (by_ t, t)) by congruence. split.
    + inv H4. apply in_app_or in I. apply in_or_app. destruct I as [I|[I|I]]; [auto|congruence|auto].
    + simpl. destruct (ph x); auto. split; [|reflexivity]. destruct B as [B _]. rewrite H2 in B. eapply ahead_deq; eassumption.
  - left. split; [assumption|]. simpl. destruct (ph x); auto. destruct B as [B BG]. exfalso. destruct H2 as [H2|H2].
    + destruct B as (a & b & _ & L). lia.
    + rewrite BG in H2. subst g. contradiction.
  - left. split; assumption.
  - left. split; [assumption|]. destruct (do_resume_cases x c' id) as [->|(-> & _)]; assumption.
  - left. split; assumption.
  - left. split; assumption.
  - left. split; assumption.
  - left. split; [assumption|]. destruct (do_resume_cases x c id) as [->|(-> & _)]; assumption.
Qed.

(** What others may do meanwhile. *)
Definition calm (t : task) (e : ev) : Prop := match e with ESubmit u => to_ u = Anywhere -> by_ u = by_ t | _ => True end.

Lemma GI_step s e s' r t : (forall q, wf (rs s q)) -> provg (gq s) -> calm t e -> GI t (gq s) (rs s r) -> step s e s' ->
  (GI t (gq s') (rs s' r) \/ exists q, e = ETake q t) /\ ~ iter_end r e.
Proof. intros W G C HG S. split.
  2:{ intros E. assert (evloop e = Some r) as EL by (destruct E as [[->| ->]| ->]; reflexivity).
      destruct (step_evloop _ _ _ _ S EL) as (g & K & _). eapply GI_noend; eassumption. }
  destruct S; simpl.
  - destruct (Nat.eq_dec r r0) as [->|N].
    + rewrite upd_same. destruct (GI_lstep _ _ _ _ _ _ t (W r0) G HG H); [auto|right; eauto].
    + rewrite upd_other by assumption. destruct (lstep_g _ _ _ _ _ _ H) as [[-> _]|(u & w & -> & D)]; [auto|].
      destruct (task_dec u t) as [->|NT]; [right; eauto|]. left. destruct HG as [I B]. split.
      * inv D. rewrite <- H0 in I. apply in_app_or in I. apply in_or_app. destruct I as [I|[I|I]]; [auto|congruence|auto].
      * destruct (ph (rs s r)); auto. destruct B as [B BG]. split; [|assumption]. eapply ahead_deq0; try eassumption. congruence.
  - left. destruct HG as [I B]. split; [apply in_or_app; auto|]. destruct (ph (rs s r)); auto. destruct B as [B BG]. split; [|assumption]. apply ahead_snoc; auto.
  - left. destruct HG as [I B]. split; [apply in_or_app; auto|].
    assert (E : forall y, ph y = ph (rs s r) -> inst y = inst (rs s r) -> maxdq y = maxdq (rs s r) -> glob y = glob (rs s r) ->
      match ph y with Nest _ => inst y = true | Ready1 | FromRemote | FromSched => True | FromGlobal => ahead (gq s ++ [(by_ t0, t0)]) t (maxdq y) /\ glob y = true | _ => False end).
    { intros y -> -> -> ->. destruct (ph (rs s r)); auto. destruct B as [B BG]. split; [|assumption]. apply ahead_snoc; auto. }
    destruct (bg s); [apply E; reflexivity|]. destruct (Nat.eq_dec r 0) as [->|N]; [rewrite upd_same|rewrite upd_other by assumption]; apply E; reflexivity.
  - left. destruct (Nat.eq_dec r r0) as [->|N]; [rewrite upd_same|rewrite upd_other by assumption]; exact HG.
  - left. destruct (Nat.eq_dec r r0) as [->|N]; [rewrite upd_same|rewrite upd_other by assumption]; exact HG.
  - left. destruct (Nat.eq_dec r r0) as [->|N]; [rewrite upd_same|rewrite upd_other by assumption]; exact HG.
  - left. destruct (Nat.eq_dec r r0) as [->|N]; [rewrite upd_same|rewrite upd_other by assumption]; exact HG.
  - left. destruct (Nat.eq_dec r r0) as [->|N]; [rewrite upd_same|rewrite upd_other by assumption]; exact HG.
Qed.

Lemma GI_steps h0 s h s' r t e : steps s h s' -> run h0 s -> (forall d, In d h -> calm t d) -> GI t (gq s) (rs s r) -> In e h -> iter_end r e -> exists q, In (ETake q t) h.
Proof. intros S. revert h0. induction S as [|s e0 s1 h s2 S SS IH]; intros h0 R C HG I E; [contradiction|].
  destruct (run_prov _ _ R) as [_ G].
  destruct (GI_step _ _ _ r t (run_wf _ _ R) G (C e0 (or_introl eq_refl)) HG S) as [[K|[q ->]] N]; [|exists q; left; reflexivity].
  destruct I as [->|I]; [contradiction|].
  destruct (IH (h0 ++ [e0])) as [q J]; auto.
  - econstructor; eassumption.
  - intros d D. apply C. right. assumption.
  - exists q. right. assumption. Qed.

Theorem run_takes h1 t h2 r h3 e h4 s : run (h1 ++ ESubmit t :: h2 ++ ERunBegin r :: h3 ++ e :: h4) s ->
  to_ t = Anywhere -> iter_end r e -> (forall u, In (ESubmit u) h3 -> to_ u = Anywhere -> by_ u = by_ t) ->
  exists q, In (ETake q t) (h1 ++ ESubmit t :: h2 ++ ERunBegin r :: h3 ++ [e]).
Proof. intros R T E C.
  destruct (run_split1 _ _ (h1 ++ ESubmit t :: h2 ++ ERunBegin r :: h3) e h4 R) as (s0 & s1 & _ & _ & R1 & _); [rewrite <- app_assoc; simpl; rewrite <- app_assoc; reflexivity|].
  clear R. destruct (run_split1 _ _ (h1 ++ ESubmit t :: h2) (ERunBegin r) (h3 ++ [e]) R1) as (a & b & Ra & Sa & Rb & Sb); [rewrite <- !app_assoc; simpl; rewrite <- app_assoc; reflexivity|].
  assert (I : In (ESubmit t) ((h1 ++ ESubmit t :: h2) ++ [ERunBegin r])) by (apply in_or_app; left; apply in_or_app; right; left; reflexivity).
  assert (M : forall q, In (ETake q t) ((h1 ++ ESubmit t :: h2) ++ [ERunBegin r]) \/ In (ETake q t) (h3 ++ [e]) -> In (ETake q t) (h1 ++ ESubmit t :: h2 ++ ERunBegin r :: h3 ++ [e])).
  { intros q Hq. replace (h1 ++ ESubmit t :: h2 ++ ERunBegin r :: h3 ++ [e]) with (((h1 ++ ESubmit t :: h2) ++ [ERunBegin r]) ++ (h3 ++ [e])) by (rewrite <- !app_assoc; reflexivity). apply in_or_app. assumption. }
  destruct (sub_or_taken _ _ _ Rb I T) as [J|[q J]]; [|exists q; auto].
  destruct (step_evloop _ _ _ r Sa eq_refl) as (g & K & Kg).
  assert (HG : GI t (gq b) (rs b r)). { split; [assumption|]. remember (rs b r) as yb eqn:EY. clear EY. inversion K; subst; [exact Logic.I|destruct (fin (rs a r)); discriminate]. }
  destruct (GI_steps _ _ _ _ r t e Sb Rb) as [q Q0]; auto.
  - intros d D. apply in_app_or in D. destruct D as [D|[<-|[]]]; [destruct d; simpl; auto|destruct E as [[->| ->]| ->]; exact Logic.I].
  - apply in_or_app. right. left. reflexivity.
  - exists q. auto.
Qed.

(** A task taken by a loop is started in the same Run(). *)
Lemma got_step s e s' r t : (forall q, wf (rs s q)) -> In t (got (rs s r)) -> step s e s' -> (In t (got (rs s' r)) \/ e = EStart r t) /\ ~ round_end r e.
Proof. intros W H S. assert (CN : cur (rs s r) <> None) by (intros E; rewrite (got_cur_none _ E) in H; contradiction).
  pose proof (wf_cur _ (W r) CN) as IR. split.
  2:{ intros E. assert (evloop e = Some r) as EL by (destruct E as [->| ->]; reflexivity). destruct (step_evloop _ _ _ _ S EL) as (g & K & _).
      destruct E as [->| ->]; inversion K; subst; try congruence; match goal with HH : ph _ = _ |- _ => rewrite HH in IR; contradiction end. }
  destruct (step_other (fun x => In t (got x)) s e s' r) as [K|(g & K & _)]; auto.
  assert (D : forall g x e x' g', lstep r g x e x' g' -> In t (got x) -> In t (got x') \/ e = EStart r t).
  { clear. intros g x e x' g' S H. assert (CN : cur x <> None) by (intros E; rewrite (got_cur_none _ E) in H; contradiction).
    destruct S; auto; try congruence; try (rewrite (got_cos x c _ H0 H1) in H; simpl in H; try contradiction).
    - left. destruct p; exact H.
    - destruct H as [->|[]]. auto.
    - left. rewrite got_do_resume. exact H. }
  eapply D; eassumption. Qed.

Lemma got_steps s h s' r t e : steps s h s' -> (forall q, wf (rs s q)) -> In t (got (rs s r)) -> In e h -> round_end r e -> In (EStart r t) h.
Proof. induction 1 as [|s e0 s1 h s2 S SS IH]; intros W H I E; [contradiction|].
  destruct (got_step _ _ _ r t W H S) as [[K| ->] N]; [|left; reflexivity]. destruct I as [->|I]; [contradiction|]. right. apply IH; auto. eapply step_wf; eauto. Qed.

Theorem taken_starts h1 r t h2 e h3 s : run (h1 ++ ETake r t :: h2 ++ e :: h3) s -> round_end r e -> In (EStart r t) h2.
Proof. intros R E. destruct (run_split1 _ _ h1 (ETake r t) (h2 ++ e :: h3) R eq_refl) as (a & b & Ra & Sa & Rb & Sb).
  destruct (step_evloop _ _ _ r Sa eq_refl) as (g & K & Kg).
  assert (H : In t (got (rs b r))). { remember (rs b r) as yb eqn:EY. clear EY. inversion K; subst; [destruct (fin (rs a r)); discriminate|]. rewrite got_set_co_s. left. reflexivity. }
  destruct (steps_split _ _ _ h2 e h3 Sb eq_refl) as (c & d & S1 & S2 & _).
  assert (S3 : steps b (h2 ++ [e]) d). { clear -S1 S2. induction S1; simpl; [econstructor; [eassumption|constructor]|econstructor; eauto]. }
  assert (I : In (EStart r t) (h2 ++ [e])). { eapply got_steps; eauto; [eapply run_wf; eassumption|]. apply in_or_app. right. left. reflexivity. }
  apply in_app_or in I. destruct I as [I|[I|[]]]; [assumption|]. subst e. destruct E; discriminate. Qed.

(** ** The background runner. *)
Lemma bg_inv h s : run h s -> bg s = true -> inst (rs s 0) = true \/ exists w, In (w, PReg) (posted (rs s 0)).
Proof. induction 1 as [|h s e s' Rn IH S]; [discriminate|]. intros B.
  assert (L : forall g x e x' g', lstep 0 g x e x' g' -> inst x = true \/ (exists w, In (w, PReg) (posted x)) -> inst x' = true \/ (exists w, In (w, PReg) (posted x'))).
  { clear. intros g x e x' g' S H. destruct S; auto; try (destruct (do_resume_cases x c' id) as [->|(-> & _)]; auto; fail); try (destruct (do_resume_cases x c id) as [->|(-> & _)]; auto; fail); left; destruct p; reflexivity. }
  destruct S; simpl in *; auto.
  - destruct (Nat.eq_dec 0 r) as [<-|N]; [rewrite upd_same; eapply L; eauto|rewrite upd_other by assumption; auto].
  - destruct (bg s) eqn:E; [auto|]. rewrite upd_same. simpl. right. exists (by_ t). apply in_or_app. right. left. reflexivity.
  - destruct (Nat.eq_dec 0 r) as [<-|N]; [rewrite upd_same|rewrite upd_other by assumption]; auto.
  - destruct (Nat.eq_dec 0 r) as [<-|N]; [rewrite upd_same|rewrite upd_other by assumption]; auto. simpl. destruct (IH B) as [?|[w I]]; [auto|]. right. exists w. apply in_or_app. auto.
  - destruct (Nat.eq_dec 0 r) as [<-|N]; [rewrite upd_same|rewrite upd_other by assumption]; auto.
  - destruct (Nat.eq_dec 0 r) as [<-|N]; [rewrite upd_same|rewrite upd_other by assumption]; auto.
  - destruct (Nat.eq_dec 0 r) as [<-|N]; [rewrite upd_same|rewrite upd_other by assumption]; auto.
Qed.

Lemma ext_bg h s t n : run h s -> In (ESubmit t) h -> by_ t = Ext n -> to_ t = Anywhere -> bg s = true.
Proof. induction 1 as [|h s e s' Rn IH S]; [contradiction|]. intros I B T. apply in_app_or in I. destruct I as [I|[I|[]]].
  - specialize (IH I B T). destruct S; simpl; auto.
  - subst e. inversion S; subst; simpl; auto; try congruence. exfalso. eapply lstep_nosub; eassumption. Qed.

Lemma inst_step s e s' r : inst (rs s r) = true -> step s e s' -> inst (rs s' r) = true.
Proof. intros H S. destruct (step_other (fun x => inst x = true) s e s' r) as [K|(g & K & _)]; auto.
  revert H. destruct K; simpl; auto; try (destruct p; reflexivity); intros HI; try (rewrite H1 in HI);
  repeat match goal with |- context[do_resume ?x ?c ?i] => destruct (do_resume_cases x c i) as [->|(-> & _)] end; auto. Qed.
Lemma inst_steps s h s' r : steps s h s' -> inst (rs s r) = true -> inst (rs s' r) = true.
Proof. induction 1; auto. intros H1. apply IHsteps. eapply inst_step; eassumption. Qed.

Theorem background_takes h1 t n h2 h3 h4 e h5 s :
  run (h1 ++ ESubmit t :: h2 ++ EDrained 0 :: h3 ++ EIter 0 :: h4 ++ e :: h5) s ->
  by_ t = Ext n -> to_ t = Anywhere -> iter_end 0 e -> (forall u, In (ESubmit u) h4 -> to_ u = Anywhere -> by_ u = by_ t) ->
  exists q, In (ETake q t) (h1 ++ ESubmit t :: h2 ++ EDrained 0 :: h3 ++ EIter 0 :: h4 ++ [e]).
Proof. intros R B T E C.
  destruct (run_split1 _ _ (h1 ++ ESubmit t :: h2) (EDrained 0) (h3 ++ EIter 0 :: h4 ++ e :: h5) R) as (a & b & Ra & Sa & Rb & Sb); [rewrite <- !app_assoc; reflexivity|].
  assert (BG : bg a = true) by (eapply ext_bg; eauto; apply in_or_app; right; left; reflexivity).
  assert (IB : inst (rs b 0) = true).
  { destruct (step_evloop _ _ _ 0 Sa eq_refl) as (g & K & _). remember (rs b 0) as yb eqn:EY. clear EY. inversion K; subst; try (destruct (fin (rs a 0)); discriminate).
    - simpl. destruct (bg_inv _ _ Ra BG) as [?|[w I]]; [assumption|]. rewrite H0 in I. contradiction.
    - simpl. destruct (bg_inv _ _ Ra BG) as [?|[w I]]; [assumption|]. rewrite H0 in I. contradiction. }
  destruct (steps_split _ _ _ h3 (EIter 0) (h4 ++ e :: h5) Sb eq_refl) as (c & d & S1 & S2 & S3).
  destruct (steps_split _ _ _ h4 e h5 S3 eq_refl) as (c1 & d1 & S4 & S5 & _).
  set (hh := (h1 ++ ESubmit t :: h2) ++ [EDrained 0]) in *.
  assert (Rc : run (hh ++ h3) c) by (eapply run_steps; eassumption).
  assert (Rd : run ((hh ++ h3) ++ [EIter 0]) d) by (econstructor; eassumption).
  assert (IC : inst (rs c 0) = true) by (exact (inst_steps _ _ _ _ S1 IB)).
  assert (ID : inst (rs d 0) = true) by (exact (inst_step _ _ _ _ IC S2)).
  assert (I : In (ESubmit t) ((hh ++ h3) ++ [EIter 0])).
  { unfold hh. apply in_or_app; left; apply in_or_app; left; apply in_or_app; left; apply in_or_app; right; left; reflexivity. }
  assert (M : forall q, In (ETake q t) ((hh ++ h3) ++ [EIter 0]) \/ In (ETake q t) (h4 ++ [e]) -> In (ETake q t) (h1 ++ ESubmit t :: h2 ++ EDrained 0 :: h3 ++ EIter 0 :: h4 ++ [e])).
  { intros q Hq. replace (h1 ++ ESubmit t :: h2 ++ EDrained 0 :: h3 ++ EIter 0 :: h4 ++ [e]) with (((hh ++ h3) ++ [EIter 0]) ++ (h4 ++ [e])) by (unfold hh; repeat (rewrite <- app_assoc; simpl); reflexivity). apply in_or_app. assumption. }
  destruct (sub_or_taken _ _ _ Rd I T) as [J|[q J]]; [|exists q; auto].
  assert (HG : GI t (gq d) (rs d 0)).
  { split; [assumption|]. destruct (step_evloop _ _ _ 0 S2 eq_refl) as (g & K & _). remember (rs d 0) as yb eqn:EY. clear EY. inversion K; subst; [assumption|destruct (fin (rs c 0)); discriminate]. }
  assert (S6 : steps d (h4 ++ [e]) d1). { clear -S4 S5. induction S4; simpl; [econstructor; [eassumption|constructor]|econstructor; eauto]. }
  destruct (GI_steps _ _ _ _ 0 t e S6 Rd) as [q Q0]; auto.
  - intros u D. apply in_app_or in D. destruct D as [D|[<-|[]]]; [destruct u; simpl; auto|destruct E as [[->| ->]| ->]; exact Logic.I].
  - apply in_or_app. right. left. reflexivity.
  - exists q. auto.
Qed.

(** What waits in remote_sched_ came from another thread. *)
Lemma rem_other h s r w t : run h s -> In (w, IUser t) (remote (rs s r)) -> by_ t <> InLoop r.
Proof. intros R. revert r w t. induction R as [|h s e s' R IH S]; [contradiction|]. intros r w t.
  assert (L : forall q g x e x' g', lstep q g x e x' g' -> forall d, In d (remote x') -> In d (remote x)).
  { clear. intros q g x e x' g' S d. destruct S; simpl; auto; try (destruct p; exact (fun H => H));
    repeat match goal with |- context[do_resume ?x ?c ?i] => destruct (do_resume_cases x c i) as [->|(-> & _)] end; auto.
    intros I. apply (proj2 (deq_in _ _ _ _ H4)). assumption. }
  destruct S; simpl; auto.
  - destruct (Nat.eq_dec r r0) as [->|N]; [rewrite upd_same|rewrite upd_other by assumption; apply IH]. intros I. eapply IH. eapply L; [exact H|eassumption].
  - apply IH.
  - destruct (bg s); [apply IH|]. destruct (Nat.eq_dec r 0) as [->|N]; [rewrite upd_same|rewrite upd_other by assumption]; apply IH.
  - destruct (Nat.eq_dec r r0) as [->|N]; [rewrite upd_same|rewrite upd_other by assumption]; apply IH.
  - destruct (Nat.eq_dec r r0) as [->|N]; [rewrite upd_same|rewrite upd_other by assumption]; apply IH.
  - destruct (Nat.eq_dec r r0) as [->|N]; [rewrite upd_same|rewrite upd_other by assumption]; apply IH.
  - destruct (Nat.eq_dec r r0) as [->|N]; [rewrite upd_same|rewrite upd_other by assumption; apply IH]. simpl. intros I. apply in_app_or in I.
    destruct I as [I|[I|[]]]; [eapply IH; eassumption|]. inv I. assumption.
  - destruct (Nat.eq_dec r r0) as [->|N]; [rewrite upd_same|rewrite upd_other by assumption; apply IH]. simpl. intros I. apply in_app_or in I.
    destruct I as [I|[I|[]]]; [eapply IH; eassumption|discriminate]. Qed.

(** ** ScheduleTask on the loop's own thread. *)
Theorem scheduled_starts h1 t h2 r h3 e h4 s : run (h1 ++ ESubmit t :: h2 ++ EIter r :: h3 ++ e :: h4) s ->
  to_ t = CoTasks.Sched r -> by_ t = InLoop r -> round_end r e -> In (EStart r t) (h1 ++ ESubmit t :: h2 ++ EIter r :: h3 ++ [e]).
Proof. intros R T B E.
  destruct (run_split1 _ _ (h1 ++ ESubmit t :: h2 ++ EIter r :: h3) e h4 R) as (s0 & s1 & _ & _ & R1 & _); [rewrite <- app_assoc; simpl; rewrite <- app_assoc; reflexivity|].
  clear R. destruct (run_split1 _ _ (h1 ++ ESubmit t :: h2) (EIter r) (h3 ++ [e]) R1) as (a & b & Ra & Sa & Rb & Sb); [rewrite <- !app_assoc; simpl; rewrite <- app_assoc; reflexivity|].
  destruct (start_dec (h1 ++ ESubmit t :: h2) r t) as [I|N].
  - apply in_app_or in I. apply in_or_app. destruct I as [I|[I|I]]; [auto|discriminate|]. right. right. apply in_or_app. auto.
  - assert (HQ : Q t (rs b r)).
    { assert (IS : In (ESubmit t) (h1 ++ ESubmit t :: h2)) by (apply in_or_app; right; left; reflexivity).
      destruct (iter_Q _ _ _ r t Ra Sa IS B (or_intror T) N) as [?|[_ K]]; [assumption|]. exfalso.
      apply in_remT in K. destruct K as [w K]. exact (rem_other _ _ _ _ _ Ra K B). }
    pose proof (Q_steps _ _ _ r t e Sb (run_wf _ _ Rb) HQ) as K. apply in_or_app. right. right. apply in_or_app. right. right. apply K; [|assumption]. apply in_or_app. right. left. reflexivity.
Qed.
