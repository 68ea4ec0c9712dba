(** Proofs about the message loop model. *)
From Verif.Model Require Import Common MsgLoop.
From Verif.Spec Require Import LoopSpec.
From Verif.Proofs Require Import Tac.

Lemma set1_same {A} (f : nat -> A) i x : set1 f i x i = x.
Proof. unfold set1. now rewrite Nat.eqb_refl. Qed.
Lemma set1_other {A} (f : nat -> A) i j x : j <> i -> set1 f i x j = f j.
Proof. unfold set1. intros H. apply Nat.eqb_neq in H. now rewrite H. Qed.

Lemma posts_app p a b : posts p (a ++ b) = posts p a ++ posts p b.
Proof. apply flat_map_app. Qed.
Lemma runs_app p a b : runs p (a ++ b) = runs p a ++ runs p b.
Proof. apply flat_map_app. Qed.
Lemma posts_in_app a b : posts_in (a ++ b) = posts_in a ++ posts_in b.
Proof. apply flat_map_app. Qed.
Lemma runs_in_app a b : runs_in (a ++ b) = runs_in a ++ runs_in b.
Proof. apply flat_map_app. Qed.

Section L.
Variable body : task -> list task.
Variable evmax : nat.
Notation lstep := (lstep body evmax).
Notation lrun := (lrun body evmax).

Lemma lrun_trans a h1 b h2 c : lrun a h1 b -> lrun b h2 c -> lrun a (h1 ++ h2) c.
Proof.
  intros H1 H2; revert h1 a H1; induction H2; intros h1 a H1.
  - now rewrite app_nil_r.
  - rewrite app_assoc. eapply run_snoc; eauto.
Qed.

Lemma lrun_cons s e s1 h s2 : aborted s = false -> lstep s e s1 -> lrun s1 h s2 -> lrun s (e :: h) s2.
Proof.
  intros A H R. change (e :: h) with ([e] ++ h). eapply lrun_trans; eauto.
  change [e] with ([] ++ [e]). eapply run_snoc; eauto. constructor.
Qed.

(** ** Exactly once and in order *)
Lemma lstep_fifo s e s' p : lstep s e s' ->
  queue s p ++ posts p [e] = runs p [e] ++ queue s' p.
Proof.
  intros H; inversion H; subst; cbn [posts runs flat_map app queue st_pst st_queue st_flag st_evfd st_inloop
    st_nest st_running st_ctl st_pc st_abort]; rewrite ?app_nil_r; auto.
  - destruct (Nat.eqb_spec p0 p); subst.
    + now rewrite set1_same.
    + rewrite set1_other by auto. now rewrite app_nil_r.
  - destruct (Nat.eqb_spec p0 p); subst.
    + rewrite set1_same. now rewrite H2.
    + rewrite set1_other by auto. auto.
Qed.

Lemma lrun_fifo s h s' p : lrun s h s' -> queue s p ++ posts p h = runs p h ++ queue s' p.
Proof.
  induction 1; cbn; rewrite ?app_nil_r; auto.
  rewrite posts_app, runs_app, app_assoc, IHlrun, <- !app_assoc.
  f_equal. now apply lstep_fifo.
Qed.

(** [nest] is empty except while the nested tasks are being run. *)
Definition in_nest (x : looppc) : bool :=
  match x with PNest _ => true | PBody _ (CNest _) => true | _ => false end.
Definition NI s := in_nest (pc s) = false -> nest s = [].

Lemma NI_step s e s' : lstep s e s' -> NI s -> NI s'.
Proof.
  unfold NI; intros H I; inversion H; subst; cbn in *; auto;
    try match goal with Hp : pc _ = _ |- _ => rewrite Hp in I; cbn in I; auto end; try discriminate.
  inv H1; cbn in *; auto; discriminate.
Qed.

Lemma NI_run h s : lrun linit h s -> NI s.
Proof.
  intros H. remember linit as s0. induction H; subst.
  - intros _; auto.
  - eauto using NI_step.
Qed.

Lemma lstep_fifo_in s e s' : NI s -> lstep s e s' ->
  nest s ++ inloop s ++ posts_in [e] = runs_in [e] ++ nest s' ++ inloop s'.
Proof.
  intros N H; inversion H; subst; cbn [posts_in runs_in flat_map app st_pst st_queue st_flag st_evfd st_inloop
    st_nest st_running st_ctl st_pc st_abort nest inloop]; rewrite ?app_nil_r; auto.
  - unfold NI in N. rewrite H0 in N. rewrite (N eq_refl). auto.
  - now rewrite H1.
Qed.

Lemma lrun_fifo_in h s : lrun linit h s -> posts_in h = runs_in h ++ nest s ++ inloop s.
Proof.
  intros H. remember linit as s0. induction H; subst; auto.
  specialize (IHlrun eq_refl). rewrite posts_in_app, runs_in_app, IHlrun, <- !app_assoc.
  f_equal. apply lstep_fifo_in; auto. eapply NI_run; eauto.
Qed.

(** ** No lost wakeup *)
Definition cov s p :=
  0 < evfd s \/ (exists q, pst s q = PoWrite) \/
  match pc s with
  | PClear _ => True
  | PScan R _ => In p R
  | PBody _ (CScan _) => True
  | _ => False
  end.
Definition WI s :=
  (flag s = true -> 0 < evfd s \/ (exists q, pst s q = PoWrite) \/ exists ce, pc s = PClear ce) /\
  (forall p, queue s p <> [] -> pst s p = PoEnqueued \/ cov s p).

Lemma wkeep s p x : pst s p <> PoWrite ->
  (exists q, pst s q = PoWrite) -> exists q, set1 (pst s) p x q = PoWrite.
Proof. intros N [q H]. exists q. rewrite set1_other; auto. intros ->; auto. Qed.

Lemma WI_pc s x :
  WI s -> (forall ce, pc s <> PClear ce) ->
  (forall p, queue s p <> [] -> match pc s with PScan R _ => In p R | PBody _ (CScan _) => True | _ => False end ->
     match x with PClear _ => True | PScan R _ => In p R | PBody _ (CScan _) => True | _ => False end) ->
  WI (st_pc s x).
Proof.
  intros [F Q] NC M; split; cbn.
  - intros H. destruct (F H) as [?|[?|[ce E]]]; auto. now apply NC in E.
  - intros p H. specialize (M p H). destruct (Q p H) as [?|C]; auto. right. unfold cov in *; cbn.
    destruct C as [?|[?|C]]; auto. right; right.
    destruct (pc s) eqn:E; try tauto. exfalso; eapply NC; eauto.
Qed.

Lemma WI_step s e s' : 0 < evmax -> lstep s e s' -> WI s -> WI s'.
Proof.
  intros EM H I. pose proof I as [F Q].
  assert (KP : forall p x, pst s p <> PoWrite -> (x = PoIdle -> pst s p = PoEnqueued -> queue s p <> [] -> cov s p) ->
     (x = PoEnqueued \/ pst s p <> PoEnqueued \/ x = PoIdle) -> WI (st_pst s p x)).
  { intros p x NW E1 E2. split; cbn.
    - intros Hf. destruct (F Hf) as [?|[?|?]]; auto. right; left. now apply wkeep.
    - intros r Hr. unfold cov; cbn. destruct (Nat.eq_dec r p) as [->|Nr].
      + rewrite set1_same. destruct (Q p Hr) as [C|C].
        * destruct E2 as [E2|[E2|E2]]; auto; try congruence.
          specialize (E1 E2 C Hr). right. destruct E1 as [?|[?|?]]; auto. right; left; now apply wkeep.
        * right. destruct C as [?|[?|?]]; auto. right; left; now apply wkeep.
      + rewrite set1_other by auto. destruct (Q r Hr) as [C|C]; auto.
        right. destruct C as [?|[?|?]]; auto. right; left; now apply wkeep. }
  inversion H; subst.
  - apply KP; try congruence. rewrite H0. right; left; congruence.
  - exact I.
  - split; cbn.
    + intros Hf. destruct (F Hf) as [?|[?|?]]; auto. right; left. apply wkeep; auto. congruence.
    + intros r Hr. unfold cov; cbn. destruct (Nat.eq_dec r p) as [->|Nr].
      * rewrite set1_same. auto.
      * rewrite set1_other by auto. rewrite set1_other in Hr by auto. destruct (Q r Hr) as [C|C]; auto.
        right. destruct C as [?|[?|?]]; auto. right; left; apply wkeep; auto; congruence.
  - apply KP; try congruence; auto. intros _ _ Hq. unfold cov.
    destruct (F H1) as [?|[?|[ce ->]]]; auto.
  - split; cbn.
    + intros _. right; left. exists p. apply set1_same.
    + intros r Hr. right. right; left. exists p. apply set1_same.
  - split; cbn.
    + intros _. left; lia.
    + intros r Hr. right. left. cbn; lia.
  - assert (0 < evfd s) by lia. split; cbn; auto. intros r Hr. right; left; auto.
  - split; cbn; try discriminate. intros r Hr. unfold cov; cbn. destruct (Nat.eq_dec r p) as [->|Nr].
    + destruct (Q p Hr) as [C|C]; try congruence. right. destruct C as [?|[?|?]]; auto. right; left; apply wkeep; auto; congruence.
    + rewrite set1_other in * by auto. destruct (Q r Hr) as [C|C]; auto.
      right. destruct C as [?|[?|?]]; auto. right; left; apply wkeep; auto; congruence.
  - exact I.
  - apply WI_pc; auto; rewrite H0; try congruence; intros; tauto.
  - apply WI_pc; auto; rewrite H0; try congruence; intros; tauto.
  - apply WI_pc; auto; rewrite H0; try congruence; intros; tauto.
  - apply WI_pc; auto; rewrite H0; try congruence; intros; tauto.
  - apply WI_pc; auto; rewrite H0; try congruence; intros; tauto.
  - split; cbn.
    + intros Hf. destruct (F Hf) as [?|[?|[c E]]]; auto. congruence.
    + intros p Hp. destruct (Q p Hp) as [?|C]; auto. right. unfold cov in *; cbn. rewrite H0 in C. tauto.
  - apply WI_pc; auto; rewrite H0; try congruence; intros; tauto.
  - split; cbn; eauto. intros p Hp. right; right; right; exact Logic.I.
  - split; cbn; try discriminate. intros p Hp. right; right; right; cbn. auto.
  - apply WI_pc; auto; rewrite H0; try congruence. intros r Hr Hi. apply in_in_remove; auto. intros ->. auto.
  - split; cbn.
    + intros Hf. destruct (F Hf) as [?|[?|[c E]]]; auto. congruence.
    + intros r Hr. right; right; right; exact Logic.I.
  - apply WI_pc; auto; rewrite H0; try congruence; intros; tauto.
  - apply WI_pc; auto; rewrite H0; try congruence; intros; tauto.
  - split; cbn.
    + intros Hf. destruct (F Hf) as [?|[?|[c E]]]; auto. congruence.
    + intros p Hp. destruct (Q p Hp) as [?|C]; auto. right. unfold cov in *; cbn. rewrite H0 in C. tauto.
  - exact I.
  - inv H1; apply WI_pc; auto; rewrite H0; try congruence; intros; try tauto; auto.
  - split; cbn.
    + intros Hf. destruct (F Hf) as [?|[?|[c E]]]; auto. congruence.
    + intros p Hp. destruct (Q p Hp) as [?|C]; auto. right. unfold cov in *; cbn. rewrite H0 in C. tauto.
  - split; cbn.
    + intros Hf. destruct (F Hf) as [?|[?|[c E]]]; auto. congruence.
    + intros p Hp. destruct (Q p Hp) as [?|C]; auto. right. unfold cov in *; cbn. rewrite H0 in C. tauto.
  - apply WI_pc; auto; rewrite H0; try congruence; intros; tauto.
Qed.

Lemma WI_run h s : 0 < evmax -> lrun linit h s -> WI s.
Proof.
  intros EM H. remember linit as s0. induction H; subst.
  - split; cbn; try discriminate. intros p N; congruence.
  - eauto using WI_step.
Qed.

(** ** A wakeup drains the queue *)
(** [pendw p x]: the loop is between reading the eventfd and finishing the following scan of p. *)
Definition pendw s p :=
  match pc s with
  | PRead _ | PClear _ => True
  | PScan R _ => queue s p <> [] -> In p R
  | PBody _ (CScan _) => True
  | _ => False
  end.

Lemma drain_run s h s' p : lrun s h s' -> pendw s p ->
  pendw s' p \/ length (queue s p) <= length (runs p h).
Proof.
  intros H P. induction H; auto.
  specialize (IHlrun P). destruct IHlrun as [IH|IH].
  2:{ right. rewrite runs_app, app_length. lia. }
  clear P. pose proof (lrun_fifo _ _ _ p H) as FF.
  assert (Emp : queue s' p = [] -> length (queue s p) <= length (runs p (h ++ [e]))).
  { intros E. rewrite E, app_nil_r in FF. rewrite runs_app, <- FF, !app_length. lia. }
  unfold pendw in *. inversion H1; subst; cbn in *; auto;
    try match goal with Hp : pc _ = _ |- _ => rewrite Hp in * end; auto; try tauto.
  - destruct (pc s') eqn:Epc; auto. destruct (Nat.eq_dec p p0) as [->|Np].
    + destruct (in_dec Nat.eq_dec p0 rem); auto.
      destruct (queue s' p0) eqn:Eq; auto. exfalso; apply n; apply IH; congruence.
    + left; rewrite set1_other by auto; auto.
  - left. intros Hq. destruct (Nat.eq_dec p p0) as [->|Np]; [congruence|].
    apply in_in_remove; auto.
  - destruct (queue s' p) eqn:Eq; auto. destruct (IH ltac:(congruence)).
  - destruct (queue s' p) eqn:Eq; auto. destruct (IH ltac:(congruence)).
  - inv H3; auto; try contradiction. 
Qed.

(** ** Shutdown *)
(** Program points after the main loop has been left. *)
Definition final (x : looppc) : bool :=
  match x with
  | PScan _ SFinal | PBody _ (CScan SFinal) | PNestStart true | PNest true
  | PBody _ (CNest true) | PBody _ (CAfter true) | PExit => true
  | _ => false
  end.
Definition RI s := final (pc s) = true -> running s = false.

Lemma RI_step s e s' : lstep s e s' -> RI s -> RI s'.
Proof.
  unfold RI; intros H I; inversion H; subst; cbn in *; auto;
    try match goal with Hp : pc _ = _ |- _ => rewrite Hp in I; cbn in I; auto end; try discriminate.
  inv H1; cbn in *; auto; discriminate.
Qed.
Lemma RI_run h s : lrun linit h s -> RI s.
Proof.
  intros H. remember linit as s0. induction H; subst.
  - intros D; discriminate D.
  - eauto using RI_step.
Qed.

(** [pendf s p]: the final scan of p is still to come. *)
Definition pendf s p :=
  match pc s with
  | PScan R SFinal => queue s p <> [] -> In p R
  | PBody _ (CScan SFinal) => True
  | x => final x = false
  end.

Lemma drain_final s h s' p : lrun s h s' -> pendf s p ->
  pendf s' p \/ length (queue s p) <= length (runs p h).
Proof.
  intros H P. induction H; auto.
  specialize (IHlrun P). destruct IHlrun as [IH|IH].
  2:{ right. rewrite runs_app, app_length. lia. }
  clear P. pose proof (lrun_fifo _ _ _ p H) as FF.
  assert (Emp : queue s' p = [] -> length (queue s p) <= length (runs p (h ++ [e]))).
  { intros E. rewrite E, app_nil_r in FF. rewrite runs_app, <- FF, !app_length. lia. }
  unfold pendf in *. inversion H1; subst; cbn in *; auto;
    try match goal with Hp : pc _ = _ |- _ => rewrite Hp in *; cbn in * end; auto; try discriminate.
  - destruct (pc s') eqn:Epc; auto. destruct k; auto. destruct (Nat.eq_dec p p0) as [->|Np].
    + destruct (in_dec Nat.eq_dec p0 rem); auto.
      destruct (queue s' p0) eqn:Eq; auto. exfalso; apply n; apply IH; congruence.
    + left; rewrite set1_other by auto; auto.
  - left. destruct k; auto. intros Hq. destruct (Nat.eq_dec p p0) as [->|Np]; [congruence|].
    apply in_in_remove; auto.
  - left; destruct k; auto.
  - destruct (queue s' p) eqn:Eq; auto. destruct (IH ltac:(congruence)).
  - inv H3; cbn; auto; left; destruct k0; auto.
Qed.

(** In-loop posts made before the last RunNestedTask all run. *)
Definition EI s := match pc s with
  | PNest true | PBody _ (CNest true) => inloop s = []
  | PBody _ (CAfter true) => inloop s = [] /\ nest s = []
  | PExit => inloop s = [] /\ nest s = []
  | _ => True end.
Lemma EI_step s e s' : lstep s e s' -> RI s -> EI s -> EI s'.
Proof.
  intros H R I. pose proof (R : RI s) as R'. unfold RI, EI in *. inversion H; subst; cbn in *; auto;
    try match goal with Hp : pc _ = _ |- _ => rewrite Hp in *; cbn in * end; auto.
  - destruct k; auto; destruct final0; auto; specialize (R' eq_refl); congruence.
  - inv H1; auto.
  - destruct f; auto.
  - destruct f; auto.
Qed.
Lemma EI_run h s : lrun linit h s -> EI s.
Proof.
  intros H. remember linit as s0. induction H; subst.
  - exact Logic.I.
  - eapply EI_step; eauto. eapply RI_run; eauto.
Qed.

(** ** No abort before a quit *)
Definition QI s h := ~ In EQuit h ->
  running s = true /\ ctl s = 0 /\ aborted s = false /\ (forall te, pc s <> PEvents te true) /\
  (forall x, pc s = x -> match x with PRead true | PClear true | PScan _ (SEvents true) | PBody _ (CEvents _ true)
     | PBody _ (CScan (SEvents true)) => False | _ => True end).
Lemma QI_step s h e s' : lstep s e s' -> aborted s = false -> QI s h -> QI s' (h ++ [e]).
Proof.
  unfold QI; intros H A I N. 
  assert (N1 : ~ In EQuit h) by (intros X; apply N; apply in_or_app; auto).
  assert (N2 : e <> EQuit) by (intros ->; apply N; apply in_or_app; right; left; auto).
  specialize (I N1). destruct I as (Ir & Ic & Ia & Ie & Ix). specialize (Ix _ eq_refl).
  inversion H; subst; cbn in *; try congruence;
    try match goal with Hp : pc _ = _ |- _ => rewrite Hp in *; cbn in * end; auto;
    try (exfalso; eapply Ie; reflexivity);
    try (repeat match goal with |- _ /\ _ => split end; auto; intros; subst; cbn; auto; try congruence; tauto).
  all: try (inv H1); repeat match goal with |- _ /\ _ => split end; auto; intros; subst; auto; try congruence.
  all: try (destruct ce; auto; try congruence; try (specialize (H2 eq_refl); lia); try (eapply Ie; eauto; fail)).
Qed.
Lemma QI_run h s : lrun linit h s -> QI s h.
Proof.
  intros H. remember linit as s0. induction H; subst.
  - intros _; cbn; repeat split; auto; intros; subst; try congruence; auto.
  - eapply QI_step; eauto.
Qed.

(** Only finitely many streams are non-empty. *)
Definition FS s := exists R : list tid, forall q, queue s q <> [] -> In q R.
Lemma FS_step s e s' : lstep s e s' -> FS s -> FS s'.
Proof.
  intros H [R I]. inversion H; subst; try (exists R; exact I).
  - exists (p :: R). cbn. intros q Hq. destruct (Nat.eq_dec q p) as [->|N]; auto.
    rewrite set1_other in Hq by auto. auto.
  - exists (p :: R). cbn. intros r Hr. destruct (Nat.eq_dec r p) as [->|N]; auto.
    rewrite set1_other in Hr by auto. auto.
Qed.
Lemma FS_run h s : lrun linit h s -> FS s.
Proof.
  intros H. remember linit as s0. induction H; subst.
  - exists []. cbn. congruence.
  - eauto using FS_step.
Qed.

Lemma not_cons {A} (x : A) l : l <> x :: l.
Proof. intros H. apply (f_equal (@length A)) in H. cbn in H. lia. Qed.

Lemma progress h s : lrun linit h s -> aborted s = false -> pc s <> PExit ->
  exists e s', lstep s e s' /\ (pc s' <> pc s \/ aborted s' = true).
Proof.
  intros H NA NE. destruct (FS_run _ _ H) as [R0 HR].
  destruct (pc s) eqn:E; try congruence.
  - destruct (running s) eqn:Er.
    + eexists _, _; split; [eapply s_top_run; eauto|left; cbn; congruence].
    + eexists _, _; split; [eapply s_top_stop; eauto|left; cbn; congruence].
  - eexists _, _; split; [eapply (s_poll _ _ s false false); auto; discriminate|left; cbn; congruence].
  - destruct te; [|destruct ce].
    + eexists _, _; split; [eapply s_task_event; eauto|left; cbn; congruence].
    + eexists _, _; split; [eapply s_ctrl_event; eauto|left; cbn; congruence].
    + eexists _, _; split; [eapply s_events_done; eauto|left; cbn; congruence].
  - eexists _, _; split; [eapply s_read; eauto|left; cbn; congruence].
  - eexists _, _; split; [eapply s_clear; eauto|left; cbn; congruence].
  - destruct rem as [|p R].
    + destruct k.
      * eexists _, _; split; [eapply s_scan_done_ev; eauto|left; cbn; congruence].
      * eexists _, _; split; [eapply s_scan_done_fin; eauto|left; cbn; congruence].
    + destruct (queue s p) eqn:Eq.
      * assert (N : remove Nat.eq_dec p (p :: R) <> p :: R).
        { intros X. pose proof (remove_In Nat.eq_dec (p :: R) p) as Y. rewrite X in Y. apply Y; left; auto. }
        eexists _, _; split; [eapply s_scan_empty; eauto; left; auto|left; cbn -[remove]].
        intros X. apply N. now apply (f_equal (fun x => match x with PScan l _ => l | _ => [] end)) in X.
      * eexists _, _; split; [eapply s_scan_run; eauto; left; auto|left; cbn; congruence].
  - destruct rem as [|t r].
    + destruct k as [te ce|k|f|[]].
      * eexists _, _; split; [eapply s_body_done; eauto; constructor|left; cbn; congruence].
      * eexists _, _; split; [eapply s_body_done; eauto; econstructor; eauto|left; cbn; congruence].
      * eexists _, _; split; [eapply s_body_done; eauto; constructor|left; cbn; congruence].
      * eexists _, _; split; [eapply s_body_done; eauto; constructor|left; cbn; congruence].
      * eexists _, _; split; [eapply s_body_done; eauto; constructor|left; cbn; congruence].
    + destruct (running s) eqn:Er.
      * eexists _, _; split; [eapply s_body_post; eauto|left; cbn]. intros X. injection X as X. now apply not_cons in X.
      * eexists _, _; split; [eapply s_body_abort; eauto|right; auto].
  - eexists _, _; split; [eapply s_nest_start; eauto|left; cbn; congruence].
  - destruct (nest s) eqn:En.
    + eexists _, _; split; [eapply (s_nest_done _ _ s final0 []); eauto|left; cbn; congruence].
    + eexists _, _; split; [eapply s_nest_run; eauto|left; cbn; congruence].
Qed.
End L.
