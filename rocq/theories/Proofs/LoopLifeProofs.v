(** Proofs about Model/LoopLife.v. *)
From Verif.Model Require Import Common LoopLife.
From Verif.Spec Require Import LoopLifeSpec.
From Verif.Proofs Require Import Tac.

Lemma xset_eq f c x : xset f c x c = x.
Proof. unfold xset. now rewrite Nat.eqb_refl. Qed.
Lemma xset_neq f c x d : d <> c -> xset f c x d = f d.
Proof. intros N. unfold xset. apply Nat.eqb_neq in N. now rewrite N. Qed.

Lemma xrun_app s h1 s1 h2 s2 : xrun_to s h1 s1 -> xrun_to s1 h2 s2 -> xrun_to s (h1 ++ h2) s2.
Proof. induction 1; intros; cbn; auto. econstructor; eauto. Qed.
Lemma xrun_split s h1 h2 s2 : xrun_to s (h1 ++ h2) s2 -> exists s1, xrun_to s h1 s1 /\ xrun_to s1 h2 s2.
Proof.
  revert s. induction h1; cbn; intros s H.
  - exists s. split; auto. constructor.
  - inv H. destruct (IHh1 _ H5) as (s1 & A & B). exists s1. split; auto. econstructor; eauto.
Qed.

Ltac unx := unfold x_st, x_pc, x_run, x_ctl, x_lock, x_once, x_dead, x_notify in *;
  cbn [xrun xctl xpc xst xlock xonc xalive] in *.

Lemma inv_run (P : xstate -> Prop) : (forall s e s', P s -> xstep s e s' -> P s') ->
  forall s h s', xrun_to s h s' -> P s -> P s'.
Proof. intros F s h s'. induction 1; eauto. Qed.

(** ** A client's position *)
Definition busy (k : xcall) (x : xclient) : Prop :=
  match x with
  | CIdle => False | COnce => k = KStart
  | CEntry k' | CLock k' | CCheck k' | CGap k' | CBlocked k' => k' = k
  | CJoin => k = KDtor
  end.

Ltac cs c d := destruct (Nat.eq_dec d c) as [?E|?E]; [subst; try rewrite xset_eq in * | try (rewrite xset_neq in * by auto)].

Lemma busy_step s e s' c k : xstep s e s' -> busy k (xst s c) -> e <> XRet c k -> busy k (xst s' c).
Proof.
  intros St B N. inv St; unx; auto;
  try (match goal with |- context[x_leave ?s ?c ?k] => destruct k; cbn in *; unx end);
  try (match goal with |- context[xset _ ?d _ ?c] => destruct (Nat.eq_dec c d) as [->|?E];
     [rewrite xset_eq in *; rewrite ?H, ?H0, ?H1 in *; cbn in *; subst; try contradiction; auto; congruence
     |rewrite xset_neq by auto; auto] end);
  try (destruct (xst s c); cbn in *; auto; fail).
Qed.

Lemma busy_run s h s' c k : xrun_to s h s' -> busy k (xst s c) -> ~ In (XRet c k) h -> busy k (xst s' c).
Proof.
  induction 1; intros; auto. apply IHxrun_to; [|intros A; apply H2; now right].
  eapply busy_step; eauto. intros ->. apply H2. now left.
Qed.

Lemma inside_busy h s c k : xrun_to xinit h s -> inside c k h -> busy k (xst s c).
Proof.
  intros R (h1 & h2 & -> & N). destruct (xrun_split _ _ _ _ R) as (s1 & A & B). inv B.
  eapply busy_run; eauto. inv H2; try (destruct k0; discriminate); unx; rewrite xset_eq; reflexivity.
Qed.

(** ** The general invariant *)
Definition live_pc (p : xloop) : Prop := p = XStarting \/ p = XReady \/ p = XTop \/ p = XPump.
Definition past (p : xloop) : Prop := p <> XNone /\ p <> XCreated.

(** What a client's position implies. *)
Definition cinv (s : xstate) (c : nat) : Prop :=
  match xst s c with
  | CIdle => xlock s <> Some c
  | COnce => xlock s <> Some c /\ xonc s <> ONew
  | CEntry k => xlock s <> Some c /\ k <> KStart
  | CLock k | CBlocked k =>
      xlock s <> Some c /\ match k with KStart => xonc s = ORunning | _ => past (xpc s) end
  | CCheck k | CGap k =>
      xlock s = Some c /\ match k with KStart => xonc s = ORunning | _ => past (xpc s) end
  | CJoin => xlock s <> Some c
  end.

(** The thread that runs the once function. *)
Definition starter (s : xstate) (c : nat) : Prop := busy KStart (xst s c) /\ xst s c <> COnce.

Record XI (s : xstate) : Prop := {
  i_c : forall c, cinv s c;
  i_run : xrun s = true -> live_pc (xpc s);
  i_start : (xpc s = XStarting \/ xpc s = XReady) -> xrun s = true;
  i_none : xpc s = XNone <-> xonc s = ONew;
  i_done : xonc s = ODone -> past (xpc s);
  i_starter : xonc s = ORunning -> exists c, starter s c;
  i_uniq : forall c d, starter s c -> starter s d -> c = d;
  i_once : forall c, starter s c -> xonc s = ORunning;
  i_dtor : forall c, busy KDtor (xst s c) -> xalive s = false
}.

Lemma XI_init : XI xinit.
Proof.
  constructor; cbn; unfold cinv, starter, live_pc; cbn; intuition (try congruence; try contradiction).
Qed.

Lemma owner s c k : XI s -> xst s c = CCheck k \/ xst s c = CGap k -> xlock s = Some c.
Proof. intros I H. pose proof (i_c _ I c) as C. unfold cinv in C. destruct H as [H|H]; rewrite H in C; tauto. Qed.

Ltac lv := match goal with |- context[x_leave ?s ?c ?k] => destruct k; cbn [x_leave] in *; unx | _ => idtac end.
Ltac cas := match goal with |- context[xset _ ?d _ ?c] => destruct (Nat.eq_dec c d) as [->|?E];
   [rewrite ?xset_eq in * | rewrite ?(xset_neq _ d _ c) in * by auto] | _ => idtac end.


Definition is_starter (x : xclient) : bool :=
  match x with CLock KStart | CCheck KStart | CGap KStart | CBlocked KStart | CEntry KStart => true | _ => false end.
Lemma starter_iff s c : starter s c <-> is_starter (xst s c) = true.
Proof.
  unfold starter. destruct (xst s c) as [| |k|k|k|k|k|]; try destruct k; cbn; intuition congruence.
Qed.

Lemma starter_step s e s' d : (forall c, xst s c <> CEntry KStart) -> xstep s e s' -> is_starter (xst s' d) = true ->
  is_starter (xst s d) = true \/ (xonc s = ONew /\ e = XCall d KStart).
Proof.
  intros NE St A. revert A. inv St; lv; unx; intros A; auto;
  try (unfold xset in A; destruct (Nat.eqb_spec d c); [subst|]; auto);
  rewrite ?H, ?H0; try (destruct k; cbn in *; auto; try congruence; elim (NE _ H); fail);
  try (cbn in *; auto; congruence);
  try (destruct (xst s d); auto; fail); eauto.
Qed.

Lemma XI_step s e s' : XI s -> xstep s e s' -> XI s'.
Proof.
  intros I St.
  assert (U : forall d c, d <> c -> is_starter (xst s c) = true -> is_starter (xst s d) = false).
  { intros d c N A. destruct (is_starter (xst s d)) eqn:E; auto.
    elim N. apply (i_uniq _ I); apply starter_iff; auto. }
  assert (NE : forall c, xst s c <> CEntry KStart).
  { intros c E. pose proof (i_c _ I c) as C. unfold cinv in C. rewrite E in C. tauto. }
  constructor.
  - intros d. pose proof (i_c _ I d) as C.
    inv St; try (pose proof (i_c _ I c) as C'); pose proof (i_none _ I) as IN; pose proof (i_run _ I) as IR; pose proof (i_done _ I) as ID;
    lv; unx; try (specialize (U d c)); unfold cinv in *; unx; cas; rewrite ?H, ?H0, ?H1 in *;
    try (destruct (xst s d); unfold past in *; intuition congruence);
    unfold past, live_pc in *;
    try (destruct k; intuition congruence);
    try (intuition congruence);
    try match goal with C : match xst s ?y with _ => _ end |- _ =>
      destruct (xst s y) as [| |k0|k0|k0|k0|k0|]; try destruct k0; cbn in *; intuition congruence end.
  - pose proof (i_run _ I) as IR. pose proof (i_none _ I) as IN. intros A. inv St; lv; unx; auto; unfold live_pc in *; intuition congruence.
  - pose proof (i_start _ I) as IR. pose proof (i_none _ I) as IN. intros A. inv St; lv; unx; auto; intuition congruence.
  - pose proof (i_none _ I) as IN. inv St; lv; unx; auto; try (pose proof (i_c _ I c) as C; unfold cinv in C; rewrite H in C); intuition congruence.
  - pose proof (i_done _ I) as IN. pose proof (i_none _ I). pose proof (i_run _ I) as IR. intros A. inv St; lv; unx; auto; unfold past in *; cbn in *;
      try (unfold live_pc in *; intuition congruence).
  - pose proof (i_starter _ I) as IS. intros A.
    assert (G : forall c x d, is_starter (xst s c) = false -> starter s d -> starter (x_st s c x) d).
    { intros c x d N Hd. rewrite starter_iff in *. unx. cas; auto. congruence. }
    inv St; lv; unx; auto; try congruence;
    try (destruct (IS A) as [d D]; exists d;
      first [ apply G; auto; rewrite H0; reflexivity | apply G; auto; rewrite H; reflexivity
            | rewrite starter_iff in *; unx; cas; auto; rewrite ?H, ?H0 in D; destruct k; cbn in *; auto; congruence
            | rewrite starter_iff in *; unx; cas; auto; rewrite ?H, ?H0 in D; cbn in *; auto; congruence
            | rewrite starter_iff in *; unx; destruct (xst s d); auto ]; fail).
    exists c. rewrite starter_iff. unx. now rewrite xset_eq.
  - intros c0 d0 A B. rewrite starter_iff in A, B.
    destruct (starter_step _ _ _ c0 NE St A) as [A'|[A' Ea]]; destruct (starter_step _ _ _ d0 NE St B) as [B'|[B' Eb]].
    + apply (i_uniq _ I); now apply starter_iff.
    + apply starter_iff in A'. apply (i_once _ I) in A'. congruence.
    + apply starter_iff in B'. apply (i_once _ I) in B'. congruence.
    + congruence.
  - intros d A. rewrite starter_iff in A.
    destruct (starter_step _ _ _ d NE St A) as [A'|[A' Ea]].
    + pose proof A' as A''. apply starter_iff in A''. apply (i_once _ I) in A''.
      inv St; lv; unx; auto; try congruence.
      rewrite (U d c) in A'; [discriminate| |now rewrite H]. intros ->. rewrite xset_eq in A. discriminate.
    + subst. inv St; unx; try congruence; try (destruct k; discriminate).
  - pose proof (i_dtor _ I) as IO. intros d A.
    inv St; lv; unx; eauto;
    try (unfold xset in A; destruct (Nat.eqb_spec d c); [subst; cbn in *; try congruence; try (apply (IO c); rewrite H; cbn in *; auto; fail)|]; eauto);
    try (apply (IO d); destruct (xst s d); auto; fail).
    all: contradiction.
Qed.

Lemma XI_run s h s' : XI s -> xrun_to s h s' -> XI s'.
Proof. intros I R. revert I. induction R; auto. intros. apply IHR. eapply XI_step; eauto. Qed.
Lemma XI_reach h s : xrun_to xinit h s -> XI s.
Proof. apply XI_run, XI_init. Qed.

(** ** Positive runs *)
Definition calm (h : list xev) : Prop :=
  forall e, In e h -> e = XTau \/ e = XNotify \/ exists c k, e = XRet c k.
Lemma calm_nil : calm []. Proof. intros e []. Qed.
Lemma calm_cons e h : e = XTau \/ e = XNotify \/ (exists c k, e = XRet c k) -> calm h -> calm (e :: h).
Proof. intros A B x [<-|X]; auto. Qed.
Lemma calm_app h1 h2 : calm h1 -> calm h2 -> calm (h1 ++ h2).
Proof. intros A B x X. apply in_app_iff in X. destruct X; auto. Qed.
Lemma calm_no_spurious h : calm h -> no_spurious h.
Proof. intros C c X. destruct (C _ X) as [E|[E|(d & k & E)]]; discriminate. Qed.
Lemma calm_no_quit h : calm h -> no_quit h.
Proof. intros C. split; [intros X|intros c X]; destruct (C _ X) as [E|[E|(d & k' & E)]]; discriminate. Qed.
Lemma calm_leave c k : x_leave_ev c k = XTau \/ x_leave_ev c k = XNotify \/ exists d k', x_leave_ev c k = XRet d k'.
Proof. destruct k; cbn; eauto. Qed.
Ltac scalm := repeat match goal with
  | |- calm [] => apply calm_nil
  | |- calm (_ ++ _) => apply calm_app
  | |- calm (_ :: _) => apply calm_cons; [first [now left | now (right; left) | (right; right; eauto; fail) | apply calm_leave]|]
  | |- calm _ => assumption end.
#[global] Hint Resolve calm_nil calm_cons calm_app calm_leave : calm.

Lemma leave_same s c k : xrun (x_leave s c k) = xrun s /\ xpc (x_leave s c k) = xpc s /\
  xctl (x_leave s c k) = xctl s /\ xlock (x_leave s c k) = xlock s /\ forall d, d <> c -> xst (x_leave s c k) d = xst s d.
Proof. destruct k; cbn; unx; repeat split; auto; intros; rewrite xset_neq; auto. Qed.

(** Whoever holds the lock lets go of it by its own steps. *)
Lemma lock_freed s : XI s -> exists h s', xrun_to s h s' /\ calm h /\ xlock s' = None /\
  xrun s' = xrun s /\ xpc s' = xpc s /\ xctl s' = xctl s /\
  forall c, xlock s <> Some c -> xst s' c = xst s c.
Proof.
  intros I. destruct (xlock s) as [d|] eqn:L.
  2:{ exists [], s. repeat split; auto with calm. constructor. }
  pose proof (i_c _ I d) as C. unfold cinv in C.
  assert (G : forall s0 k, xst s0 d = CGap k -> exists s', xstep s0 XTau s' /\ xlock s' = None /\
     xrun s' = xrun s0 /\ xpc s' = xpc s0 /\ xctl s' = xctl s0 /\ forall c, d <> c -> xst s' c = xst s0 c).
  { intros s0 k E. eexists; split; [eapply x_block; eauto|]. unx. repeat split; auto. intros; apply xset_neq; auto. }
  destruct (xst s d) as [| |k|k|k|k|k|] eqn:E; try tauto.
  - destruct (xpred k s) eqn:P.
    + exists [x_leave_ev d k], (x_lock (x_leave s d k) None). destruct (leave_same s d k) as (A1 & A2 & A3 & A4 & A5).
      repeat split; auto with calm.
      * econstructor; [eapply x_check_yes; eauto|constructor].
      * intros c N. unx. apply A5. congruence.
    + destruct (G (x_st s d (CGap k)) k) as (s' & S' & B1 & B2 & B3 & B4 & B5); [unx; apply xset_eq|].
      exists [XTau; XTau], s'. repeat split; auto 7 with calm.
      * econstructor; [eapply x_check_no; eauto|]. econstructor; [eassumption|constructor].
      * intros c N. rewrite B5 by congruence. unx. apply xset_neq. congruence.
  - destruct (G s k E) as (s' & S' & B1 & B2 & B3 & B4 & B5).
    exists [XTau], s'. repeat split; auto 7 with calm.
    econstructor; [eassumption|constructor].
Qed.

(** A waiter whose predicate holds, and who is about to lock or to check, gets out. *)
Lemma wait_over s c k : XI s -> xpred k s = true -> xst s c = CLock k \/ xst s c = CCheck k ->
  exists h s', xrun_to s (h ++ [x_leave_ev c k]) s' /\ calm h /\ xrun s' = xrun s /\ xpc s' = xpc s /\
    xctl s' = xctl s /\ xst s' c = (match k with KDtor => CJoin | _ => CIdle end) /\
    (k = KStart -> xonc s' = ODone).
Proof.
  intros I P H.
  assert (G : forall s0, xst s0 c = CCheck k -> xpred k s0 = true -> exists s',
     xrun_to s0 [x_leave_ev c k] s' /\ xrun s' = xrun s0 /\ xpc s' = xpc s0 /\ xctl s' = xctl s0 /\
     xst s' c = (match k with KDtor => CJoin | _ => CIdle end) /\ (k = KStart -> xonc s' = ODone)).
  { intros s0 E P0. exists (x_lock (x_leave s0 c k) None). destruct (leave_same s0 c k) as (A1 & A2 & A3 & A4 & A5).
    split. { econstructor; [eapply x_check_yes; eauto|constructor]. }
    destruct k; cbn; unx; rewrite xset_eq; repeat split; auto; congruence. }
  destruct H as [E|E].
  - destruct (lock_freed s I) as (h & s1 & R & C & L & A1 & A2 & A3 & A4).
    assert (E1 : xst s1 c = CLock k).
    { rewrite A4; auto. pose proof (i_c _ I c) as D. unfold cinv in D. rewrite E in D. tauto. }
    destruct (G (x_lock (x_st s1 c (CCheck k)) (Some c))) as (s' & R' & B1 & B2 & B3 & B4 & B5).
    { unx. apply xset_eq. } { destruct k; cbn in *; unx; congruence. }
    exists (h ++ [XTau]), s'. unx. repeat split; try congruence; auto with calm.
    rewrite <- app_assoc. eapply xrun_app; eauto. cbn. econstructor; [eapply x_take; eauto|]. exact R'.
  - destruct (G s E P) as (s' & R' & B). exists [], s'. split; auto. split; auto with calm.
Qed.

(** Same, from anywhere inside the wait, if spurious wake-ups may happen. *)
Lemma wait_over_spurious s c k : XI s -> xpred k s = true ->
  xst s c = CLock k \/ xst s c = CCheck k \/ xst s c = CGap k \/ xst s c = CBlocked k ->
  exists h s', xrun_to s (h ++ [x_leave_ev c k]) s' /\ xrun s' = xrun s /\ xpc s' = xpc s /\
    xst s' c = (match k with KDtor => CJoin | _ => CIdle end).
Proof.
  intros I P H.
  assert (B : forall s0, XI s0 -> xpred k s0 = true -> xst s0 c = CBlocked k -> exists h s', xrun_to s0 (h ++ [x_leave_ev c k]) s' /\ xrun s' = xrun s0 /\ xpc s' = xpc s0 /\
    xst s' c = (match k with KDtor => CJoin | _ => CIdle end)).
  { intros s0 I0 P0 E.
    assert (St : xstep s0 (XSpurious c) (x_st s0 c (CLock k))) by (eapply x_spurious; eauto).
    destruct (wait_over (x_st s0 c (CLock k)) c k) as (h & s' & R & _ & A1 & A2 & _ & A4 & _).
    { eapply XI_step; eauto. } { destruct k; cbn in *; unx; auto. } { left. unx. apply xset_eq. }
    exists (XSpurious c :: h), s'. unx. repeat split; auto. cbn. econstructor; eauto. }
  destruct H as [E|[E|[E|E]]]; auto.
  - destruct (wait_over s c k) as (h & s' & R & _ & A1 & A2 & _ & A4 & _); auto. eauto 10.
  - destruct (wait_over s c k) as (h & s' & R & _ & A1 & A2 & _ & A4 & _); auto. eauto 10.
  - assert (St : xstep s XTau (x_lock (x_st s c (CBlocked k)) None)) by (eapply x_block; eauto).
    destruct (B (x_lock (x_st s c (CBlocked k)) None)) as (h & s' & R & A1 & A2 & A3).
    { eapply XI_step; eauto. } { destruct k; cbn in *; unx; auto. } { unx. apply xset_eq. }
    exists (XTau :: h), s'. unx. repeat split; auto. cbn. econstructor; eauto.
Qed.

(** ** Stopping *)
(** A quit request is pending or has been obeyed. *)
Definition quitting (s : xstate) : Prop :=
  0 < xctl s \/ (xrun s = false /\ past (xpc s)).

Lemma quitting_step s e s' : XI s -> xstep s e s' -> quitting s -> quitting s'.
Proof.
  intros I St Q. unfold quitting, past in *. pose proof (i_none _ I).
  inv St; unx; auto; try (destruct (leave_same s c k) as (A1 & A2 & A3 & A4 & A5); rewrite ?A1, ?A2, ?A3); auto;
    try (intuition (try congruence; lia)).
Qed.
Lemma quitting_asked_gen s h s' : XI s -> xrun_to s h s' -> quitting s \/ quit_asked h -> quitting s'.
Proof.
  intros I R. revert I. induction R; intros I Q.
  - destruct Q as [Q|[[]|[c []]]]; auto.
  - apply IHR; [eapply XI_step; eauto|]. destruct Q as [Q|Q].
    + left. eapply quitting_step; eauto.
    + destruct Q as [[->|Q]|[c [->|Q]]].
      * left. inv H; try (destruct k; discriminate). left. unx. lia.
      * right. now left.
      * left. inv H; try (destruct k; discriminate). left. unx. lia.
      * right. right. eauto.
Qed.
Lemma quitting_asked h s : xrun_to xinit h s -> quit_asked h -> quitting s.
Proof. intros. eapply quitting_asked_gen; eauto using XI_init. Qed.

(** What the loop thread's own steps do to a client. *)
Definition woken (x y : xclient) : Prop :=
  y = x \/ (exists k, x = CBlocked k /\ y = CLock k).
Lemma woken_refl x : woken x x. Proof. now left. Qed.
Lemma woken_trans x y z : woken x y -> woken y z -> woken x z.
Proof. unfold woken. intros [->|(k & -> & ->)] [->|(k' & E & ->)]; eauto. discriminate. Qed.
Lemma woken_notify s c : woken (xst s c) (xst (x_notify s) c).
Proof. unfold woken; unx. destruct (xst s c); eauto. Qed.

(** From any state past the thread's first statement with a quit request the loop thread ends by its
    own steps (if no task runs forever). *)
Lemma loop_ending s : XI s -> quitting s -> xpc s <> XNone -> xpc s <> XDone ->
  exists h s', xrun_to s h s' /\ calm h /\ xpc s' = XEnding /\ xrun s' = false /\ (forall c, woken (xst s c) (xst s' c)).
Proof.
  intros I Q N N'.
  assert (F : forall s, xpc s = XDrain -> xrun s = false -> exists h s', xrun_to s h s' /\ calm h /\ xpc s' = XEnding /\ xrun s' = false /\ (forall c, woken (xst s c) (xst s' c))).
  { clear. intros s E R. exists [XTau]. eexists. split.
    - econstructor; [eapply x_drain_done; eauto|]. constructor.
    - split; [auto 8 with calm|]. unx. repeat split; auto using woken_refl. }
  assert (T : forall s, XI s -> xpc s = XTop -> quitting s -> exists h s', xrun_to s h s' /\ calm h /\ xpc s' = XEnding /\ xrun s' = false /\ (forall c, woken (xst s c) (xst s' c))).
  { clear s I Q N N'. intros s I E Q. destruct (xrun s) eqn:R.
    - destruct Q as [Q|[Q _]]; [|congruence].
      destruct (F (x_pc (x_pc (x_run (x_ctl (x_pc s XPump) (xctl s - 1)) false) XTop) XDrain)) as (h & s' & A1 & A2 & A3 & A4 & A5); [reflexivity|reflexivity|].
      exists (XTau :: XTau :: XTau :: XTau :: h), s'. split.
      + econstructor; [eapply x_top_go; eauto|]. econstructor; [eapply x_pump_quit; [reflexivity|exact Q]|].
        econstructor; [eapply x_pump_done; reflexivity|]. econstructor; [eapply x_top_stop; reflexivity|]. exact A1.
      + repeat split; auto 8 with calm.
    - destruct (F (x_pc s XDrain)) as (h & s' & A1 & A2 & A3 & A4 & A5); [reflexivity|auto|].
      exists (XTau :: h), s'. split; [|repeat split; auto with calm].
      econstructor; [eapply x_top_stop; eauto|]. exact A1. }
  assert (RD : forall s, XI s -> xpc s = XReady -> quitting s -> exists h s', xrun_to s h s' /\ calm h /\ xpc s' = XEnding /\ xrun s' = false /\ (forall c, woken (xst s c) (xst s' c))).
  { clear s I Q N N'. intros s I E Q.
    assert (St : xstep s XNotify (x_pc (x_notify s) XTop)) by (now apply x_announce).
    destruct (T (x_pc (x_notify s) XTop)) as (h & s' & A1 & A2 & A3 & A4 & A5); [eapply XI_step; eauto|reflexivity|eapply quitting_step; eauto|].
    exists (XNotify :: h), s'. repeat split; auto with calm.
    - econstructor; eauto.
    - intros c. eapply woken_trans; [apply (woken_notify s c)|]. apply A5. }
  assert (SG : forall s, XI s -> xpc s = XStarting -> quitting s -> exists h s', xrun_to s h s' /\ calm h /\ xpc s' = XEnding /\ xrun s' = false /\ (forall c, woken (xst s c) (xst s' c))).
  { clear s I Q N N'. intros s I E Q.
    assert (St : xstep s XTau (x_pc s XReady)) by (now apply x_install).
    destruct (RD (x_pc s XReady)) as (h & s' & A1 & A2 & A3 & A4 & A5); [eapply XI_step; eauto|reflexivity|eapply quitting_step; eauto|].
    exists (XTau :: h), s'. repeat split; auto with calm. econstructor; eauto. }
  pose proof (i_run _ I) as IR. unfold live_pc in IR.
  destruct (xpc s) eqn:E; auto.
  - congruence.
  - assert (St : xstep s XTau (x_pc (x_run s true) XStarting)) by (now apply x_running).
    destruct (SG (x_pc (x_run s true) XStarting)) as (h & s' & A1 & A2 & A3 & A4 & A5); [eapply XI_step; eauto|reflexivity|eapply quitting_step; eauto|].
    exists (XTau :: h), s'. repeat split; auto with calm. econstructor; eauto.
  - assert (St : xstep s XTau (x_pc s XTop)) by (now apply x_pump_done).
    destruct (T (x_pc s XTop)) as (h & s' & A1 & A2 & A3 & A4 & A5); [eapply XI_step; eauto|reflexivity|eapply quitting_step; eauto|].
    exists (XTau :: h), s'. repeat split; auto with calm. econstructor; eauto.
  - apply F; auto. destruct (xrun s); auto. intuition discriminate.
  - exists [], s. repeat split; auto using woken_refl with calm; try constructor; auto. destruct (xrun s); auto. intuition discriminate.
  - congruence.
Qed.

(** ... and its last act wakes everybody who is asleep. *)
Lemma loop_ends s : XI s -> quitting s -> xpc s <> XNone ->
  exists h s', xrun_to s h s' /\ calm h /\ xpc s' = XDone /\ xrun s' = false /\ (forall c, woken (xst s c) (xst s' c)) /\
    (xpc s <> XDone -> forall c k, xst s' c <> CBlocked k).
Proof.
  intros I Q N.
  assert (D : xpc s = XDone \/ xpc s <> XDone) by (destruct (xpc s); auto; right; discriminate).
  destruct D as [D|D].
  - exists [], s. repeat split; auto using woken_refl with calm; try constructor; auto; try congruence.
    pose proof (i_run _ I) as IR. unfold live_pc in IR. destruct (xrun s); auto. intuition congruence.
  - destruct (loop_ending s I Q N D) as (h & s1 & R & Ca & P & F & W).
    exists (h ++ [XNotify]), (x_pc (x_notify s1) XDone). split; [|split; [scalm|]].
    + eapply xrun_app; eauto. econstructor; [now apply x_end|constructor].
    + unx. repeat split; auto.
      * intros c. eapply woken_trans; [apply W|]. apply (woken_notify s1 c).
      * intros _ c k. destruct (xst s1 c); discriminate.
Qed.

(** ** Start *)
Definition xev_dec (a b : xev) : {a = b} + {a <> b}.
Proof. repeat decide equality. Defined.

(** Without a quit request the loop, once running, stays running. *)
Definition NQ (s : xstate) : Prop :=
  xctl s = 0 /\ (past (xpc s) -> xrun s = true).
Lemma no_quit_cons e h : no_quit (e :: h) -> e <> XQuit /\ (forall c, e <> XCall c KDtor) /\ no_quit h.
Proof.
  intros [A B]. split; [intros ->; apply A; now left|]. split; [intros c ->; apply (B c); now left|].
  split; [intros X; apply A; now right|intros c X; apply (B c); now right].
Qed.
Lemma no_quit_app h1 h2 : no_quit (h1 ++ h2) -> no_quit h1 /\ no_quit h2.
Proof.
  intros [A B]. split; (split; [intros X; apply A; apply in_app_iff; auto|intros c X; apply (B c); apply in_app_iff; auto]).
Qed.
Lemma NQ_step s e s' : XI s -> xstep s e s' -> e <> XQuit -> (forall c, e <> XCall c KDtor) -> NQ s -> NQ s'.
Proof.
  intros I St N1 N2 [Z Rn]. unfold NQ, past in *. pose proof (i_none _ I).
  inv St; unx; auto; try (destruct (leave_same s c k) as (A1 & A2 & A3 & A4 & A5); rewrite ?A1, ?A2, ?A3); auto;
    try (elim (N2 c); reflexivity); try lia;
    try (intuition congruence).
Qed.
Lemma NQ_run s h s' : XI s -> xrun_to s h s' -> no_quit h -> NQ s -> NQ s'.
Proof.
  intros I R. revert I. induction R; auto. intros I Q N. apply no_quit_cons in Q. destruct Q as (Q1 & Q2 & Q3).
  apply IHR; auto. eapply XI_step; eauto. eapply NQ_step; eauto.
Qed.
Lemma NQ_init : NQ xinit.
Proof. split; auto. unfold past. cbn. tauto. Qed.

Lemma past_step s e s' : XI s -> xstep s e s' -> past (xpc s) -> past (xpc s').
Proof.
  intros I St P. unfold past in *. pose proof (i_none _ I).
  inv St; unx; auto; try (destruct (leave_same s c k) as (A1 & A2 & A3 & A4 & A5); rewrite ?A1, ?A2, ?A3); auto;
    intuition congruence.
Qed.
Lemma past_run s h s' : XI s -> xrun_to s h s' -> past (xpc s) -> past (xpc s').
Proof. intros I R. revert I. induction R; auto. intros. apply IHR; eauto using XI_step, past_step. Qed.

Lemma no_entry_start s c : XI s -> xst s c <> CEntry KStart.
Proof. intros I E. pose proof (i_c _ I c) as C. unfold cinv in C. rewrite E in C. tauto. Qed.

Lemma start_ret_past s c s' : XI s -> xstep s (XRet c KStart) s' -> past (xpc s').
Proof.
  intros I St. inv St.
  - unx. now apply (i_done _ I).
  - destruct k; try discriminate. match goal with E : xst s _ = CEntry KStart |- _ => elim (no_entry_start _ _ I E) end.
  - destruct k; try discriminate. cbn in *. unx. match goal with E : xrun s = true |- _ => pose proof (i_run _ I E) as L end.
    unfold live_pc, past in *. intuition congruence.
Qed.

Lemma started_past h s c : xrun_to xinit h s -> In (XRet c KStart) h -> past (xpc s).
Proof.
  intros R X. apply in_split in X. destruct X as (h1 & h2 & ->).
  destruct (xrun_split _ _ _ _ R) as (s1 & A & B). inv B.
  pose proof (XI_reach _ _ A) as I. eapply past_run; [eapply XI_step; eauto|eassumption|eapply start_ret_past; eauto].
Qed.

(** No starter is on its way to, or in, a sleep that nobody will end. *)
Definition NG (s : xstate) : Prop :=
  xrun s = true /\ xctl s = 0 /\ forall c, xst s c <> CGap KStart /\ xst s c <> CBlocked KStart.
Lemma NG_step s e s' : xstep s e s' -> e <> XQuit -> (forall c, e <> XCall c KDtor) -> NG s -> NG s'.
Proof.
  intros St N1 N2 (Rn & Z & G). unfold NG.
  assert (K : forall d, xst s' d <> CGap KStart /\ xst s' d <> CBlocked KStart).
  { intros d. pose proof (G d) as Gd. inv St; try (elim (N2 c); reflexivity); try congruence; lv; unx; auto;
    try (unfold xset; destruct (Nat.eqb_spec d c); [subst|auto]; split; try discriminate; try congruence;
         destruct k; cbn in *; congruence);
    try (destruct (xst s d); intuition congruence).
    unfold xset; destruct (Nat.eqb_spec d c); [subst|auto]. split; [discriminate|]. destruct (G c). congruence. }
  split; [|split; auto].
  - inv St; unx; auto; try (destruct (leave_same s c k) as (A1 & A2 & A3 & A4 & A5); rewrite ?A1, ?A2, ?A3); auto. lia.
  - inv St; unx; auto; try (destruct (leave_same s c k) as (A1 & A2 & A3 & A4 & A5); rewrite ?A1, ?A2, ?A3); auto;
    try congruence; try (elim (N2 c); reflexivity). lia.
Qed.
Lemma NG_run s h s' : xrun_to s h s' -> no_quit h -> NG s -> NG s'.
Proof.
  induction 1; auto. intros Q N. apply no_quit_cons in Q. destruct Q as (Q1 & Q2 & Q3).
  apply IHxrun_to; auto. eapply NG_step; eauto.
Qed.
Lemma NG_start s c : XI s -> NG s -> busy KStart (xst s c) -> exists h s', xrun_to s h s' /\ calm h /\ In (XRet c KStart) h.
Proof.
  intros I (Rn & Z & G) B. pose proof (i_c _ I c) as C. unfold cinv in C.
  assert (W : forall d, starter s d -> exists h s', xrun_to s (h ++ [XRet d KStart]) s' /\ calm h /\ xonc s' = ODone).
  { intros d [D1 D2]. destruct (wait_over s d KStart) as (h & s' & R & Ca & _ & _ & _ & _ & O); auto.
    - pose proof (G d). pose proof (i_c _ I d) as Cd. unfold cinv in Cd.
      destruct (xst s d) as [| |k|k|k|k|k|]; cbn in D1; subst; try congruence; try tauto.
    - exists h, s'. auto. }
  destruct (xst s c) as [| |k|k|k|k|k|] eqn:E; cbn in B; subst; try tauto; try discriminate.
  - destruct (xonc s) eqn:O; [tauto| |].
    + destruct (i_starter _ I O) as [d D]. destruct (W d D) as (h & s' & R & Ca & O').
      destruct (in_dec xev_dec (XRet c KStart) (h ++ [XRet d KStart])) as [X|X].
      * exists (h ++ [XRet d KStart]), s'. split; [auto|split; [scalm|auto]].
      * assert (B0 : busy KStart (xst s' c)) by (eapply busy_run; eauto; rewrite E; reflexivity).
        assert (E' : xst s' c = COnce).
        { pose proof (XI_run _ _ _ I R) as I'.
          destruct (is_starter (xst s' c)) eqn:IS.
          - apply starter_iff in IS. apply (i_once _ I') in IS. congruence.
          - pose proof (i_c _ I' c) as C'. unfold cinv in C'.
            destruct (xst s' c) as [| |k|k|k|k|k|]; cbn in B0; subst; auto; try discriminate; tauto. }
        exists ((h ++ [XRet d KStart]) ++ [XRet c KStart]), (x_st s' c CIdle). split.
        -- eapply xrun_app; eauto. econstructor; [now apply x_start_once_done|constructor].
        -- split; [scalm|]. apply in_app_iff; right; now left.
    + exists [XRet c KStart], (x_st s c CIdle). split; [|split; [scalm|now left]].
      econstructor; [now apply x_start_once_done|constructor].
  - destruct (W c) as (h & s' & R & Ca & _). { split; rewrite E; [reflexivity|discriminate]. }
    exists (h ++ [XRet c KStart]), s'. split; auto. split; [scalm|]. apply in_app_iff; right; now left.
  - destruct (W c) as (h & s' & R & Ca & _). { split; rewrite E; [reflexivity|discriminate]. }
    exists (h ++ [XRet c KStart]), s'. split; auto. split; [scalm|]. apply in_app_iff; right; now left.
  - destruct (G c). congruence.
  - destruct (G c). congruence.
Qed.

(** ** Waits that never end *)
Lemma stuck_start s h s' c : XI s -> xrun_to s h s' -> xpc s = XDone -> is_starter (xst s c) = true ->
  ~ In (XRet c KStart) h.
Proof.
  intros I R. revert I. induction R as [|s e s1 h s2 St R IH]; intros I P B; [intros []|].
  pose proof (i_run _ I) as IR. unfold live_pc in IR.
  assert (RF : xrun s = false) by (destruct (xrun s); auto; intuition congruence).
  assert (P1 : xpc s1 = XDone).
  { inv St; unx; auto; try congruence; try (destruct (leave_same s c0 k) as (A1 & A2 & A3 & A4 & A5); rewrite ?A1, ?A2, ?A3; auto).
    pose proof (i_none _ I). intuition congruence. }
  assert (N : e <> XRet c KStart).
  { intros ->. inv St.
    - match goal with E : xst s _ = COnce |- _ => rewrite E in B; discriminate end.
    - destruct k; try discriminate. match goal with E : xst s _ = CEntry KStart |- _ => elim (no_entry_start _ _ I E) end.
    - destruct k; try discriminate. cbn in *. congruence. }
  assert (B1 : is_starter (xst s1 c) = true).
  { assert (S : starter s c) by now apply starter_iff. destruct S as [S1 S2].
    pose proof (i_once _ I c) as O. rewrite starter_iff in O. specialize (O B).
    inv St; lv; unx; auto; try congruence;
     try (unfold xset; destruct (Nat.eqb_spec c c0); [subst|auto]; rewrite ?H, ?H0 in *; try discriminate; cbn in *; auto; fail). }
  intros [X|X]; [congruence|]. revert X. apply IH; eauto using XI_step.
Qed.

Lemma stuck_lost s h s' c : XI s -> xrun_to s h s' -> no_quit h -> no_spurious h ->
  xctl s = 0 -> xrun s = true -> (xpc s = XTop \/ xpc s = XPump) -> xst s c = CBlocked KStart ->
  ~ In (XRet c KStart) h.
Proof.
  intros I R. revert I. induction R as [|s e s1 h s2 St R IH]; intros I Q S Z Rn P B; [intros []|].
  apply no_quit_cons in Q. destruct Q as (Q1 & Q2 & Q3).
  assert (S1 : no_spurious h) by (intros d X; apply (S d); now right).
  assert (N : e <> XSpurious c) by (intros ->; apply (S c); now left).
  assert (W : forall d x, x <> CBlocked KStart -> xst s d = x -> d <> c) by (intros; congruence).
  assert (K : xctl s1 = 0 /\ xrun s1 = true /\ xst s1 c = CBlocked KStart /\ e <> XRet c KStart).
  { assert (L : forall d k, xst s d = CEntry k \/ xst s d = CCheck k -> xst (x_leave s d k) c = CBlocked KStart /\ x_leave_ev d k <> XRet c KStart).
    { intros d k E. assert (d <> c) by (intros ->; rewrite B in E; intuition congruence).
      destruct (leave_same s d k) as (A1 & A2 & A3 & A4 & A5). rewrite A5; auto. split; auto. destruct k; cbn; congruence. }
    inv St; unx; try lia;
     try (rewrite xset_neq by congruence; repeat split; auto; congruence);
     try (repeat split; auto; congruence).
    all: try (destruct (leave_same s c0 k) as (A1 & A2 & A3 & A4 & A5); destruct (L c0 k) as [L1 L2]; auto; rewrite A1, A3; auto; fail).
    all: try (elim (Q2 c0); reflexivity).
    all: intuition congruence. }
  destruct K as (K1 & K2 & K3 & K4).
  assert (P1 : xpc s1 = XTop \/ xpc s1 = XPump).
  { pose proof (i_none _ I) as IN. inv St; unx; auto; try (intuition congruence);
     try (destruct (leave_same s c0 k) as (A1 & A2 & A3 & A4 & A5); rewrite ?A1, ?A2, ?A3; auto).
    }
  intros [X|X]; [congruence|]. revert X. apply IH; eauto using XI_step.
Qed.

Lemma stuck_wait s h s' c k : XI s -> xrun_to s h s' -> no_spurious h -> xpc s = XDone -> xst s c = CBlocked k ->
  ~ In (XRet c k) h.
Proof.
  intros I R. revert I. induction R as [|s e s1 h s2 St R IH]; intros I S P B; [intros []|].
  assert (S1 : no_spurious h) by (intros d X; apply (S d); now right).
  assert (N : e <> XSpurious c) by (intros ->; apply (S c); now left).
  pose proof (i_none _ I) as IN.
  assert (K : xpc s1 = XDone /\ xst s1 c = CBlocked k /\ e <> XRet c k).
  { assert (L : forall d k', xst s d = CEntry k' \/ xst s d = CCheck k' -> xst (x_leave s d k') c = CBlocked k /\ x_leave_ev d k' <> XRet c k).
    { intros d k' E. assert (d <> c) by (intros ->; rewrite B in E; intuition congruence).
      destruct (leave_same s d k') as (A1 & A2 & A3 & A4 & A5). rewrite A5; auto. split; auto. destruct k'; cbn; congruence. }
    inv St; unx; try congruence;
     try (rewrite xset_neq by congruence; repeat split; auto; congruence);
     try (repeat split; auto; congruence).
    all: try (destruct (leave_same s c0 k0) as (A1 & A2 & A3 & A4 & A5); destruct (L c0 k0) as [L1 L2]; auto; rewrite A2; auto; fail).
    all: intuition congruence. }
  destruct K as (K1 & K2 & K3).
  intros [X|X]; [congruence|]. revert X. apply IH; eauto using XI_step.
Qed.

(** ** Stopping: the loop has ended *)
Definition after_announce (p : xloop) : Prop :=
  p = XTop \/ p = XPump \/ p = XDrain \/ p = XEnding \/ p = XDone.
Lemma announce_step s e s' : XI s -> xstep s e s' -> after_announce (xpc s) \/ e = XNotify -> after_announce (xpc s').
Proof.
  intros I St P. unfold after_announce in *. pose proof (i_none _ I).
  inv St; unx; auto; try (destruct (leave_same s c k) as (A1 & A2 & A3 & A4 & A5); rewrite ?A1, ?A2, ?A3); auto;
    try (destruct k; cbn in *); intuition congruence.
Qed.
Lemma announced h s : xrun_to xinit h s -> In XNotify h -> after_announce (xpc s).
Proof.
  assert (G : forall s h s', XI s -> xrun_to s h s' -> after_announce (xpc s) \/ In XNotify h -> after_announce (xpc s')).
  { clear. intros s h s' I R. revert I. induction R; intros I P.
    - destruct P as [P|[]]; auto.
    - apply IHR; eauto using XI_step. destruct P as [P|[P|P]]; auto; left; eapply announce_step; eauto. }
  intros R X. eapply G; eauto using XI_init.
Qed.

Definition ND (s : xstate) : Prop :=
  xpc s = XDone /\ forall c k, k <> KStart -> xst s c <> CGap k /\ xst s c <> CBlocked k.
Lemma ND_step s e s' : XI s -> xstep s e s' -> ND s -> ND s'.
Proof.
  intros I St (P & G). pose proof (i_none _ I) as IN. pose proof (i_run _ I) as IR. unfold live_pc in IR.
  assert (RF : xrun s = false) by (destruct (xrun s); auto; intuition congruence).
  split.
  - inv St; unx; auto; try congruence; try (destruct (leave_same s c k) as (A1 & A2 & A3 & A4 & A5); rewrite ?A1, ?A2, ?A3; auto).
    intuition congruence.
  - intros d k N. pose proof (G d k N) as Gd.
    inv St; try congruence; lv; unx; auto;
    try (unfold xset; destruct (Nat.eqb_spec d c); [subst|auto]; split; try discriminate; try congruence; fail).
    + unfold xset; destruct (Nat.eqb_spec d c); [subst|auto]. split; [|discriminate]. intros X. inv X.
      clear IR IN. destruct k; try congruence; unfold xpred in *; rewrite RF in *; discriminate.
    + unfold xset; destruct (Nat.eqb_spec d c); [subst|auto]. split; [discriminate|]. intros X. inv X.
      destruct (G c k N). congruence.
Qed.
Lemma ND_run s h s' : XI s -> xrun_to s h s' -> ND s -> ND s'.
Proof. intros I R. revert I. induction R; auto. intros. apply IHR; eauto using XI_step, ND_step. Qed.

Lemma join_ret s c : xst s c = CJoin -> xpc s = XDone \/ xpc s = XNone -> exists s', xrun_to s [XRet c KDtor] s'.
Proof. intros. eexists. econstructor; [now apply x_join|constructor]. Qed.

(** A call that is past its wait, or has not begun it, with the loop stopped. *)
Lemma leave_now s c k : XI s -> k <> KStart -> (xpc s = XDone \/ xpc s = XNone) -> xst s c = CEntry k \/ xst s c = CJoin /\ k = KDtor ->
  exists h s', xrun_to s h s' /\ calm h /\ In (XRet c k) h.
Proof.
  intros I N P E. pose proof (i_run _ I) as IR. unfold live_pc in IR.
  assert (RF : xrun s = false) by (destruct (xrun s); auto; intuition congruence).
  destruct E as [E|[E ->]].
  - assert (St : xstep s (x_leave_ev c k) (x_leave s c k)) by (now apply x_entry_ret).
    destruct k; [congruence| |]; cbn in St.
    + exists [XRet c KWait]. eexists. split; [econstructor; [eassumption|constructor]|].
      split; [scalm|now left].
    + destruct (join_ret (x_st s c CJoin) c) as (s' & R). { unx; apply xset_eq. } { auto. }
      exists [XTau; XRet c KDtor], s'. split; [econstructor; eauto|]. split; [scalm|right; now left].
  - destruct (join_ret s c) as (s' & R); auto. exists [XRet c KDtor], s'. split; auto. split; [scalm|now left].
Qed.

Lemma ND_ret s c k : XI s -> ND s -> k <> KStart -> busy k (xst s c) ->
  exists h s', xrun_to s h s' /\ calm h /\ In (XRet c k) h.
Proof.
  intros I (P & G) N B. pose proof (i_run _ I) as IR. unfold live_pc in IR.
  assert (RF : xrun s = false) by (destruct (xrun s); auto; intuition congruence).
  assert (W : xst s c = CLock k \/ xst s c = CCheck k -> exists h s', xrun_to s h s' /\ calm h /\ In (XRet c k) h).
  { intros E. destruct (wait_over s c k) as (h & s' & R & Ca & A1 & A2 & A3 & A4 & A5); auto.
    { destruct k; cbn; try congruence; now rewrite RF. }
    destruct k; [congruence| |]; cbn in *.
    - exists (h ++ [XRet c KWait]), s'. split; auto. split; [scalm|apply in_app_iff; right; now left].
    - destruct (join_ret s' c) as (s2 & R2); auto. { left; congruence. }
      exists ((h ++ [XTau]) ++ [XRet c KDtor]), s2. split; [eapply xrun_app; eauto|].
      split; [scalm|apply in_app_iff; right; now left]. }
  destruct (G c k N) as [G1 G2].
  destruct (xst s c) as [| |k0|k0|k0|k0|k0|] eqn:E; cbn in B; subst; try contradiction; try congruence; auto.
  - apply leave_now; auto.
  - apply leave_now; auto.
Qed.

(** With spurious wake-ups, every stop request can be served. *)
Lemma stop_ret s c k : XI s -> quitting s -> k <> KStart -> busy k (xst s c) ->
  exists h s', xrun_to s h s' /\ In (XRet c k) h.
Proof.
  intros I Q N B.
  destruct (xpc s) eqn:P.
  { assert (E : xst s c = CEntry k \/ xst s c = CJoin /\ k = KDtor).
    { pose proof (i_c _ I c) as C. unfold cinv, past in C. rewrite P in C.
      destruct (xst s c) as [| |k0|k0|k0|k0|k0|] eqn:E; cbn in B; subst; auto; try contradiction; try congruence;
      destruct k; try congruence; tauto. }
    destruct (leave_now s c k I N (or_intror P) E) as (h & s' & R & _ & X). eauto. }
  all: destruct (loop_ends s I Q ltac:(congruence)) as (h & s1 & R & _ & P1 & R1 & W & _);
    pose proof (XI_run _ _ _ I R) as I1; specialize (W c);
    assert (B1 : busy k (xst s1 c)) by (destruct W as [->|(k0 & E & ->)]; auto; rewrite E in B; exact B);
    assert (G : exists h s', xrun_to s1 h s' /\ In (XRet c k) h);
    [ clear - I1 N P1 R1 B1;
      destruct (xst s1 c) as [| |k0|k0|k0|k0|k0|] eqn:E; cbn in B1; subst; try contradiction; try congruence;
      [ destruct (leave_now s1 c k I1 N (or_introl P1) (or_introl E)) as (h & s' & R & _ & X); eauto
      | | | |
      | destruct (leave_now s1 c KDtor I1 N (or_introl P1) (or_intror (conj E eq_refl))) as (h & s' & R & _ & X); eauto ];
      (destruct (wait_over_spurious s1 c k I1) as (h & s' & R & A1 & A2 & A3);
        [destruct k; cbn; try congruence; now rewrite R1|tauto|];
        destruct k; [congruence| |]; cbn in *;
        [ exists (h ++ [XRet c KWait]), s'; split; auto; apply in_app_iff; right; now left
        | destruct (join_ret s' c) as (s2 & R2); auto; [left; congruence|];
          exists ((h ++ [XTau]) ++ [XRet c KDtor]), s2; split; [eapply xrun_app; eauto|apply in_app_iff; right; now left] ])
    | destruct G as (h' & s' & R' & X); exists (h ++ h'), s'; split; [eapply xrun_app; eauto|apply in_app_iff; auto] ].
Qed.

(** Until the loop's last notification, a stop call can still return by it. *)
Lemma stop_ret_notify s c k : XI s -> quitting s -> k <> KStart -> busy k (xst s c) -> xpc s <> XDone ->
  exists h s', xrun_to s h s' /\ calm h /\ In (XRet c k) h.
Proof.
  intros I Q N B D.
  assert (Gn : forall s, XI s -> quitting s -> busy k (xst s c) -> xpc s <> XDone -> xst s c <> CGap k ->
     exists h s', xrun_to s h s' /\ calm h /\ In (XRet c k) h).
  { clear s I Q B D. intros s I Q B D G.
    destruct (xpc s) eqn:P.
    { assert (E : xst s c = CEntry k \/ xst s c = CJoin /\ k = KDtor).
      { pose proof (i_c _ I c) as C. unfold cinv, past in C. rewrite P in C.
        destruct (xst s c) as [| |k0|k0|k0|k0|k0|] eqn:E; cbn in B; subst; auto; try contradiction; try congruence;
        destruct k; try congruence; tauto. }
      apply (leave_now s c k I N (or_intror P) E). }
    all: destruct (loop_ends s I Q ltac:(congruence)) as (h & s1 & R & Ca & P1 & R1 & W & Z);
      specialize (Z ltac:(congruence) c k);
      pose proof (XI_run _ _ _ I R) as I1; specialize (W c);
      assert (B1 : busy k (xst s1 c)) by (destruct W as [->|(k0 & E & ->)]; auto; rewrite E in B; exact B);
      assert (G1 : xst s1 c <> CGap k) by (destruct W as [->|(k0 & E & ->)]; auto; discriminate);
      assert (K : exists h s', xrun_to s1 h s' /\ calm h /\ In (XRet c k) h);
      [ clear - I1 N P1 R1 B1 G1 Z;
        destruct (xst s1 c) as [| |k0|k0|k0|k0|k0|] eqn:E; cbn in B1; subst; try contradiction; try congruence;
        [ apply (leave_now s1 c k I1 N (or_introl P1) (or_introl E))
        | |
        | apply (leave_now s1 c KDtor I1 N (or_introl P1) (or_intror (conj E eq_refl))) ];
        (destruct (wait_over s1 c k I1) as (h & s' & R & Ca & A1 & A2 & A3 & A4 & A5);
          [destruct k; cbn; try congruence; now rewrite R1|tauto|];
          destruct k; [congruence| |]; cbn in *;
          [ exists (h ++ [XRet c KWait]), s'; split; auto; split; [scalm|apply in_app_iff; right; now left]
          | destruct (join_ret s' c) as (s2 & R2); auto; [left; congruence|];
            exists ((h ++ [XTau]) ++ [XRet c KDtor]), s2; split; [eapply xrun_app; eauto|split; [scalm|apply in_app_iff; right; now left]] ])
      | destruct K as (h' & s' & R' & Ca' & X); exists (h ++ h'), s'; split; [eapply xrun_app; eauto|split; [scalm|apply in_app_iff; auto]] ]. }
  assert (Dg : xst s c = CGap k \/ xst s c <> CGap k).
  { destruct (xst s c) as [| |k0|k0|k0|k0|k0|]; try (right; discriminate). cbn in B. subst. now left. }
  destruct Dg as [G|G]; [|apply Gn; auto].
  assert (St : xstep s XTau (x_lock (x_st s c (CBlocked k)) None)) by (now apply x_block).
  destruct (Gn (x_lock (x_st s c (CBlocked k)) None)) as (h & s' & R & Ca & X).
  - eapply XI_step; eauto.
  - eapply quitting_step; eauto.
  - unx. rewrite xset_eq. reflexivity.
  - unx. auto.
  - unx. rewrite xset_eq. discriminate.
  - exists (XTau :: h), s'. split; [econstructor; eauto|]. split; [scalm|now right].
Qed.

(** Until the loop announces itself, every Start() can still return by the announcement. *)
Lemma start_ret_notify s c : XI s -> NQ s -> busy KStart (xst s c) -> ~ after_announce (xpc s) ->
  exists h s', xrun_to s h s' /\ calm h /\ In (XRet c KStart) h.
Proof.
  intros I Q B D.
  assert (Gn : forall s, XI s -> NQ s -> busy KStart (xst s c) -> ~ after_announce (xpc s) -> (forall d, xst s d <> CGap KStart) ->
     exists h s', xrun_to s h s' /\ calm h /\ In (XRet c KStart) h).
  { clear s I Q B D. intros s I Q B D G.
    assert (RD : forall s, XI s -> NQ s -> busy KStart (xst s c) -> xpc s = XReady -> (forall d, xst s d <> CGap KStart) ->
       exists h s', xrun_to s h s' /\ calm h /\ In (XRet c KStart) h).
    { clear s I Q B D G. intros s I [Z Q] B D G.
      assert (St : xstep s XNotify (x_pc (x_notify s) XTop)) by (now apply x_announce).
      destruct (NG_start (x_pc (x_notify s) XTop) c) as (h & s' & R & Ca & X).
      - eapply XI_step; eauto.
      - split; [unx; apply Q; unfold past; split; congruence|split; [exact Z|]]. intros d. unx. specialize (G d).
        destruct (xst s d); split; congruence.
      - unx. destruct (xst s c); auto.
      - exists (XNotify :: h), s'. split; [econstructor; eauto|split; [scalm|now right]]. }
    assert (SG : forall s, XI s -> NQ s -> busy KStart (xst s c) -> xpc s = XStarting -> (forall d, xst s d <> CGap KStart) ->
       exists h s', xrun_to s h s' /\ calm h /\ In (XRet c KStart) h).
    { clear s I Q B D G. intros s I Q B D G.
      assert (St : xstep s XTau (x_pc s XReady)) by (now apply x_install).
      destruct (RD (x_pc s XReady)) as (h & s' & R & Ca & X); auto.
      - eapply XI_step; eauto.
      - eapply NQ_step; eauto; discriminate.
      - exists (XTau :: h), s'. split; [econstructor; eauto|split; [scalm|now right]]. }
    unfold after_announce in D. pose proof (i_c _ I c) as C. unfold cinv in C.
    destruct (xpc s) eqn:P; try (intuition congruence); auto.
    - apply (i_none _ I) in P.
      destruct (xst s c) as [| |k0|k0|k0|k0|k0|]; cbn in B; subst; try contradiction; try congruence; try tauto;
      destruct C; congruence.
    - assert (St : xstep s XTau (x_pc (x_run s true) XStarting)) by (now apply x_running).
      destruct (SG (x_pc (x_run s true) XStarting)) as (h & s' & R & Ca & X); auto.
      + eapply XI_step; eauto.
      + eapply NQ_step; eauto; discriminate.
      + exists (XTau :: h), s'. split; [econstructor; eauto|split; [scalm|now right]]. }
  assert (Dg : (exists d, xst s d = CGap KStart) \/ forall d, xst s d <> CGap KStart).
  { destruct (xonc s) eqn:O.
    - right. intros d E. assert (S : starter s d) by (apply starter_iff; now rewrite E). apply (i_once _ I) in S. congruence.
    - destruct (i_starter _ I O) as [d S].
      assert (K : xst s d = CGap KStart \/ xst s d <> CGap KStart).
      { destruct (xst s d) as [| |k0|k0|k0|k0|k0|]; try (right; discriminate). destruct k0; auto; right; discriminate. }
      destruct K as [K|K]; [eauto|]. right. intros d' E. assert (S' : starter s d') by (apply starter_iff; now rewrite E).
      rewrite (i_uniq _ I _ _ S' S) in E. contradiction.
    - right. intros d E. assert (S : starter s d) by (apply starter_iff; now rewrite E). apply (i_once _ I) in S. congruence. }
  destruct Dg as [[d G]|G]; [|apply Gn; auto].
  assert (St : xstep s XTau (x_lock (x_st s d (CBlocked KStart)) None)) by (now apply x_block).
  destruct (Gn (x_lock (x_st s d (CBlocked KStart)) None)) as (h & s' & R & Ca & X).
  - eapply XI_step; eauto.
  - eapply NQ_step; eauto; discriminate.
  - eapply busy_step; eauto. discriminate.
  - unx. auto.
  - intros d' E. unx. unfold xset in E. destruct (Nat.eqb_spec d' d); [discriminate|].
    apply n. apply (i_uniq _ I); apply starter_iff; [now rewrite E|now rewrite G].
  - exists (XTau :: h), s'. split; [econstructor; eauto|]. split; [scalm|now right].
Qed.

Lemma announced_inv h s : xrun_to xinit h s -> after_announce (xpc s) -> In XNotify h.
Proof.
  assert (G : forall s h s', xrun_to s h s' -> after_announce (xpc s') -> after_announce (xpc s) \/ In XNotify h).
  { clear. induction 1 as [|s e s1 h s2 St R IH]; auto. intros A. destruct (IH A) as [B|B]; [|right; now right].
    unfold after_announce in *. inv St; unx; try (right; now left); auto; try (intuition congruence);
    try (destruct (leave_same s c k) as (A1 & A2 & A3 & A4 & A5); rewrite ?A2 in *; auto). }
  intros R A. destruct (G _ _ _ R A) as [B|B]; auto. unfold after_announce in B. cbn in B. intuition congruence.
Qed.
