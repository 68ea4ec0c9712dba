(** Proofs about CoMutex and WaitGroup. *)
From Verif.Model Require Import Common CoSync.
From Verif.Spec Require Import CoroSpec.
From Verif.Proofs Require Import Tac.

Lemma mset_same {A} (f : cid -> A) i x : mset f i x i = x.
Proof. unfold mset. now rewrite Nat.eqb_refl. Qed.
Lemma mset_other {A} (f : cid -> A) i j x : j <> i -> mset f i x j = f j.
Proof. unfold mset. intros H. apply Nat.eqb_neq in H. now rewrite H. Qed.

(** Program points at which the spin lock is held. *)
Definition inspin (x : mpc) : bool :=
  match x with MInL | MGot _ | MQueued | MInU | MFree | MPop _ | MInT | MFail => true | _ => false end.
(** Program points at which ownership is on its way to waiter w. *)
Definition transit (x : mpc) : option cid :=
  match x with MPop w | MRes w => Some w | _ => None end.

Inductive tk := TH (c : cid) | TT (c w : cid) | TG (w : cid).
Definition tok_at s t : Prop :=
  match t with
  | TH c => own (mp s c) = true
  | TT c w => transit (mp s c) = Some w
  | TG w => granted s w = true
  end.

Record MI (s : mstate) : Prop := {
  mi_spin1 : forall c, inspin (mp s c) = true -> spin s = true;
  mi_spin2 : forall c d, inspin (mp s c) = true -> inspin (mp s d) = true -> c = d;
  mi_tok : forall t u, tok_at s t -> tok_at s u -> t = u;
  mi_tl : forall t, tok_at s t -> mlocked s = true;
  mi_lt : mlocked s = true -> exists t, tok_at s t;
  mi_wl : waiters s <> [] -> mlocked s = true;
  mi_nd : NoDup (waiters s);
  mi_w : forall w, In w (waiters s) -> mp s w = MQueued \/ mp s w = MYield;
  mi_wt : forall c w, transit (mp s c) = Some w -> mp s w = MYield /\ ~ In w (waiters s);
  mi_wg : forall w, granted s w = true -> mp s w = MYield /\ ~ In w (waiters s);
  mi_q : forall w, mp s w = MQueued -> In w (waiters s);
  mi_y : forall w, mp s w = MYield -> In w (waiters s) \/ granted s w = true \/ exists c, transit (mp s c) = Some w
}.

Lemma MI_init : MI minit.
Proof.
  constructor; cbn; intros; try discriminate; try contradiction; auto.
  - destruct t; cbn in *; discriminate.
  - destruct t; cbn in *; discriminate.
  - constructor.
Qed.

Ltac ms :=
  repeat match goal with
  | H : context [mset _ ?c _ ?c] |- _ => rewrite mset_same in H
  | |- context [mset _ ?c _ ?c] => rewrite mset_same
  | H : context [mset _ ?c _ ?d], N : ?d <> ?c |- _ => rewrite (mset_other _ c d _ N) in H
  | N : ?d <> ?c |- context [mset _ ?c _ ?d] => rewrite (mset_other _ c d _ N)
  | H : context [mset _ ?c _ ?d] |- _ => destruct (Nat.eq_dec d c); [subst d|]
  | |- context [mset _ ?c _ ?d] => destruct (Nat.eq_dec d c); [subst d|]
  end.

(** A move of [c] between two points with the same ownership, transit and waiting role. *)
Definition waitrole (x : mpc) : bool := match x with MQueued | MYield => true | _ => false end.

Definition spin_ok s c y sp' : Prop :=
  (inspin y = true /\ sp' = true /\ (inspin (mp s c) = true \/ spin s = false)) \/
  (inspin y = false /\ (inspin (mp s c) = true \/ sp' = spin s)).

Lemma spin_part s c y sp' : MI s -> spin_ok s c y sp' ->
  (forall d, inspin (mset (mp s) c y d) = true -> sp' = true) /\
  (forall d f, inspin (mset (mp s) c y d) = true -> inspin (mset (mp s) c y f) = true -> d = f).
Proof.
  intros [S1 S2 _ _ _ _ _ _ _ _ _ _] [(Y & -> & X)|(Y & X)].
  - split; auto. 
    assert (U : forall d, inspin (mset (mp s) c y d) = true -> d = c).
    { intros e He. ms; auto. destruct X as [X|X]; [eauto|]. apply S1 in He. congruence. }
    intros d f Hd Hf. rewrite (U d), (U f); auto.
  - split.
    + intros d Hd. ms; [congruence|]. destruct X as [X| ->]; eauto.
    + intros d f Hd Hf. ms; try congruence; eauto.
Qed.

Lemma MI_move s c y sp' : MI s -> spin_ok s c y sp' ->
  own y = own (mp s c) -> transit y = transit (mp s c) -> waitrole y = waitrole (mp s c) ->
  (y = MQueued -> mp s c = MQueued) -> (mp s c = MYield -> y = MYield) ->
  MI (mkM sp' (mlocked s) (waiters s) (granted s) (mset (mp s) c y)).
Proof.
  intros K Sp O T W Q Y. pose proof (spin_part _ _ _ _ K Sp) as [P1 P2]. destruct K.
  assert (TE : forall t, tok_at (mkM sp' (mlocked s) (waiters s) (granted s) (mset (mp s) c y)) t <-> tok_at s t).
  { intros [d|d w|w]; cbn; [| |tauto]; ms; rewrite ?O, ?T; tauto. }
  assert (YY : forall w, mset (mp s) c y w = MYield -> mp s w = MYield \/ mp s w = MQueued).
  { intros w Hw. ms; auto. subst y. cbn in W. destruct (mp s c); try discriminate; auto. }
  assert (YB : forall w, mp s w = MYield -> mset (mp s) c y w = MYield).
  { intros w Hw. ms; auto. }
  constructor; cbn [spin mlocked waiters granted mp]; auto.
  - intros t u Ht Hu. apply mi_tok0; now apply TE.
  - intros t Ht. eapply mi_tl0. apply TE; eauto.
  - intros L. destruct (mi_lt0 L) as [t Ht]. exists t. now apply TE.
  - intros w Hw. apply mi_w0 in Hw. ms; auto.
    assert (X : waitrole y = true) by (rewrite W; destruct Hw as [-> | ->]; auto).
    destruct y; try discriminate; auto.
  - intros d w Hd. assert (D : transit (mp s d) = Some w) by (ms; congruence).
    apply mi_wt0 in D. destruct D; auto.
  - intros w Hw. apply mi_wg0 in Hw. destruct Hw; auto.
  - intros w Hw. apply mi_q0. ms; auto.
  - intros w Hw. apply YY in Hw. destruct Hw as [Hw|Hw]; [|left; auto].
    destruct (mi_y0 w Hw) as [?|[?|[d Hd]]]; auto. right; right. exists d. ms; congruence.
Qed.

(** [c] finds the mutex free and takes it. *)
Lemma MI_take s c t : MI s -> inspin (mp s c) = true -> transit (mp s c) = None -> waitrole (mp s c) = false ->
  mlocked s = false -> MI (mkM (spin s) true (waiters s) (granted s) (mset (mp s) c (MGot t))).
Proof.
  intros K I T W L.
  assert (Sp : spin_ok s c (MGot t) (spin s)).
  { left. repeat split; auto. destruct K; eauto. }
  pose proof (spin_part _ _ _ _ K Sp) as [P1 P2]. destruct K.
  assert (NT : forall t, ~ tok_at s t) by (intros u Hu; apply mi_tl0 in Hu; congruence).
  assert (NW : waiters s = []) by (destruct (waiters s); auto; assert (mlocked s = true) by (apply mi_wl0; congruence); congruence).
  assert (TE : forall u, tok_at (mkM (spin s) true (waiters s) (granted s) (mset (mp s) c (MGot t))) u -> u = TH c).
  { intros [d|d w|w]; cbn.
    - ms; auto. intros X. destruct (NT (TH d) X).
    - ms; cbn; try discriminate. intros X. destruct (NT (TT d w) X).
    - intros X. destruct (NT (TG w) X). }
  constructor; cbn [spin mlocked waiters granted mp]; auto.
  - intros u v Hu Hv. apply TE in Hu. apply TE in Hv. congruence.
  - intros _. exists (TH c). cbn. now rewrite mset_same.
  - rewrite NW. contradiction.
  - intros d w Hd. ms; cbn in *; try discriminate; destruct (NT (TT d _) Hd).
  - intros w Hw. destruct (NT (TG w) Hw).
  - intros w Hw. ms; try discriminate; auto.
  - intros w Hw. ms; try discriminate. destruct (mi_y0 w Hw) as [?|[X|[d Hd]]]; auto.
    destruct (NT (TT d w) Hd).
Qed.

Lemma MI_block s c : MI s -> mp s c = MInL -> mlocked s = true ->
  MI (mkM (spin s) (mlocked s) (waiters s ++ [c]) (granted s) (mset (mp s) c MQueued)).
Proof.
  intros K I L.
  assert (Sp : spin_ok s c MQueued (spin s)).
  { left. rewrite I. repeat split; auto. destruct K. eapply (mi_spin3 c). now rewrite I. }
  pose proof (spin_part _ _ _ _ K Sp) as [P1 P2]. destruct K.
  assert (TE : forall t, tok_at (mkM (spin s) (mlocked s) (waiters s ++ [c]) (granted s) (mset (mp s) c MQueued)) t <-> tok_at s t).
  { intros [d|d w|w]; cbn; [| |tauto]; ms; rewrite ?I; cbn; tauto. }
  assert (NI : ~ In c (waiters s)) by (intros X; apply mi_w0 in X; rewrite I in X; destruct X; discriminate).
  constructor; cbn [spin mlocked waiters granted mp]; auto.
  - intros t u Ht Hu. apply mi_tok0; now apply TE.
  - intros _. destruct (mi_lt0 L) as [t Ht]. exists t. now apply TE.
  - apply NoDup_Add with (a := c) (l := waiters s); [|split; auto].
    clear. induction (waiters s); cbn; constructor; auto.
  - intros w Hw. apply in_app_or in Hw. ms; auto. destruct Hw as [Hw|[->|[]]]; auto. congruence.
  - intros d w Hd. ms; cbn in *; try discriminate.
    + apply mi_wt0 in Hd. destruct Hd; congruence.
    + apply mi_wt0 in Hd. destruct Hd; split; auto. intros X. apply in_app_or in X. destruct X as [X|[X|[]]]; auto.
  - intros w Hw. apply mi_wg0 in Hw. destruct Hw. ms; [congruence|]. split; auto.
    intros X. apply in_app_or in X. destruct X as [X|[X|[]]]; auto.
  - intros w Hw. apply in_or_app. ms; [right; left; auto|left; auto].
  - intros w Hw. ms; try discriminate. destruct (mi_y0 w Hw) as [?|[?|[d Hd]]]; auto.
    + left; apply in_or_app; auto.
    + right; right. exists d. ms; auto. rewrite I in Hd; discriminate.
Qed.

Lemma MI_wake s c : MI s -> mp s c = MYield -> granted s c = true ->
  MI (mkM (spin s) (mlocked s) (waiters s) (mset (granted s) c false) (mset (mp s) c MHold)).
Proof.
  intros K I G.
  assert (Sp : spin_ok s c MHold (spin s)) by (right; split; auto).
  pose proof (spin_part _ _ _ _ K Sp) as [P1 P2]. destruct K.
  assert (UT : forall t, tok_at s t -> t = TG c) by (intros t Ht; apply mi_tok0; auto).
  assert (TE : forall t, tok_at (mkM (spin s) (mlocked s) (waiters s) (mset (granted s) c false) (mset (mp s) c MHold)) t -> t = TH c).
  { intros [d|d w|w]; cbn.
    - ms; auto. intros X. specialize (UT (TH d) X). discriminate.
    - ms; cbn; try discriminate. intros X. specialize (UT (TT d w) X). discriminate.
    - ms; try discriminate. intros X. specialize (UT (TG w) X). congruence. }
  pose proof (mi_wg0 c G) as [_ NI].
  assert (L : mlocked s = true) by (apply (mi_tl0 (TG c)); auto).
  constructor; cbn [spin mlocked waiters granted mp]; auto.
  - intros t u Ht Hu. apply TE in Ht; apply TE in Hu; congruence.
  - intros _. exists (TH c). cbn. now rewrite mset_same.
  - intros w Hw. ms; auto. contradiction.
  - intros d w Hd. ms; cbn in *; try discriminate.
    + specialize (UT (TT d c) Hd). discriminate.
    + eauto.
  - intros w Hw. ms; try discriminate. auto.
  - intros w Hw. ms; try discriminate. auto.
  - intros w Hw. ms; try discriminate. destruct (mi_y0 w Hw) as [?|[?|[d Hd]]]; auto.
    specialize (UT (TT d w) Hd). discriminate.
Qed.

Lemma MI_release s c : MI s -> mp s c = MInU -> waiters s = [] ->
  MI (mkM (spin s) false (waiters s) (granted s) (mset (mp s) c MFree)).
Proof.
  intros K I W.
  assert (Sp : spin_ok s c MFree (spin s)).
  { left. rewrite I. repeat split; auto. destruct K. eapply (mi_spin3 c). now rewrite I. }
  pose proof (spin_part _ _ _ _ K Sp) as [P1 P2]. destruct K.
  assert (UT : forall t, tok_at s t -> t = TH c) by (intros t Ht; apply mi_tok0; auto; cbn; now rewrite I).
  assert (TE : forall t, ~ tok_at (mkM (spin s) false (waiters s) (granted s) (mset (mp s) c MFree)) t).
  { intros [d|d w|w]; cbn.
    - ms; try discriminate. intros X. specialize (UT (TH d) X). congruence.
    - ms; cbn; try discriminate. intros X. specialize (UT (TT d w) X). discriminate.
    - intros X. specialize (UT (TG w) X). congruence. }
  constructor; cbn [spin mlocked waiters granted mp]; auto.
  - intros t u Ht Hu. destruct (TE _ Ht).
  - intros t Ht. destruct (TE _ Ht).
  - discriminate.
  - rewrite W; contradiction.
  - intros d w Hd. ms; cbn in *; try discriminate.
    + apply mi_wt0 in Hd. destruct Hd; congruence.
    + eauto.
  - intros w Hw. apply mi_wg0 in Hw. ms; auto. destruct Hw; congruence.
  - intros w Hw. ms; try discriminate. auto.
  - intros w Hw. ms; try discriminate. destruct (mi_y0 w Hw) as [?|[?|[d Hd]]]; auto.
    specialize (UT (TT d w) Hd). discriminate.
Qed.

Lemma MI_pop s c w r : MI s -> mp s c = MInU -> waiters s = w :: r ->
  MI (mkM (spin s) (mlocked s) r (granted s) (mset (mp s) c (MPop w))).
Proof.
  intros K I W.
  assert (SpT : inspin (mp s c) = true) by now rewrite I.
  assert (Sp : spin_ok s c (MPop w) (spin s)).
  { left. rewrite I. repeat split; auto. destruct K. eauto. }
  pose proof (spin_part _ _ _ _ K Sp) as [P1 P2]. destruct K.
  assert (UT : forall t, tok_at s t -> t = TH c) by (intros t Ht; apply mi_tok0; auto; cbn; now rewrite I).
  assert (NC : w <> c).
  { intros ->. assert (X : In c (waiters s)) by (rewrite W; left; auto). apply mi_w0 in X. rewrite I in X. destruct X; discriminate. }
  assert (WY : mp s w = MYield).
  { assert (X : In w (waiters s)) by (rewrite W; left; auto). apply mi_w0 in X. destruct X as [X|X]; auto.
    exfalso. apply NC. apply mi_spin4; auto. now rewrite X. }
  rewrite W in mi_nd0. inversion mi_nd0; subst.
  assert (TE : forall t, tok_at (mkM (spin s) (mlocked s) r (granted s) (mset (mp s) c (MPop w))) t -> t = TT c w).
  { intros [d|d v|v]; cbn.
    - ms; try discriminate. intros X. specialize (UT (TH d) X). congruence.
    - ms; cbn; [congruence|]. intros X. specialize (UT (TT d v) X). discriminate.
    - intros X. specialize (UT (TG v) X). congruence. }
  assert (L : mlocked s = true) by (apply mi_wl0; rewrite W; discriminate).
  constructor; cbn [spin mlocked waiters granted mp]; auto.
  - intros t u Ht Hu. apply TE in Ht; apply TE in Hu; congruence.
  - intros _. exists (TT c w). cbn. now rewrite mset_same.
  - intros v Hv. assert (X : In v (waiters s)) by (rewrite W; right; auto). apply mi_w0 in X. ms; auto.
    rewrite I in X; destruct X; discriminate.
  - intros d v Hd. destruct (Nat.eq_dec d c) as [->|Nd].
    + rewrite mset_same in Hd. cbn in Hd. injection Hd as <-. rewrite mset_other by auto. auto.
    + rewrite mset_other in Hd by auto. specialize (UT (TT d v) Hd). discriminate.
  - intros v Hv. specialize (UT (TG v) Hv). discriminate.
  - intros v Hv. ms; try discriminate. apply mi_q0 in Hv as X. rewrite W in X. destruct X as [X|X]; auto.
    subst v. congruence.
  - intros v Hv. ms; try discriminate. destruct (mi_y0 v Hv) as [X|[X|[d Hd]]]; auto.
    + rewrite W in X. destruct X as [<-|X]; auto. right; right. exists c. now rewrite mset_same.
    + specialize (UT (TT d v) Hd). discriminate.
Qed.

Lemma MI_resume s c w : MI s -> mp s c = MRes w ->
  MI (mkM (spin s) (mlocked s) (waiters s) (mset (granted s) w true) (mset (mp s) c MIdle)).
Proof.
  intros K I.
  assert (Sp : spin_ok s c MIdle (spin s)) by (right; split; auto).
  pose proof (spin_part _ _ _ _ K Sp) as [P1 P2]. destruct K.
  assert (TC : transit (mp s c) = Some w) by now rewrite I.
  assert (UT : forall t, tok_at s t -> t = TT c w) by (intros t Ht; apply mi_tok0; auto).
  pose proof (mi_wt0 c w TC) as [WY NI].
  assert (NC : w <> c) by congruence.
  assert (TE : forall t, tok_at (mkM (spin s) (mlocked s) (waiters s) (mset (granted s) w true) (mset (mp s) c MIdle)) t -> t = TG w).
  { intros [d|d v|v]; cbn.
    - ms; try discriminate. intros X. specialize (UT (TH d) X). congruence.
    - ms; cbn; try discriminate. intros X. specialize (UT (TT d v) X). congruence.
    - ms; auto. intros X. specialize (UT (TG v) X). congruence. }
  assert (L : mlocked s = true) by (apply (mi_tl0 (TT c w)); auto).
  constructor; cbn [spin mlocked waiters granted mp]; auto.
  - intros t u Ht Hu. apply TE in Ht; apply TE in Hu; congruence.
  - intros _. exists (TG w). cbn. now rewrite mset_same.
  - intros v Hv. apply mi_w0 in Hv. ms; auto. rewrite I in Hv; destruct Hv; discriminate.
  - intros d v Hd. ms; cbn in *; try discriminate; specialize (UT (TT d _) Hd); congruence.
  - intros v Hv. destruct (Nat.eq_dec v w) as [->|Nv].
    + rewrite mset_other by auto. auto.
    + rewrite mset_other in Hv by auto. specialize (UT (TG v) Hv). discriminate.
  - intros v Hv. ms; try discriminate. auto.
  - intros v Hv. destruct (Nat.eq_dec v c) as [->|Nv]; [rewrite mset_same in Hv; discriminate|].
    rewrite mset_other in Hv by auto.
    destruct (mi_y0 v Hv) as [X|[X|[d Hd]]]; auto.
    + specialize (UT (TG v) X). discriminate.
    + specialize (UT (TT d v) Hd). injection UT as _ ->. right; left. now rewrite mset_same.
Qed.

Lemma MI_step s e s' : MI s -> mstep s e s' -> (forall c, e <> MEStray c) -> MI s'.
Proof.
  intros K H NS. unfold at_pc in *.
  inversion H; subst; try (exfalso; eapply NS; reflexivity);
   try (unfold at_pc; apply MI_move; auto; unfold spin_ok; rewrite H0; cbn; auto 7; try discriminate; fail).
  - apply MI_take; auto; rewrite H0; auto.
  - now apply MI_block.
  - now apply MI_wake.
  - now apply MI_release.
  - now apply MI_pop.
  - now apply MI_resume.
  - apply MI_take; auto; rewrite H0; auto.
  - unfold at_pc. apply MI_move; auto; unfold spin_ok; rewrite H0; auto; try discriminate. left. repeat split; auto.
    destruct K. apply (mi_spin3 c). now rewrite H0.
Qed.

Definition nostray (h : list mev) := forall c, ~ In (MEStray c) h.
Lemma nostray_snoc h e : nostray (h ++ [e]) -> nostray h /\ forall c, e <> MEStray c.
Proof.
  intros N; split; intros c X; apply (N c); apply in_or_app; auto. right; left; auto.
Qed.
Lemma MI_run h s : mrun h s -> nostray h -> MI s.
Proof.
  induction 1; intros N; [apply MI_init|]. apply nostray_snoc in N as [N1 N2]. eauto using MI_step.
Qed.

(** ** Who is inside *)
Lemma inside_snoc h e : inside (h ++ [e]) = inside_step (inside h) e.
Proof. unfold inside. now rewrite fold_left_app. Qed.

(** Owning as an observer sees it: from the event that grants it to the unlock call. *)
Definition seen (x : mpc) : bool := match x with MGot _ | MHold => true | _ => false end.

Lemma inside_pc h s : mrun h s -> nostray h ->
  (forall c, In c (inside h) <-> seen (mp s c) = true) /\ NoDup (inside h).
Proof.
  induction 1 as [|h s e s' R IH St]; intros N.
  { split; cbn; [|constructor]. intros c; split; [intros []|discriminate]. }
  apply nostray_snoc in N as [N1 N2]. specialize (IH N1). destruct IH as [IH ND].
  rewrite inside_snoc.
  assert (SAME : forall c y, seen y = seen (mp s c) -> forall d, In d (inside h) <-> seen (mset (mp s) c y d) = true).
  { intros c y E d. rewrite IH. ms; rewrite ?E; tauto. }
  assert (NEW : forall c y, seen y = true -> seen (mp s c) = false ->
    (forall d, In d (c :: inside h) <-> seen (mset (mp s) c y d) = true) /\ NoDup (c :: inside h)).
  { intros c y E F. split.
    - intros d. cbn. rewrite IH. ms; [tauto|]. split; [intros [X|X]; congruence|auto].
    - constructor; auto. rewrite IH. congruence. }
  inversion St; subst; cbn [inside_step]; unfold at_pc; cbn [mp];
    try (split; [apply SAME; rewrite H; reflexivity|assumption]);
    try (apply NEW; [reflexivity|rewrite H; reflexivity]).
  - split.
    + intros d. split.
      * intros X. apply in_remove in X as [X Nd]. rewrite mset_other by auto. now apply IH.
      * intros X. ms; [discriminate|]. apply in_in_remove; auto. now apply IH.
    + clear -ND. induction (inside h) as [|x l IHl]; cbn; [constructor|].
      inversion ND; subst. destruct (Nat.eq_dec c x); auto. constructor; auto.
      intros X. apply in_remove in X. tauto.
Qed.

(** ** Order *)
Definition transit_list s (l : list cid) : Prop :=
  (l = [] /\ (forall c, transit (mp s c) = None) /\ (forall w, granted s w = false)) \/
  exists w, l = [w] /\ ((exists c, transit (mp s c) = Some w) \/ granted s w = true).

Lemma blocked_app a b : blocked (a ++ b) = blocked a ++ blocked b.
Proof. apply flat_map_app. Qed.
Lemma entered_app a b : entered_w (a ++ b) = entered_w a ++ entered_w b.
Proof. apply flat_map_app. Qed.

Lemma order_run h s : mrun h s -> nostray h ->
  exists l, transit_list s l /\ blocked h = entered_w h ++ l ++ waiters s.
Proof.
  induction 1 as [|h s e s' R IH St]; intros N.
  { exists []. split; auto. left. repeat split. }
  apply nostray_snoc in N as [N1 N2]. pose proof (MI_run _ _ R N1) as K.
  specialize (IH N1). destruct IH as (l & T & E). rewrite blocked_app, entered_app, E.
  assert (KEEP : forall c y lk ws sp, transit y = transit (mp s c) ->
     transit_list (mkM sp lk ws (granted s) (mset (mp s) c y)) l).
  { intros c y lk ws sp Ty. destruct T as [(-> & A & B)|(w & -> & C)].
    - left; cbn; repeat split; auto. intros d. ms; congruence.
    - right. exists w. split; auto. cbn. destruct C as [(d & C)|C]; auto. left. exists d. ms; congruence. }
  inversion St; subst; cbn [blocked entered_w flat_map]; rewrite ?app_nil_r; unfold at_pc; cbn [waiters];
    try (exists l; split; [apply KEEP; rewrite H; reflexivity|now rewrite <- ?app_assoc]; fail).
  - (* wake *) destruct T as [(-> & A & B)|(w & -> & C)]; [rewrite B in H0; discriminate|].
    assert (w = c).
    { destruct C as [(d & C)|C].
      - assert (X : TT d w = TG c) by (apply (mi_tok _ K); auto). discriminate.
      - assert (X : TG w = TG c) by (apply (mi_tok _ K); auto). congruence. }
    subst w. exists []. split; [|now rewrite <- ?app_assoc].
    left; cbn; repeat split; auto.
    + intros d. ms; auto. destruct (transit (mp s d)) eqn:X; auto.
      assert (Y : TT d c0 = TG c) by (apply (mi_tok _ K); auto). discriminate.
    + intros d. ms; auto. destruct (granted s d) eqn:X; auto.
      assert (Y : TG d = TG c) by (apply (mi_tok _ K); auto). congruence.
  - (* pop *)
    assert (l = []).
    { destruct T as [(-> & _)|(v & -> & C)]; auto. destruct C as [(d & C)|C].
      - assert (Y : TT d v = TH c) by (apply (mi_tok _ K); auto; cbn; now rewrite H). discriminate.
      - assert (Y : TG v = TH c) by (apply (mi_tok _ K); auto; cbn; now rewrite H). discriminate. }
    subst l. exists [w]. split.
    + right. exists w. split; auto. left. exists c. cbn. now rewrite mset_same.
    + now rewrite H0.
  - (* resume *)
    assert (l = [w]).
    { destruct T as [(-> & A & _)|(v & -> & C)]; [specialize (A c); rewrite H in A; discriminate|].
      destruct C as [(d & C)|C].
      - assert (Y : TT d v = TT c w) by (apply (mi_tok _ K); auto; cbn; now rewrite H). congruence.
      - assert (Y : TG v = TT c w) by (apply (mi_tok _ K); auto; cbn; now rewrite H). discriminate. }
    subst l. exists [w]. split; auto. right. exists w. split; auto. right. cbn. now rewrite mset_same.
Qed.

(** ** WaitGroup *)
Local Open Scope Z_scope.
Lemma added_app a b : added (a ++ b) = added a + added b.
Proof. induction a as [|[]]; cbn [added app]; lia. Qed.
Lemma dones_app a b : dones (a ++ b) = dones a + dones b.
Proof. induction a as [|[]]; cbn [dones app]; lia. Qed.

Lemma wcount_run h s : wrun h s -> wcount s = added h - dones h.
Proof.
  induction 1 as [|h s e s' R IH St]; [reflexivity|]. rewrite added_app, dones_app.
  inversion St; subst; cbn [added dones wcount]; lia.
Qed.

(** Every Done pairs with an earlier Add. *)
Definition paired (h : list wev) := forall a b, h = a ++ b -> dones a <= added a.
Lemma paired_snoc h e : paired (h ++ [e]) -> paired h.
Proof. intros P a b ->. apply (P a (b ++ [e])). now rewrite <- app_assoc. Qed.

Lemma wg_no_lost h s : wrun h s -> paired h -> wp s = WArming \/ wp s = WBlocked ->
  wcount s = 0 -> (0 < wpost s)%nat.
Proof.
  induction 1 as [|h s e s' R IH St]; intros P W Z.
  { cbn in W. destruct W; discriminate. }
  pose proof (paired_snoc _ _ P) as P'. specialize (IH P').
  assert (0 <= wcount s).
  { rewrite (wcount_run _ _ R). specialize (P' h []). rewrite app_nil_r in P'. specialize (P' eq_refl). lia. }
  inversion St; subst; cbn [wcount wpost wp] in *; try lia; try (destruct W; discriminate).
  - apply IH; auto. 
  - exfalso. destruct (wp s); try destruct W; congruence.
Qed.

Definition touched (h : list wev) := exists a b, h = a ++ WEDone :: b /\ dones a + 1 = added a.
Lemma touched_snoc h e : touched h -> touched (h ++ [e]).
Proof. intros (a & b & -> & E). exists a, (b ++ [e]). split; auto. now rewrite <- app_assoc. Qed.
Lemma wg_touched h s : wrun h s -> ((0 < wpost s)%nat \/ (wp s = WReady /\ wres s = false)) -> touched h.
Proof.
  induction 1 as [|h s e s' R IH St]; intros P.
  { cbn in P. destruct P as [|[]]; [lia|discriminate]. }
  inversion St; subst; cbn [wpost wp wres] in *; try (apply touched_snoc; auto; fail).
  - exists h, []. split; auto. pose proof (wcount_run _ _ R). lia.
  - apply touched_snoc; apply IH. destruct P as [P|[P _]]; [auto|discriminate].
  - apply touched_snoc; apply IH. destruct P as [P|[P _]]; [auto|discriminate].
  - apply touched_snoc; apply IH. destruct P as [P|[P _]]; [auto|discriminate].
  - apply touched_snoc; apply IH. left; lia.
  - apply touched_snoc; apply IH. destruct P as [P|[_ P]]; [auto|discriminate].
  - apply touched_snoc; apply IH. destruct P as [P|[P _]]; [auto|discriminate].
Qed.
