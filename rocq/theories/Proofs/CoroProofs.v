(** Proofs about the coroutine runner. *)
From Verif.Model Require Import Common Coro.
From Verif.Spec Require Import CoroSpec.
From Verif.Proofs Require Import Tac.

Lemma upd_same {A} (f : nat -> A) i x : upd f i x i = x.
Proof. unfold upd. now rewrite Nat.eqb_refl. Qed.
Lemma upd_other {A} (f : nat -> A) i j x : j <> i -> upd f i x j = f j.
Proof. unfold upd. intros H. apply Nat.eqb_neq in H. now rewrite H. Qed.

Lemma existsb_eqb c l : existsb (Nat.eqb c) l = true <-> In c l.
Proof.
  rewrite existsb_exists. split.
  - intros (x & Hx & E). apply Nat.eqb_eq in E. now subst.
  - intros H. exists c. split; auto. apply Nat.eqb_refl.
Qed.

Lemma nth_error_nil {A} n : nth_error (@nil A) n = None.
Proof. now destruct n. Qed.

Definition live (x : costat) : Prop := x = CRun \/ x = CSusp.

(** [since P h]: the last events of h satisfying [P]... [noafter c h] : no start of c in h. *)
Definition nostart (c : co) (h : list cev) := forall e, In e h -> ~ starts_co c e.
Definition nomove (c : co) (h : list cev) := forall e, In e h -> ~ moves_co c e.

Record KI (h : list cev) (s : rstate) : Prop := {
  ki_cur : forall c, cur s = Some c <-> stat s c = CRun;
  ki_ready : forall c, In c (ready s) -> live (stat s c);
  ki_nodup : NoDup (ready s);
  ki_le : forall r c id, nth_error (resumers s) r = Some (c, id) -> id <= rid s c;
  (* a resumer of the current run was taken since the last start *)
  ki_take : forall r c, nth_error (resumers s) r = Some (c, rid s c) ->
    exists h1 h2, h = h1 ++ ETake c r :: h2 /\ nostart c h2;
  ki_took : forall h1 h2 c r, h = h1 ++ ETake c r :: h2 -> nostart c h2 ->
    nth_error (resumers s) r = Some (c, rid s c);
  ki_len : forall c r, In (ETake c r) h -> r < length (resumers s);
  ki_cause : forall c, In c (ready s) ->
    exists h1 h2 h3 r, h = h1 ++ ETake c r :: h2 ++ ECall r :: h3 /\ nostart c h2 /\ nostart c h3;
  ki_eff : forall h1 h2 h3 c r, h = h1 ++ ETake c r :: h2 ++ ECall r :: h3 ->
    nostart c h2 -> nostart c h3 -> live (stat s c) -> In c (ready s);
  ki_susp : forall c, stat s c = CSusp -> exists h1 h2, h = h1 ++ ESuspend c :: h2 /\ nomove c h2
}.

Lemma snoc_split {A} (h h1 h2 : list A) e x : h ++ [e] = h1 ++ x :: h2 ->
  (h2 = [] /\ x = e /\ h1 = h) \/ exists h2', h2 = h2' ++ [e] /\ h = h1 ++ x :: h2'.
Proof.
  destruct h2 as [|y h2] using rev_ind; intros H.
  - left. apply app_inj_tail in H. destruct H; auto.
  - right. exists h2. rewrite app_comm_cons, app_assoc in H. apply app_inj_tail in H. destruct H; subst; auto.
Qed.

Lemma nostart_app c a b : nostart c (a ++ b) <-> nostart c a /\ nostart c b.
Proof.
  unfold nostart. split.
  - intros H; split; intros e He; apply H; apply in_or_app; auto.
  - intros [H1 H2] e He. apply in_app_or in He. destruct He; auto.
Qed.
Lemma nostart_1 c e : nostart c [e] <-> ~ starts_co c e.
Proof. split; [intros H; apply H; left; auto|intros H x [<-|[]]; auto]. Qed.
Lemma nostart_nil c : nostart c [].
Proof. intros e []. Qed.
Lemma nomove_nil c : nomove c [].
Proof. intros e []. Qed.
Lemma nomove_snoc c h e : nomove c h -> ~ moves_co c e -> nomove c (h ++ [e]).
Proof. intros H N x Hx. apply in_app_or in Hx. destruct Hx as [Hx|[<-|[]]]; auto. Qed.

(** A non-starting event keeps everything about [c] that refers to the current run. *)
Lemma keep_take c r h e : ~ starts_co c e ->
  (exists h1 h2, h = h1 ++ ETake c r :: h2 /\ nostart c h2) ->
  exists h1 h2, h ++ [e] = h1 ++ ETake c r :: h2 /\ nostart c h2.
Proof.
  intros N (h1 & h2 & -> & H). exists h1, (h2 ++ [e]). split. now rewrite <- app_assoc.
  apply nostart_app; split; auto. now apply nostart_1.
Qed.
Lemma keep_cause c h e : ~ starts_co c e ->
  (exists h1 h2 h3 r, h = h1 ++ ETake c r :: h2 ++ ECall r :: h3 /\ nostart c h2 /\ nostart c h3) ->
  exists h1 h2 h3 r, h ++ [e] = h1 ++ ETake c r :: h2 ++ ECall r :: h3 /\ nostart c h2 /\ nostart c h3.
Proof.
  intros N (h1 & h2 & h3 & r & -> & H2 & H3). exists h1, h2, (h3 ++ [e]), r. repeat split; auto.
  { rewrite <- app_assoc. cbn. rewrite <- app_assoc. reflexivity. }
  apply nostart_app; split; auto. now apply nostart_1.
Qed.
Lemma keep_susp c h e : ~ moves_co c e ->
  (exists h1 h2, h = h1 ++ ESuspend c :: h2 /\ nomove c h2) ->
  exists h1 h2, h ++ [e] = h1 ++ ESuspend c :: h2 /\ nomove c h2.
Proof.
  intros N (h1 & h2 & -> & H). exists h1, (h2 ++ [e]). split. now rewrite <- app_assoc.
  now apply nomove_snoc.
Qed.
(** Decomposing a longer history. *)
Lemma back_took c r h e h1 h2 : h ++ [e] = h1 ++ ETake c r :: h2 -> nostart c h2 ->
  (e = ETake c r /\ h1 = h /\ h2 = []) \/
  (~ starts_co c e /\ exists h2', h2 = h2' ++ [e] /\ h = h1 ++ ETake c r :: h2' /\ nostart c h2').
Proof.
  intros E N. apply snoc_split in E. destruct E as [(-> & <- & ->)|(h2' & -> & ->)]; auto.
  right. apply nostart_app in N as [N1 N2]. apply nostart_1 in N2. eauto.
Qed.
Lemma back_eff c r h e h1 h2 h3 : h ++ [e] = h1 ++ ETake c r :: h2 ++ ECall r :: h3 -> nostart c h2 -> nostart c h3 ->
  (e = ECall r /\ h3 = [] /\ h = h1 ++ ETake c r :: h2) \/
  (~ starts_co c e /\ exists h3', h3 = h3' ++ [e] /\ h = h1 ++ ETake c r :: h2 ++ ECall r :: h3' /\ nostart c h3').
Proof.
  intros E N N3. rewrite app_comm_cons, app_assoc in E. apply snoc_split in E. destruct E as [(-> & <- & <-)|(h2' & -> & E)]; auto.
  right. apply nostart_app in N3 as [N1 N2]. apply nostart_1 in N2. split; auto. exists h2'. repeat split; auto.
  now rewrite <- app_assoc in E.
Qed.

Lemma KI_init : KI [] rinit.
Proof.
  constructor; cbn; intros; try contradiction; try discriminate.
  - split; discriminate.
  - constructor.
  - rewrite nth_error_nil in H; discriminate.
  - rewrite nth_error_nil in H; discriminate.
  - destruct h1; discriminate.
  - destruct h1; discriminate.
Qed.

(** Steps that change neither run ids, statuses, resumers nor the ready list, with an event that
    mentions no coroutine. *)
Definition quiet (e : cev) := match e with ETau | ERemote _ => True | _ => False end.

Lemma KI_quiet h s e s' : KI h s -> quiet e ->
  rid s' = rid s -> ready s' = ready s -> resumers s' = resumers s ->
  (forall c, live (stat s' c) -> stat s' c = stat s c) ->
  (forall c, live (stat s c) -> stat s' c = stat s c) ->
  cur s' = cur s -> KI (h ++ [e]) s'.
Proof.
  intros K Q E1 E2 E3 L1 L2 E4. destruct K.
  assert (NS : forall c, ~ starts_co c e) by (intros c [X|X]; subst; auto).
  assert (NM : forall c, ~ moves_co c e) by (intros c [[X|X]|[X|X]]; subst; auto).
  constructor; rewrite ?E1, ?E2, ?E3, ?E4; auto.
  - intros c. rewrite ki_cur0. split; intros H.
    + rewrite L2; auto. rewrite H; left; auto.
    + rewrite L1 in H; auto. rewrite H; left; auto.
  - intros c Hc. specialize (ki_ready0 c Hc). rewrite L2; auto.
  - intros. apply keep_take; auto.
  - intros h1 h2 c r E N. apply back_took in E; auto. destruct E as [(-> & _)|(_ & h2' & -> & -> & N')]; [now cbn in Q|].
    eapply ki_took0; eauto.
  - intros c r H. apply in_app_or in H. destruct H as [H|[H|[]]]; eauto. subst; now cbn in Q.
  - intros. apply keep_cause; auto.
  - intros h1 h2 h3 c r E N2 N3 L. apply back_eff in E; auto. destruct E as [(-> & _)|(_ & h3' & -> & -> & N')]; [now cbn in Q|].
    eapply ki_eff0; eauto. rewrite <- L1; auto.
  - intros c Hc. apply keep_susp; auto. apply ki_susp0. rewrite <- L1; auto. right; auto.
Qed.

(** Switching to [c] (spawn or wake). *)
Lemma KI_switch h s e c rd : KI h s -> e = ESpawn c \/ e = EWake c -> cur s = None ->
  NoDup rd -> ~ In c rd -> (forall x, In x rd <-> In x (ready s) /\ x <> c) ->
  KI (h ++ [e]) (switch_to (mkR (rid s) (stat s) rd (cur s) (resumers s) (inbox s) (aborted s)) c).
Proof.
  intros K Ee Hc ND NI RD. destruct K.
  assert (SC : starts_co c e) by (destruct Ee; subst; [left|right]; auto).
  assert (NS : forall x, x <> c -> ~ starts_co x e) by (intros x Nx [X|X]; destruct Ee; subst; congruence).
  assert (NM : forall x, x <> c -> ~ moves_co x e) by (intros x Nx [[X|X]|[X|X]]; destruct Ee; subst; congruence).
  assert (NT : forall x r, e <> ETake x r) by (destruct Ee; subst; congruence).
  assert (NC : forall r, e <> ECall r) by (destruct Ee; subst; congruence).
  assert (OTH : forall x, x <> c -> stat s x <> CRun).
  { intros x Nx X. apply ki_cur0 in X. congruence. }
  constructor; cbn [switch_to rid stat ready cur resumers].
  - intros x. destruct (Nat.eq_dec x c) as [->|Nx].
    + rewrite upd_same. tauto.
    + rewrite upd_other by auto. split; [congruence|]. intros X. now apply OTH in X.
  - intros x Hx. apply RD in Hx as [Hx Nx]. rewrite upd_other by auto. auto.
  - auto.
  - intros r x id H. specialize (ki_le0 _ _ _ H). destruct (Nat.eq_dec x c) as [->|Nx].
    + rewrite upd_same; lia. + rewrite upd_other; auto.
  - intros r x H. destruct (Nat.eq_dec x c) as [->|Nx].
    + rewrite upd_same in H. apply ki_le0 in H. lia.
    + rewrite upd_other in H by auto. apply keep_take; auto.
  - intros h1 h2 x r E N. apply back_took in E; auto.
    destruct E as [(E & _)|(Ns & h2' & -> & -> & N')]; [now apply NT in E|].
    destruct (Nat.eq_dec x c) as [->|Nx]; [contradiction|]. rewrite upd_other by auto. eauto.
  - intros x r H. apply in_app_or in H. destruct H as [H|[H|[]]]; eauto. now apply NT in H.
  - intros x Hx. apply RD in Hx as [Hx Nx]. apply keep_cause; auto.
  - intros h1 h2 h3 x r E N2 N3 L. apply back_eff in E; auto.
    destruct E as [(E & _)|(Ns & h3' & -> & -> & N')]; [now apply NC in E|].
    destruct (Nat.eq_dec x c) as [->|Nx]; [contradiction|]. rewrite upd_other in L by auto.
    apply RD. split; auto. eapply ki_eff0; eauto.
  - intros x Hx. destruct (Nat.eq_dec x c) as [->|Nx].
    + rewrite upd_same in Hx; discriminate.
    + rewrite upd_other in Hx by auto. apply keep_susp; auto.
Qed.

(** Leaving [c] (suspend or exit). *)
Lemma KI_leave h s e c x : KI h s -> cur s = Some c ->
  (e = ESuspend c /\ x = CSusp) \/ (e = EExit c /\ (x = CFree \/ x = CGc) /\ ~ In c (ready s)) ->
  KI (h ++ [e]) (mkR (rid s) (upd (stat s) c x) (ready s) None (resumers s) (inbox s) (aborted s)).
Proof.
  intros K Hc Ee. destruct K.
  assert (SC : stat s c = CRun) by (apply ki_cur0; auto).
  assert (NS : forall y, ~ starts_co y e) by (intros y [X|X]; destruct Ee as [[]|[]]; subst; congruence).
  assert (NM : forall y, y <> c -> ~ moves_co y e).
  { intros y Ny [[X|X]|[X|X]]; destruct Ee as [[]|[]]; subst; try congruence. }
  assert (NT : forall y r, e <> ETake y r) by (intros; destruct Ee as [[]|[]]; subst; congruence).
  assert (NC : forall r, e <> ECall r) by (intros; destruct Ee as [[]|[]]; subst; congruence).
  assert (XR : x <> CRun) by (destruct Ee as [[]|[? [[] ?]]]; congruence).
  constructor; cbn [rid stat ready cur resumers]; auto.
  - intros y. split; [discriminate|]. destruct (Nat.eq_dec y c) as [->|Ny].
    + rewrite upd_same. congruence.
    + rewrite upd_other by auto. intros X. apply ki_cur0 in X. congruence.
  - intros y Hy. destruct (Nat.eq_dec y c) as [->|Ny].
    + rewrite upd_same. destruct Ee as [[]|(? & ? & ?)]; subst; [right; auto|contradiction].
    + rewrite upd_other by auto. auto.
  - intros. apply keep_take; auto.
  - intros h1 h2 y r E N. apply back_took in E; auto.
    destruct E as [(E & _)|(Ns & h2' & -> & -> & N')]; [now apply NT in E|]. eauto.
  - intros y r H. apply in_app_or in H. destruct H as [H|[H|[]]]; eauto. now apply NT in H.
  - intros. apply keep_cause; auto.
  - intros h1 h2 h3 y r E N2 N3 L. apply back_eff in E; auto.
    destruct E as [(E & _)|(Ns & h3' & -> & -> & N')]; [now apply NC in E|].
    eapply ki_eff0; eauto. destruct (Nat.eq_dec y c) as [->|Ny].
    + rewrite SC. left; auto. + rewrite upd_other in L by auto. auto.
  - intros y Hy. destruct (Nat.eq_dec y c) as [->|Ny].
    + rewrite upd_same in Hy. destruct Ee as [[-> _]|(_ & [] & _)]; try congruence.
      exists h, []. split; auto. apply nomove_nil.
    + rewrite upd_other in Hy by auto. apply keep_susp; auto.
Qed.

(** A resumer taking effect. *)
Lemma KI_call h s r c id ib : KI h s -> nth_error (resumers s) r = Some (c, id) ->
  KI (h ++ [ECall r]) (do_resume (mkR (rid s) (stat s) (ready s) (cur s) (resumers s) ib (aborted s)) c id).
Proof.
  intros K Hr.
  set (s1 := mkR (rid s) (stat s) (ready s) (cur s) (resumers s) ib (aborted s)).
  assert (NS : forall y, ~ starts_co y (ECall r)) by (intros y [X|X]; congruence).
  assert (NM : forall y, ~ moves_co y (ECall r)) by (intros y [[X|X]|[X|X]]; congruence).
  (* what happens to the ready list *)
  assert (RD : exists rd, do_resume s1 c id = mkR (rid s) (stat s) rd (cur s) (resumers s) ib (aborted s) /\
     ((rd = ready s /\ (rid s c = id -> live (stat s c) -> In c (ready s))) \/
      (rd = ready s ++ [c] /\ rid s c = id /\ ~ In c (ready s) /\ live (stat s c)))).
  { unfold do_resume. cbn [stat rid s1].
    assert (A : attached s1 c = attached s c) by reflexivity. rewrite A. unfold attached.
    destruct (stat s c) eqn:St.
    1,6: exists (ready s); split; [reflexivity|left; split; auto; intros _ [X|X]; congruence].
    all: destruct (Nat.eqb_spec (rid s c) id) as [E|E]; cbn [andb];
      [destruct (existsb (Nat.eqb c) (ready s)) eqn:X; cbn [orb negb] |].
    all: try (exists (ready s); split; [reflexivity|left; split; [reflexivity|]; intros; try congruence; now apply existsb_eqb]).
    1,2: exists (ready s ++ [c]); split; [reflexivity|right; repeat split; auto; [|unfold live; auto]];
      intros HI; apply existsb_eqb in HI; congruence.
    all: exists (ready s); split; [reflexivity|left; split; auto; intros _ [Y|Y]; congruence]. }
  destruct RD as (rd & -> & RD). destruct K.
  constructor; cbn [rid stat ready cur resumers]; auto.
  - intros y Hy. destruct RD as [[-> _]|(-> & _ & _ & L)]; auto.
    apply in_app_or in Hy. destruct Hy as [Hy|[<-|[]]]; auto.
  - destruct RD as [[-> _]|(-> & _ & L & _)]; auto.
    apply NoDup_Add with (a := c) (l := ready s); [|split; auto].
    clear. induction (ready s); cbn; constructor; auto.
  - intros. apply keep_take; auto.
  - intros h1 h2 y r' E N. apply back_took in E; auto.
    destruct E as [(E & _)|(Ns & h2' & -> & -> & N')]; [congruence|]. eauto.
  - intros y r' H. apply in_app_or in H. destruct H as [H|[H|[]]]; eauto. congruence.
  - intros y Hy. destruct RD as [[-> _]|(-> & E & L & _)].
    + apply keep_cause; auto.
    + apply in_app_or in Hy. destruct Hy as [Hy|[<-|[]]]; [apply keep_cause; auto|].
      subst id. destruct (ki_take0 _ _ Hr) as (h1 & h2 & -> & N).
      exists h1, h2, [], r. repeat split; auto. now rewrite <- app_assoc. apply nostart_nil.
  - intros h1 h2 h3 y r' E N2 N3 L. apply back_eff in E; auto.
    destruct E as [(E & -> & ->)|(Ns & h3' & -> & -> & N')].
    + injection E as ->. pose proof (ki_took0 _ _ _ _ eq_refl N2) as T. rewrite Hr in T. injection T as -> ->.
      destruct RD as [[-> A]|(-> & _)]; [auto|apply in_or_app; right; left; auto].
    + assert (In y (ready s)) by eauto. destruct RD as [[-> _]|(-> & _)]; auto. apply in_or_app; auto.
  - intros y Hy. apply keep_susp; auto.
Qed.

Lemma KI_step h s e s' : KI h s -> kstep s e s' -> KI (h ++ [e]) s'.
Proof.
  intros K H. pose proof K as K0. destruct H.
  - assert (NR : ~ In c (ready s)).
    { intros X. apply (ki_ready _ _ K) in X. destruct H0 as [E|E]; rewrite E in X; destruct X; discriminate. }
    replace s with (mkR (rid s) (stat s) (ready s) (cur s) (resumers s) (inbox s) (aborted s)) by (destruct s; auto).
    apply KI_switch; auto. apply (ki_nodup _ _ K). intros x; split; [|tauto]. intros Hx; split; auto. intros ->; auto.
  - destruct K.
    assert (NS : forall y r, ~ starts_co y (ETake c r)) by (intros y r [X|X]; congruence).
    assert (NM : forall y r, ~ moves_co y (ETake c r)) by (intros y r [[X|X]|[X|X]]; congruence).
    assert (OLD : forall r x, nth_error (resumers s ++ [(c, rid s c)]) r = Some x ->
       nth_error (resumers s) r = Some x \/ (r = length (resumers s) /\ x = (c, rid s c))).
    { intros r x X. destruct (Nat.lt_ge_cases r (length (resumers s))).
      - rewrite nth_error_app1 in X; auto.
      - rewrite nth_error_app2 in X by auto. right.
        destruct (r - length (resumers s)) eqn:D; cbn in X; [|rewrite nth_error_nil in X; discriminate].
        split; [lia|congruence]. }
    constructor; cbn [rid stat ready cur resumers]; auto.
    + intros r x id X. apply OLD in X. destruct X as [X|[-> X]]; eauto. injection X as -> ->. lia.
    + intros r x X. apply OLD in X. destruct X as [X|[-> X]].
      * apply keep_take; auto.
      * injection X as ->. exists h, []. split; auto. apply nostart_nil.
    + intros h1 h2 x r E N. apply back_took in E; auto.
      destruct E as [(E & _)|(Ns & h2' & -> & -> & N')].
      * injection E as -> <-. rewrite nth_error_app2 by auto. now rewrite Nat.sub_diag.
      * rewrite nth_error_app1; [eauto|]. eapply ki_len0. apply in_or_app; right; left; reflexivity.
    + intros x r X. rewrite app_length. cbn. apply in_app_or in X. destruct X as [X|[X|[]]].
      * apply ki_len0 in X. lia. * injection X as _ <-. lia.
    + intros. apply keep_cause; auto.
    + intros h1 h2 h3 x r E N2 N3 L. apply back_eff in E; auto.
      destruct E as [(E & _)|(Ns & h3' & -> & -> & N')]; [congruence|]. eauto.
    + intros. apply keep_susp; auto.
  - replace s with (mkR (rid s) (stat s) (ready s) (cur s) (resumers s) (inbox s) (aborted s)) at 1 by (destruct s; auto).
    apply KI_call; auto.
  - eapply KI_quiet; eauto. exact I.
  - apply KI_call; auto.
  - apply KI_leave; auto.
  - pose proof (ki_nodup _ _ K) as ND. rewrite H0 in ND. inversion ND; subst.
    apply KI_switch; auto. intros x. rewrite H0. cbn. split.
    + intros Hx. split; auto. intros ->; auto.
    + intros [[<-|Hx] Nx]; congruence || auto.
  - apply KI_leave; auto. right. repeat split; auto. intros X. apply existsb_eqb in X.
    unfold attached in H0. rewrite X in H0. discriminate.
  - eapply KI_quiet; eauto. exact I.
  - eapply KI_quiet; eauto; cbn; try exact I; intros x; unfold upd; destruct (Nat.eqb_spec x c); subst; auto; intros [X|X]; congruence.
Qed.

Lemma KI_run h s : krun h s -> KI h s.
Proof. induction 1; [apply KI_init|eauto using KI_step]. Qed.
