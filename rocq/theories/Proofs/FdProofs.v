(** Proofs about descriptor events. *)
From Verif.Model Require Import Common FdEvents.
From Verif.Spec Require Import FdSpec.
From Verif.Proofs Require Import Tac.
Open Scope Z_scope.

Lemma hasb_pow m n : 0 <= n -> hasb m (2 ^ n) = Z.testbit m n.
Proof.
  intro Hn. unfold hasb. destruct (Z.testbit m n) eqn:E.
  - apply negb_true_iff, Z.eqb_neq. intro C. apply (f_equal (fun x => Z.testbit x n)) in C.
    rewrite Z.land_spec, E, Z.pow2_bits_true, Z.bits_0 in C by assumption. discriminate.
  - apply negb_false_iff, Z.eqb_eq. apply Z.bits_inj'. intros k Hk. rewrite Z.land_spec, Z.bits_0, Z.pow2_bits_eqb by assumption.
    destruct (Z.eqb_spec n k); [subst; rewrite E|rewrite andb_false_r]; reflexivity.
Qed.
Lemma hasb_lor m a b : hasb m (Z.lor a b) = hasb m a || hasb m b.
Proof.
  unfold hasb. rewrite Z.land_lor_distr_r.
  destruct (Z.land m a =? 0) eqn:A, (Z.land m b =? 0) eqn:B; b2p; cbn; try (apply negb_true_iff, Z.eqb_neq; rewrite Z.lor_eq_0_iff; tauto).
  apply negb_false_iff, Z.eqb_eq. rewrite A, B. reflexivity.
Qed.
Lemma hasb_read m : hasb m EV_READ = Z.testbit m 0. Proof. exact (hasb_pow m 0 ltac:(lia)). Qed.
Lemma hasb_write m : hasb m EV_WRITE = Z.testbit m 1. Proof. exact (hasb_pow m 1 ltac:(lia)). Qed.
Lemma hasb_in m : hasb m EPOLLIN = Z.testbit m 0. Proof. exact (hasb_pow m 0 ltac:(lia)). Qed.
Lemma hasb_out m : hasb m EPOLLOUT = Z.testbit m 2. Proof. exact (hasb_pow m 2 ltac:(lia)). Qed.
Lemma hasb_err m : hasb m EPOLLERR = Z.testbit m 3. Proof. exact (hasb_pow m 3 ltac:(lia)). Qed.
Lemma hasb_hup m : hasb m EPOLLHUP = Z.testbit m 4. Proof. exact (hasb_pow m 4 ltac:(lia)). Qed.
Lemma hasb_rdhup m : hasb m EPOLLRDHUP = Z.testbit m 13. Proof. exact (hasb_pow m 13 ltac:(lia)). Qed.

Lemma to_lt_read e : hasb (to_lt_event e) EV_READ = hasb e EPOLLIN || hasb e EPOLLRDHUP || hasb e EPOLLHUP || hasb e EPOLLERR.
Proof. unfold to_lt_event. rewrite !hasb_lor. destruct (hasb e EPOLLHUP), (hasb e EPOLLERR), (hasb e EPOLLIN), (hasb e EPOLLRDHUP), (hasb e EPOLLOUT); reflexivity. Qed.
Lemma to_lt_write e : hasb (to_lt_event e) EV_WRITE = hasb e EPOLLOUT || hasb e EPOLLHUP || hasb e EPOLLERR.
Proof. unfold to_lt_event. rewrite !hasb_lor. destruct (hasb e EPOLLHUP), (hasb e EPOLLERR), (hasb e EPOLLIN), (hasb e EPOLLRDHUP), (hasb e EPOLLOUT); reflexivity. Qed.
Lemma to_lt_error e : hasb (to_lt_event e) EV_ERROR = false.
Proof. unfold to_lt_event. rewrite !hasb_lor. destruct (hasb e EPOLLHUP), (hasb e EPOLLERR), (hasb e EPOLLIN), (hasb e EPOLLRDHUP), (hasb e EPOLLOUT); reflexivity. Qed.

Lemma ctl_mask_in f : hasb (ctl_mask f) EPOLLIN = hasb (f_event f) EV_READ.
Proof. unfold ctl_mask, to_epoll_event. destruct (hasb (f_event f) EV_READ), (hasb (f_event f) EV_WRITE), (f_et f); reflexivity. Qed.
Lemma ctl_mask_out f : hasb (ctl_mask f) EPOLLOUT = hasb (f_event f) EV_WRITE.
Proof. unfold ctl_mask, to_epoll_event. destruct (hasb (f_event f) EV_READ), (hasb (f_event f) EV_WRITE), (f_et f); reflexivity. Qed.

Lemma upd_nat {A} (f : nat -> A) k v j : upd Nat.eqb f k v j = if Nat.eqb j k then v else f j. Proof. reflexivity. Qed.
Lemma upd_z {A} (f : Z -> A) k v j : upd Z.eqb f k v j = if Z.eqb j k then v else f j. Proof. reflexivity. Qed.

(** Histories grow at the end. *)
Lemma fd_of_app h h' o : fd_of (h ++ h') o = match fd_of h o with Some fd => Some fd | None => fd_of h' o end.
Proof.
  induction h as [|[x vs] h IH]; [reflexivity|]. cbn [app fd_of]. destruct x; auto. destruct (Nat.eqb o0 o); auto.
Qed.
Lemma installed_snoc h e o : installed (h ++ [e]) o = installed_step o (installed h o) e.
Proof. unfold installed. rewrite fold_left_app. reflexivity. Qed.
Lemma asked_snoc h e o : asked (h ++ [e]) o = asked_step o (asked h o) e.
Proof. unfold asked. rewrite fold_left_app. reflexivity. Qed.

Section I.
Variable limit : Z.

Record inv (h : log) (s : st) : Prop := {
  i_obj : forall o f, objs s o = Some f ->
     fd_of h o = Some (f_fd f) /\ installed h o = f_watch f /\ asked h o = (hasb (f_event f) EV_READ, hasb (f_event f) EV_WRITE);
  i_none : forall o, objs s o = None -> fd_of h o = None /\ installed h o = None /\ asked h o = (false, false);
  i_evs : forall fd o, evs s fd = Some o ->
     0 <= fd < limit /\ exists f l, objs s o = Some f /\ f_fd f = fd /\ f_watch f = Some l /\ f_alive f = true;
  i_watch : forall o f l, objs s o = Some f -> f_watch f = Some l ->
     evs s (f_fd f) = Some o /\ fdopen s (f_fd f) = true /\ f_gen f = gen s (f_fd f);
  i_ep : forall l fd m, ep s l fd = Some m -> exists o f, evs s fd = Some o /\ objs s o = Some f /\ f_fd f = fd /\ f_watch f = Some l;
  i_mask : Forall accepted h -> forall o f l, objs s o = Some f -> f_watch f = Some l ->
     exists m, ep s l (f_fd f) = Some m /\ hasb m EPOLLIN = hasb (f_event f) EV_READ /\ hasb m EPOLLOUT = hasb (f_event f) EV_WRITE
}.

Lemma inv_init : inv [] st0.
Proof. constructor; cbn; try discriminate; auto. Qed.

(** Entries that do not change any object's history. *)
Definition quiet (e : op * list ev) : Prop :=
  match fst e with OOpen _ | OClose _ | OEdge _ _ | ODestroy _ | OPoll _ _ | ODispatch _ => True | _ => False end.
Lemma quiet_fd h e o : quiet e -> fd_of (h ++ [e]) o = fd_of h o.
Proof. intro Q. rewrite fd_of_app. destruct (fd_of h o); [reflexivity|]. destruct e as [x vs], x; cbn in *; tauto. Qed.
Lemma quiet_inst h e o : quiet e -> installed (h ++ [e]) o = installed h o.
Proof. intro Q. rewrite installed_snoc. destruct e as [x vs], x; cbn in *; tauto. Qed.
Lemma quiet_ask h e o : quiet e -> asked (h ++ [e]) o = asked h o.
Proof. intro Q. rewrite asked_snoc. destruct e as [x vs], x; cbn in *; tauto. Qed.

(** Nothing but the kernel's descriptor bookkeeping or the fired lists changes. *)
Lemma inv_quiet h s e s' : quiet e -> inv h s ->
  objs s' = objs s -> evs s' = evs s -> (forall l fd m, ep s' l fd = Some m -> ep s l fd = Some m) ->
  (forall o f l, objs s o = Some f -> f_watch f = Some l ->
     ep s' l (f_fd f) = ep s l (f_fd f) /\ fdopen s' (f_fd f) = fdopen s (f_fd f) /\ gen s' (f_fd f) = gen s (f_fd f)) ->
  inv (h ++ [e]) s'.
Proof.
  intros Q [A B C D E F] H1 H2 H3 H4. constructor.
  - intros o f. rewrite H1, quiet_fd, quiet_inst, quiet_ask by assumption. apply A.
  - intros o. rewrite H1, quiet_fd, quiet_inst, quiet_ask by assumption. apply B.
  - intros fd o. rewrite H1, H2. apply C.
  - intros o f l. rewrite H1. intros Ho Hw. destruct (H4 o f l Ho Hw) as (X1 & X2 & X3). rewrite H2, X2, X3. apply (D o f l Ho Hw).
  - intros l fd m Hm. rewrite H1, H2. apply (E l fd m). auto.
  - intros Ha o f l. rewrite H1. intros Ho Hw. destruct (H4 o f l Ho Hw) as (X1 & _). rewrite X1. apply Forall_app in Ha as [Ha _]. apply (F Ha o f l Ho Hw).
Qed.

Lemma with_obj_ok s o k s' vs : with_obj s o k = Ok (s', vs) -> exists f, objs s o = Some f /\ f_alive f = true /\ k f = Ok (s', vs).
Proof. unfold with_obj. destruct (objs s o) as [f|]; [|discriminate]. destruct (f_alive f) eqn:E; [|discriminate]. eauto. Qed.

Lemma mgr_add_some s o f s' : mgr_add limit s o f = Some s' -> 0 <= f_fd f < limit /\ evs s (f_fd f) = None /\ s' = set_evs s (f_fd f) (Some o).
Proof. unfold mgr_add. destruct ((f_fd f <? 0) || _) eqn:E; [discriminate|]. b2p. destruct (evs s (f_fd f)); [discriminate|]. intro X. inv X. auto with zarith. Qed.

Ltac eqb := repeat match goal with
  | |- context [Nat.eqb ?a ?b] => destruct (Nat.eqb_spec a b)
  | H : context [Nat.eqb ?a ?b] |- _ => destruct (Nat.eqb_spec a b)
  | |- context [Z.eqb ?a ?b] => destruct (Z.eqb_spec a b)
  | H : context [Z.eqb ?a ?b] |- _ => destruct (Z.eqb_spec a b)
  end.
Ltac unf := cbn [objs evs ep fdopen gen fired set_obj set_evs set_ep set_fired sys_close f_fd f_own f_event f_et f_watch f_alive f_gen] in *; rewrite ?upd_nat, ?upd_z in *.

Lemma inv_close h s fd e s' : quiet e -> inv h s -> unused h fd -> objs s' = objs s -> evs s' = evs s ->
  ep s' = (fun l => upd Z.eqb (ep s l) fd None) -> fdopen s' = upd Z.eqb (fdopen s) fd false ->
  gen s' = upd Z.eqb (gen s) fd (S (gen s fd)) -> inv (h ++ [e]) s'.
Proof.
  intros Q I U H1 H2 H3 H4 H5. apply (inv_quiet h s e s' Q I H1 H2).
  - intros l fd' m. rewrite H3. rewrite ?upd_z. eqb; [discriminate|auto].
  - intros o f l Ho Hw. rewrite H3, H4, H5, !upd_z. destruct (Z.eqb_spec (f_fd f) fd); [|auto].
    exfalso. destruct (i_obj _ _ I o f Ho) as (X1 & X2 & _). rewrite <- e0 in U. specialize (U o X1). congruence.
Qed.

Definition ask1 (c : setting) (cur : bool * bool) : bool * bool :=
  match c with
  | SEnableR => (true, snd cur)
  | SEnableW => (fst cur, true)
  | SDisableR => (false, snd cur)
  | SDisableW => (fst cur, false)
  | SSet m => (Z.testbit m 0, Z.testbit m 1)
  end.
Lemma new_mask_bits e c : let q := (hasb e EV_READ, hasb e EV_WRITE) in
  match new_mask e c with
  | Some m => (hasb m EV_READ, hasb m EV_WRITE) = ask1 c q
  | None => ask1 c q = q
  end.
Proof.
  cbv zeta. rewrite !hasb_read, !hasb_write. destruct c; cbn [new_mask ask1 fst snd]; rewrite ?hasb_read, ?hasb_write.
  - destruct (Z.testbit e 0) eqn:E; [reflexivity|]. rewrite hasb_read, hasb_write, !Z.lor_spec, E. cbn. now rewrite orb_false_r.
  - destruct (Z.testbit e 1) eqn:E; [reflexivity|]. rewrite hasb_read, hasb_write, !Z.lor_spec, E. cbn. now rewrite orb_false_r.
  - destruct (Z.testbit e 0) eqn:E; [|reflexivity]. rewrite hasb_read, hasb_write, !Z.ldiff_spec, E. cbn. now rewrite andb_true_r.
  - destruct (Z.testbit e 1) eqn:E; [|reflexivity]. rewrite hasb_read, hasb_write, !Z.ldiff_spec, E. cbn. now rewrite andb_true_r.
  - reflexivity.
Qed.

(** SetEvent and friends on object [o] with descriptor object [f]: the state after, when the watcher's entry is [ep']. *)
Lemma inv_set h s o f c k m ep' :
  inv h s -> objs s o = Some f -> f_alive f = true ->
  (hasb m EV_READ, hasb m EV_WRITE) = ask1 c (hasb (f_event f) EV_READ, hasb (f_event f) EV_WRITE) ->
  let f' := mkfd (f_fd f) (f_own f) m (f_et f) (f_watch f) true (f_gen f) in
  (forall l fd x, ep' l fd = Some x -> exists y, ep s l fd = Some y) ->
  (forall l fd, fd <> f_fd f \/ f_watch f = None -> ep' l fd = ep s l fd) ->
  (k = true -> forall l y, f_watch f = Some l -> ep s l (f_fd f) = Some y -> ep' l (f_fd f) = Some (ctl_mask f')) ->
  inv (h ++ [(OSet o c k, [])]) (mkst (upd Nat.eqb (objs s) o (Some f')) (evs s) ep' (fdopen s) (gen s) (fired s)).
Proof.
  intros [A B C D E F] Hf Hal Hm f' H1 H2 H3. destruct (A o f Hf) as (A1 & A2 & A3).
  assert (X1 : forall o', fd_of (h ++ [(OSet o c k, [])]) o' = fd_of h o') by (intro; rewrite fd_of_app; destruct (fd_of h o'); reflexivity).
  assert (X2 : forall o', installed (h ++ [(OSet o c k, [])]) o' = installed h o') by (intro; rewrite installed_snoc; reflexivity).
  assert (X3 : forall o', asked (h ++ [(OSet o c k, [])]) o' = if Nat.eqb o o' then ask1 c (asked h o') else asked h o').
  { intro o'. rewrite asked_snoc. cbn [asked_step]. destruct (Nat.eqb o o'); [destruct c|]; reflexivity. }
  constructor.
  - intros o' g Hg. unf. rewrite X1, X2, X3. destruct (Nat.eqb_spec o' o) as [Eo|n]; [subst o'|].
    + inv Hg. unf. rewrite Nat.eqb_refl, A3, <- Hm. auto.
    + destruct (Nat.eqb_spec o o'); [congruence|]. auto.
  - intros o' Hg. unf. rewrite X1, X2, X3. destruct (Nat.eqb_spec o' o) as [Eo|n]; [subst o'; discriminate|].
    destruct (Nat.eqb_spec o o'); [congruence|]. auto.
  - intros fd o' Hg. unf. destruct (C fd o' Hg) as (Z0 & g & l & Z1 & Z2 & Z3 & Z4). split; [exact Z0|].
    destruct (Nat.eqb_spec o' o) as [Eo|n]; [subst o'|exists g, l; auto]. rewrite Hf in Z1; inv Z1. exists f', l. auto.
  - intros o' g l Hg Hw. unf. destruct (Nat.eqb_spec o' o) as [Eo|n]; [subst o'; inv Hg; apply (D o f l Hf Hw)|apply (D o' g l Hg Hw)].
  - intros l fd x Hx. unf. apply H1 in Hx as (y & Hy). destruct (E l fd y Hy) as (o1 & f1 & Z1 & Z2 & Z3 & Z4).
    exists o1. rewrite ?upd_nat. destruct (Nat.eqb_spec o1 o) as [Eo|n]; [subst o1|exists f1; auto]. rewrite Hf in Z2; inv Z2. exists f'. auto.
  - intros Ha o' g l. unf. apply Forall_app in Ha as [Ha Hk]. inversion Hk as [|? ? Hk1 _]; subst. cbn in Hk1. subst k.
    destruct (Nat.eqb_spec o' o) as [Eo|n]; [subst o'|].
    + intros Hg Hw. inv Hg. cbn [f_watch f'] in Hw. destruct (F Ha o f l Hf Hw) as (y & Hy & _). exists (ctl_mask f').
      split; [apply (H3 eq_refl l y Hw Hy)|]. split; [apply ctl_mask_in|apply ctl_mask_out].
    + intros Hg Hw. destruct (F Ha o' g l Hg Hw) as (y & Hy & Q). exists y. split; [|exact Q]. rewrite H2; [exact Hy|].
      destruct (f_watch f) as [w|] eqn:W; [left|right; reflexivity]. intro C1.
      destruct (D o' g l Hg Hw) as (Q1 & _). rewrite C1 in Q1. destruct (D o f w Hf W) as (Q5 & _). congruence.
Qed.

Lemma inv_step h s x s' vs : inv h s -> possible s x -> legal s h x -> step limit s x = Ok (s', vs) -> inv (h ++ [(x, vs)]) s'.
Proof.
  intros I P L E. destruct x; cbn [step] in E.
  - (* open *) inv E. cbn [possible] in P. eapply inv_quiet; [exact Logic.I|exact I|reflexivity|reflexivity|auto|]. intros o f l Ho Hw.
    cbn [fdopen ep gen]. rewrite ?upd_z. split; [reflexivity|]. split; [|reflexivity]. eqb; auto.
    destruct (i_watch _ _ I o f l Ho Hw) as (_ & X & _). congruence.
  - (* close *) inv E. eapply (inv_close h s fd); [exact Logic.I|exact I|exact L|reflexivity..].
  - (* new *) inv E. destruct P as [P1 P2]. destruct I as [A B C D E F]. destruct (B o P1) as (B1 & B2 & B3). constructor.
    + intros o' f Hf. unf. rewrite fd_of_app, installed_snoc, asked_snoc. cbn [fd_of installed_step asked_step].
      destruct (Nat.eqb_spec o' o) as [Eo|n]; [subst o'|].
      * inv Hf. unf. rewrite B1, B2, !Nat.eqb_refl, hasb_read, hasb_write. auto.
      * destruct (Nat.eqb_spec o o'); [congruence|]. destruct (A o' f Hf) as (X1 & X2 & X3). rewrite X1. auto.
    + intros o' Hf. unf. rewrite fd_of_app, installed_snoc, asked_snoc. cbn [fd_of installed_step asked_step].
      destruct (Nat.eqb_spec o' o) as [Eo|n]; [subst o'|]; [discriminate|]. destruct (Nat.eqb_spec o o'); [congruence|].
      destruct (B o' Hf) as (X1 & X2 & X3). rewrite X1. auto.
    + intros fd' o' H. unf. destruct (C fd' o' H) as (X0 & f & l & X1 & X2). split; [exact X0|]. exists f, l. rewrite ?upd_nat.
      destruct (Nat.eqb_spec o' o); [congruence|auto].
    + intros o' f l Hf Hw. unf. destruct (Nat.eqb_spec o' o) as [Eo|n]; [subst o'|]; [inv Hf; discriminate|]. apply (D o' f l Hf Hw).
    + intros l fd' m' H. unf. destruct (E l fd' m' H) as (o' & f & X1 & X2 & X3). exists o', f. rewrite ?upd_nat.
      destruct (Nat.eqb_spec o' o); [congruence|auto].
    + intros Ha o' f l Hf Hw. unf. destruct (Nat.eqb_spec o' o) as [Eo|n]; [subst o'|]; [inv Hf; discriminate|].
      apply Forall_app in Ha as [Ha _]. apply (F Ha o' f l Hf Hw).
  - (* edge *) apply with_obj_ok in E as (f & Hf & Hal & E). inv E. destruct I as [A B C D E F]. constructor.
    + intros o' f' Hf'. unf. rewrite quiet_fd, quiet_inst, quiet_ask by exact Logic.I. destruct (Nat.eqb_spec o' o) as [Eo|n]; [subst o'|]; [|auto].
      inv Hf'. unf. apply (A o f Hf).
    + intros o' Hf'. unf. rewrite quiet_fd, quiet_inst, quiet_ask by exact Logic.I. destruct (Nat.eqb_spec o' o) as [Eo|n]; [subst o'|]; [discriminate|auto].
    + intros fd o' H. unf. destruct (C fd o' H) as (X0 & f' & l & X1 & X2 & X3 & X4). split; [exact X0|].
      rewrite ?upd_nat. destruct (Nat.eqb_spec o' o) as [Eo|n]; [subst o'|]; [|exists f', l; auto].
      rewrite Hf in X1; inv X1. eexists _, l. split; [reflexivity|]. unf. auto.
    + intros o' f' l Hf' Hw. unf. destruct (Nat.eqb_spec o' o) as [Eo|n]; [subst o'|]; [inv Hf'; unf; apply (D o f l Hf Hw)|apply (D o' f' l Hf' Hw)].
    + intros l fd m H. unf. destruct (E l fd m H) as (o' & f' & X1 & X2 & X3 & X4). exists o'. rewrite ?upd_nat.
      destruct (Nat.eqb_spec o' o) as [Eo|n]; [subst o'|]; [|exists f'; auto]. rewrite Hf in X2; inv X2. eexists. split; [exact X1|]. split; [reflexivity|]. unf. auto.
    + intros Ha o' f' l Hf' Hw. unf. apply Forall_app in Ha as [Ha _].
      destruct (Nat.eqb_spec o' o) as [Eo|n]; [subst o'|]; [inv Hf'; unf; apply (F Ha o f l Hf Hw)|apply (F Ha o' f' l Hf' Hw)].
  - (* install *) apply with_obj_ok in E as (f & Hf & Hal & E).
    destruct (match f_watch f with Some w => negb (Nat.eqb w l) | None => false end) eqn:EW.
    + inv E. destruct I as [A B C D E F].
      assert (X1 : forall o', fd_of (h ++ [(OInstall l o k, [VRet false])]) o' = fd_of h o') by (intro; rewrite fd_of_app; destruct (fd_of h o'); reflexivity).
      assert (X2 : forall o', installed (h ++ [(OInstall l o k, [VRet false])]) o' = installed h o') by (intro; rewrite installed_snoc; reflexivity).
      assert (X3 : forall o', asked (h ++ [(OInstall l o k, [VRet false])]) o' = asked h o') by (intro; rewrite asked_snoc; reflexivity).
      constructor; [intros o' g Hg; rewrite X1, X2, X3; apply (A o' g Hg)|intros o' Hg; rewrite X1, X2, X3; apply (B o' Hg)|exact C|exact D|exact E|intros Ha; apply Forall_app in Ha as [Ha _]; exact (F Ha)].
    + destruct (mgr_add limit s o f) as [s1|] eqn:EM; [|discriminate]. inv E. apply mgr_add_some in EM as (M1 & M2 & ->).
      destruct (L f Hf) as [L1 L2].
      assert (NW : f_watch f = None).
      { destruct (f_watch f) as [w|] eqn:W; [|reflexivity]. destruct (i_watch _ _ I o f w Hf W) as (X & _). congruence. }
      set (f' := mkfd (f_fd f) (f_own f) (f_event f) (f_et f) (Some l) true (f_gen f)).
      destruct I as [A B C D E F]. destruct (A o f Hf) as (A1 & A2 & A3).
      assert (NE : forall l', ep s l' (f_fd f) = None).
      { intro l'. destruct (ep s l' (f_fd f)) eqn:X; [|reflexivity]. apply E in X as (o1 & f1 & Y & _). congruence. }
      assert (X1 : forall o', fd_of (h ++ [(OInstall l o k, [VRet true])]) o' = fd_of h o') by (intro; rewrite fd_of_app; destruct (fd_of h o'); reflexivity).
      assert (X2 : forall o', installed (h ++ [(OInstall l o k, [VRet true])]) o' = if Nat.eqb o o' then Some l else installed h o') by (intro; rewrite installed_snoc; reflexivity).
      assert (X3 : forall o', asked (h ++ [(OInstall l o k, [VRet true])]) o' = asked h o') by (intro; rewrite asked_snoc; reflexivity).
      set (s1 := set_obj (set_evs s (f_fd f) (Some o)) o f').
      assert (S1 : objs (ctl_add s1 l f' k) = objs s1 /\ evs (ctl_add s1 l f' k) = evs s1 /\ fdopen (ctl_add s1 l f' k) = fdopen s1 /\ gen (ctl_add s1 l f' k) = gen s1).
      { unfold ctl_add. destruct (ep s1 l (f_fd f')); [auto|]. destruct (k && _); auto. }
      destruct S1 as (S1 & S2 & S3 & S4).
      assert (S5 : forall l' fd', ep (ctl_add s1 l f' k) l' fd' = if (l' =? l)%nat && (fd' =? f_fd f) && k then Some (ctl_mask f') else ep s l' fd').
      { intros l' fd'. unfold ctl_add. change (ep s1 l (f_fd f')) with (ep s l (f_fd f)). rewrite NE. change (fdopen s1 (f_fd f')) with (fdopen s (f_fd f)).
        rewrite L1, andb_true_r. destruct k; [|rewrite andb_false_r; reflexivity]. rewrite andb_true_r. unf.
        destruct (Nat.eqb_spec l' l) as [->|]; [|reflexivity]. unfold upd at 1. cbn [andb]. change (f_fd f') with (f_fd f). destruct (fd' =? f_fd f); reflexivity. }
      constructor.
      * intros o' g Hg. rewrite S1 in Hg. unfold s1 in Hg. unf. rewrite X1, X2, X3. destruct (Nat.eqb_spec o' o) as [Eo|n]; [subst o'|].
        -- inv Hg. rewrite Nat.eqb_refl. auto.
        -- destruct (Nat.eqb_spec o o'); [congruence|]. auto.
      * intros o' Hg. rewrite S1 in Hg. unfold s1 in Hg. unf. rewrite X1, X2, X3. destruct (Nat.eqb_spec o' o) as [Eo|n]; [subst o'|]; [discriminate|].
        destruct (Nat.eqb_spec o o'); [congruence|]. auto.
      * intros fd' o'. rewrite S1, S2. unfold s1. unf. destruct (Z.eqb_spec fd' (f_fd f)) as [->|n].
        -- intro Y; inv Y. split; [exact M1|]. exists f', l. rewrite Nat.eqb_refl. unfold f'; auto.
        -- intro Y. destruct (C fd' o' Y) as (Z0 & g & lg & Z1 & Z2 & Z3 & Z4). split; [exact Z0|].
           destruct (Nat.eqb_spec o' o) as [->|]; [rewrite Hf in Z1; inv Z1; congruence|exists g, lg; auto].
      * intros o' g lg. rewrite S1, S2, S3, S4. unfold s1. unf. destruct (Nat.eqb_spec o' o) as [Eo|n]; [subst o'|].
        -- intros Y Y2. inv Y. unfold f'. unf. rewrite Z.eqb_refl. auto.
        -- intros Y Y2. destruct (D o' g lg Y Y2) as (Z1 & Z2 & Z3). destruct (Z.eqb_spec (f_fd g) (f_fd f)); [congruence|auto].
      * intros l' fd' m. rewrite S5, S1, S2. unfold s1. unf. destruct ((l' =? l)%nat && (fd' =? f_fd f) && k) eqn:EB.
        -- b2p. subst. intro. exists o, f'. rewrite ?upd_nat, ?upd_z, ?Z.eqb_refl, ?Nat.eqb_refl. unfold f'; auto.
        -- intro Y. destruct (E l' fd' m Y) as (o1 & f1 & Z1 & Z2 & Z3 & Z4). exists o1, f1. rewrite ?upd_nat, ?upd_z.
           destruct (Z.eqb_spec fd' (f_fd f)); [congruence|]. destruct (Nat.eqb_spec o1 o) as [->|]; [|auto].
           rewrite Hf in Z2; inv Z2. congruence.
      * intros Ha o' g lg. rewrite S1. unfold s1. unf. apply Forall_app in Ha as [Ha Hk]. inversion Hk as [|? ? Hk1 _]; subst. cbn in Hk1. subst k.
        destruct (Nat.eqb_spec o' o) as [Eo|n]; [subst o'|].
        -- intros Y Y2. inv Y. unfold f' in Y2; cbn in Y2; inv Y2. change (f_fd f') with (f_fd f). rewrite S5, Nat.eqb_refl, Z.eqb_refl. cbn [andb].
           exists (ctl_mask f'). split; [reflexivity|]. split; [apply ctl_mask_in|apply ctl_mask_out].
        -- intros Y Y2. destruct (D o' g lg Y Y2) as (Z1 & _). rewrite S5. destruct (Z.eqb_spec (f_fd g) (f_fd f)); [congruence|].
           rewrite andb_false_r. cbn [andb]. apply (F Ha o' g lg Y Y2).
  - (* remove *) apply with_obj_ok in E as (f & Hf & Hal & E). destruct (f_watch f) as [w|] eqn:EW.
    + destruct (Nat.eqb_spec w l) as [->|]; [|discriminate]. cbn [negb] in E. inv E.
      destruct I as [A B C D E F]. destruct (A o f Hf) as (A1 & A2 & A3). destruct (D o f l Hf EW) as (D1 & D2 & D3).
      set (f' := mkfd (f_fd f) (f_own f) (f_event f) (f_et f) None true (f_gen f)).
      destruct (C _ _ D1) as (RG & _).
      assert (X1 : forall o', fd_of (h ++ [(ORemove l o, [VRet true])]) o' = fd_of h o') by (intro; rewrite fd_of_app; destruct (fd_of h o'); reflexivity).
      assert (X2 : forall o', installed (h ++ [(ORemove l o, [VRet true])]) o' = if Nat.eqb o o' then None else installed h o') by (intro; rewrite installed_snoc; reflexivity).
      assert (X3 : forall o', asked (h ++ [(ORemove l o, [VRet true])]) o' = asked h o') by (intro; rewrite asked_snoc; reflexivity).
      assert (ES : mgr_remove limit (set_obj (ctl_del s l f) o f') o f' = set_evs (set_obj (ctl_del s l f) o f') (f_fd f) None).
      { unfold mgr_remove. change (f_fd f') with (f_fd f). replace ((f_fd f <? 0) || (limit <=? f_fd f)) with false by (symmetry; apply orb_false_iff; split; [apply Z.ltb_ge|apply Z.leb_gt]; lia).
        change (evs (set_obj (ctl_del s l f) o f') (f_fd f)) with (evs s (f_fd f)). rewrite D1, Nat.eqb_refl. reflexivity. }
      rewrite ES. clear ES. unfold ctl_del. constructor.
      * intros o' g Hg. unf. rewrite X1, X2, X3. destruct (Nat.eqb_spec o' o) as [Eo|n]; [subst o'|].
        -- inv Hg. rewrite Nat.eqb_refl. auto.
        -- destruct (Nat.eqb_spec o o'); [congruence|]. auto.
      * intros o' Hg. unf. rewrite X1, X2, X3. destruct (Nat.eqb_spec o' o) as [Eo|n]; [subst o'|]; [discriminate|].
        destruct (Nat.eqb_spec o o'); [congruence|]. auto.
      * intros fd' o'. unf. destruct (Z.eqb_spec fd' (f_fd f)) as [->|n]; [discriminate|].
        intro Y. destruct (C fd' o' Y) as (Z0 & g & lg & Z1 & Z2 & Z3 & Z4). split; [exact Z0|].
        destruct (Nat.eqb_spec o' o) as [->|]; [rewrite Hf in Z1; inv Z1; congruence|exists g, lg; auto].
      * intros o' g lg. unf. destruct (Nat.eqb_spec o' o) as [Eo|n]; [subst o'|]; [intro Y; inv Y; discriminate|].
        intros Y Y2. destruct (D o' g lg Y Y2) as (Z1 & Z2 & Z3). destruct (Z.eqb_spec (f_fd g) (f_fd f)); [congruence|auto].
      * intros l' fd' m. unf. intro Y.
        assert (Y' : ep s l' fd' = Some m /\ ~ (l' = l /\ fd' = f_fd f)).
        { destruct (Nat.eqb_spec l' l) as [->|]; [|tauto]. rewrite upd_z in Y. destruct (Z.eqb_spec fd' (f_fd f)); [discriminate|tauto]. }
        destruct Y' as [Y1 Y2]. destruct (E l' fd' m Y1) as (o1 & f1 & Z1 & Z2 & Z3 & Z4).
        assert (NO : o1 <> o) by (intros ->; rewrite Hf in Z2; inv Z2; apply Y2; split; congruence).
        exists o1, f1. rewrite ?upd_nat, ?upd_z. destruct (Nat.eqb_spec o1 o); [congruence|]. destruct (Z.eqb_spec fd' (f_fd f)); [congruence|]. auto.
      * intros Ha o' g lg. unf. apply Forall_app in Ha as [Ha _]. destruct (Nat.eqb_spec o' o) as [Eo|n]; [subst o'|]; [intro Y; inv Y; discriminate|].
        intros Y Y2. destruct (D o' g lg Y Y2) as (Z1 & _). assert (f_fd g <> f_fd f) by congruence.
        destruct (F Ha o' g lg Y Y2) as (m & Z4 & Z5). exists m. split; [|exact Z5].
        destruct (Nat.eqb_spec lg l) as [->|]; [|exact Z4]. rewrite ?upd_z. destruct (Z.eqb_spec (f_fd g) (f_fd f)); [congruence|exact Z4].
    + inv E. destruct I as [A B C D E F].
      assert (X1 : forall o', fd_of (h ++ [(ORemove l o, [VRet false])]) o' = fd_of h o') by (intro; rewrite fd_of_app; destruct (fd_of h o'); reflexivity).
      assert (X2 : forall o', installed (h ++ [(ORemove l o, [VRet false])]) o' = installed h o') by (intro; rewrite installed_snoc; reflexivity).
      assert (X3 : forall o', asked (h ++ [(ORemove l o, [VRet false])]) o' = asked h o') by (intro; rewrite asked_snoc; reflexivity).
      constructor; [intros o' g Hg; rewrite X1, X2, X3; apply (A o' g Hg)|intros o' Hg; rewrite X1, X2, X3; apply (B o' Hg)|exact C|exact D|exact E|intros Ha; apply Forall_app in Ha as [Ha _]; exact (F Ha)].
  - (* set *) apply with_obj_ok in E as (f & Hf & Hal & E). pose proof (new_mask_bits (f_event f) c) as NB. cbv zeta in NB.
    destruct (new_mask (f_event f) c) as [m|].
    2:{ inv E. assert (Ef : f = mkfd (f_fd f) (f_own f) (f_event f) (f_et f) (f_watch f) true (f_gen f)) by (destruct f; cbn in *; congruence).
        pose proof (i_obj _ _ I o f Hf) as (_ & _ & A3).
        destruct I as [A B C D E F].
        assert (X1 : forall o', fd_of (h ++ [(OSet o c k, [])]) o' = fd_of h o') by (intro; rewrite fd_of_app; destruct (fd_of h o'); reflexivity).
        assert (X2 : forall o', installed (h ++ [(OSet o c k, [])]) o' = installed h o') by (intro; rewrite installed_snoc; reflexivity).
        assert (X3 : forall o', asked (h ++ [(OSet o c k, [])]) o' = asked h o').
        { intro o'. rewrite asked_snoc. cbn [asked_step]. destruct (Nat.eqb_spec o o') as [<-|]; [|reflexivity]. rewrite A3. exact NB. }
        constructor; [intros o' g Hg; rewrite X1, X2, X3; apply (A o' g Hg)|intros o' Hg; rewrite X1, X2, X3; apply (B o' Hg)|exact C|exact D|exact E|intros Ha; apply Forall_app in Ha as [Ha _]; exact (F Ha)]. }
    pose proof (inv_set h s o f c k m) as IS.
    set (f' := mkfd (f_fd f) (f_own f) m (f_et f) (f_watch f) true (f_gen f)) in *.
    change (f_watch f') with (f_watch f) in E. destruct (f_watch f) as [l|] eqn:W.
    2:{ inv E. apply (IS (ep s) I Hf Hal NB); [eauto|auto|]. intros _ l y Wl. discriminate. }
    destruct (i_watch _ _ I o f l Hf W) as (D1 & _).
    unfold ctl_mod in E. change (ep (set_obj s o f') l (f_fd f')) with (ep s l (f_fd f)) in E.
    assert (NOP : inv (h ++ [(OSet o c k, [])]) (set_obj s o f') \/ (k = true /\ exists y, ep s l (f_fd f) = Some y)).
    { destruct k, (ep s l (f_fd f)) as [y|] eqn:EY; [right; eauto|left|left|left];
      apply (IS (ep s) I Hf Hal NB); auto; eauto; try discriminate; intros _ l' y' Wl; inv Wl; congruence. }
    destruct (ep s l (f_fd f)) as [y|] eqn:EY.
    2:{ inv E. destruct NOP as [N|[_ [y N]]]; [exact N|discriminate]. }
    destruct k.
    2:{ inv E. destruct NOP as [N|[N _]]; [exact N|discriminate]. }
    cbn [negb] in E.
    assert (GT : mgr_get limit (set_ep (set_obj s o f') l (f_fd f') (Some (ctl_mask f'))) (f_fd f') = Some o).
    { unfold mgr_get. change (f_fd f') with (f_fd f). destruct (i_evs _ _ I _ _ D1) as (RG & _).
      replace ((f_fd f <? 0) || (limit <=? f_fd f)) with false by (symmetry; apply orb_false_iff; split; [apply Z.ltb_ge|apply Z.leb_gt]; lia). exact D1. }
    rewrite GT in E. inv E.
    apply (IS (upd Nat.eqb (ep s) l (upd Z.eqb (ep s l) (f_fd f) (Some (ctl_mask f')))) I Hf Hal NB).
    + intros l' fd x Hx. rewrite upd_nat in Hx. destruct (Nat.eqb_spec l' l) as [->|]; [|eauto]. rewrite upd_z in Hx.
      destruct (Z.eqb_spec fd (f_fd f)) as [->|]; eauto.
    + intros l' fd [N|N]; [|discriminate]. rewrite upd_nat. destruct (Nat.eqb_spec l' l) as [->|]; [|reflexivity]. rewrite upd_z.
      destruct (Z.eqb_spec fd (f_fd f)); [congruence|reflexivity].
    + intros _ l' y' Wl _. inv Wl. rewrite upd_nat, Nat.eqb_refl, upd_z, Z.eqb_refl. reflexivity.
  - (* destroy *) apply with_obj_ok in E as (f & Hf & Hal & E). inv E. destruct L as [L1 L2].
    pose proof (i_obj _ _ I o f Hf) as (A1 & A2 & A3). rewrite L1 in A2. symmetry in A2.
    set (f' := mkfd (f_fd f) (f_own f) (f_event f) (f_et f) (f_watch f) false (f_gen f)).
    assert (I1 : inv (h ++ [(ODestroy o, [])]) (set_obj s o f')).
    { destruct I as [A B C D E F]. constructor.
      + intros o' g Hg. unf. rewrite quiet_fd, quiet_inst, quiet_ask by exact Logic.I.
        destruct (Nat.eqb_spec o' o) as [Eo|n]; [subst o'; inv Hg; exact (A o f Hf)|auto].
      + intros o' Hg. unf. rewrite quiet_fd, quiet_inst, quiet_ask by exact Logic.I. destruct (Nat.eqb_spec o' o) as [Eo|n]; [discriminate|auto].
      + intros fd o' H. unf. destruct (C fd o' H) as (X0 & g & l & X1 & X2 & X3 & X4). split; [exact X0|].
        destruct (Nat.eqb_spec o' o) as [Eo|n]; [subst o'; congruence|exists g, l; auto].
      + intros o' g l Hg Hw. unf. destruct (Nat.eqb_spec o' o) as [Eo|n]; [subst o'; inv Hg; cbn in Hw; congruence|apply (D o' g l Hg Hw)].
      + intros l fd m H. unf. destruct (E l fd m H) as (o' & g & X1 & X2 & X3 & X4). exists o', g. rewrite ?upd_nat.
        destruct (Nat.eqb_spec o' o) as [Eo|n]; [subst o'; congruence|auto].
      + intros Ha o' g l Hg Hw. unf. apply Forall_app in Ha as [Ha _].
        destruct (Nat.eqb_spec o' o) as [Eo|n]; [subst o'; inv Hg; cbn in Hw; congruence|apply (F Ha o' g l Hg Hw)]. }
    destruct (f_own f) eqn:OW; [|exact I1]. destruct (L2 f Hf OW) as [_ U]. destruct I1 as [A B C D E F]. constructor.
    + exact A.
    + exact B.
    + exact C.
    + intros o' g l Hg Hw. destruct (D o' g l Hg Hw) as (X1 & X2 & X3). unf.
      assert (NF : f_fd g <> f_fd f).
      { intro X. destruct (A o' g Hg) as (Y1 & Y2 & _). rewrite quiet_fd in Y1 by exact Logic.I. rewrite quiet_inst in Y2 by exact Logic.I. rewrite X in Y1. apply U in Y1. congruence. }
      destruct (Z.eqb_spec (f_fd g) (f_fd f)); [congruence|]. auto.
    + intros l fd m H. unf. destruct (Z.eqb_spec fd (f_fd f)); [discriminate|]. apply (E l fd m H).
    + intros Ha o' g l Hg Hw.
      assert (NF : f_fd g <> f_fd f).
      { intro X. destruct (A o' g Hg) as (Y1 & Y2 & _). rewrite quiet_fd in Y1 by exact Logic.I. rewrite quiet_inst in Y2 by exact Logic.I. rewrite X in Y1. apply U in Y1. congruence. }
      destruct (F Ha o' g l Hg Hw) as (m & Z1 & Z2). exists m. split; [|exact Z2]. unf. destruct (Z.eqb_spec (f_fd g) (f_fd f)); [congruence|exact Z1].
  - (* poll *) inv E. eapply inv_quiet; [exact Logic.I|exact I|reflexivity|reflexivity|auto|auto].
  - (* dispatch *) destruct (fired s l) as [|[[fd m] g] r].
    + inv E. eapply inv_quiet; [exact Logic.I|exact I|reflexivity|reflexivity|auto|auto].
    + destruct (mgr_get limit s fd) as [o|].
      * apply with_obj_ok in E as (f & _ & _ & E). inv E. eapply inv_quiet; [exact Logic.I|exact I|reflexivity|reflexivity|auto|auto].
      * inv E. eapply inv_quiet; [exact Logic.I|exact I|reflexivity|reflexivity|auto|auto].
Qed.

Lemma hist_inv h s : hist limit h s -> inv h s.
Proof. induction 1; [apply inv_init|eapply inv_step; eauto]. Qed.
End I.

Lemma hist_app limit h1 h2 s : hist limit (h1 ++ h2) s -> exists s1, hist limit h1 s1.
Proof.
  revert s. induction h2 as [|e h2 IH] using rev_ind; intros s H.
  - rewrite app_nil_r in H. eauto.
  - rewrite app_assoc in H. inversion H as [|h0 s0 x s' vs H1 H2 H3 H4 E]; subst.
    + destruct (h1 ++ h2); discriminate.
    + apply app_inj_tail in E as [E _]. subst h0. apply (IH _ H1).
Qed.

Lemma hist_snoc_inv limit h x vs s' : hist limit (h ++ [(x, vs)]) s' ->
  exists s, hist limit h s /\ possible s x /\ legal s h x /\ step limit s x = Ok (s', vs).
Proof.
  intro H. inversion H as [|h0 s0 x0 s1 vs0 H1 H2 H3 H4 E]; subst.
  - destruct h; discriminate.
  - apply app_inj_tail in E as [E1 E2]. injection E2 as -> ->. subst. eauto.
Qed.

Lemma step_fired limit s x s' vs l : step limit s x = Ok (s', vs) -> ~ polls l (x, vs) -> x <> ODispatch l -> fired s' l = fired s l.
Proof.
  intros E P N. destruct x; cbn [step] in E.
  - inv E. reflexivity.
  - inv E. reflexivity.
  - inv E. reflexivity.
  - apply with_obj_ok in E as (f & _ & _ & E). inv E. reflexivity.
  - apply with_obj_ok in E as (f & _ & _ & E). destruct (match f_watch f with Some w => negb (Nat.eqb w l0) | None => false end); [inv E; reflexivity|].
    destruct (mgr_add limit s o f) eqn:M; [|discriminate]. apply mgr_add_some in M as (_ & _ & ->). inv E. unfold ctl_add. destruct (ep _ _ _); [reflexivity|]. destruct (k && _); reflexivity.
  - apply with_obj_ok in E as (f & _ & _ & E). destruct (f_watch f); [|inv E; reflexivity]. destruct (Nat.eqb n l0); [|discriminate]. cbn [negb] in E. inv E.
    unfold mgr_remove. destruct (_ || _); [reflexivity|]. destruct (evs _ _); [|reflexivity]. destruct (Nat.eqb _ _); reflexivity.
  - apply with_obj_ok in E as (f & _ & _ & E). destruct (new_mask (f_event f) c); [|inv E; reflexivity]. cbn [f_watch f_fd] in E. destruct (f_watch f); [|inv E; reflexivity].
    unfold ctl_mod in E. cbn [f_fd] in E. destruct (ep _ _ _); [|inv E; reflexivity]. destruct k; [|inv E; reflexivity]. cbn [negb] in E. destruct (mgr_get _ _ _); [inv E; reflexivity|].
    inv E. match goal with |- context [mgr_add limit ?a ?b ?c] => destruct (mgr_add limit a b c) eqn:M end; [apply mgr_add_some in M as (_ & _ & ->)|]; reflexivity.
  - apply with_obj_ok in E as (f & _ & _ & E). inv E. destruct (f_own f); reflexivity.
  - inv E. cbn [fired set_fired]. rewrite upd_nat. destruct (Nat.eqb_spec l l0) as [->|]; [|reflexivity]. exfalso. apply P. exists es. reflexivity.
  - destruct (fired s l0) as [|[[fd m] g] r] eqn:F; [inv E; reflexivity|].
    assert (Nl : l0 <> l) by congruence.
    destruct (mgr_get limit s fd) as [o|]; [apply with_obj_ok in E as (f & _ & _ & E)|]; inv E; cbn [fired set_fired]; rewrite upd_nat; destruct (Nat.eqb_spec l l0); congruence.
Qed.

Lemma mgr_get_evs limit s fd o : mgr_get limit s fd = Some o -> evs s fd = Some o.
Proof. unfold mgr_get. destruct (_ || _); [discriminate|auto]. Qed.
Lemma evs_mgr_get limit h s fd o : inv limit h s -> evs s fd = Some o -> mgr_get limit s fd = Some o.
Proof.
  intros I E. unfold mgr_get. destruct (i_evs _ _ _ I _ _ E) as (R & _).
  replace ((fd <? 0) || (limit <=? fd)) with false by (symmetry; apply orb_false_iff; split; [apply Z.ltb_ge|apply Z.leb_gt]; lia). exact E.
Qed.

(** The object behind an entry at dispatch. *)
Lemma dispatch_cases limit h s l : hist limit h s ->
  exists s' vs, step limit s (ODispatch l) = Ok (s', vs) /\
    match fired s l with
    | [] => vs = [] /\ s' = s
    | (fd, m, g) :: r => s' = set_fired s l r /\
        ((exists o f w, vs = [VInvoke l o m g] /\ objs s o = Some f /\ f_fd f = fd /\ f_watch f = Some w /\ f_alive f = true /\ evs s fd = Some o) \/
         (vs = [VSkip l fd] /\ evs s fd = None \/ vs = [VSkip l fd] /\ ~ (0 <= fd < limit)))
    end.
Proof.
  intro H. apply hist_inv in H as I. cbn [step]. destruct (fired s l) as [|[[fd m] g] r]; [exists s, []; auto|].
  destruct (mgr_get limit s fd) as [o|] eqn:G.
  - apply mgr_get_evs in G. destruct (i_evs _ _ _ I _ _ G) as (R & f & w & A & B & C & D).
    unfold with_obj. rewrite A, D. eexists _, _. split; [reflexivity|]. split; [reflexivity|]. left. exists o, f, w. auto 10.
  - eexists _, _. split; [reflexivity|]. split; [reflexivity|]. right. unfold mgr_get in G.
    destruct ((fd <? 0) || (limit <=? fd)) eqn:B; [right|left; auto]. split; [reflexivity|]. intro C.
    apply orb_true_iff in B as [B|B]; b2p; lia.
Qed.

Lemma non_dispatch_silent limit s x s' vs l o m g : step limit s x = Ok (s', vs) -> In (VInvoke l o m g) vs -> x = ODispatch l.
Proof.
  intros E. destruct x; cbn [step] in E.
  - inv E; cbn; tauto.
  - inv E; cbn; tauto.
  - inv E; cbn; tauto.
  - apply with_obj_ok in E as (f & _ & _ & E). inv E; cbn; tauto.
  - apply with_obj_ok in E as (f & _ & _ & E). destruct (match f_watch f with Some w => negb (Nat.eqb w l0) | None => false end); [inv E; cbn; intros [X|[]]; discriminate|].
    destruct (mgr_add limit s o0 f) eqn:M; [|discriminate]. inv E; cbn; intros [X|[]]; discriminate.
  - apply with_obj_ok in E as (f & _ & _ & E). destruct (f_watch f); [|inv E; cbn; intros [X|[]]; discriminate]. destruct (Nat.eqb n l0); [|discriminate]. inv E; cbn; intros [X|[]]; discriminate.
  - apply with_obj_ok in E as (f & _ & _ & E). destruct (new_mask (f_event f) c); [|inv E; cbn; tauto]. cbn [f_watch f_fd] in E. destruct (f_watch f); [|inv E; cbn; tauto].
    destruct (ctl_mod _ _ _ _) as [s1 ok]. destruct (negb ok); [inv E; cbn; tauto|]. destruct (mgr_get _ _ _); inv E; cbn; tauto.
  - apply with_obj_ok in E as (f & _ & _ & E). inv E; cbn; tauto.
  - inv E; cbn; tauto.
  - destruct (fired s l0) as [|[[fd m'] g'] r] eqn:F; [inv E; cbn; tauto|].
    destruct (mgr_get limit s fd) as [o'|]; [apply with_obj_ok in E as (f & _ & _ & E)|]; inv E; cbn; intros [X|[]]; inv X; reflexivity.
Qed.
Lemma non_dispatch_handled limit s x s' vs l h : step limit s x = Ok (s', vs) -> x <> ODispatch l -> flat_map (handled1 h l) vs = [].
Proof.
  intros E. destruct x; cbn [step] in E.
  - inv E; reflexivity.
  - inv E; reflexivity.
  - inv E; reflexivity.
  - apply with_obj_ok in E as (f & _ & _ & E). inv E; reflexivity.
  - apply with_obj_ok in E as (f & _ & _ & E). destruct (match f_watch f with Some w => negb (Nat.eqb w l0) | None => false end); [inv E; reflexivity|].
    destruct (mgr_add limit s o f) eqn:M; [|discriminate]. inv E; reflexivity.
  - apply with_obj_ok in E as (f & _ & _ & E). destruct (f_watch f); [|inv E; reflexivity]. destruct (Nat.eqb n l0); [|discriminate]. inv E; reflexivity.
  - apply with_obj_ok in E as (f & _ & _ & E). destruct (new_mask (f_event f) c); [|inv E; reflexivity]. cbn [f_watch f_fd] in E. destruct (f_watch f); [|inv E; reflexivity].
    destruct (ctl_mod _ _ _ _) as [s1 ok]. destruct (negb ok); [inv E; reflexivity|]. destruct (mgr_get _ _ _); inv E; reflexivity.
  - apply with_obj_ok in E as (f & _ & _ & E). inv E; reflexivity.
  - inv E; reflexivity.
  - intro N. assert (Nl : l0 <> l) by congruence. destruct (fired s l0) as [|[[fd m'] g'] r] eqn:F; [inv E; reflexivity|].
    destruct (mgr_get limit s fd) as [o'|]; [apply with_obj_ok in E as (f & _ & _ & E)|]; inv E; cbn; destruct (Nat.eqb_spec l0 l); try congruence; reflexivity.
Qed.

Lemma handled_ext h h' l part : (forall l' o m g e, In e part -> In (VInvoke l' o m g) (snd e) -> fd_of h' o = fd_of h o) ->
  handled h' l part = handled h l part.
Proof.
  intros H. unfold handled. induction part as [|e part IH]; [reflexivity|]. cbn [flat_map]. rewrite IH by (intros; eapply H; [right|]; eauto).
  f_equal. assert (G : forall l' o m g, In (VInvoke l' o m g) (snd e) -> fd_of h' o = fd_of h o) by (intros; eapply H; [left; reflexivity|eauto]).
  revert G. induction (snd e) as [|v vs IHv]; intros G; [reflexivity|]. cbn [flat_map]. rewrite IHv by (intros; eapply G; right; eauto). f_equal.
  destruct v; cbn; auto. destruct (Nat.eqb l0 l); [|reflexivity]. rewrite (G l0 o m g); [reflexivity|left; reflexivity].
Qed.

Lemma invoked_known limit h s : hist limit h s -> forall e l o m g, In e h -> In (VInvoke l o m g) (snd e) -> exists fd, fd_of h o = Some fd.
Proof.
  induction 1 as [|h s x s' vs H IH P L E]; intros e l o m g He Hv; [destruct He|].
  apply in_app_or in He as [He|[<-|[]]].
  - destruct (IH e l o m g He Hv) as (fd & F). exists fd. rewrite fd_of_app, F. reflexivity.
  - cbn [snd] in Hv. pose proof (non_dispatch_silent _ _ _ _ _ _ _ _ _ E Hv); subst x.
    destruct (dispatch_cases limit h s l H) as (s1 & vs1 & E1 & C). rewrite E in E1. inv E1.
    destruct (fired s l) as [|[[fd m'] g'] r]; [destruct C as [-> _]; destruct Hv|].
    destruct C as (_ & [(o' & f & w & C1 & C2 & C3 & _)|[[C1 _]|[C1 _]]]); subst vs1; destruct Hv as [Hv|[]]; inv Hv.
    apply hist_inv in H. destruct (i_obj _ _ _ H _ _ C2) as (F & _). exists (f_fd f). rewrite fd_of_app, F. reflexivity.
Qed.

Lemma batch_ok limit h1 l es vs0 h2 s : hist limit (h1 ++ (OPoll l es, vs0) :: h2) s -> Forall (fun e => ~ polls l e) h2 ->
  handled (h1 ++ (OPoll l es, vs0) :: h2) l h2 ++ map (fun e => Some (fst (fst e))) (fired s l) = map (fun e => Some (fst e)) es.
Proof.
  revert s. induction h2 as [|[x vs] h2 IH] using rev_ind; intros s H P.
  - apply hist_snoc_inv in H as (s0 & H & _ & _ & E). cbn [step] in E. inv E. cbn [handled flat_map app fired set_fired].
    rewrite upd_nat, Nat.eqb_refl, map_map. reflexivity.
  - change (h1 ++ (OPoll l es, vs0) :: h2 ++ [(x, vs)]) with (h1 ++ ((OPoll l es, vs0) :: h2) ++ [(x, vs)]) in *. rewrite app_assoc in *.
    apply hist_snoc_inv in H as (s0 & H & HP & HL & E). apply Forall_app in P as [P P1]. specialize (IH s0 H P).
    set (hh := h1 ++ (OPoll l es, vs0) :: h2) in *.
    assert (EX : handled (hh ++ [(x, vs)]) l h2 = handled hh l h2).
    { apply handled_ext. intros l' o m g e He Hv. destruct (invoked_known _ _ _ H e l' o m g) as (fd & F); auto.
      - unfold hh. apply in_or_app. right. right. exact He.
      - rewrite fd_of_app, F. reflexivity. }
    unfold handled. rewrite flat_map_app. fold (handled (hh ++ [(x, vs)]) l h2). rewrite EX. cbn [flat_map snd]. rewrite app_nil_r.
    destruct (match x with ODispatch l' => Nat.eqb l' l | _ => false end) eqn:EQ.
    + destruct x; try discriminate. apply Nat.eqb_eq in EQ as ->. destruct (dispatch_cases limit hh s0 l H) as (s1 & vs1 & E1 & C). rewrite E in E1. inv E1.
      destruct (fired s0 l) as [|[[fd m] g] r] eqn:F.
      * destruct C as [-> ->]. cbn [flat_map]. rewrite app_nil_r, F. exact IH.
      * destruct C as (-> & C). cbn [fired set_fired]. rewrite upd_nat, Nat.eqb_refl. rewrite <- IH. cbn [map fst]. rewrite <- app_assoc. f_equal.
        assert (G : flat_map (handled1 (hh ++ [(ODispatch l, vs1)]) l) vs1 = [Some fd]).
        { destruct C as [(o & f & w & -> & C2 & C3 & _)|[[-> _]|[-> _]]]; cbn; rewrite Nat.eqb_refl; try reflexivity.
          apply hist_inv in H as I. destruct (i_obj _ _ _ I _ _ C2) as (Fo & _). rewrite fd_of_app, Fo, C3. reflexivity. }
        rewrite G. reflexivity.
    + assert (NX : x <> ODispatch l) by (intros ->; rewrite Nat.eqb_refl in EQ; discriminate).
      inversion P1 as [|? ? P2 _]; subst. rewrite (non_dispatch_handled _ _ _ _ _ _ _ E NX), app_nil_r.
      rewrite (step_fired _ _ _ _ _ _ E P2 NX). exact IH.
Qed.

(** An object stays where it is until it is removed. *)
Lemma inst_keep limit h s x s' vs o f l : hist limit h s -> possible s x -> legal s h x -> step limit s x = Ok (s', vs) ->
  objs s o = Some f -> f_watch f = Some l -> ~ removes o (x, vs) ->
  exists f', objs s' o = Some f' /\ f_watch f' = Some l /\ f_fd f' = f_fd f.
Proof.
  intros H P L E Hf Hw N. assert (H' : hist limit (h ++ [(x, vs)]) s') by (econstructor; eauto).
  apply hist_inv in H as I. apply hist_inv in H' as I'.
  destruct (i_obj _ _ _ I o f Hf) as (F1 & F2 & _).
  assert (X1 : fd_of (h ++ [(x, vs)]) o = Some (f_fd f)) by (rewrite fd_of_app, F1; reflexivity).
  assert (X2 : installed (h ++ [(x, vs)]) o = Some l).
  { rewrite installed_snoc, F2, Hw. destruct x; cbn [installed_step]; auto.
    - destruct vs as [|[| |[]] []]; auto. destruct (Nat.eqb_spec o0 o) as [->|]; auto.
      exfalso. cbn [step] in E. apply with_obj_ok in E as (g & Hg & _ & E). assert (g = f) by congruence. subst g. rewrite Hw in E.
      destruct (negb (Nat.eqb l l0)); [discriminate|]. destruct (mgr_add limit s o f) eqn:M; [|discriminate]. apply mgr_add_some in M as (_ & M & _).
      destruct (i_watch _ _ _ I o f l Hf Hw) as (Q & _). congruence.
    - destruct vs as [|[| |[]] []]; auto. destruct (Nat.eqb_spec o0 o) as [->|]; auto. exfalso. apply N. exists l0. reflexivity. }
  destruct (objs s' o) as [f'|] eqn:O.
  - destruct (i_obj _ _ _ I' o f' O) as (Y1 & Y2 & _). exists f'. split; [reflexivity|]. split; congruence.
  - destruct (i_none _ _ _ I' o O) as (Y1 & _). congruence.
Qed.

Lemma delivered limit h1 l es vs0 h2 s o fd e :
  hist limit (h1 ++ (OPoll l es, vs0) :: h2) s -> Forall (fun e => ~ polls l e) h2 -> Forall (fun e => ~ removes o e) h2 ->
  installed h1 o = Some l -> fd_of h1 o = Some fd -> In (fd, e) es ->
  (exists f, objs s o = Some f /\ f_watch f = Some l /\ f_fd f = fd) /\
  ((exists g, In (fd, to_lt_event e, g) (fired s l)) \/
   (exists g c, In c h2 /\ In (VInvoke l o (to_lt_event e) g) (snd c))).
Proof.
  intros H P R IN FD HE. revert s H. induction h2 as [|[x vs] h2 IH] using rev_ind; intros s H.
  - apply hist_snoc_inv in H as (s0 & H & _ & _ & E). cbn [step] in E. inv E. apply hist_inv in H as I. cbn [objs set_fired fired].
    split.
    + destruct (objs s0 o) as [f|] eqn:O.
      * destruct (i_obj _ _ _ I o f O) as (X1 & X2 & _). exists f. split; [reflexivity|]. split; congruence.
      * destruct (i_none _ _ _ I o O) as (X1 & _). congruence.
    + left. exists (gen s0 fd). rewrite upd_nat, Nat.eqb_refl. apply in_map_iff. exists (fd, e). auto.
  - apply Forall_app in P as [P P1]. apply Forall_app in R as [R R1]. inversion P1 as [|? ? P2 _]; subst. inversion R1 as [|? ? R2 _]; subst.
    change (h1 ++ (OPoll l es, vs0) :: h2 ++ [(x, vs)]) with (h1 ++ ((OPoll l es, vs0) :: h2) ++ [(x, vs)]) in H. rewrite app_assoc in H.
    apply hist_snoc_inv in H as (s0 & H & HP & HL & E). destruct (IH P R s0 H) as [(f & F1 & F2 & F3) D].
    split.
    + destruct (inst_keep _ _ _ _ _ _ _ _ _ H HP HL E F1 F2 R2) as (f' & G1 & G2 & G3). exists f'. split; [exact G1|]. split; congruence.
    + destruct D as [(g & D)|(g & c & D1 & D2)].
      2:{ right. exists g, c. split; [apply in_or_app; left; exact D1|exact D2]. }
      destruct (match x with ODispatch l' => Nat.eqb l' l | _ => false end) eqn:EQ.
      * destruct x; try discriminate. apply Nat.eqb_eq in EQ as ->. destruct (dispatch_cases limit _ s0 l H) as (s1 & vs1 & E1 & C). rewrite E in E1. inv E1.
        destruct (fired s0 l) as [|[[fd' m'] g'] r] eqn:F; [destruct D|]. destruct C as (-> & C). cbn [fired set_fired]. rewrite upd_nat, Nat.eqb_refl.
        destruct D as [D|D]; [|left; exists g; exact D]. inv D. right. exists g, (ODispatch l, vs1). split; [apply in_or_app; right; left; reflexivity|].
        apply hist_inv in H as I. destruct (i_watch _ _ _ I o f l F1 F2) as (W & _).
        destruct C as [(o' & f' & w & -> & C2 & C3 & _ & _ & C6)|[[_ C]|[_ C]]].
        -- rewrite W in C6. inv C6. left. reflexivity.
        -- congruence.
        -- exfalso. apply C. apply (i_evs _ _ _ I _ _ W).
      * left. exists g. rewrite (step_fired _ _ _ _ _ _ E P2); [exact D|]. intros ->. rewrite Nat.eqb_refl in EQ. discriminate.
Qed.
