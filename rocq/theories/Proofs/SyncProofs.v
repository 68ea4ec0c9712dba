From Verif.Model Require Import Common Sync.
From Verif.Spec Require Import SyncSpec.
From Verif.Proofs Require Import Tac.

Lemma tset_same {A} (f : nat -> A) t x : tset f t x t = x.
Proof. unfold tset. now rewrite Nat.eqb_refl. Qed.
Lemma tset_other {A} (f : nat -> A) t x u : u <> t -> tset f t x u = f u.
Proof. unfold tset. intro. destruct (Nat.eqb_spec u t); congruence. Qed.

(** SpinLock *)
Record sinv (h : list (nat * sact * sev)) (s : sst) : Prop := {
  si_in : forall t, In t (inside h) <-> spcs s t = PHold;
  si_one : (sflag s = false /\ inside h = []) \/ (sflag s = true /\ exists t, inside h = [t]);
  si_wait : forall t, waiting h t = true <-> (spcs s t = PExch \/ spcs s t = PSpin \/ spcs s t = PYield)
}.

Lemma inside_snoc h x : inside (h ++ [x]) = inside_step (inside h) x.
Proof. unfold inside. now rewrite fold_left_app. Qed.
Lemma waiting_snoc h x t : waiting (h ++ [x]) t = waiting_step t (waiting h t) x.
Proof. unfold waiting. now rewrite fold_left_app. Qed.

Lemma shist_inv h s : shist h s -> sinv h s.
Proof.
  induction 1 as [|h s t a s' e H I St].
  - split.
    + intro t. cbn. split; [intros []|discriminate].
    + left. split; reflexivity.
    + intro t. cbn. split; [discriminate|intros [|[|]]; discriminate].
  - destruct I as [I1 I2 I3]. unfold sstep in St.
    pose proof (I1 t) as J1. pose proof (I3 t) as J3.
    destruct (spcs s t) eqn:P, a; try discriminate;
      try (destruct (sflag s) eqn:F); injection St as <- <-;
      (split; [intro u; rewrite inside_snoc; specialize (I1 u) | rewrite inside_snoc | intro u; rewrite waiting_snoc; specialize (I3 u)]);
      cbn [inside_step waiting_step sflag spcs s_at];
      try (destruct (Nat.eqb_spec t u) as [<-|n]; [rewrite ?tset_same|rewrite ?tset_other by congruence]);
      try (rewrite F in * ); try (rewrite P in * ).
    all: try assumption.
    all: try (split; intros; try (repeat match goal with H : _ \/ _ |- _ => destruct H end; congruence); tauto).
    all: cbn [In] in *; try (intuition congruence).
    all: try (destruct I2 as [[X Y]|[X (u0 & Y)]]; try discriminate X).
    all: rewrite Y in *; cbn [In remove] in *; eauto 6.
    4: split; [intros []|discriminate].
    all: assert (E0 : u0 = t) by (destruct (proj2 J1 eq_refl) as [Z|[]]; exact Z); rewrite E0 in *.
    all: destruct (Nat.eq_dec t t) as [_|Z]; [|congruence].
    3: auto.
    1: split; [intros []|discriminate].
    split; [intros []|]. intro Z. apply I1 in Z. destruct Z as [Z|[]]. congruence.
Qed.

(** LazyInstance *)
Lemma count_snoc p h x : count_ev p (h ++ [x]) = count_ev p h + (if p (snd x) then 1 else 0).
Proof. unfold count_ev. rewrite filter_app, app_length. cbn [filter]. destruct (p (snd x)); reflexivity. Qed.
Lemma calling_snoc h x t : calling (h ++ [x]) t = calling_step t (calling h t) x.
Proof. unfold calling. now rewrite fold_left_app. Qed.

Definition crit (p : lpc) : Prop := p = LCtor \/ p = LStore.
Definition quiet (f : nat -> lpc) : Prop := forall t, ~ crit (f t).
Definition owned (f : nat -> lpc) (u : nat) (p : lpc) : Prop := f u = p /\ forall t, t <> u -> ~ crit (f t).
Definition counts (h : list (nat * lact * lev)) (b e th : nat) : Prop := begins h = b /\ ends h = e /\ throws h = th.

Lemma crit_dec p : crit p \/ ~ crit p.
Proof. unfold crit. destruct p; intuition congruence. Qed.
Lemma quiet_set f t p : quiet f -> ~ crit p -> quiet (tset f t p).
Proof. intros Q C u. destruct (Nat.eq_dec u t) as [->|]; [rewrite tset_same|rewrite tset_other]; auto. Qed.
Lemma owned_set f u p t q : owned f u p -> crit p -> ~ crit (f t) -> ~ crit q -> owned (tset f t q) u p.
Proof.
  intros [O1 O2] P C Q. assert (u <> t) by (intros ->; rewrite O1 in C; tauto). split.
  - rewrite tset_other; auto.
  - intros v V. destruct (Nat.eq_dec v t) as [->|]; [rewrite tset_same|rewrite tset_other]; auto.
Qed.
Lemma owned_new f t p : quiet f -> owned (tset f t p) t p.
Proof. intro Q. split; [apply tset_same|]. intros v V. rewrite tset_other; auto. Qed.
Lemma owned_upd f t p q : owned f t p -> owned (tset f t q) t q.
Proof. intros [_ O]. split; [apply tset_same|]. intros v V. rewrite tset_other; auto. Qed.
Lemma owned_drop f u p q : owned f u p -> ~ crit q -> quiet (tset f u q).
Proof. intros [_ O] Q v. destruct (Nat.eq_dec v u) as [->|]; [rewrite tset_same|rewrite tset_other]; auto. Qed.
Lemma owned_is f u p t : owned f u p -> crit (f t) -> t = u.
Proof. intros [_ O] C. destruct (Nat.eq_dec t u) as [|n]; [assumption|]. destruct (O t n C). Qed.

Definition phase (h : list (nat * lact * lev)) (s : lst) : Prop :=
  (quiet (lpcs s) /\ ((lm s = 0 /\ counts h 0 0 0) \/ (lm s = 1 /\ counts h 1 0 1) \/ (lm s = 2 /\ counts h 1 1 0))) \/
  (lm s = 1 /\ exists u, (owned (lpcs s) u LCtor /\ counts h 1 0 0) \/ (owned (lpcs s) u LStore /\ counts h 1 1 0)).

Record linv (h : list (nat * lact * lev)) (s : lst) : Prop := {
  li_m : phase h s;
  li_spin : forall t, lpcs s t = LSpin -> lm s <> 0;
  li_call : forall t, calling h t = negb (match lpcs s t with LIdle => true | _ => false end);
  li_ret : forall h1 t a h2, h = h1 ++ (t, a, LReturn) :: h2 -> ends h1 = 1
}.

Lemma snoc_split {A} (h h1 h2 : list A) x y : h ++ [x] = h1 ++ y :: h2 ->
  (h2 = [] /\ h1 = h /\ x = y) \/ exists h2', h2 = h2' ++ [x] /\ h = h1 ++ y :: h2'.
Proof.
  destruct h2 as [|z h2 _] using rev_ind; intro E.
  - apply app_inj_tail in E as [-> ->]. auto.
  - right. exists h2. rewrite app_comm_cons, app_assoc in E. apply app_inj_tail in E as [-> ->]. auto.
Qed.

Lemma counts_snoc h t a e b en th : counts h b en th ->
  counts (h ++ [(t, a, e)]) (b + match e with LBegin => 1 | _ => 0 end) (en + match e with LEnd => 1 | _ => 0 end)
         (th + match e with LThrown => 1 | _ => 0 end).
Proof.
  intros (<- & <- & <-). unfold counts, begins, ends, throws. rewrite !count_snoc. cbn [snd]. destruct e; auto.
Qed.
Lemma counts_tau h t a e b en th : counts h b en th -> match e with LBegin | LEnd | LThrown => False | _ => True end ->
  counts (h ++ [(t, a, e)]) b en th.
Proof. intros C. apply (counts_snoc _ t a e) in C. destruct e; intros []; rewrite !Nat.add_0_r in C; exact C. Qed.

(** A step of a thread outside the constructor that stays outside keeps the phase. *)
Lemma phase_same h s t a e q : phase h s -> ~ crit (lpcs s t) -> ~ crit q ->
  match e with LBegin | LEnd | LThrown => False | _ => True end -> phase (h ++ [(t, a, e)]) (l_at s t q).
Proof.
  intros [(Q & P)|(M & u & P)] C1 C2 E.
  - left. split; [apply quiet_set; assumption|].
    destruct P as [(M & P)|[(M & P)|(M & P)]]; [left|right; left|right; right]; (split; [exact M|apply counts_tau; assumption]).
  - right. split; [exact M|]. exists u.
    destruct P as [(O & P)|(O & P)]; [left|right]; (split; [apply owned_set; auto; unfold crit; auto|apply counts_tau; assumption]).
Qed.

Lemma lhist_inv h s : lhist h s -> linv h s.
Proof.
  induction 1 as [|h s t a s' e H I St].
  - split.
    + left. split; [intros t [X|X]; discriminate|]. left. repeat split.
    + discriminate.
    + reflexivity.
    + intros [|] ? ? ? E; discriminate.
  - destruct I as [I1 IS I2 I3].
    assert (NC : forall p, p <> LCtor -> p <> LStore -> ~ crit p) by (unfold crit; intuition congruence).
    assert (K : phase (h ++ [(t, a, e)]) s' /\ (e = LReturn -> ends h = 1)).
    { unfold lstep in St. destruct (lpcs s t) eqn:P, a; try discriminate.
      all: try (injection St as <- <-; split; [apply phase_same; auto; try rewrite P; apply NC; discriminate|discriminate]).
      - (* hasInstance *) injection St as <- <-. split; [|discriminate].
        destruct I1 as [(Q & D)|(M & u & D)]; [left|right].
        + split; [exact Q|]. destruct D as [(M & D)|[(M & D)|(M & D)]]; [left|right; left|right; right]; (split; [exact M|apply counts_tau; auto]).
        + split; [exact M|]. exists u. destruct D as [(O & D)|(O & D)]; [left|right]; (split; [exact O|apply counts_tau; auto]).
      - (* LCheck *) destruct (Nat.eqb_spec (lm s) 2) as [E2|E2]; injection St as <- <-.
        + split; [apply phase_same; auto; try rewrite P; apply NC; discriminate|]. intros _.
          destruct I1 as [(_ & [(M & _)|[(M & _)|(_ & D)]])|(M & _)]; try congruence. apply D.
        + split; [apply phase_same; auto; try rewrite P; apply NC; discriminate|discriminate].
      - (* LCas *) destruct (Nat.eqb_spec (lm s) 0) as [E0|E0]; injection St as <- <-.
        + split; [|discriminate]. destruct I1 as [(Q & [(M & D)|[(M & _)|(M & _)]])|(M & _)]; try congruence.
          right. split; [reflexivity|]. exists t. left. split; [apply owned_new; exact Q|].
          apply (counts_snoc _ t LStep LBegin) in D. exact D.
        + split; [apply phase_same; auto; try rewrite P; apply NC; discriminate|discriminate].
      - (* LSpin *) destruct (Nat.eqb_spec (lm s) 2) as [E2|E2]; injection St as <- <-.
        + split; [apply phase_same; auto; try rewrite P; apply NC; discriminate|]. intros _.
          destruct I1 as [(_ & [(M & _)|[(M & _)|(_ & D)]])|(M & _)]; try congruence. apply D.
        + split; [|discriminate]. destruct I1 as [(Q & D)|(M & u & D)]; [left|right].
          * split; [exact Q|]. destruct D as [(M & D)|[(M & D)|(M & D)]]; [left|right; left|right; right]; (split; [exact M|apply counts_tau; auto]).
          * split; [exact M|]. exists u. destruct D as [(O & D)|(O & D)]; [left|right]; (split; [exact O|apply counts_tau; auto]).
      - (* LCtor, done *) injection St as <- <-. split; [|discriminate].
        assert (C : crit (lpcs s t)) by (rewrite P; left; reflexivity).
        destruct I1 as [(Q & _)|(M & u & D)]; [destruct (Q t C)|]. right. split; [exact M|]. exists t.
        destruct D as [(O & D)|(O & D)].
        + right. split; [apply owned_upd with LCtor; rewrite (owned_is _ _ _ _ O C); exact O|].
          apply (counts_snoc _ t LStep LEnd) in D. exact D.
        + assert (t = u) by (apply (owned_is _ _ _ _ O C)). subst u. destruct O as [O _]. congruence.
      - (* LCtor, throws *) injection St as <- <-. split; [|discriminate].
        assert (C : crit (lpcs s t)) by (rewrite P; left; reflexivity).
        destruct I1 as [(Q & _)|(M & u & D)]; [destruct (Q t C)|]. left.
        destruct D as [(O & D)|(O & D)].
        + split; [apply owned_drop with LCtor; [rewrite (owned_is _ _ _ _ O C); exact O|apply NC; discriminate]|].
          right; left. split; [exact M|]. apply (counts_snoc _ t LThrow LThrown) in D. exact D.
        + assert (t = u) by (apply (owned_is _ _ _ _ O C)). subst u. destruct O as [O _]. congruence.
      - (* LStore *) injection St as <- <-.
        assert (C : crit (lpcs s t)) by (rewrite P; right; reflexivity).
        destruct I1 as [(Q & _)|(M & u & D)]; [destruct (Q t C)|].
        assert (t = u) by (destruct D as [(O & _)|(O & _)]; apply (owned_is _ _ _ _ O C)). subst u.
        destruct D as [(O & D)|(O & D)]; [destruct O; congruence|]. split; [|intros _; apply D].
        left. split; [apply owned_drop with LStore; [exact O|apply NC; discriminate]|]. right; right. split; [reflexivity|].
        apply counts_tau; auto. }
    destruct K as [K R]. split; [exact K| | |].
    + intro u. specialize (IS u). unfold lstep in St.
      destruct (lpcs s t) eqn:P, a; try discriminate;
        try (destruct (Nat.eqb_spec (lm s) 2) as [E2|E2]); try (destruct (Nat.eqb_spec (lm s) 0) as [E0|E0]);
        injection St as <- <-; cbn [lm lpcs l_at]; try discriminate; try exact IS;
        (destruct (Nat.eq_dec u t) as [->|n]; [rewrite ?tset_same|rewrite ?tset_other by congruence]);
        try discriminate; try (intros _; assumption); exact IS.
    + intro u. rewrite calling_snoc. specialize (I2 u). unfold lstep in St.
      destruct (lpcs s t) eqn:P, a; try discriminate;
        try (destruct (Nat.eqb (lm s) 2)); try (destruct (Nat.eqb (lm s) 0));
        injection St as <- <-; cbn [calling_step lpcs l_at];
        (destruct (Nat.eqb_spec t u) as [<-|n]; [rewrite ?tset_same|rewrite ?tset_other by congruence]);
        try rewrite P in *; try reflexivity; exact I2.
    + intros h1 u b h2 E. apply snoc_split in E as [(-> & -> & E)|(h2' & -> & E)].
      * injection E as -> -> ->. apply R. reflexivity.
      * eapply I3. exact E.
Qed.

(** Running concrete schedules. *)
Fixpoint sgo (h : list (nat * sact * sev)) (s : sst) (l : list (nat * sact)) : option (list (nat * sact * sev) * sst) :=
  match l with
  | [] => Some (h, s)
  | (t, a) :: l => match sstep s t a with Some (s', e) => sgo (h ++ [(t, a, e)]) s' l | None => None end
  end.
Lemma sgo_hist l : forall h s h' s', shist h s -> sgo h s l = Some (h', s') -> shist h' s'.
Proof.
  induction l as [|[t a] l IH]; intros h s h' s' H E; cbn [sgo] in E; [congruence|].
  destruct (sstep s t a) as [[s1 e]|] eqn:St; [|discriminate]. eapply IH; [|exact E]. econstructor; eassumption.
Qed.
Fixpoint lgo (h : list (nat * lact * lev)) (s : lst) (l : list (nat * lact)) : option (list (nat * lact * lev) * lst) :=
  match l with
  | [] => Some (h, s)
  | (t, a) :: l => match lstep s t a with Some (s', e) => lgo (h ++ [(t, a, e)]) s' l | None => None end
  end.
Lemma lgo_hist l : forall h s h' s', lhist h s -> lgo h s l = Some (h', s') -> lhist h' s'.
Proof.
  induction l as [|[t a] l IH]; intros h s h' s' H E; cbn [lgo] in E; [congruence|].
  destruct (lstep s t a) as [[s1 e]|] eqn:St; [|discriminate]. eapply IH; [|exact E]. econstructor; eassumption.
Qed.

(** Completing a call. *)
Definition ext (n : nat) h (t : nat) : Prop :=
  exists h2 s' a, lhist (h ++ h2 ++ [(t, a, LReturn)]) s' /\ length h2 <= n.
Lemma ext_ret h s t a s1 n : lhist h s -> lstep s t a = Some (s1, LReturn) -> ext n h t.
Proof. intros H E. exists [], s1, a. split; [econstructor; eassumption|cbn; lia]. Qed.
Lemma ext_step h s u a s1 e n t : lhist h s -> lstep s u a = Some (s1, e) ->
  (lhist (h ++ [(u, a, e)]) s1 -> ext n (h ++ [(u, a, e)]) t) -> ext (S n) h t.
Proof.
  intros H E K. assert (H1 : lhist (h ++ [(u, a, e)]) s1) by (econstructor; eassumption).
  destruct (K H1) as (h2 & s' & b & H2 & L). exists ((u, a, e) :: h2), s', b. rewrite <- app_assoc in H2. split; [exact H2|cbn; lia].
Qed.
Lemma ext_done n h s t : lhist h s -> lm s = 2 -> lpcs s t <> LIdle -> ~ crit (lpcs s t) -> ext (S n) h t.
Proof.
  intros H M N C. unfold crit in C. destruct (lpcs s t) eqn:P; try congruence; try tauto.
  - apply (ext_step h s t LStep (l_at s t LCheck) LTau); [exact H|unfold lstep; rewrite P; reflexivity|]. intro H1.
    apply (ext_ret _ _ t LStep (l_at (l_at s t LCheck) t LIdle) n H1). unfold lstep. cbn [lpcs l_at lm]. rewrite tset_same, M. reflexivity.
  - apply (ext_ret _ _ t LStep (l_at s t LIdle) _ H). unfold lstep. rewrite P, M. reflexivity.
  - apply (ext_step h s t LStep (l_at s t LSpin) LTau); [exact H|unfold lstep; rewrite P, M; reflexivity|]. intro H1.
    apply (ext_ret _ _ t LStep (l_at (l_at s t LSpin) t LIdle) n H1). unfold lstep. cbn [lpcs l_at lm]. rewrite tset_same, M. reflexivity.
  - apply (ext_ret _ _ t LStep (l_at s t LIdle) _ H). unfold lstep. rewrite P, M. reflexivity.
Qed.
Lemma ext_store n h s t u : lhist h s -> lm s = 1 -> owned (lpcs s) u LStore -> lpcs s t <> LIdle -> ext (2 + n) h t.
Proof.
  intros H M O N. pose proof O as [P O2]. destruct (Nat.eq_dec t u) as [->|n0].
  - apply (ext_ret _ _ u LStep (mkL 2 (tset (lpcs s) u LIdle)) _ H). unfold lstep. rewrite P. reflexivity.
  - apply (ext_step h s u LStep (mkL 2 (tset (lpcs s) u LIdle)) LReturn); [exact H|unfold lstep; rewrite P; reflexivity|]. intro H1.
    apply (ext_done _ _ _ _ H1); cbn [lm lpcs]; rewrite ?tset_other by auto; auto.
Qed.
Lemma ext_ctor n h s t u : lhist h s -> lm s = 1 -> owned (lpcs s) u LCtor -> lpcs s t <> LIdle -> ext (3 + n) h t.
Proof.
  intros H M O N. pose proof O as [P O2].
  apply (ext_step h s u LStep (l_at s u LStore) LEnd); [exact H|unfold lstep; rewrite P; reflexivity|]. intro H1.
  apply (ext_store _ _ _ _ u H1); cbn [lm lpcs l_at]; auto.
  - apply (owned_upd _ _ LCtor). exact O.
  - destruct (Nat.eq_dec t u) as [->|]; [rewrite tset_same; discriminate|rewrite tset_other; auto].
Qed.
Lemma ext_cas n h s t : lhist h s -> lm s = 0 -> quiet (lpcs s) -> lpcs s t = LCas -> ext (4 + n) h t.
Proof.
  intros H M Q P. apply (ext_step h s t LStep (mkL 1 (tset (lpcs s) t LCtor)) LBegin); [exact H|unfold lstep; rewrite P, M; reflexivity|].
  intro H1. apply (ext_ctor _ _ _ _ t H1); cbn [lm lpcs].
  - reflexivity.
  - apply owned_new. exact Q.
  - rewrite tset_same. discriminate.
Qed.
Lemma ext_check n h s t : lhist h s -> lm s = 0 -> quiet (lpcs s) -> lpcs s t = LCheck -> ext (5 + n) h t.
Proof.
  intros H M Q P. apply (ext_step h s t LStep (l_at s t LCas) LTau); [exact H|unfold lstep; rewrite P, M; reflexivity|].
  intro H1. apply (ext_cas _ _ _ _ H1); cbn [lm lpcs l_at].
  - exact M.
  - apply quiet_set; [exact Q|]. intros [X|X]; discriminate.
  - apply tset_same.
Qed.
Lemma ext_load n h s t : lhist h s -> lm s = 0 -> quiet (lpcs s) -> lpcs s t = LLoad -> ext (6 + n) h t.
Proof.
  intros H M Q P. apply (ext_step h s t LStep (l_at s t LCheck) LTau); [exact H|unfold lstep; rewrite P; reflexivity|].
  intro H1. apply (ext_check _ _ _ _ H1); cbn [lm lpcs l_at].
  - exact M.
  - apply quiet_set; [exact Q|]. intros [X|X]; discriminate.
  - apply tset_same.
Qed.
Lemma progress h s t : lhist h s -> throws h = 0 -> calling h t = true -> ext 6 h t.
Proof.
  intros H T C. destruct (lhist_inv h s H) as [P S I2 _]. rewrite I2 in C.
  assert (N : lpcs s t <> LIdle) by (intro E; rewrite E in C; discriminate).
  destruct P as [(Q & [(M & P)|[(M & P)|(M & P)]])|(M & u & [(O & P)|(O & P)])].
  - destruct (lpcs s t) eqn:E; try congruence.
    + apply (ext_load 0 h s t); assumption.
    + apply (ext_check 1 h s t); assumption.
    + apply (ext_cas 2 h s t); assumption.
    + destruct (S t E M).
    + destruct (Q t). left. exact E.
    + destruct (Q t). right. exact E.
  - destruct P as (_ & _ & P). congruence.
  - apply (ext_done 5 h s t); auto.
  - apply (ext_ctor 3 h s t u); auto.
  - apply (ext_store 4 h s t u); auto.
Qed.
