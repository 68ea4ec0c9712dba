(** The tagged free list: invariant of every history with fewer head changes than tags. *)
From Verif.Model Require Import Common FreeList.
From Verif.Spec Require Import FreeListSpec.
From Verif.Proofs Require Import Tac FreeListProofs.
Open Scope Z_scope.

Inductive dgs := DOut | DOn | DOwn (t : tid).
Definition addof (p : dpc) : option node := match p with DA0 n => Some n | DA1 n _ => Some n | DA2 n _ => Some n | _ => None end.
Definition curof (p : dpc) : option headptr := match p with DA1 _ c => Some c | DA2 _ c => Some c | DG1 _ c => Some c | DG2 _ _ c => Some c | _ => None end.

Record dfinv (l : list fev) (s : dfl) (g : node -> dgs) (L : list node) : Prop := {
  j_chain : reach (df_next s) (hp_ptr (df_head s)) L;
  j_nodup : NoDup L;
  j_on : forall n, In n L <-> g n = DOn;
  j_role : forall t n, addof (df_pc s t) = Some n <-> g n = DOwn t;
  j_tag : hp_tag (df_head s) = Z.of_nat (changes l);
  j_cur : forall t c, curof (df_pc s t) = Some c -> hp_tag c <= hp_tag (df_head s) /\ (hp_tag c = hp_tag (df_head s) -> c = df_head s);
  j_get1 : forall t h c, df_pc s t = DG1 h c -> hp_ptr c = Some h;
  j_get2 : forall t h x c, df_pc s t = DG2 h x c -> hp_ptr c = Some h /\ (hp_tag c = hp_tag (df_head s) -> df_next s h = x);
  j_add2 : forall t n c, df_pc s t = DA2 n c -> df_next s n = hp_ptr c;
  j_hist : forall n, (g n = DOut -> outside n l) /\ (g n <> DOut -> inside n l) }.

Lemma hp_eqb_spec a b : hp_eqb a b = true <-> a = b.
Proof.
  unfold hp_eqb. destruct a as [p t], b as [p' t']. cbn. split.
  - intros E. b2p. apply optn_eqb_spec in H. congruence.
  - intros E. inv E. rewrite Z.eqb_refl. rewrite (proj2 (optn_eqb_spec _ _)); auto.
Qed.
Lemma changes_app l l' : changes (l ++ l') = (changes l + changes l')%nat.
Proof. unfold changes. now rewrite filter_app, app_length. Qed.

Definition quiet_d (l' : list fev) : Prop := changes l' = 0%nat /\ forall n, adds n l' = 0%nat /\ gots n l' = 0%nat.
Lemma hist_quiet l l' g : (forall n : node, (g n = DOut -> outside n l) /\ (g n <> DOut -> inside n l)) -> quiet_d l' ->
  forall n : node, (g n = DOut -> outside n (l ++ l')) /\ (g n <> DOut -> inside n (l ++ l')).
Proof.
  intros H [_ Q] n. unfold outside, inside. rewrite adds_app, gots_app. destruct (Q n) as [-> ->]. rewrite !Nat.add_0_r. apply H.
Qed.

(** Only the place of a thread changes. *)
Lemma dfinv_pc l s g L t p l' : dfinv l s g L -> addof p = addof (df_pc s t) -> quiet_d l' ->
  (forall c, curof p = Some c -> hp_tag c <= hp_tag (df_head s) /\ (hp_tag c = hp_tag (df_head s) -> c = df_head s)) ->
  (forall h c, p = DG1 h c -> hp_ptr c = Some h) ->
  (forall h x c, p = DG2 h x c -> hp_ptr c = Some h /\ (hp_tag c = hp_tag (df_head s) -> df_next s h = x)) ->
  (forall n c, p = DA2 n c -> df_next s n = hp_ptr c) ->
  dfinv (l ++ l') (dset_pc s t p) g L.
Proof.
  intros [C1 C2 C3 C4 C5 C6 C7 C8 C9 C10] RA Q P1 P2 P3 P4.
  constructor; cbn -[fupd]; auto.
  - intros t' n. destruct (Nat.eq_dec t' t) as [->|T]; [rewrite fupd_same, RA|rewrite fupd_other by auto]; apply C4.
  - rewrite changes_app. destruct Q as [-> _]. rewrite Nat.add_0_r. auto.
  - intros t' c. destruct (Nat.eq_dec t' t) as [->|T]; [rewrite fupd_same|rewrite fupd_other by auto]; eauto.
  - intros t' h c. destruct (Nat.eq_dec t' t) as [->|T]; [rewrite fupd_same|rewrite fupd_other by auto]; eauto.
  - intros t' h x c. destruct (Nat.eq_dec t' t) as [->|T]; [rewrite fupd_same|rewrite fupd_other by auto]; eauto.
  - intros t' n c. destruct (Nat.eq_dec t' t) as [->|T]; [rewrite fupd_same|rewrite fupd_other by auto]; eauto.
  - now apply hist_quiet.
Qed.

Lemma quiet_nil : quiet_d []. Proof. split; auto. Qed.
Lemma quiet_null t : quiet_d [ENull t]. Proof. split; auto. Qed.
Lemma quiet_get t : quiet_d [EGet t]. Proof. split; auto. Qed.

Lemma dloop_inv l s g L t s' l' : dfinv l s g L -> addof (df_pc s t) = None -> dloop s t (df_head s) = (s', l') -> dfinv (l ++ l') s' g L.
Proof.
  intros HI RA E. unfold dloop in E. destruct (hp_ptr (df_head s)) as [h|] eqn:EH; inv E.
  - apply dfinv_pc; auto using quiet_nil; cbn; intros; try discriminate; try congruence.
    + inv H. lia || (split; [lia|auto]).
  - apply dfinv_pc; auto using quiet_null; cbn; intros; discriminate.
Qed.

Lemma dact_inv w l s g L a s' l' : 0 <= w -> dfinv l s g L -> (forall t n, a = DCallAdd t n -> outside n l) ->
  dact_step w s a = Some (s', l') -> Z.of_nat (changes (l ++ l')) < 2 ^ w -> exists g' L', dfinv (l ++ l') s' g' L'.
Proof.
  intros W HI OUT E CB. destruct a as [t n|t|t spur]; cbn [dact_step] in E.
  - destruct (df_pc s t) eqn:EP; try discriminate. inv E. specialize (OUT _ _ eq_refl).
    pose proof HI as HI0. destruct HI as [C1 C2 C3 C4 C5 C6 C7 C8 C9 C10].
    assert (GO : g n = DOut). { destruct (C10 n) as [_ HO']. destruct (g n) eqn:G; auto; specialize (HO' ltac:(discriminate)); unfold outside, inside in *; lia. }
    exists (fupd g n (DOwn t)), L. constructor; cbn -[fupd]; auto.
    + intros m. destruct (Nat.eq_dec m n) as [->|Q]; [rewrite fupd_same|rewrite fupd_other by auto]; rewrite C3; [rewrite GO; split; discriminate|tauto].
    + intros t' m. destruct (Nat.eq_dec t' t) as [->|T].
      * rewrite fupd_same. cbn. destruct (Nat.eq_dec m n) as [->|Q]; [rewrite fupd_same; tauto|rewrite fupd_other by auto].
        split; [congruence|]. intros G. apply C4 in G. rewrite EP in G. discriminate.
      * rewrite fupd_other by auto. destruct (Nat.eq_dec m n) as [->|Q]; [rewrite fupd_same|rewrite fupd_other by auto; apply C4].
        split; [|congruence]. intros G. apply C4 in G. congruence.
    + rewrite changes_app. cbn. rewrite Nat.add_0_r. auto.
    + intros t' c. destruct (Nat.eq_dec t' t) as [->|T]; [rewrite fupd_same; discriminate|rewrite fupd_other by auto]; eauto.
    + intros t' h c. destruct (Nat.eq_dec t' t) as [->|T]; [rewrite fupd_same; discriminate|rewrite fupd_other by auto]; eauto.
    + intros t' h x c. destruct (Nat.eq_dec t' t) as [->|T]; [rewrite fupd_same; discriminate|rewrite fupd_other by auto]; eauto.
    + intros t' m c. destruct (Nat.eq_dec t' t) as [->|T]; [rewrite fupd_same; discriminate|rewrite fupd_other by auto]; eauto.
    + intros m. destruct (C10 m) as [H1 H2]. unfold outside, inside in *. rewrite adds_app, gots_app. destruct (Nat.eq_dec m n) as [->|Q].
      * rewrite fupd_same. assert (adds n [EAdd t n] = 1%nat) as -> by (unfold adds; cbn; now rewrite Nat.eqb_refl).
        assert (gots n [EAdd t n] = 0%nat) as -> by reflexivity. specialize (H1 GO). split; [discriminate|lia].
      * rewrite fupd_other by auto. assert (E : (n =? m)%nat = false) by (apply Nat.eqb_neq; auto).
        assert (adds m [EAdd t n] = 0%nat) as -> by (unfold adds; cbn; now rewrite E).
        assert (gots m [EAdd t n] = 0%nat) as -> by reflexivity. rewrite !Nat.add_0_r. auto.
  - destruct (df_pc s t) eqn:EP; try discriminate. inv E. exists g, L.
    apply dfinv_pc; auto using quiet_get; rewrite ?EP; cbn; auto; intros; discriminate.
  - unfold dstep in E. destruct (df_pc s t) eqn:EP; try discriminate.
    + (* DA0 *) inv E. exists g, L. apply dfinv_pc; auto using quiet_nil; rewrite ?EP; cbn; auto; intros; try discriminate. inv H. split; [lia|auto].
    + (* DA1 *) inv E. exists g, L.
      assert (GE : g n = DOwn t) by (apply (j_role _ _ _ _ HI); rewrite EP; reflexivity).
      assert (NL : ~ In n L) by (rewrite (j_on _ _ _ _ HI); congruence).
      pose proof (j_cur _ _ _ _ HI t cur) as CU. rewrite EP in CU. specialize (CU eq_refl).
      assert (HI' : dfinv l (dset_nx s n (hp_ptr cur)) g L).
      { destruct HI as [C1 C2 C3 C4 C5 C6 C7 C8 C9 C10]. constructor; cbn -[fupd]; auto.
        - apply (reach_ext (df_next s)); auto. intros m M. symmetry. apply fupd_other. intros ->. auto.
        - intros t' h x c P. destruct (C8 _ _ _ _ P) as [K1 K2]. split; auto. intros TG. rewrite fupd_other; auto. intros ->.
          destruct (C6 t' c) as [_ K3]; [rewrite P; reflexivity|]. specialize (K3 TG). subst c. rewrite K1 in C1. inversion C1; subst. apply NL. now left.
        - intros t' m c P. destruct (Nat.eq_dec m n) as [->|Q]; [|rewrite fupd_other by auto; eauto].
          assert (t' = t). { assert (G : g n = DOwn t') by (apply C4; rewrite P; reflexivity). congruence. }
          subst t'. congruence. }
      apply dfinv_pc; auto using quiet_nil; cbn -[fupd]; rewrite ?EP; auto; intros; try discriminate.
      * inv H. exact CU.
      * inv H. now rewrite fupd_same.
    + (* DA2 *)
      pose proof (j_cur _ _ _ _ HI t cur) as CU. rewrite EP in CU. specialize (CU eq_refl).
      destruct (hp_eqb (df_head s) cur && negb spur)%bool eqn:EH.
      * b2p. apply hp_eqb_spec in H. subst cur. inv E.
        assert (GE : g n = DOwn t) by (apply (j_role _ _ _ _ HI); rewrite EP; reflexivity).
        pose proof (j_add2 _ _ _ _ HI _ _ _ EP) as NX.
        assert (NL : ~ In n L) by (rewrite (j_on _ _ _ _ HI); congruence).
        rewrite changes_app in CB. cbn in CB.
        assert (BU : bump w (hp_tag (df_head s)) = hp_tag (df_head s) + 1).
        { unfold bump. apply Z.mod_small. rewrite (j_tag _ _ _ _ HI). lia. }
        destruct HI as [C1 C2 C3 C4 C5 C6 C7 C8 C9 C10]. exists (fupd g n DOn), (n :: L).
        assert (OTHER : forall t', t' <> t -> forall c, curof (df_pc s t') = Some c -> hp_tag c <= bump w (hp_tag (df_head s)) /\ hp_tag c <> bump w (hp_tag (df_head s))).
        { intros t' T c K. destruct (C6 _ _ K). lia. }
        constructor; cbn -[fupd]; auto.
        -- constructor. rewrite NX. auto.
        -- constructor; auto.
        -- intros m. destruct (Nat.eq_dec m n) as [->|Q]; [rewrite fupd_same; tauto|rewrite fupd_other by auto]. rewrite <- C3. intuition congruence.
        -- intros t' m. destruct (Nat.eq_dec t' t) as [->|T].
           ++ rewrite fupd_same. cbn. destruct (Nat.eq_dec m n) as [->|Q]; [rewrite fupd_same; split; discriminate|rewrite fupd_other by auto].
              split; [discriminate|]. intros G. apply C4 in G. rewrite EP in G. cbn in G. congruence.
           ++ rewrite fupd_other by auto. destruct (Nat.eq_dec m n) as [->|Q]; [rewrite fupd_same|rewrite fupd_other by auto; apply C4].
              split; [|discriminate]. intros G. apply C4 in G. congruence.
        -- rewrite changes_app. cbn. rewrite BU, C5. lia.
        -- intros t' c. destruct (Nat.eq_dec t' t) as [->|T]; [rewrite fupd_same; discriminate|rewrite fupd_other by auto].
           intros K. destruct (OTHER _ T _ K). split; auto. tauto.
        -- intros t' h c. destruct (Nat.eq_dec t' t) as [->|T]; [rewrite fupd_same; discriminate|rewrite fupd_other by auto]; eauto.
        -- intros t' h x c. destruct (Nat.eq_dec t' t) as [->|T]; [rewrite fupd_same; discriminate|rewrite fupd_other by auto].
           intros K. destruct (C8 _ _ _ _ K). split; auto. intros TG. destruct (OTHER _ T c); [rewrite K; reflexivity|tauto].
        -- intros t' m c. destruct (Nat.eq_dec t' t) as [->|T]; [rewrite fupd_same; discriminate|rewrite fupd_other by auto]; eauto.
        -- intros m. destruct (C10 m) as [H1 H2]. unfold outside, inside in *. rewrite adds_app, gots_app.
           assert (adds m [EAdded t] = 0%nat) as -> by reflexivity. assert (gots m [EAdded t] = 0%nat) as -> by reflexivity. rewrite !Nat.add_0_r.
           destruct (Nat.eq_dec m n) as [->|Q]; [rewrite fupd_same|rewrite fupd_other by auto; auto]. split; [discriminate|]. intros _. apply H2. congruence.
      * inv E. exists g, L. apply dfinv_pc; auto using quiet_nil; rewrite ?EP; cbn; auto; intros; try discriminate. inv H. split; [lia|auto].
    + (* DG0 *) inv E. exists g, L. destruct (dloop s t (df_head s)) as [s2 l2] eqn:LP. inv H0. eapply dloop_inv; eauto. now rewrite EP.
    + (* DG1 *) inv E. exists g, L.
      pose proof (j_cur _ _ _ _ HI t cur) as CU. rewrite EP in CU. specialize (CU eq_refl).
      pose proof (j_get1 _ _ _ _ HI _ _ _ EP).
      apply dfinv_pc; auto using quiet_nil; rewrite ?EP; cbn; auto; intros; try discriminate; inv H0; auto.
    + (* DG2 *)
      destruct (hp_eqb (df_head s) cur && negb spur)%bool eqn:EH.
      * b2p. apply hp_eqb_spec in H. subst cur. inv E.
        destruct (j_get2 _ _ _ _ HI _ _ _ _ EP) as [HP NX]. specialize (NX eq_refl).
        rewrite changes_app in CB. cbn in CB.
        assert (BU : bump w (hp_tag (df_head s)) = hp_tag (df_head s) + 1).
        { unfold bump. apply Z.mod_small. rewrite (j_tag _ _ _ _ HI). lia. }
        destruct HI as [C1 C2 C3 C4 C5 C6 C7 C8 C9 C10].
        rewrite HP in C1. inversion C1 as [|? L' CH']; subst. inversion C2 as [|? ? ND1 ND2]; subst.
        assert (GE : g h = DOn) by (apply C3; now left).
        exists (fupd g h DOut), L'.
        assert (OTHER : forall t', t' <> t -> forall c, curof (df_pc s t') = Some c -> hp_tag c <= bump w (hp_tag (df_head s)) /\ hp_tag c <> bump w (hp_tag (df_head s))).
        { intros t' T c K. destruct (C6 _ _ K). lia. }
        constructor; cbn -[fupd]; auto.
        -- intros m. destruct (Nat.eq_dec m h) as [->|Q]; [rewrite fupd_same; split; [tauto|discriminate]|rewrite fupd_other by auto].
           rewrite <- C3. cbn. intuition congruence.
        -- intros t' m. destruct (Nat.eq_dec t' t) as [->|T].
           ++ rewrite fupd_same. cbn. destruct (Nat.eq_dec m h) as [->|Q]; [rewrite fupd_same; split; discriminate|rewrite fupd_other by auto].
              split; [discriminate|]. intros G. apply C4 in G. rewrite EP in G. discriminate.
           ++ rewrite fupd_other by auto. destruct (Nat.eq_dec m h) as [->|Q]; [rewrite fupd_same|rewrite fupd_other by auto; apply C4].
              split; [|discriminate]. intros G. apply C4 in G. congruence.
        -- rewrite changes_app. cbn. rewrite BU, C5. lia.
        -- intros t' c. destruct (Nat.eq_dec t' t) as [->|T]; [rewrite fupd_same; discriminate|rewrite fupd_other by auto].
           intros K. destruct (OTHER _ T _ K). split; auto. tauto.
        -- intros t' h' c. destruct (Nat.eq_dec t' t) as [->|T]; [rewrite fupd_same; discriminate|rewrite fupd_other by auto]; eauto.
        -- intros t' h' x c. destruct (Nat.eq_dec t' t) as [->|T]; [rewrite fupd_same; discriminate|rewrite fupd_other by auto].
           intros K. destruct (C8 _ _ _ _ K). split; auto. intros TG. destruct (OTHER _ T c); [rewrite K; reflexivity|tauto].
        -- intros t' m c. destruct (Nat.eq_dec t' t) as [->|T]; [rewrite fupd_same; discriminate|rewrite fupd_other by auto]; eauto.
        -- intros m. destruct (C10 m) as [H1 H2]. unfold outside, inside in *. rewrite adds_app, gots_app. destruct (Nat.eq_dec m h) as [->|Q].
           ++ rewrite fupd_same. assert (gots h [EGot t h] = 1%nat) as -> by (unfold gots; cbn; now rewrite Nat.eqb_refl).
              assert (adds h [EGot t h] = 0%nat) as -> by reflexivity. specialize (H2 ltac:(congruence)). split; [lia|congruence].
           ++ rewrite fupd_other by auto. assert (E : (h =? m)%nat = false) by (apply Nat.eqb_neq; auto).
              assert (gots m [EGot t h] = 0%nat) as -> by (unfold gots; cbn; now rewrite E).
              assert (adds m [EGot t h] = 0%nat) as -> by reflexivity. rewrite !Nat.add_0_r. auto.
      * inv E. exists g, L. destruct (dloop s t (df_head s)) as [s2 l2] eqn:LP. inv H0. eapply dloop_inv; eauto. now rewrite EP.
Qed.

Lemma dfhist_inv w p l s : 0 <= w -> dfhist w p l s -> Z.of_nat (changes l) < 2 ^ w -> exists g L, dfinv l s g L.
Proof.
  intros W H. induction H as [|p l s a s' l' _ IH OUT E]; intros CB.
  - exists (fun _ => DOut), []. constructor; cbn; auto; try constructor; try discriminate; try contradiction; try congruence. reflexivity.
  - destruct IH as (g & L & HI). { rewrite changes_app in CB. lia. } eapply dact_inv; eauto.
Qed.
