(** C91-C94: the lock-free free lists. *)
From Verif.Model Require Import Common FreeList.
From Verif.Spec Require Import FreeListSpec.
From Verif.Proofs Require Import Tac FreeListProofs FreeListDcasProofs.
Open Scope Z_scope.

(** Fewer threads than the reference count has room for (uint32_t with one flag bit). *)
Definition few (NT : nat) : Prop := Z.of_nat NT < 2 ^ 31 - 2.

(** ** C91: a node is handed out once *)
(** At every moment a node is either with the callers or with the list: between two returns of the same node by try_get there is an
    add of it, in every interleaving. *)
Theorem C91_exclusive : forall NT p l s n, few NT -> fhist NT p l s -> outside n l \/ inside n l.
Proof.
  intros NT p l s n B H. destruct (fhist_inv _ B _ _ _ H) as (g & L & _ & HO). destruct (HO n) as [H1 H2].
  destruct (g n) eqn:G; [left; now apply H1|right; apply H2; discriminate..].
Qed.
(** A node returned had been added and not returned since. *)
Theorem C91_got_was_inside : forall NT p l s a s' l' t n, few NT -> fhist NT p l s -> (thread_of a < NT)%nat ->
  (forall u m, a = CallAdd u m -> outside m l) -> fact_step s a = Some (Ok (s', l')) -> In (EGot t n) l' -> inside n l.
Proof.
  intros NT p l s a s' l' t n B H TB OUT E K.
  pose proof (fh_snoc _ _ _ _ _ _ _ H TB OUT E) as H'.
  destruct (C91_exclusive _ _ _ _ n B H) as [O|O]; auto. exfalso.
  destruct (C91_exclusive _ _ _ _ n B H') as [O'|O']; unfold outside, inside in *; rewrite adds_app, gots_app in O'.
  - assert (G : (1 <= gots n l')%nat).
    { unfold gots. apply in_split in K as (l1 & l2 & ->). rewrite filter_app, app_length. cbn. rewrite Nat.eqb_refl. cbn. lia. }
    assert (A : adds n l' = 0%nat); [|lia].
    destruct a as [u m|u|u]; cbn [fact_step] in E.
    + destruct (f_pc s u); inv E. destruct K as [K|[]]. discriminate.
    + destruct (f_pc s u); inv E. destruct K as [K|[]]. discriminate.
    + unfold fstep, known_done, loop in E. dmatch; inv E; auto.
  - assert (G : (1 <= gots n l')%nat).
    { unfold gots. apply in_split in K as (l1 & l2 & ->). rewrite filter_app, app_length. cbn. rewrite Nat.eqb_refl. cbn. lia. }
    assert (A : adds n l' = 0%nat); [|lia].
    destruct a as [u m|u|u]; cbn [fact_step] in E.
    + destruct (f_pc s u); inv E. destruct K as [K|[]]. discriminate.
    + destruct (f_pc s u); inv E. destruct K as [K|[]]. discriminate.
    + unfold fstep, known_done, loop in E. dmatch; inv E; auto.
Qed.
(** The assertion in try_get never fails. *)
Theorem C91_assert_holds : forall NT p l s a, few NT -> fhist NT p l s -> (thread_of a < NT)%nat ->
  (forall u m, a = CallAdd u m -> outside m l) -> fact_step s a <> Some CheckFail /\ fact_step s a <> Some UB.
Proof.
  intros NT p l s a B H TB OUT. destruct (fhist_inv _ B _ _ _ H) as (g & L & HI & HO).
  destruct (fact_inv _ B _ _ _ _ _ HI HO TB OUT) as [E|(s' & l' & E & _)]; rewrite E; split; discriminate.
Qed.

(** ** C92: no node is lost *)
(** When no call is in progress, the nodes reached from the head are, each once, exactly those added and not returned since. *)
Theorem C92_nothing_lost : forall NT p l s, few NT -> fhist NT p l s -> all_idle s ->
  exists L, reach (f_next s) (f_head s) L /\ NoDup L /\ forall n, In n L <-> inside n l.
Proof.
  intros NT p l s B H I. destruct (fhist_inv _ B _ _ _ H) as (g & L & HI & HO). exists L.
  split; [apply (i_chain _ _ _ _ HI)|]. split; [apply (i_nodup _ _ _ _ HI)|]. intros n. rewrite (i_onl _ _ _ _ HI).
  destruct (HO n) as [H1 H2]. split.
  - intros E. apply H2. congruence.
  - intros IN. destruct (g n) as [| | |r t] eqn:G; auto.
    + specialize (H1 eq_refl). unfold outside, inside in *. lia.
    + pose proof (i_pend _ _ _ _ HI _ G) as P. rewrite tc_zero in P; [lia|]. intros t _. now rewrite I.
    + apply (i_role _ _ _ _ HI) in G. rewrite I in G. discriminate.
Qed.

Lemma idle_facts NT p l s : few NT -> fhist NT p l s -> all_idle s ->
  forall n, (inside n l -> f_refs s n = 1) /\ (outside n l -> f_refs s n = 0).
Proof.
  intros B H I n. destruct (fhist_inv _ B _ _ _ H) as (g & L & HI & HO).
  assert (T0 : tc (f_pc s) NT n = 0) by (apply tc_zero; intros; now rewrite I).
  pose proof (i_refs _ _ _ _ HI n) as RF. rewrite T0 in RF. destruct (HO n) as [H1 H2].
  destruct (g n) as [| | |r t] eqn:G; cbn [weight] in RF.
  - specialize (H1 eq_refl). split; unfold outside, inside in *; intros; lia.
  - pose proof (i_pend _ _ _ _ HI _ G). lia.
  - specialize (H2 ltac:(discriminate)). split; unfold outside, inside in *; intros; lia.
  - apply (i_role _ _ _ _ HI) in G. rewrite I in G. discriminate.
Qed.

Lemma frun_step a t s s1 l1 l2 s2 : fact_step s a = Some (Ok (s1, l1)) -> frun t s1 = Some (l2, s2) ->
  forall l, l1 ++ l2 = l -> frun (a :: t) s = Some (l, s2).
Proof. intros E R l <-. cbn. now rewrite E, R. Qed.
Ltac lone := cbn [fact_step]; unfold fstep; cbn [f_pc f_head f_refs f_next set_pc set_refs set_head set_nx loop]; rewrite ?fupd_same; cbn [f_pc f_head f_refs f_next set_pc set_refs set_head set_nx loop].

(** try_get running alone returns a node whenever one is there, and add running alone puts its node where try_get finds it. *)
Theorem C92_lone_get : forall NT p l s t, few NT -> fhist NT p l s -> all_idle s -> (exists n, inside n l) ->
  exists h s', inside h l /\ frun (CallGet t :: repeat (Go t) 7) s = Some ([EGet t; EGot t h], s') /\ all_idle s'.
Proof.
  intros NT p l s t B H I (n & IN). destruct (C92_nothing_lost _ _ _ _ B H I) as (L & RE & ND & MEM).
  apply MEM in IN. destruct L as [|h L]; [destruct IN|]. inversion RE as [|? ? RE' EH]; subst. symmetry in EH.
  assert (HI : inside h l) by (apply MEM; now left).
  destruct (idle_facts _ _ _ _ B H I h) as [RF _]. specialize (RF HI).
  assert (RN : f_refs s h = 1) by exact RF.
  exists h. eexists. split; [exact HI|]. split.
  - cbn [repeat]. eapply frun_step; [cbn [fact_step]; rewrite I; reflexivity| |].
    eapply frun_step; [lone; rewrite EH; reflexivity| |].
    eapply frun_step; [lone; rewrite RN; reflexivity| |].
    eapply frun_step; [lone; rewrite RN; change (refs_mask 1) with 1; cbn [Z.eqb Pos.eqb]; reflexivity| |].
    eapply frun_step; [lone; reflexivity| |].
    eapply frun_step; [lone; rewrite EH; cbn [optn_eqb]; rewrite Nat.eqb_refl; reflexivity| |].
    eapply frun_step; [lone; change (Z.land (u32 (1 + 1)) FLAG) with 0; cbn [Z.eqb]; reflexivity| |].
    eapply frun_step; [lone; reflexivity|reflexivity|reflexivity]. all: try reflexivity.
  - intros u. cbn [f_pc set_pc set_refs set_head]. destruct (Nat.eq_dec u t) as [->|Q]; [now rewrite fupd_same|].
    rewrite !fupd_other by auto. apply I.
Qed.
Theorem C92_lone_add : forall NT p l s t n, few NT -> fhist NT p l s -> all_idle s -> outside n l ->
  exists s', frun (CallAdd t n :: repeat (Go t) 5) s = Some ([EAdd t n; EAdded t], s') /\ all_idle s' /\ f_head s' = Some n.
Proof.
  intros NT p l s t n B H I OUT. destruct (idle_facts _ _ _ _ B H I n) as [_ RF]. specialize (RF OUT).
  eexists. split; [|split].
  - cbn [repeat]. eapply frun_step; [cbn [fact_step]; rewrite I; reflexivity| |].
    eapply frun_step; [lone; rewrite RF; cbn [Z.eqb]; reflexivity| |].
    eapply frun_step; [lone; reflexivity| |].
    eapply frun_step; [lone; reflexivity| |].
    eapply frun_step; [lone; reflexivity| |].
    eapply frun_step; [lone; rewrite (proj2 (optn_eqb_spec _ _) eq_refl); reflexivity|reflexivity|reflexivity]. all: try reflexivity.
  - intros u. cbn [f_pc set_pc set_refs set_head set_nx known_done]. destruct (Nat.eq_dec u t) as [->|Q]; [now rewrite fupd_same|].
    rewrite !fupd_other by auto. apply I.
  - reflexivity.
Qed.

(** ** C92, C94: every return answers the call that was made *)
Definition pc_phase (p : pc) : phase :=
  match p with
  | Idle => Ready
  | A0 _ => Adding
  | K0 _ r | K1 _ _ r | K2 _ _ r | K3 _ _ r | K4 _ _ r => match r with RAdd => Adding | RGet _ => Getting end
  | _ => Getting
  end.
Definition dpc_phase (p : dpc) : phase :=
  match p with DIdle => Ready | DA0 _ | DA1 _ _ | DA2 _ _ => Adding | _ => Getting end.
Lemma phases_app l1 : forall p q l2, phases p l1 = Some q -> phases p (l1 ++ l2) = phases q l2.
Proof. induction l1 as [|e l IH]; cbn; intros p q l2 E; [congruence|]. destruct (ev_phase p e); [eauto|discriminate]. Qed.
Lemma seen_app t l1 l2 : seen_by t (l1 ++ l2) = seen_by t l1 ++ seen_by t l2.
Proof. apply filter_app. Qed.
Ltac fork t u := cbn [f_pc set_pc set_refs set_head set_nx df_pc dset_pc dset_head dset_nx];
  destruct (Nat.eq_dec u t) as [->|?N];
  [ rewrite ?fupd_same; cbn; rewrite ?Nat.eqb_refl; cbn
  | rewrite ?fupd_other by auto; cbn; try (match goal with |- context[Nat.eqb t u] => replace (Nat.eqb t u) with false by (symmetry; apply Nat.eqb_neq; auto) end); cbn ].
Lemma fact_phase s a s' l u : fact_step s a = Some (Ok (s', l)) ->
  phases (pc_phase (f_pc s u)) (seen_by u l) = Some (pc_phase (f_pc s' u)).
Proof.
  unfold seen_by. destruct a as [t n|t|t]; cbn [fact_step].
  - destruct (f_pc s t) eqn:E; intros H; inv H. fork t u; rewrite ?E; reflexivity.
  - destruct (f_pc s t) eqn:E; intros H; inv H. fork t u; rewrite ?E; reflexivity.
  - unfold fstep. destruct (f_pc s t) eqn:E; intros H; unfold known_done, loop in H; dmatch; inv H; fork t u; rewrite ?E; reflexivity.
Qed.
Theorem C92_answers : forall NT p l s t, fhist NT p l s ->
  exists q, phases Ready (seen_by t l) = Some q /\ (f_pc s t = Idle <-> q = Ready).
Proof.
  intros NT p l s t H. exists (pc_phase (f_pc s t)). split.
  - induction H; [reflexivity|]. rewrite seen_app, (phases_app _ _ _ _ IHfhist). eapply fact_phase; eauto.
  - destruct (f_pc s t) as [|n|n r|n h r|n h r|n h r|n h r| | | | | | | |]; try destruct r; cbn; split; congruence.
Qed.
Lemma dact_phase w s a s' l u : dact_step w s a = Some (s', l) ->
  phases (dpc_phase (df_pc s u)) (seen_by u l) = Some (dpc_phase (df_pc s' u)).
Proof.
  unfold seen_by. destruct a as [t n|t|t b]; cbn [dact_step].
  - destruct (df_pc s t) eqn:E; intros H; inv H. fork t u; rewrite ?E; reflexivity.
  - destruct (df_pc s t) eqn:E; intros H; inv H. fork t u; rewrite ?E; reflexivity.
  - unfold dstep. destruct (df_pc s t) eqn:E; intros H; unfold dloop in H; dmatch; inv H; fork t u; rewrite ?E; reflexivity.
Qed.
Theorem C94_answers_partial : forall w p l s t, dfhist w p l s ->
  exists q, phases Ready (seen_by t l) = Some q /\ (df_pc s t = DIdle <-> q = Ready).
Proof.
  intros w p l s t H. exists (dpc_phase (df_pc s t)). split.
  - induction H; [reflexivity|]. rewrite seen_app, (phases_app _ _ _ _ IHdfhist). eapply dact_phase; eauto.
  - destruct (df_pc s t); cbn; split; congruence.
Qed.

(** ** C93: NULL means empty *)
(** Full statement: a thread that adds a node and then asks for one gets NULL only if somebody took the node in between. *)
Definition C93_statement : Prop := forall NT p l s t n l1 l2 l3, few NT -> fhist NT p l s ->
  l = l1 ++ [EAdd t n] ++ l2 ++ [EGet t] ++ l3 ++ [ENull t] -> exists u, In (EGot u n) (l2 ++ l3).
Lemma frun_hist NT acts : forall p l s l' s', fhist NT p l s -> Forall (fun a => (thread_of a < NT)%nat) acts ->
  (forall q a r, acts = q ++ a :: r -> forall t n, a = CallAdd t n -> exists l1 s1, frun q s = Some (l1, s1) /\ outside n (l ++ l1)) ->
  frun acts s = Some (l', s') -> fhist NT (p ++ acts) (l ++ l') s'.
Proof.
  induction acts as [|a t IH]; intros p l s l' s' H F OUT E; cbn in E.
  - inv E. now rewrite !app_nil_r.
  - destruct (fact_step s a) as [[[s1 l1]| |]|] eqn:S; try discriminate. destruct (frun t s1) as [[l2 s2]|] eqn:R; inv E.
    inversion F; subst. rewrite app_assoc. change (a :: t) with ([a] ++ t). rewrite app_assoc. eapply IH; eauto.
    + econstructor; eauto. intros u n ->. destruct (OUT [] _ _ eq_refl _ _ eq_refl) as (l0 & s0 & E0 & O). inv E0. now rewrite app_nil_r in O.
    + intros q b r -> u n Eb. destruct (OUT (a :: q) b r eq_refl u n Eb) as (l3 & s3 & E3 & O). cbn in E3. rewrite S in E3.
      destruct (frun q s1) as [[l4 s4]|] eqn:R4; inv E3. exists l4, s3. split; auto. now rewrite <- app_assoc.
Qed.
(** Thread 1 still holds the count of node 7 it wanted; thread 0 takes 7, adds it back and asks again. *)
Definition null_example : list fact :=
  [CallAdd 0 7; Go 0; Go 0; Go 0; Go 0; Go 0;                      (* 7 is on the list *)
   CallGet 1; Go 1; Go 1; Go 1;                                    (* thread 1 has raised the count of 7 *)
   CallGet 0; Go 0; Go 0; Go 0; Go 0; Go 0; Go 0; Go 0;            (* thread 0 gets 7 *)
   CallAdd 0 7; Go 0;                                              (* add(7) returns, leaving the insertion to thread 1 *)
   CallGet 0; Go 0]%nat.                                           (* NULL *)
Lemma null_example_hist : exists s, fhist 2 null_example
  [EAdd 0 7; EAdded 0; EGet 1; EGet 0; EGot 0 7; EAdd 0 7; EAdded 0; EGet 0; ENull 0]%nat s.
Proof.
  destruct (frun null_example fl0) as [[l s]|] eqn:E; [|vm_compute in E; discriminate].
  assert (Q : l = [EAdd 0 7; EAdded 0; EGet 1; EGet 0; EGot 0 7; EAdd 0 7; EAdded 0; EGet 0; ENull 0]%nat) by (vm_compute in E; congruence).
  exists s. rewrite <- Q. refine (frun_hist 2 null_example [] [] fl0 l s (fh_nil 2) _ _ E).
  - repeat constructor.
  - intros q a r D t n ->.
    repeat (destruct q as [|? q]; [cbn [app] in D; inv D; eexists; eexists; (split; [vm_compute; reflexivity|vm_compute; reflexivity])|
       let D' := fresh in cbn [app] in D; injection D as <- D; try discriminate D]).
    all: try (destruct q; discriminate).
Qed.
Theorem C93_statement_refuted : ~ C93_statement.
Proof.
  intros S. destruct null_example_hist as [s H].
  destruct (S 2%nat _ _ s 0%nat 7%nat [EAdd 0 7; EAdded 0; EGet 1; EGet 0; EGot 0 7]%nat [EAdded 0]%nat [] ltac:(unfold few; lia) H eq_refl) as (u & K).
  cbn in K. destruct K as [K|[]]. discriminate.
Qed.
(** Missing from the full statement: calls that overlap others. A try_get that runs while no other call is in progress returns NULL only
    if every node added has been taken. *)
Theorem C93_alone_partial : forall NT p l s t, few NT -> fhist NT p l s -> all_idle s ->
  ((exists s', frun [CallGet t; Go t] s = Some ([EGet t; ENull t], s')) <-> forall n, outside n l).
Proof.
  intros NT p l s t B H I. destruct (C92_nothing_lost _ _ _ _ B H I) as (L & RE & ND & MEM). split.
  - intros (s' & E) n. cbn [frun fact_step] in E. rewrite I in E. revert E. lone. unfold loop.
    destruct (f_head s) as [h|] eqn:EH; [discriminate|]. intros _. inv RE.
    destruct (C91_exclusive _ _ _ _ n B H) as [O|O]; auto. now apply MEM in O.
  - intros O. destruct L as [|h L].
    + inversion RE as [EH|]; subst. eexists. cbn [frun fact_step]. rewrite I. lone. rewrite <- EH. reflexivity.
    + assert (K : inside h l) by (apply MEM; now left). specialize (O h). unfold outside, inside in *. lia.
Qed.
(** A busy, non-trivial state: two threads raced for node 7; at rest the list holds exactly the nodes added. *)
Definition busy_example : list fact :=
  (null_example ++ [Go 1; Go 1; Go 1; Go 1; Go 1; Go 1; Go 1; CallAdd 0 5; Go 0; Go 0; Go 0; Go 0; Go 0])%nat.
Example C92_nonvacuous : exists p l s, fhist 2 p l s /\ all_idle s /\ few 2 /\ inside 7%nat l /\ inside 5%nat l /\ outside 6%nat l.
Proof.
  destruct (frun busy_example fl0) as [[l s]|] eqn:E; [|vm_compute in E; discriminate].
  exists busy_example, l, s. split.
  - refine (frun_hist 2 busy_example [] [] fl0 l s (fh_nil 2) _ _ E).
    + repeat constructor.
    + intros q a r D t n ->. unfold busy_example, null_example in D. cbn [app] in D.
      repeat (destruct q as [|? q]; [cbn [app] in D; inv D; eexists; eexists; (split; [vm_compute; reflexivity|vm_compute; reflexivity])|
         cbn [app] in D; injection D as <- D; try discriminate D]).
      all: try (destruct q; discriminate).
  - split; [|split; [unfold few; lia|vm_compute in E; inv E; repeat split; reflexivity]].
    intros t. vm_compute in E. inv E. cbn. destruct t as [|[|t]]; reflexivity.
Qed.

(** ** C94: the tagged list *)
(** In every history with fewer head changes than the tag has values (2^64 on a 64-bit machine, 2^32 on a 32-bit one):
    a node is handed out once, ... *)
Theorem C94_exclusive_partial : forall w p l s n, 0 <= w -> dfhist w p l s -> Z.of_nat (changes l) < 2 ^ w -> outside n l \/ inside n l.
Proof.
  intros w p l s n W H B. destruct (dfhist_inv _ _ _ _ W H B) as (g & L & HI). destruct (j_hist _ _ _ _ HI n) as [H1 H2].
  destruct (g n) eqn:G; [left; now apply H1|right; apply H2; discriminate..].
Qed.
(** ... the nodes reached from the head are exactly those whose add has returned and that were not returned since, ... *)
Theorem C94_contents_partial : forall w p l s, 0 <= w -> dfhist w p l s -> Z.of_nat (changes l) < 2 ^ w ->
  exists L, reach (df_next s) (hp_ptr (df_head s)) L /\ NoDup L /\ forall n, In n L <-> inside n l /\ ~ add_in_progress s n.
Proof.
  intros w p l s W H B. destruct (dfhist_inv _ _ _ _ W H B) as (g & L & HI). exists L.
  split; [apply (j_chain _ _ _ _ HI)|]. split; [apply (j_nodup _ _ _ _ HI)|]. intros n. rewrite (j_on _ _ _ _ HI).
  destruct (j_hist _ _ _ _ HI n) as [H1 H2].
  assert (AP : add_in_progress s n <-> exists t, addof (df_pc s t) = Some n).
  { unfold add_in_progress. split; intros (t & K); exists t.
    - destruct K as [->|[[c ->]|[c ->]]]; reflexivity.
    - destruct (df_pc s t); cbn in K; inv K; eauto. }
  rewrite AP. split.
  - intros G. split; [apply H2; congruence|]. intros (t & K). apply (j_role _ _ _ _ HI) in K. congruence.
  - intros [IN NA]. destruct (g n) as [| |t] eqn:G; auto.
    + specialize (H1 eq_refl). unfold outside, inside in *. lia.
    + destruct NA. exists t. now apply (j_role _ _ _ _ HI).
Qed.
(** ... and NULL is returned only at a moment when every node whose add has returned had been taken. *)
Theorem C94_null_partial : forall w p l s a s' l' t, 0 <= w -> dfhist w p l s -> Z.of_nat (changes l) < 2 ^ w ->
  dact_step w s a = Some (s', l') -> In (ENull t) l' -> forall n, inside n l -> add_in_progress s n.
Proof.
  intros w p l s a s' l' t W H B E K n IN.
  assert (HN : hp_ptr (df_head s) = None).
  { destruct a as [u m|u|u sp]; cbn [dact_step] in E.
    - destruct (df_pc s u); inv E. destruct K as [K|[]]; discriminate.
    - destruct (df_pc s u); inv E. destruct K as [K|[]]; discriminate.
    - unfold dstep, dloop in E. destruct (df_pc s u); try discriminate.
      + inv E. destruct K.
      + inv E. destruct K.
      + destruct (_ && _)%bool; inv E; [destruct K as [K|[]]; discriminate|destruct K].
      + destruct (hp_ptr (df_head s)); auto. inv E. destruct K.
      + inv E. destruct K.
      + destruct (_ && _)%bool; [inv E; destruct K as [K|[]]; discriminate|]. destruct (hp_ptr (df_head s)); auto. inv E. destruct K. }
  destruct (C94_contents_partial _ _ _ _ W H B) as (L & RE & _ & MEM). rewrite HN in RE. inv RE.
  destruct (dfhist_inv _ _ _ _ W H B) as (g & L & HI). destruct (j_hist _ _ _ _ HI n) as [H1 H2].
  destruct (g n) as [| |u] eqn:G.
  - specialize (H1 eq_refl). unfold outside, inside in *. lia.
  - apply (j_on _ _ _ _ HI) in G. pose proof (j_chain _ _ _ _ HI) as CH. rewrite HN in CH. inv CH. destruct G.
  - apply (j_role _ _ _ _ HI) in G. exists u. destruct (df_pc s u); cbn in G; inv G; eauto.
Qed.
(** The bound matters. Full statement: for every tag width, without it. *)
Definition C94_statement : Prop := forall w p l s n, 0 <= w -> dfhist w p l s -> outside n l \/ inside n l.
Fixpoint dfrun (w : Z) (acts : list dact) (s : dfl) : option (list fev * dfl) :=
  match acts with
  | [] => Some ([], s)
  | a :: t => match dact_step w s a with
              | Some (s', l) => match dfrun w t s' with Some (l', s'') => Some (l ++ l', s'') | None => None end
              | _ => None
              end
  end.
Lemma dfrun_hist w acts : forall p l s l' s', dfhist w p l s ->
  (forall q a r, acts = q ++ a :: r -> forall t n, a = DCallAdd t n -> exists l1 s1, dfrun w q s = Some (l1, s1) /\ outside n (l ++ l1)) ->
  dfrun w acts s = Some (l', s') -> dfhist w (p ++ acts) (l ++ l') s'.
Proof.
  induction acts as [|a t IH]; intros p l s l' s' H OUT E; cbn in E.
  - inv E. now rewrite !app_nil_r.
  - destruct (dact_step w s a) as [[s1 l1]|] eqn:S; try discriminate. destruct (dfrun w t s1) as [[l2 s2]|] eqn:R; inv E.
    rewrite app_assoc. change (a :: t) with ([a] ++ t). rewrite app_assoc. eapply IH; eauto.
    + econstructor; eauto. intros u n ->. destruct (OUT [] _ _ eq_refl _ _ eq_refl) as (l0 & s0 & E0 & O). inv E0. now rewrite app_nil_r in O.
    + intros q b r -> u n Eb. destruct (OUT (a :: q) b r eq_refl u n Eb) as (l3 & s3 & E3 & O). cbn in E3. rewrite S in E3.
      destruct (dfrun w q s1) as [[l4 s4]|] eqn:R4; inv E3. exists l4, s3. split; auto. now rewrite <- app_assoc.
Qed.
(** With a tag of one bit: while thread 1 sits between reading the successor of node 1 and exchanging the head, four changes of the head
    bring back the same pointer and the same tag; node 2, which thread 0 holds, is back on the list and returned again. *)
Definition g3 (t : tid) : list dact := [DCallGet t; DGo t false; DGo t false; DGo t false].
Definition a3 (t : tid) (n : node) : list dact := [DCallAdd t n; DGo t false; DGo t false; DGo t false].
Definition aba_example : list dact :=
  (a3 0 2 ++ a3 0 1 ++ [DCallGet 1; DGo 1 false; DGo 1 false] ++ g3 0 ++ g3 0 ++ a3 0 3 ++ a3 0 1 ++ [DGo 1 false] ++ g3 0)%nat.
Theorem C94_statement_refuted : ~ C94_statement.
Proof.
  intros S. destruct (dfrun 1 aba_example dfl0) as [[l s]|] eqn:E; [|vm_compute in E; discriminate].
  assert (H : dfhist 1 ([] ++ aba_example) ([] ++ l) s).
  { refine (dfrun_hist 1 aba_example [] [] dfl0 l s (dfh_nil 1) _ E).
    intros q a r D t n ->. unfold aba_example, a3, g3 in D. cbn [app] in D.
    repeat (destruct q as [|? q]; [cbn [app] in D; inv D; eexists; eexists; (split; [vm_compute; reflexivity|vm_compute; reflexivity])|
       cbn [app] in D; injection D as <- D; try discriminate D]).
    all: try (destruct q; discriminate). }
  destruct (S 1 _ _ _ 2%nat ltac:(lia) H) as [O|O]; vm_compute in E; inv E; vm_compute in O; discriminate.
Qed.
Example C94_nonvacuous : exists p l s, dfhist 64 p l s /\ Z.of_nat (changes l) < 2 ^ 64 /\ outside 2%nat l /\ inside 3%nat l /\ outside 1%nat l.
Proof.
  destruct (dfrun 64 aba_example dfl0) as [[l s]|] eqn:E; [|vm_compute in E; discriminate].
  assert (H : dfhist 64 ([] ++ aba_example) ([] ++ l) s).
  { refine (dfrun_hist 64 aba_example [] [] dfl0 l s (dfh_nil 64) _ E).
    intros q a r D t n ->. unfold aba_example, a3, g3 in D. cbn [app] in D.
    repeat (destruct q as [|? q]; [cbn [app] in D; inv D; eexists; eexists; (split; [vm_compute; reflexivity|vm_compute; reflexivity])|
       cbn [app] in D; injection D as <- D; try discriminate D]).
    all: try (destruct q; discriminate). }
  do 3 eexists. split; [exact H|]. vm_compute in E. inv E. split; [reflexivity|]. repeat split; reflexivity.
Qed.

Print Assumptions C91_exclusive.
Print Assumptions C91_got_was_inside.
Print Assumptions C91_assert_holds.
Print Assumptions C92_nothing_lost.
Print Assumptions C92_lone_get.
Print Assumptions C92_lone_add.
Print Assumptions C93_statement_refuted.
Print Assumptions C93_alone_partial.
Print Assumptions C94_exclusive_partial.
Print Assumptions C94_contents_partial.
Print Assumptions C94_null_partial.
Print Assumptions C94_statement_refuted.

Print Assumptions C92_answers.
Print Assumptions C94_answers_partial.
